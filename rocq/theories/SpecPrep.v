(** Functions that can be prepared for register allocation.  Nothing here refers to the preparation. *)
From Coq Require Import ZArith List Bool Arith.
From Verif Require Import M_Base M_Ir M_Norm M_Ra SpecWord SpecIsa SpecFlat SpecNormCond SpecSsa SpecIr SpecPass SpecShift SpecVirt SpecStrict.
Import ListNotations.
Open Scope nat_scope.

(** [reach] lists the blocks, [sp] is the frame pointer, [args] are the arguments. *)
Definition operand_fits (f : func) (reach : list nat) (sp : nat) (args : list nat) (v : vdata) : Prop :=
  match v with
  | VConst _ | VRawOff _ | VRawOffRev _ => True
  | VInsn d => In d args \/ d = sp \/ (placed_in f reach d /\ exists y, f_insn f d = Some y /\ is_void_op (i_op y) = false)
  | _ => False
  end.
Record prepable (f : func) (reach : list nat) (sp : nat) (args : list nat) : Prop := {
  pp_fresh : fresh_ok f;
  pp_tidy : tidy f;
  pp_reach : NoDup reach /\ (forall b, In b reach -> f_block f b <> None) /\ forall b i, In i (insns_of f b) -> In b reach;
  pp_sp : ~ placed_in f reach sp /\ exists x, f_insn f sp = Some x /\ i_op x <> ALLOC /\ i_op x <> ALLOCARRAY;
  pp_args : NoDup args /\ length args <= 5 /\ ~ In sp args /\ forall a, In a args -> ~ placed_in f reach a /\
    exists x, f_insn f a = Some x /\ i_op x <> PHI /\ i_op x <> ALLOC;
  pp_ops : forall u x v, placed_in f reach u -> f_insn f u = Some x -> In v (operand_values x) -> operand_fits f reach sp args (v_data v);
  (* control stays in the listed blocks, does not come back to the entry, and is known to the targets *)
  pp_goes : forall b c, In b reach -> goes f b c -> In c reach /\ c <> f_entry f /\ In b (preds_of f c);
  pp_preds : forall b p, In b reach -> In p (preds_of f b) -> In p reach;
  pp_jump : forall b l1 i l2 x, insns_of f b = l1 ++ i :: l2 -> f_insn f i = Some x -> is_jmp_op (i_op x) = true -> l2 = [];
  pp_phi : forall i x, placed_in f reach i -> f_insn f i = Some x -> i_op x = PHI ->
    i_vals x = [] /\ NoDup (map snd (i_phi x)) /\ forall w b, In (w, b) (i_phi x) -> In b reach;
  pp_call : forall i x, placed_in f reach i -> f_insn f i = Some x -> i_op x = CALL -> length (i_vals x) <= 5;
  pp_arr : forall i x, placed_in f reach i -> f_insn f i = Some x -> i_op x <> ALLOCARRAY;
  pp_entry : In (f_entry f) reach /\
    forall i l, insns_of f (f_entry f) = i :: l -> ~ exists x, f_insn f i = Some x /\ i_op x = PHI }.

(** No variables, no constants that stand for the number of instructions. *)
Record straight (f : func) (reach : list nat) : Prop := {
  sg_ops : forall i x, placed_in f reach i -> f_insn f i = Some x -> i_op x <> ALLOC /\ i_op x <> STORE /\ i_op x <> LOAD;
  sg_bi : forall i x v, placed_in f reach i -> f_insn f i = Some x -> In v (operand_values x) -> v_bi v = B_NONE }.
(** Helpers look at no more arguments than the calls give. *)
Definition enough_args (ar : arity) (f : func) (reach : list nat) : Prop :=
  forall i x, placed_in f reach i -> f_insn f i = Some x -> i_op x = CALL -> ar (i_u x) <= length (i_vals x).
(** The second operand of an arithmetic instruction is neither the frame pointer nor the instruction. *)
Definition second_ok (f : func) (reach : list nat) (sp : nat) : Prop :=
  forall i x, placed_in f reach i -> f_insn f i = Some x -> is_bin_alu_op (i_op x) = true ->
    exists v, nth_error (i_vals x) 1 = Some v /\ forall d, v_data v = VInsn d -> d <> sp /\ d <> i.

(** A constant to which the size of the extra stack will be added: 32 bits are enough for the sum. *)
Definition hole_ok (v : value) : Prop :=
  match v_data v with
  | VRawOff c | VRawOffRev c => v_bi v = B_NONE /\ v_ct v = A_32 /\ (- 2 ^ 31 + 2 ^ 15 <= c < 2 ^ 31 - 2 ^ 15)%Z
  | _ => True
  end.
(** What the code generator can write down: constants of 32 bits, offsets of 16 bits, no load from a
    constant address, and no 32-bit addition or subtraction of the constant 0. *)
Record encodable (x : insn) : Prop := {
  ec_const : forall v c, In v (operand_values x) -> v_data v = VConst c -> v_bi v = B_NONE /\ v_ct v = A_32 /\ s32_range c;
  ec_hole : forall v, In v (operand_values x) -> hole_ok v;
  ec_raw : i_op x = LOADRAW \/ i_op x = STORERAW -> forall v, In v (operand_values x) -> no_hole v;
  ec_copy : i_op x = ASSIGN -> i_alu x <> A_32;
  ec_zero : i_op x = ADD \/ i_op x = SUB -> i_alu x = A_32 -> forall v, In v (i_vals x) -> v_data v <> VConst 0 /\ no_hole v;
  ec_off : i_op x = LOADRAW \/ i_op x = STORERAW -> s16_range (a_off (i_addr x));
  ec_load : i_op x = LOADRAW -> forall c, v_data (a_val (i_addr x)) <> VConst c }.
Definition all_encodable (f : func) (reach : list nat) : Prop := forall i x, placed_in f reach i -> f_insn f i = Some x -> encodable x.

(** The state of the IR at the start: only the frame pointer and the arguments have values. *)
Record begins (sp : nat) (args : list nat) (m : st) (t : sst) : Prop := {
  bg_sp : s_env t sp = Some (rget m 10);
  bg_args : forall k a, nth_error args k = Some a -> s_env t a = Some (rget m (Z.of_nat (S k)));
  bg_none : forall d, d <> sp -> ~ In d args -> s_env t d = None;
  bg_mem : s_mem t = SpecWord.mem m;
  bg_nc : s_nc t = ncall m }.

(** The recorded predecessors are predecessors, and every block lies on a path from the entry. *)
Record flow_known (f : func) (reach : list nat) : Prop := {
  fk_edge : forall b p, In b reach -> In p (preds_of f b) -> goes f p b;
  fk_all : forall b, In b reach -> SpecStrict.reachable f b }.
(** There are no copies. *)
Definition no_copies (f : func) (reach : list nat) : Prop :=
  forall i x, placed_in f reach i -> f_insn f i = Some x -> i_op x <> ASSIGN.
(** The frame pointer itself is not passed to a function. *)
Definition sp_not_passed (f : func) (reach : list nat) (sp : nat) : Prop :=
  forall i x v, placed_in f reach i -> f_insn f i = Some x -> i_op x = CALL -> In v (i_vals x) -> v_data v <> VInsn sp.

(** [c] comes right behind [b] in the list. *)
Definition follows (l : list nat) (b c : nat) : Prop := exists l1 l2, l = l1 ++ b :: c :: l2.
(** The list starts with the entry; the block that is entered when a conditional jump is not taken, or
    at the end of a block without jump, comes next. *)
Record in_order (f : func) (reach : list nat) : Prop := {
  io_entry : hd_error reach = Some (f_entry f);
  io_cond : forall b i x, In i (insns_of f b) -> f_insn f i = Some x -> is_cond_jmp_op (i_op x) = true -> follows reach b (i_bb1 x);
  io_open : forall b c, In b reach -> (forall i x, In i (insns_of f b) -> f_insn f i = Some x -> is_jmp_op (i_op x) = false) ->
    hd_error (succs_of f b) = Some c -> follows reach b c }.
(** No path of more than [d] empty blocks leads backwards from [b]. *)
Inductive few_empty (f : func) : nat -> nat -> Prop :=
| fe_full b d : insns_of f b <> [] -> few_empty f b d
| fe_empty b d : (forall p, In p (preds_of f b) -> few_empty f p d) -> few_empty f b (S d).
(** Neither element addresses nor exceptions. *)
Definition basic_ops (f : func) (reach : list nat) : Prop :=
  forall i x, placed_in f reach i -> f_insn f i = Some x -> i_op x <> GETELEMPTR /\ i_op x <> THROW.

(** All of it: the functions that the code generator is proved to translate. *)
Record compilable (f : func) (reach : list nat) (sp : nat) (args : list nat) (d : nat) : Prop := {
  cp_prep : prepable f reach sp args;
  cp_straight : straight f reach;
  cp_second : second_ok f reach sp;
  cp_strict : SpecStrict.strict f;
  cp_flow : flow_known f reach;
  cp_nocopy : no_copies f reach;
  cp_enc : all_encodable f reach;
  cp_sp : sp_not_passed f reach sp;
  cp_order : in_order f reach;
  cp_empty : forall b, In b reach -> few_empty f b d;
  cp_basic : basic_ops f reach }.

(** What a lifted function must have in addition: the frame pointer is neither a second operand nor
    passed to a function, no 32-bit addition or subtraction of the constant 0, no load from a constant
    address. *)
Record tame (f : func) (sp : nat) : Prop := {
  tm_second : forall i x v, f_insn f i = Some x -> is_bin_alu_op (i_op x) = true -> nth_error (i_vals x) 1 = Some v -> v_data v <> VInsn sp;
  tm_call : forall i x v, f_insn f i = Some x -> i_op x = CALL -> In v (i_vals x) -> v_data v <> VInsn sp;
  tm_zero : forall i x v, f_insn f i = Some x -> i_op x = ADD \/ i_op x = SUB -> i_alu x = A_32 -> In v (i_vals x) -> v_data v <> VConst 0;
  tm_load : forall i x c, f_insn f i = Some x -> i_op x = LOADRAW -> v_data (a_val (i_addr x)) <> VConst c }.
(** The frame pointer is used to address memory and to compute addresses: a constant is added to it, and
    it is not stored, compared or combined.  A raw access has a hole in its offset exactly when it goes
    through the frame pointer. *)
Record stack_tame (f : func) (sp : nat) : Prop := {
  sm_raw : forall i x, f_insn f i = Some x -> i_op x = LOADRAW \/ i_op x = STORERAW ->
    a_ot (i_addr x) = if is_use_of sp (a_val (i_addr x)) then O_RAWOFF else O_CONST;
  sm_user : forall i x, f_insn f i = Some x -> 0 < uses f i sp ->
    ((i_op x = LOADRAW \/ i_op x = STORERAW) /\ forall v, In v (i_vals x) -> is_use_of sp v = false) \/
    (i_op x = ADD /\ i_alu x = A_64 /\ exists v c k, i_vals x = [v; c] /\ is_use_of sp v = true /\ v_data c = VConst k /\ (- 2 ^ 31 + 2 ^ 15 <= k < 2 ^ 31 - 2 ^ 15)%Z) }.
(** Immediates and offsets have the width of their fields. *)
Definition fields_fit (p : list bpf_insn) : Prop := forall i, In i p -> s32_range (b_imm i) /\ s16_range (b_off i).

(** ** One round of allocation
    [s] is the prepared function, [u] the function in which every value has its place: the first round
    spilled nothing. *)
Definition one_round (fuel : nat) (om os : nat -> nat -> list nat -> list nat) (f : func) (reach : list nat) (sp : nat) (args : list nat) (s u : cgs) : Prop :=
  exists s0 t t1 eps, init_cg f reach sp args = Ok s0 /\ prepare s0 = Ok s /\ analysis fuel s = Ok t /\
    length (c_all t) < fuel /\ pre_spill fuel (om 5) (os 5) t = Ok (t1, ([], eps)) /\ assign t1 = Ok u.
(** The arguments that helpers look at; five where nothing is known. *)
Definition arity_of (ar : Z -> option nat) : arity := fun id => match ar id with Some k => k | None => 5 end.
