(** Meaning of a function in the middle of code generation: some values have a fixed place (a register
    or a stack slot), the others are virtual and are kept in a table.  Phis take the value of the edge
    through which the block was entered, all at once.  With every place fixed this is the meaning of
    flattened code ([SpecFlat]).  Only the data types of the model are used, none of its functions. *)
From Coq Require Import ZArith List Bool Arith.
From Verif Require Import M_Base M_Ir M_Norm M_Ra SpecWord SpecFlat SpecProg SpecSsa SpecIr SpecRa SpecPass SpecShift.
Import ListNotations.
Open Scope Z_scope.

Record vst := mkV { v_env : nat -> option Z; v_st : st }.

Definition placed_at (v : value) (p : vrpos) : value := mkVal (VFlat p) (v_ct v) (v_bi v).
Definition veval (s : cgs) (bi : bconst -> Z) (q : vst) (v : value) : option Z :=
  match v_data v with
  | VInsn d => let? e := c_ex s d in if x_fin e then evalv bi (v_st q) (placed_at v (x_pos e)) else v_env q d
  | VConst _ => evalv bi (v_st q) v
  | _ => None
  end.
(** writing to the place of value [d] *)
Definition vput (s : cgs) (q : vst) (d : nat) (z : Z) : option vst :=
  let? e := c_ex s d in
  if x_fin e then let? m := wr (v_st q) (x_pos e) z in Some (mkV (v_env q) m)
  else Some (mkV (eupd (v_env q) d (u64 z)) (v_st q)).
(** the result of instruction [i] *)
Definition vwr (s : cgs) (q : vst) (i : nat) (z : Z) : option vst :=
  let? e := c_ex s i in match x_dst e with Some d => vput s q d z | None => None end.
Definition vaddr (s : cgs) (bi : bconst -> Z) (q : vst) (a : addrval) : option Z :=
  match a_ot a, v_data (a_val a) with
  | O_CONST, VInsn d =>
    let? e := c_ex s d in
    if x_fin e then addr_of bi (v_st q) (mkAddr (placed_at (a_val a) (x_pos e)) (a_off a) O_CONST)
    else let? z := v_env q d in Some (z + a_off a)
  | O_CONST, VConst _ => addr_of bi (v_st q) a
  | _, _ => None
  end.
(** the variable an instruction names *)
Definition variable (f : func) (v : value) : option (nat * nat) :=
  match v_data v with
  | VInsn a => let? y := f_insn f a in
               if iop_eqb (i_op y) ALLOC then let? k := vr_bytes (i_vrt y) in Some (a, k) else None
  | _ => None
  end.

Inductive vres := VNext (q : vst) | VJmp (b : nat) (q : vst) | VRet (r : Z) (q : vst).
Definition vnext (o : option vst) : option vres := let? q := o in Some (VNext q).

Definition vexec (w : world) (bi : bconst -> Z) (s : cgs) (i : nat) (x : insn) (q : vst) : option vres :=
  let ev v := veval s bi q v in
  let ret z := vnext (vwr s q i z) in
  match i_op x, i_vals x with
  (* a fresh variable has no value *)
  | ALLOC, _ | ALLOCARRAY, _ => Some (VNext (mkV (fun v => if (v =? i)%nat then None else v_env q v) (v_st q)))
  | GETELEMPTR, [off; arr] =>
    match v_data arr with
    | VInsn d => let? e := c_ex s d in
                 if x_fin e && (vp_alloc (x_pos e) && negb (vp_spilled (x_pos e) =? 0))
                 then let? o := ev off in ret (u64 (slot_addr (v_st q) (x_pos e) + o))
                 else None
    | _ => None
    end
  | STORE, [t; v] => let? r := variable (c_f s) t in let? a := ev v in
                     vnext (vput s q (fst r) (a mod 2 ^ (8 * Z.of_nat (snd r))))
  | LOAD, [t] => let? r := variable (c_f s) t in let? a := ev t in ret (a mod 2 ^ (8 * Z.of_nat (snd r)))
  | ASSIGN, [v] => let? a := ev v in ret (match i_alu x with A_32 => trunc false a | _ => a end)
  | LOADRAW, _ => let? k := vr_bytes (i_vrt x) in let? a := vaddr s bi q (i_addr x) in ret (load (mem (v_st q)) a k)
  | STORERAW, [v] => let? k := vr_bytes (i_vrt x) in let? a := vaddr s bi q (i_addr x) in let? y := ev v in
                     Some (VNext (mkV (v_env q) (mset (v_st q) (store (mem (v_st q)) a k y))))
  | LOADIMM_EXTRA, _ =>
    if (0 <=? i_ity x) && (i_ity x <=? 6)
    then ret (if i_ity x =? 0 then u64 (i_imm64 x) else ldext w (i_ity x) (u64 (i_imm64 x)))
    else None
  | NEG, [v] => let? wd := width_of (i_alu x) in let? a := ev v in ret (neg_fn wd a)
  | HTOLE, [v] | HTOBE, [v] =>
    if (i_u x =? 16) || (i_u x =? 32) || (i_u x =? 64)
    then let? a := ev v in ret (end_fn (iop_eqb (i_op x) HTOBE) (i_u x) a)
    else None
  | CALL, [] => Some (VNext (mkV (v_env q) (call_helper w (i_u x) (v_st q))))
  | RET, [] => Some (VRet (rget (v_st q) 0) q)
  | RET, [v] => let? a := ev v in Some (VRet a q)
  | JA, [] => Some (VJmp (i_bb1 x) q)
  | o, [v1; v2] =>
    match alu_op_of o, cmp_op_of o with
    | Some f, _ => let? wd := width_of (i_alu x) in let? a := ev v1 in let? b := ev v2 in ret (alu_fn f wd a b)
    | _, Some c => let? wd := width_of (i_alu x) in let? a := ev v1 in let? b := ev v2 in
                   Some (VJmp (if cmp_fn c wd a b then i_bb2 x else i_bb1 x) q)
    | _, _ => None
    end
  | _, _ => None
  end.

(** The phis at the head of the list, evaluated in [q0]; [o] is the size of the extra stack. *)
Fixpoint vphis (bi : bconst -> Z) (s : cgs) (o : Z) (prev : nat) (q0 q : vst) (l : list nat) : option (list nat * vst) :=
  match l with
  | [] => Some ([], q)
  | i :: r =>
    let? x := f_insn (c_f s) i in
    if iop_eqb (i_op x) PHI then
      let? v := incoming x prev in let? z := veval s bi q0 (fill_val o v) in
      let? q' := vwr s q i z in vphis bi s o prev q0 q' r
    else Some (l, q)
  end.
Fixpoint vbody (w : world) (bi : bconst -> Z) (s : cgs) (o : Z) (q : vst) (l : list nat) : option vres :=
  match l with
  | [] => Some (VNext q)
  | i :: r =>
    let? x := f_insn (c_f s) i in
    let? t := vexec w bi s i (fill_insn o x) q in
    match t with VNext q' => vbody w bi s o q' r | _ => Some t end
  end.
(** [bi b] gives the built-in constants of block [b]; those of a phi operand are those of the block it
    comes from. *)
Definition vblock (w : world) (bi : nat -> bconst -> Z) (s : cgs) (o : Z) (prev b : nat) (q : vst) : option vres :=
  let? k := f_block (c_f s) b in
  let? r := vphis (bi prev) s o prev q q (b_insns k) in
  let '(l, q1) := r in
  let? t := vbody w (bi b) s o q1 l in
  match t with
  | VNext q2 => match b_succs k with b' :: _ => Some (VJmp b' q2) | [] => None end
  | _ => Some t
  end.
Inductive vout := VAt (prev b : nat) (q : vst) | VDone (r : Z) (q : vst).
Fixpoint vrun (w : world) (bi : nat -> bconst -> Z) (s : cgs) (o : Z) (n prev b : nat) (q : vst) : option vout :=
  match n with
  | O => Some (VAt prev b q)
  | S k =>
    let? t := vblock w bi s o prev b q in
    match t with
    | VJmp b' q' => vrun w bi s o k b b' q'
    | VRet r q' => Some (VDone r q')
    | VNext _ => None
    end
  end.

(** ** Registers in use
    A register is needed at a point when some path leads to an instruction that reads it (an operand
    with a fixed place, a helper call, a return without operand) without an instruction that writes it
    in between. *)
Definition arity := Z -> nat.
Definition fixed_reg (s : cgs) (d : nat) (r : Z) : Prop :=
  exists e, c_ex s d = Some e /\ x_fin e = true /\ vp_alloc (x_pos e) = true /\ vp_spilled (x_pos e) = 0 /\ vp_reg (x_pos e) = r.
Inductive reads_reg (s : cgs) (ar : arity) (i : nat) (r : Z) : Prop :=
| rr_op d : reads s i d -> fixed_reg s d r -> reads_reg s ar i r
| rr_call x : f_insn (c_f s) i = Some x -> i_op x = CALL -> 1 <= r <= Z.of_nat (ar (i_u x)) -> reads_reg s ar i r
| rr_ret x : f_insn (c_f s) i = Some x -> i_op x = RET -> i_vals x = [] -> r = 0 -> reads_reg s ar i r.
Inductive writes_reg (s : cgs) (i : nat) (r : Z) : Prop :=
| wr_dst d : defines s i d -> fixed_reg s d r -> writes_reg s i r
| wr_call x : f_insn (c_f s) i = Some x -> i_op x = CALL -> 0 <= r <= 5 -> writes_reg s i r.
Inductive needed (s : cgs) (ar : arity) (r : Z) : nat * nat -> Prop :=
| need_use b k i : In b (c_reach s) -> insn_at s b k i -> reads_reg s ar i r ->
    ~ (exists x, f_insn (c_f s) i = Some x /\ i_op x = PHI) -> needed s ar r (b, k)
| need_phi b p x w d : linked s p -> f_insn (c_f s) p = Some x -> i_op x = PHI ->
    In (w, b) (i_phi x) -> is_use_of d w = true -> fixed_reg s d r -> needed s ar r (b, ends_at s b)
| need_step b k i : In b (c_reach s) -> insn_at s b k i -> ~ writes_reg s i r -> needed s ar r (b, S k) -> needed s ar r (b, k)
| need_edge b c : In c (c_reach s) -> In b (preds_of (c_f s) c) -> needed s ar r (c, O) -> needed s ar r (b, ends_at s b).

(** Helpers look at their declared arguments only. *)
Definition few_args (w : world) (ar : arity) : Prop :=
  forall id a a' n m, firstn (ar id) a = firstn (ar id) a' -> length a = 5%nat -> length a' = 5%nat ->
    helper w n id a m = helper w n id a' m.

(** ** Where an assignment has to keep values apart from registers in use and from one another, beyond
    [sound_assignment].  None of this is ensured by the allocator (see the refutations). *)
(** instruction [i] writes to value [d]: its result, or the variable of a store *)
Definition assigns (s : cgs) (i d : nat) : Prop :=
  defines s i d \/ exists x t v, f_insn (c_f s) i = Some x /\ i_op x = STORE /\ i_vals x = [t; v] /\ v_data t = VInsn d.
Record apart (ar : arity) (s u : cgs) : Prop := {
  (* no virtual value is placed in a register that is still needed *)
  ap_write : forall b k i d r, In b (c_reach s) -> insn_at s b k i -> assigns s i d -> tracked s d ->
    needed s ar r (b, S k) -> ~ in_reg u d r;
  ap_copy : forall i x w n m r, linked s i -> f_insn (c_f s) i = Some x -> i_op x = PHI -> In (w, n) (i_phi x) ->
    copy_point s n m -> needed s ar r (n, m) -> ~ in_reg u i r;
  (* a phi whose old value is still needed where its copy is placed keeps that value *)
  ap_lost : forall i x w n m, linked s i -> f_insn (c_f s) i = Some x -> i_op x = PHI -> In (w, n) (i_phi x) ->
    copy_point s n m -> live s i (n, m) -> is_use_of i w = true;
  (* phis of different blocks with the same predecessor are apart *)
  ap_edge : forall i x w j y w' n, linked s i -> f_insn (c_f s) i = Some x -> i_op x = PHI -> In (w, n) (i_phi x) ->
    linked s j -> f_insn (c_f s) j = Some y -> i_op y = PHI -> In (w', n) (i_phi y) ->
    i_parent x <> i_parent y -> ~ share u i j }.

(** The shape of the function: jumps stand at the end of blocks, lead to reachable blocks and the
    predecessor lists are complete; phis have one operand for each block; variables with a fixed place
    are on the stack. *)
Definition leads (s : cgs) (b c : nat) : Prop :=
  (exists i x, In i (insns_of (c_f s) b) /\ f_insn (c_f s) i = Some x /\
     ((i_op x = JA /\ i_bb1 x = c) \/ (is_cond_jmp_op (i_op x) = true /\ (i_bb1 x = c \/ i_bb2 x = c)))) \/
  hd_error (succs_of (c_f s) b) = Some c.
(** an operand that can be read: a constant, a virtual value, or a fixed place *)
Definition readable (s : cgs) (v : vdata) : Prop :=
  match v with
  | VConst _ | VRawOff _ | VRawOffRev _ => True
  | VInsn d => tracked s d \/ exists e, c_ex s d = Some e /\ x_fin e = true /\ vp_alloc (x_pos e) = true /\
                 (vp_spilled (x_pos e) <> 0 \/ is_reg (vp_reg (x_pos e)) = true)
  | _ => False
  end.
Record shape (s : cgs) : Prop := {
  sh_jump : forall b k i x, In b (c_reach s) -> insn_at s b k i -> f_insn (c_f s) i = Some x ->
    is_jmp_op (i_op x) = true -> S k = ends_at s b;
  sh_leads : forall b c, In b (c_reach s) -> leads s b c -> In c (c_reach s) /\ In b (preds_of (c_f s) c);
  sh_phi : forall i x, linked s i -> f_insn (c_f s) i = Some x -> i_op x = PHI ->
    tracked s i /\ NoDup (map snd (i_phi x)) /\ forall w n, In (w, n) (i_phi x) -> readable s (v_data w);
  sh_ids : forall i, f_insn (c_f s) i <> None \/ c_ex s i <> None -> (i < f_ni (c_f s))%nat;
  sh_refs : forall i x v d, f_insn (c_f s) i = Some x -> In v (operand_values x) -> v_data v = VInsn d -> (d < f_ni (c_f s))%nat;
  sh_dst : forall i x e, linked s i -> f_insn (c_f s) i = Some x -> c_ex s i = Some e ->
    In (i_op x) [STORE; STORERAW; CALL] -> x_dst e = None;
  sh_store : forall i x v, linked s i -> f_insn (c_f s) i = Some x -> i_op x = STORE ->
    hd_error (i_vals x) = Some v -> readable s (v_data v);
  sh_var : forall i x e, f_insn (c_f s) i = Some x -> i_op x = ALLOC \/ i_op x = ALLOCARRAY ->
    c_ex s i = Some e -> x_fin e = true -> vp_alloc (x_pos e) = true /\ vp_spilled (x_pos e) <> 0 }.

(** [u] is the function [s] with places for its values. *)
Definition same_function (s u : cgs) : Prop :=
  c_f u = c_f s /\ c_reach u = c_reach s /\ c_regs u = c_regs s /\ c_off u = c_off s /\
  forall v, option_map (fun e => (x_dst e, x_fin e)) (c_ex u v) = option_map (fun e => (x_dst e, x_fin e)) (c_ex s v).
(** The extra stack is in the range of its C type and filling the holes does not overflow. *)
Definition all_fit (s : cgs) : Prop :=
  - 2 ^ 15 <= c_off s < 2 ^ 15 /\ forall i x, linked s i -> f_insn (c_f s) i = Some x -> fits (c_off s) x.
(** The block that follows a block without a jump. *)
Definition next_of (s : cgs) (b : nat) : option nat := hd_error (succs_of (c_f s) b).
Definition phi_free (s : cgs) (b : nat) : Prop :=
  forall i l, insns_of (c_f s) b = i :: l -> ~ exists x, f_insn (c_f s) i = Some x /\ i_op x = PHI.
(** The run of the virtual values and the run of the places end with different results. *)
Definition exit_differs (w : world) (s u : cgs) : Prop :=
  exists t p bi n b m z1 q z2 m2, ssa_out u = Ok t /\ flatten t = Ok p /\ start s b /\ phi_free s b /\ st_ok m /\
    vrun w bi s (c_off s) n 0%nat b (mkV (fun _ => None) m) = Some (VDone z1 q) /\
    prun w bi (next_of s) p n b m = Some (PRet z2 m2) /\ z1 <> z2.
