(** Moving the program's own stack.  Code generation puts the extra stack between the frame pointer
    and the program's own frame, so every stack address of the program has to be moved by the same
    amount.  Constants and offsets that depend on that amount are "holes", filled in at the end.
    Nothing here refers to the passes or the code generator. *)
From Coq Require Import ZArith List Bool Arith.
From Verif Require Import M_Base M_Ir SpecWord SpecFlat SpecSsa SpecIr SpecPass.
Import ListNotations.
Open Scope Z_scope.

(** Filling the holes with [o]. *)
Definition fill_val (o : Z) (v : value) : value :=
  match v_data v with
  | VRawOff c => mkVal (VConst (c + o)) (v_ct v) (v_bi v)
  | VRawOffRev c => mkVal (VConst (c - o)) (v_ct v) (v_bi v)
  | _ => v
  end.
Definition fill_addr (o : Z) (a : addrval) : addrval :=
  match a_ot a with
  | O_CONST => a
  | O_RAWOFF => mkAddr (a_val a) (a_off a + o) O_CONST
  | O_RAWOFF_REV => mkAddr (a_val a) (a_off a - o) O_CONST
  end.
Definition fill_insn (o : Z) (x : insn) : insn :=
  set_addr (fill_addr o (i_addr x))
    (set_phi (map (fun e => (fill_val o (fst e), snd e)) (i_phi x)) (set_vals (map (fill_val o) (i_vals x)) x)).
Definition fill (o : Z) (f : func) : func :=
  mkFunc (fun i => option_map (fill_insn o) (f_insn f i)) (f_block f) (f_ni f) (f_nb f) (f_all f) (f_entry f).

(** The state in which the frame pointer is [z]. *)
Definition at_sp (sp : nat) (z : Z) (s : sst) : sst := mkS (eupd (s_env s) sp (u64 z)) (s_var s) (s_mem s) (s_nc s).

(** Filled with [o], [g] does with its frame pointer at [z] what [f] does with its frame pointer at
    [z + o]: every stack address of [f] is moved by [o], once. *)
Definition relocates (sp : nat) (f g : func) : Prop :=
  forall o w bi n prev b s z r, srun w bi f n prev b (at_sp sp (z + o) s) = Some r ->
    exists r', srun w bi (fill o g) n prev b (at_sp sp z s) = Some r' /\ same_effect r r'.

(** The function has no holes in its operands. *)
Definition no_holes (f : func) : Prop :=
  forall i x v, f_insn f i = Some x -> In v (operand_values x) ->
    match v_data v with VRawOff _ | VRawOffRev _ => False | _ => True end.

(** The uses of the frame pointer that need no instruction of their own: addressing memory, and adding
    a constant. *)
Inductive indirect (sp : nat) (x : insn) : Prop :=
| in_raw : i_op x = LOADRAW \/ i_op x = STORERAW -> (forall v, In v (i_vals x) -> is_use_of sp v = false) -> indirect sp x
| in_add v c k : i_op x = ADD -> i_vals x = [v; c] -> is_use_of sp v = true -> v_data c = VConst k -> v_bi c = B_NONE ->
    indirect sp x.
(** Any other use by value. *)
Record direct (sp : nat) (x : insn) : Prop := {
  di_op : ~ In (i_op x) [PHI; LOAD; LOADRAW; STORERAW];
  di_const : forall v c r k, i_vals x = v :: c :: r -> alu_op_of (i_op x) <> None -> is_use_of sp v = true ->
               v_data c <> VConst k }.

(** The frame pointer is an instruction outside all blocks; a raw access has a hole in its offset
    exactly when it goes through the frame pointer; only the last of its users needs an instruction. *)
Record sp_ok (f : func) (sp : nat) : Prop := {
  so_sp : exists x, f_insn f sp = Some x /\ i_op x <> ALLOC;
  so_out : forall b, ~ In sp (insns_of f b);
  so_raw : forall i x, f_insn f i = Some x -> i_op x = LOADRAW \/ i_op x = STORERAW ->
    a_ot (i_addr x) = if is_use_of sp (a_val (i_addr x)) then O_RAWOFF else O_CONST;
  so_users : forall l u r x, users_of f sp = l ++ u :: r -> f_insn f u = Some x ->
    indirect sp x \/ (r = [] /\ direct sp x) }.

(** [y] is [x] with its holes filled. *)
Record filled (o : Z) (x y : insn) : Prop := {
  fi_op : i_op y = i_op x;
  fi_vals : i_vals y = map (fill_val o) (i_vals x);
  fi_addr : i_op x = LOADRAW \/ i_op x = STORERAW -> i_addr y = fill_addr o (i_addr x);
  fi_else : i_op x <> LOADRAW -> i_op x <> STORERAW -> i_addr y = i_addr x;
  fi_phi : i_op x = PHI -> i_phi y = map (fun e => (fill_val o (fst e), snd e)) (i_phi x);
  fi_rest : i_vrt y = i_vrt x /\ i_alu y = i_alu x /\ i_bb1 y = i_bb1 x /\ i_bb2 y = i_bb2 x /\ i_u y = i_u x /\
            i_ity y = i_ity x /\ i_imm64 y = i_imm64 x /\ i_parent y = i_parent x }.
(** The filled values are within the range of their C types; raw accesses have holes only in their
    offset. *)
Definition value_fits (o : Z) (v : value) : Prop :=
  match v_data v with
  | VRawOff c => - 2 ^ 63 <= c + o < 2 ^ 63
  | VRawOffRev c => - 2 ^ 63 <= c - o < 2 ^ 63
  | _ => True
  end.
Definition no_hole (v : value) : Prop := match v_data v with VRawOff _ | VRawOffRev _ => False | _ => True end.
Record fits (o : Z) (x : insn) : Prop := {
  ft_vals : forall v, In v (i_vals x) -> value_fits o v;
  ft_phi : i_op x = PHI -> forall e, In e (i_phi x) -> value_fits o (fst e);
  ft_raw : i_op x = LOADRAW \/ i_op x = STORERAW -> (forall v, In v (i_vals x) -> no_hole v) /\ no_hole (a_val (i_addr x)) /\
    match a_ot (i_addr x) with
    | O_CONST => True
    | O_RAWOFF => - 2 ^ 15 <= a_off (i_addr x) + o < 2 ^ 15
    | O_RAWOFF_REV => - 2 ^ 15 <= a_off (i_addr x) - o < 2 ^ 15
    end }.
