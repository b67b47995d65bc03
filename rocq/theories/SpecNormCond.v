(** The side conditions under which normalisation and translation are proved correct.  Each
    exclusion marked (R) has a refutation theorem in P_Norm.v. *)
From Verif Require Import M_Base M_Ir M_Norm SpecWord SpecFlat.
Open Scope Z_scope.

Definition is_const (v : value) : bool := match v_data v with VConst _ => true | _ => false end.
Definition in_reg (v : value) : bool :=
  match v_data v with VFlat p => vp_alloc p && (vp_spilled p =? 0) | _ => false end.
Definition on_stack (v : value) : bool :=
  match v_data v with VFlat p => vp_alloc p && negb (vp_spilled p =? 0) | _ => false end.
Definition stack_pos (p : vrpos) : bool := vp_alloc p && negb (vp_spilled p =? 0).
Definition reg_pos (p : vrpos) : bool := vp_alloc p && (vp_spilled p =? 0).
(** [v] is the register of position [p] *)
Definition same_reg (v : value) (p : vrpos) : bool :=
  in_reg v && reg_pos p && match v_data v with VFlat q => vp_reg q =? vp_reg p | _ => false end.

Definition s16_range (z : Z) : Prop := - 2 ^ 15 <= z < 2 ^ 15.
Definition s32_range (z : Z) : Prop := - 2 ^ 31 <= z < 2 ^ 31.
Definition s64_range (z : Z) : Prop := - 2 ^ 63 <= z < 2 ^ 63.

(** A constant is a 32-bit or 64-bit one and fits; built-in constants are 32-bit. *)
Definition const_ok (bi : bconst -> Z) (v : value) : Prop :=
  match v_data v with
  | VConst c =>
    match v_bi v, v_ct v with
    | B_NONE, A_32 => s32_range c
    | B_NONE, A_64 => s64_range c
    | k, A_32 => s32_range (bi k)
    | _, _ => False
    end
  | VFlat p => s16_range (vp_spilled p)
  | _ => True
  end.
Definition narrow_const (v : value) : Prop := is_const v = true -> v_ct v = A_32.
Definition plain (v : value) : Prop := is_const v = true -> v_bi v = B_NONE.
Definition nonzero_const (bi : bconst -> Z) (v : value) : Prop :=
  match v_data v with VConst c => const_val bi v c <> 0 | _ => True end.

(** A copy of [v] to position [d]. *)
Definition assign_ok (x : insn) (d : vrpos) (v : value) : Prop :=
  (stack_pos d = true \/ on_stack v = true -> a_ot (i_addr x) = O_CONST) /\
  (stack_pos d = true -> i_alu x <> A_32 /\ narrow_const v) /\                    (* (R) 64-bit constant to the stack *)
  (stack_pos d = false ->
     (in_reg v = true -> i_alu x <> A_32) /\                                       (* (R) 32-bit register move *)
     (is_const v = true -> v_ct v = A_64 -> i_alu x <> A_32) /\
     (on_stack v = true -> (i_alu x = A_32 /\ i_vrt x = VR_32) \/ (i_alu x <> A_32 /\ i_vrt x = VR_64))).

Definition norm_ok (bi : bconst -> Z) (n : ninsn) : Prop :=
  let x := n_i n in
  let d := n_pos n in
  Forall (const_ok bi) (i_vals x) /\ s16_range (vp_spilled d) /\
  match i_op x, i_vals x with
  | GETELEMPTR, [off; arr] =>
      on_stack off = false /\
      forall c p, v_data off = VConst c -> v_data arr = VFlat p ->
        v_bi off = B_NONE /\ - 2 ^ 31 < c + vp_spilled p < 2 ^ 31
  | STORE, [t; v] =>
      i_vrt x = VR_64 /\                                                             (* (R) narrow variables *)
      i_alu x <> A_32 /\ forall p, v_data t = VFlat p -> assign_ok x p v
  | LOAD, [v] => i_vrt x = VR_64 /\ i_alu x <> A_32 /\ assign_ok x d v              (* (R) narrow variables *)
  | ASSIGN, [v] => assign_ok x d v
  | SUB, [v0; v1] =>
      ~ (same_reg v0 d = true /\ same_reg v1 d = true) /\                            (* (R) r = r - r *)
      (i_alu x = A_32 -> nonzero_const bi v0 /\ nonzero_const bi v1)
  | ADD, [v0; v1] =>
      i_alu x = A_32 -> nonzero_const bi v0 /\ nonzero_const bi v1                   (* (R) 32-bit add of 0 *)
  | RET, [v] => narrow_const v                                                       (* (R) 64-bit constant result *)
  | LOADRAW, _ =>
      is_const (a_val (i_addr x)) = false /\                                         (* (R) constant address *)
      forall p, v_data (a_val (i_addr x)) = VFlat p -> s16_range (a_off (i_addr x) + vp_spilled p)  (* (R) offset overflow *)
  | STORERAW, [v] =>
      (i_vrt x = VR_64 -> narrow_const v) /\                                         (* (R) 64-bit constant store *)
      forall p, v_data (a_val (i_addr x)) = VFlat p -> s16_range (a_off (i_addr x) + vp_spilled p)
  | JNE, [v0; v1] =>
      is_const v0 = true -> is_const v1 = true ->
      v_bi v0 = B_NONE /\ v_bi v1 = B_NONE /\ (i_alu x = A_32 -> v_ct v0 = A_32 /\ v_ct v1 = A_32)
  | _, _ => True
  end.

(** The same for translation of a single normalised instruction. *)
Definition tr_ok (bi : bconst -> Z) (n : ninsn) : Prop :=
  let x := n_i n in
  Forall (const_ok bi) (i_vals x) /\
  (alu_op_of (i_op x) <> None -> forall v, nth_error (i_vals x) 1 = Some v -> narrow_const v) /\
  match i_op x, i_vals x with
  | ADD, [v0; v1] => i_alu x = A_32 -> nonzero_const bi v1
  | RET, [_] => False
  | ASSIGN, [v] => (in_reg v = true -> i_alu x <> A_32) /\ narrow_const v
  | STORERAW, [v] => i_vrt x = VR_64 -> narrow_const v
  | LOADRAW, _ => is_const (a_val (i_addr x)) = false
  | _, _ => True
  end.

(** Built-in constants have been replaced by their value. *)
Definition resolved (bi : bconst -> Z) (v : value) : Prop :=
  match v_data v with VConst c => v_bi v <> B_NONE -> c = bi (v_bi v) | _ => True end.
Definition resolved_insn (bi : bconst -> Z) (n : ninsn) : Prop := Forall (resolved bi) (i_vals (n_i n)).

(** Where a conditional jump goes when it is not taken. *)
Definition not_taken (x : insn) : option nat := if is_cond_jmp_op (i_op x) then Some (i_bb1 x) else None.
