(** C47: moving the program's own stack below the extra stack. *)
From Coq Require Import ZArith List.
From Verif Require Import SpecIsa SpecRa M_Base M_Ir M_Edit M_Lift M_Ra M_Pass SpecIr SpecSsa SpecPass SpecShift L_Shift L_ShiftWit.
Import ListNotations.
Open Scope Z_scope.

(** When only the last user of the frame pointer needs an instruction of its own and the others
    address memory or add a constant, the prepared function, its holes filled with any [o], does with
    its frame pointer at [z] what the original does with its frame pointer at [z + o]. *)
Theorem C47_relocates_partial : forall f sp, tidy f -> fresh_ok f -> sp_ok f sp ->
  forall cap g, no_holes f -> stack_offset_pre sp cap f = Ok g -> relocates sp f g.
Proof. exact pre_relocates. Qed.
Print Assumptions C47_relocates_partial.

(** Code generation fills every hole of every instruction, once, with the size of the extra stack, as
    long as the results fit their types. *)
Theorem C47_filled : forall s t i x,
  NoDup (flat_map (insns_of (c_f s)) (c_reach s)) -> add_stack_offset s (c_off s) = Ok t ->
  - 2 ^ 15 <= c_off s < 2 ^ 15 -> SpecRa.linked s i -> f_insn (c_f s) i = Some x -> fits (c_off s) x ->
  exists y, f_insn (c_f t) i = Some y /\ filled (c_off s) x y.
Proof. exact filled_ok. Qed.
Print Assumptions C47_filled.

(** A program with four users of the frame pointer, one of them a call argument. *)
Example C47_applies : exists f g, from_bytes p_good f /\ tidy f /\ fresh_ok f /\ no_holes f /\ sp_ok f sp_id /\
  length (users_of f sp_id) = 4%nat /\ stack_offset_pre sp_id 4 f = Ok g /\
  gives f (1000 + -64) 5 = Some 8 /\ gives (fill (-64) g) 1000 5 = Some 8.
Proof. exact good_applies. Qed.
Print Assumptions C47_applies.
(** The same program in the code generator: both kinds of holes. *)
Example C47_filled_applies : exists s t i x j y,
  NoDup (flat_map (insns_of (c_f s)) (c_reach s)) /\ add_stack_offset s (c_off s) = Ok t /\ c_off s = -40 /\
  SpecRa.linked s i /\ f_insn (c_f s) i = Some x /\ fits (c_off s) x /\ i_op x = ADD /\ In (VRawOff (-8)) (map v_data (i_vals x)) /\
  SpecRa.linked s j /\ f_insn (c_f s) j = Some y /\ fits (c_off s) y /\ i_op y = STORERAW /\ a_ot (i_addr y) = O_RAWOFF.
Proof. exact filled_applies. Qed.
Print Assumptions C47_filled_applies.

(** A copy of the frame pointer used to address memory (r2 = r10; *(r2 - 8) = r1) is not moved. *)
Theorem C47_copied_refuted : exists p f g, from_bytes p f /\ tidy f /\ fresh_ok f /\ no_holes f /\
  stack_offset_pre sp_id 4 f = Ok g /\ ~ relocates sp_id f g.
Proof. exists p_copy. exact copy_wrong. Qed.
Print Assumptions C47_copied_refuted.
(** Subtracting a constant from the frame pointer is moved in the wrong direction. *)
Theorem C47_sub_refuted : exists p f g, from_bytes p f /\ tidy f /\ fresh_ok f /\ no_holes f /\
  stack_offset_pre sp_id 4 f = Ok g /\ ~ relocates sp_id f g.
Proof. exists p_sub. exact sub_wrong. Qed.
Print Assumptions C47_sub_refuted.
(** The frame pointer stored to memory is not moved. *)
Theorem C47_stored_refuted : exists p f g, from_bytes p f /\ tidy f /\ fresh_ok f /\ no_holes f /\
  stack_offset_pre sp_id 4 f = Ok g /\ ~ relocates sp_id f g.
Proof. exists p_keep. exact keep_wrong. Qed.
Print Assumptions C47_stored_refuted.
(** A phi operand is moved by an instruction put in front of the phi. *)
Theorem C47_phi_refuted : exists p f g, from_bytes p f /\ tidy f /\ fresh_ok f /\ no_holes f /\
  stack_offset_pre sp_id 4 f = Ok g /\ ~ relocates sp_id f g.
Proof. exists p_phi. exact phi_wrong. Qed.
Print Assumptions C47_phi_refuted.
(** Of three calls with the frame pointer as argument the second is not moved, the third twice: the
    list of users changes while the loop goes through it. *)
Theorem C47_three_users_refuted :
  (exists f g, from_bytes p_three f /\ tidy f /\ fresh_ok f /\ no_holes f /\ stack_offset_pre sp_id 4 f = Ok g /\ ~ relocates sp_id f g) /\
  (exists f g, from_bytes p_three' f /\ tidy f /\ fresh_ok f /\ no_holes f /\ stack_offset_pre sp_id 4 f = Ok g /\ ~ relocates sp_id f g).
Proof. exact (conj three_wrong three_twice). Qed.
Print Assumptions C47_three_users_refuted.
(** With two of them in an array of capacity two, the loop reads the freed array. *)
Theorem C47_two_users_refuted : exists p f, from_bytes p f /\ length (users_of f sp_id) = 2%nat /\ stack_offset_pre sp_id 2 f = UB.
Proof. exists p_two. exact two_wrong. Qed.
Print Assumptions C47_two_users_refuted.
