(** Property C70: the jump counter. *)
From Coq Require Import ZArith List Bool Arith Lia.
From Verif Require Import SpecWord SpecFlat SpecSsa SpecIr SpecEdit SpecPass SpecStrict SpecInstr SpecWeave SpecJump M_Base M_Ir M_Edit M_EditHist M_Pass
  L_PassWit L_InstrWit L_WeaveWit L_Jump L_JumpWit.
Import ListNotations.
Open Scope nat_scope.

(** Every cycle of a path from the entry goes through a block that ends with a check. *)
Theorem C70_cycles_partial : forall reach f g, cfg_ok f -> operands_live f -> explored f reach -> loops_jump f -> jmp_complexity reach f = Ok g ->
  exists cell, forall x l2 l3, rpath g (x :: l2 ++ x :: l3) -> exists c, In c (x :: l2) /\ has_check g cell (by_one 100) c.
Proof. exact jump_cycles. Qed.
Print Assumptions C70_cycles_partial.
(** Every execution ends, whatever the helpers return. *)
Theorem C70_ends_partial : forall reach f g bi, cfg_ok f -> operands_live f -> explored f reach -> entry_apart f -> loops_jump f -> jmp_complexity reach f = Ok g ->
  ends_within bi g (101 + 102 * f_nb g).
Proof. exact jump_ends. Qed.
Print Assumptions C70_ends_partial.
(** The instrumented function does what the function does, or throws. *)
Theorem C70_transparent_partial : forall reach f g bi, cfg_ok f -> operands_live f -> explored f reach -> phi_free f (f_entry f) -> apart_after f (jumps f) ->
  jmp_complexity reach f = Ok g -> transparent bi f g.
Proof. exact jump_transparent. Qed.
Print Assumptions C70_transparent_partial.
(** An execution of at most 100 blocks is not stopped. *)
Theorem C70_within_partial : forall reach f g bi, cfg_ok f -> operands_live f -> explored f reach -> phi_free f (f_entry f) -> apart_after f (jumps f) ->
  jmp_complexity reach f = Ok g -> forall w n s0 r m k, n <= 100 -> returns_in w bi f n s0 r m k -> returns w bi g s0 r m k.
Proof. exact jump_within. Qed.
Print Assumptions C70_within_partial.
Example C70_applies : cfg_ok loop /\ operands_live loop /\ explored loop [1; 2; 3] /\ entry_apart loop /\ loops_jump loop /\ phi_free loop (f_entry loop) /\
  apart_after loop (jumps loop) /\ jumps loop 2 /\
  (exists g, jmp_complexity [1; 2; 3] loop = Ok g /\ end_of (w_one 1) cnt5 g 201 = 1 /\ end_of (w_one 1) cnt5 g 202 = 3 /\ end_of (w_one 0) cnt5 g 6 = 2) /\
  (exists m, returns_in (w_one 0) cnt5 loop 3 s_zero 0 m 1).
Proof.
  destruct loop_cfg as (A & B & C & D & E). do 4 (split; [assumption|]). split; [exact loop_jumps|]. split; [apply loop_free|]. split; [apply free_after; exact loop_free|].
  split; [apply jumpsb_ok; vm_compute; reflexivity|]. split.
  - exists (after (jmp_complexity [1; 2; 3] loop)). split; [apply after_ok; vm_compute; reflexivity|]. repeat split; vm_compute; reflexivity.
  - apply ret_nc_in. vm_compute. reflexivity.
Qed.

(** ** The full statement is false *)
(** A jump back to the entry block sets the counter to zero again. *)
Theorem C70_entry_reset_refuted : exists f g reach, cfg_ok f /\ operands_live f /\ explored f reach /\ loops_jump f /\ jmp_complexity reach f = Ok g /\ runs_on (fun _ => 5%Z) g.
Proof.
  destruct entry_loop_cfg as (A & B & C & _). exists entry_loop, entry_jump, [1; 2]. do 3 (split; [assumption|]). split; [exact entry_loop_jumps|].
  split; [apply after_ok; vm_compute; reflexivity|exact entry_jump_on].
Qed.
Print Assumptions C70_entry_reset_refuted.
(** Blocks without a jump are not counted. *)
Theorem C70_fall_refuted : exists f g reach, cfg_ok f /\ operands_live f /\ explored f reach /\ entry_apart f /\ jmp_complexity reach f = Ok g /\ runs_on (fun _ => 5%Z) g.
Proof.
  destruct fall_loop_ok as (A & B & C & D). exists fall_loop, fall_loop, [1; 2; 3]. do 4 (split; [assumption|]). split; [vm_compute; reflexivity|exact fall_loop_on].
Qed.
Print Assumptions C70_fall_refuted.
(** The phis behind a jump still name the block of the jump, not its new second half. *)
Theorem C70_phi_refuted : exists f g reach w bi s0 r m k n, cfg_ok f /\ phis_first f /\ operands_live f /\ explored f reach /\ phi_free f (f_entry f) /\
  jmp_complexity reach f = Ok g /\ returns w bi f s0 r m k /\ srun w bi g n 0 (f_entry g) s0 = None.
Proof.
  destruct loop_phi_ok as (A & B & C & D & E & F). destruct (ret_nc_in (w_one 0) cnt5 loop_phi 4 s_zero 0 2) as (m & R); [vm_compute; reflexivity|].
  exists loop_phi, (after (jmp_complexity [1; 2; 3] loop_phi)), [1; 2; 3], (w_one 0), cnt5, s_zero, 0%Z, m, 2, 3. do 3 (split; [assumption|]).
  do 2 (split; [assumption|]). split; [apply after_ok; vm_compute; reflexivity|]. split; [exists 4; exact R|]. apply end_stuck. vm_compute. reflexivity.
Qed.
Print Assumptions C70_phi_refuted.
