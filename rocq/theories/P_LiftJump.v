(** C78: programs and the jump counter. *)
From Coq Require Import ZArith List Bool Arith Lia.
From Verif Require Import SpecWord SpecIsa SpecFlat SpecCfg SpecSsa SpecLift SpecLiftOne SpecIr SpecEdit SpecPass SpecStrict SpecInstr SpecWeave SpecJump M_Base M_Ir M_Edit M_EditHist M_Lift M_Pass
  L_LiftMain L_LiftEx L_LiftWit L_PassWit L_InstrWit L_WeaveWit L_PipeWit L_LiftCfg L_LiftSame L_LiftJump.
Import ListNotations.
Open Scope nat_scope.

(** In a program every loop has a jump. *)
Theorem C78_loops_jump : forall p m n f, liftable p -> lift m n p = Ok f -> loops_jump f.
Proof. exact lift_loops_jump. Qed.
Print Assumptions C78_loops_jump.
(** So with the jump counter every cycle has a check, and every execution ends, by a return, by a throw, or
    because it is stuck. *)
Theorem C78_jump_cycles : forall p m n f reach g, liftable p -> lift m n p = Ok f -> explored f reach -> jmp_complexity reach f = Ok g ->
  exists cell, forall x l2 l3, rpath g (x :: l2 ++ x :: l3) -> exists c, In c (x :: l2) /\ has_check g cell (by_one 100) c.
Proof. exact lift_jump_cycles. Qed.
Print Assumptions C78_jump_cycles.
Theorem C78_jump_ends_partial : forall p m n f reach g bi, liftable p -> lift m n p = Ok f -> explored f reach -> jmp_complexity reach f = Ok g -> ends_within bi g (101 + 102 * f_nb g).
Proof. exact lift_jump_ends. Qed.
Print Assumptions C78_jump_ends_partial.
(** What the bytecode returns the function with the counter returns, or it throws. *)
Theorem C78_jump_exit_partial : forall w bi ar p m n f reach g st t k r st' d,
  liftable p -> (forall j i, at_pos p j i -> SpecLift.plain ar i) -> L_LiftMain.agrees ar -> respects w ar -> lift m n p = Ok f ->
  explored f reach -> apart_after f (jumps f) -> jmp_complexity reach f = Ok g ->
  st_ok st -> enters st t sp_id arg_id -> crun w ar p k 0 st clean = Some (IExit r st', d) ->
  returns w bi g t r (mem st') (ncall st') \/ throws w bi g t.
Proof. exact lift_jump_exit. Qed.
Print Assumptions C78_jump_exit_partial.
(** A program that loops as long as the helper does not return 5 ([C78_same_applies] has the rest). *)
Example C78_jump_applies : liftable w_wait /\ exists f, lift pk pk w_wait = Ok f /\ explored f [1; 2; 3] /\ apart_after f (jumps f) /\ In 2 (succs_of f 2) /\ end_of (w_one 1) cnt5 f 300 = 1 /\
  exists g, jmp_complexity [1; 2; 3] f = Ok g /\ end_of (w_one 1) cnt5 g 30 = 1 /\ end_of (w_one 1) cnt5 g 300 = 3 /\ end_of (w_one 5) cnt5 g 30 = 2.
Proof.
  destruct w_wait_ok as (P & L). split; [exact P|]. exists (lift_of w_wait). split; [exact L|]. split; [exact (proj2 (proj2 (proj2 (proj2 (proj2 (proj2 (lift_all_meet _ _ _ _ P L)))))))|].
  split; [apply wait_free|]. split; [vm_compute; tauto|]. split; [vm_compute; reflexivity|].
  exists (after (jmp_complexity [1; 2; 3] (lift_of w_wait))). split; [apply after_ok; vm_compute; reflexivity|]. split; [vm_compute; reflexivity|]. split; vm_compute; reflexivity.
Qed.
(** A program that counts to 3 gets stuck at its phi when it has a counter. *)
Theorem C78_jump_refuted : exists p f g w s0 r m k n, liftable p /\ lift pk pk p = Ok f /\ jmp_complexity (f_all f) f = Ok g /\
  returns w cnt5 f s0 r m k /\ srun w cnt5 g n 0 (f_entry g) s0 = None.
Proof.
  destruct w_loop_ok as (P & L). destruct (ret_nc_in (w_one 1) cnt5 (lift_of w_loop) 5 s_zero 3 0) as (m & R); [vm_compute; reflexivity|].
  exists w_loop, (lift_of w_loop), (after (jmp_complexity (f_all (lift_of w_loop)) (lift_of w_loop))), (w_one 1), s_zero, 3%Z, m, 0, 10.
  split; [exact P|]. split; [exact L|]. split; [apply after_ok; vm_compute; reflexivity|]. split; [exists 5; exact R|]. apply end_stuck. vm_compute. reflexivity.
Qed.
Print Assumptions C78_jump_refuted.
