(** C78: what a program does and what it does with checks. *)
From Coq Require Import ZArith List Bool Arith Lia.
From Verif Require Import SpecWord SpecIsa SpecFlat SpecCfg SpecSsa SpecLift SpecLiftOne SpecIr SpecEdit SpecPass SpecStrict SpecInstr SpecWeave M_Base M_Ir M_Edit M_EditHist M_Lift M_Pass SpecChecked
  L_LiftMain L_LiftEx L_LiftWit L_PassWit L_InstrWit L_WeaveWit L_PipeWit L_LiftCfg L_LiftSame.
Import ListNotations.
Open Scope nat_scope.

(** An execution of the bytecode that exits is one of the function with checks that returns the same value,
    with the same memory and the same helper calls, or that throws. *)
Theorem C78_exit_partial : forall w bi ar p m n f g st t k r st' d,
  liftable p -> (forall j i, at_pos p j i -> SpecLift.plain ar i) -> L_LiftMain.agrees ar -> respects w ar -> lift m n p = Ok f -> checked f g ->
  st_ok st -> enters st t sp_id arg_id -> crun w ar p k 0 st clean = Some (IExit r st', d) ->
  returns w bi g t r (mem st') (ncall st') \/ throws w bi g t.
Proof. exact checked_exit. Qed.
Print Assumptions C78_exit_partial.
(** The function with checks returns only what the bytecode returns. *)
Theorem C78_only_partial : forall w bi ar p m n f g st t r mm k,
  liftable p -> (forall j i, at_pos p j i -> SpecLift.plain ar i) -> L_LiftMain.agrees ar -> respects w ar -> lift m n p = Ok f -> checked f g ->
  st_ok st -> enters st t sp_id arg_id -> (forall k, crun w ar p k 0 st clean <> None) -> returns w bi g t r mm k ->
  exists j st' d, crun w ar p j 0 st clean = Some (IExit r st', d) /\ mem st' = mm /\ ncall st' = k.
Proof. exact checked_only. Qed.
Print Assumptions C78_only_partial.
(** A program with a loop, which it leaves when the helper returns 5. *)
Example C78_same_applies : let s := L_LiftWit.st_of 64 0 0 0 0 (fun _ => 0%Z) in let f := lift_of w_wait in
  liftable w_wait /\ (forall j i, at_pos w_wait j i -> SpecLift.plain ar_table i) /\ L_LiftMain.agrees ar_table /\ respects (w_one 5) ar_table /\ lift pk pk w_wait = Ok f /\
  st_ok s /\ enters s (L_LiftWit.sst_of s) sp_id arg_id /\
  match crun (w_one 5) ar_table w_wait 10 0 s clean with Some (IExit r _, _) => r = 5%Z | _ => False end /\
  (exists g, counter_fast 20 [1; 2; 3] f = Ok g /\ checked f g) /\
  (exists g, counter_accurate 20 [1; 2; 3] f = Ok g /\ checked f g).
Proof.
  intros s f. destruct w_wait_ok as (P & L). split; [exact P|]. split; [apply plain_chk_ok; vm_compute; reflexivity|]. split; [exact ar_agrees|]. split; [apply w_one_respects|].
  split; [exact L|]. split; [apply L_LiftWit.st_of_ok; vm_compute; reflexivity|]. split; [apply enters_of|]. split; [vm_compute; reflexivity|].
  assert (E1 : counter_fast 20 [1; 2; 3] f = Ok (after (counter_fast 20 [1; 2; 3] f))) by (apply after_ok; vm_compute; reflexivity).
  assert (E2 : counter_accurate 20 [1; 2; 3] f = Ok (after (counter_accurate 20 [1; 2; 3] f))) by (apply after_ok; vm_compute; reflexivity).
  split; eexists; (split; [eassumption|]).
  - apply (ck_fast _ _ 20 [1; 2; 3]); [exact (proj2 (proj2 (proj2 (proj2 (proj2 (proj2 (lift_all_meet _ _ _ _ P L)))))))|apply wait_free|exact E1].
  - apply (ck_accurate _ _ 20 [1; 2; 3]); [apply wait_free|exact E2].
Qed.
Example C78_only_applies : let s := L_LiftWit.st_of 64 0 0 0 0 (fun _ => 0%Z) in (forall k, crun (w_one 5) ar_table w_wait k 0 s clean <> None) /\
  exists g m k, counter_fast 20 [1; 2; 3] (lift_of w_wait) = Ok g /\ returns (w_one 5) cnt5 g (L_LiftWit.sst_of s) 5 m k.
Proof.
  intros s. split.
  - destruct (crun (w_one 5) ar_table w_wait 10 0 s clean) as [[[| r s'|] d]|] eqn:E; try (exfalso; vm_compute in E; discriminate E). exact (exits_on _ _ _ 10 0 s clean r s' d E).
  - exists (after (counter_fast 20 [1; 2; 3] (lift_of w_wait))). destruct (ret_nc_in (w_one 5) cnt5 (after (counter_fast 20 [1; 2; 3] (lift_of w_wait))) 20 (L_LiftWit.sst_of s) 5 1) as (m & R); [vm_compute; reflexivity|].
    exists m, 1. split; [apply after_ok; vm_compute; reflexivity|]. exists 20. exact R.
Qed.
