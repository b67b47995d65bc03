(** C78: programs and the checks that are added to them. *)
From Coq Require Import ZArith List Bool Arith Lia.
From Verif Require Import SpecWord SpecIsa SpecFlat SpecSsa SpecLift SpecIr SpecEdit SpecPass SpecStrict SpecInstr SpecWeave M_Base M_Ir M_Edit M_EditHist M_Lift M_Pass M_Tag SpecTag
  L_PassWit L_Div L_CountRun L_InstrWit L_WeaveWit L_PipeWit L_LiftCfg.
Import ListNotations.
Open Scope nat_scope.

(** What the passes that add checks ask for holds of every function that comes from a program. *)
Theorem C78_meets : forall p m n f, liftable p -> lift m n p = Ok f ->
  cfg_ok f /\ phis_first f /\ operands_live f /\ unmarked f /\ entry_apart f /\ phi_free f (f_entry f) /\ explored f (f_all f).
Proof. exact lift_all_meet. Qed.
Print Assumptions C78_meets.
(** So with the instruction counter every execution of every program ends, by a return, by a throw, or
    because it is stuck. *)
Theorem C78_fast_ends_partial : forall p m n f limit reach g bi, liftable p -> lift m n p = Ok f -> explored f reach -> counter_fast limit reach f = Ok g ->
  (1 <= bi B_INSN_COUNT)%Z -> (0 <= limit)%Z -> (limit + bi B_INSN_COUNT < 2 ^ 32)%Z -> ends_within bi g (Z.to_nat limit + 1 + (Z.to_nat limit + 2) * f_nb g).
Proof. exact lift_fast_ends. Qed.
Print Assumptions C78_fast_ends_partial.
Theorem C78_accurate_ends_partial : forall p m n f limit reach g bi, liftable p -> lift m n p = Ok f -> explored f reach -> counter_accurate limit reach f = Ok g ->
  (1 <= bi B_INSN_COUNT)%Z -> (0 <= limit)%Z -> (limit + bi B_INSN_COUNT < 2 ^ 32)%Z -> ends_within bi g (Z.to_nat limit + 1 + (Z.to_nat limit + 2) * f_nb g).
Proof. exact lift_accurate_ends. Qed.
Print Assumptions C78_accurate_ends_partial.
(** A program that loops as long as the helper does not return 5, and is stopped when it has a counter. *)
Example C78_applies : liftable w_wait /\ exists f, lift pk pk w_wait = Ok f /\ explored f [1; 2; 3] /\ end_of (w_one 1) cnt5 f 30 = 1 /\
  (exists g, counter_fast 20 [1; 2; 3] f = Ok g /\ end_of (w_one 1) cnt5 g 10 = 1 /\ end_of (w_one 1) cnt5 g 11 = 3) /\
  (exists g, counter_accurate 20 [1; 2; 3] f = Ok g /\ end_of (w_one 1) cnt5 g 8 = 1 /\ end_of (w_one 1) cnt5 g 9 = 3) /\
  (1 <= cnt5 B_INSN_COUNT)%Z /\ (20 + cnt5 B_INSN_COUNT < 2 ^ 32)%Z.
Proof.
  destruct w_wait_ok as (P & L). split; [exact P|]. exists (lift_of w_wait). split; [exact L|]. split; [exact (proj2 (proj2 (proj2 (proj2 (proj2 (proj2 (lift_all_meet _ _ _ _ P L)))))))|].
  split; [vm_compute; reflexivity|]. split; [exists (after (counter_fast 20 [1; 2; 3] (lift_of w_wait))); split; [apply after_ok; vm_compute; reflexivity|split; vm_compute; reflexivity]|].
  split; [exists (after (counter_accurate 20 [1; 2; 3] (lift_of w_wait))); split; [apply after_ok; vm_compute; reflexivity|split; vm_compute; reflexivity]|].
  unfold cnt5. split; [lia|reflexivity].
Qed.
(** With the division check no division by a computed value that is not the first instruction of its block
    is executed when the divisor is zero as a 64-bit value. *)
Theorem C78_division_partial : forall p m n f reach g, liftable p -> lift m n p = Ok f -> div_by_zero reach f = Ok g ->
  cfg_ok g /\ phis_first g /\ forall i x d, division f i x d -> In (i_parent x) reach ->
  forall w bi s0 s z, reaches w bi g s0 i s -> seval bi (s_env s) d = Some z -> trunc true z <> 0%Z.
Proof. exact lift_div_checked. Qed.
Print Assumptions C78_division_partial.
Example C78_division_applies : liftable w_div /\ exists f, lift pk pk w_div = Ok f /\ (exists x d, division f 8 x d /\ i_parent x = 1) /\
  exists g, div_by_zero [1] f = Ok g /\ end_of (w_one 0) cnt5 g 2 = 3 /\ end_of (w_one 3) cnt5 g 2 = 2.
Proof.
  destruct w_div_ok as (P & L). split; [exact P|]. exists (lift_of w_div). split; [exact L|]. split.
  - exists (get_or (insn0 0) (f_insn (lift_of w_div) 8)), (val_insn 7). split; [|vm_compute; reflexivity].
    constructor; [vm_compute; reflexivity|vm_compute; reflexivity|eexists _, []; vm_compute; reflexivity|exists 7; reflexivity|exists [], 7, [9]; vm_compute; reflexivity].
  - exists (after (div_by_zero [1] (lift_of w_div))). split; [apply after_ok; vm_compute; reflexivity|split; vm_compute; reflexivity].
Qed.
(** The numbers of C77 for every program. *)
Theorem C77_lifted : forall p m n f, liftable p -> lift m n p = Ok f ->
  forall fuel s, List.length (f_all f) < fuel -> exists s', tag_ir fuel f s = Ok s' /\ numbered f s'.
Proof. exact lift_numbers. Qed.
Print Assumptions C77_lifted.
(** A program that counts to 3 returns; with a counter that is far from its limit it does not: the new
    block between the loop and its head is not among the predecessors the phi knows. *)
Theorem C78_fast_refuted : exists p f g w s0 r m k n, liftable p /\ lift pk pk p = Ok f /\ counter_fast 1000 (f_all f) f = Ok g /\
  returns w cnt5 f s0 r m k /\ srun w cnt5 g n 0 (f_entry g) s0 = None.
Proof.
  destruct w_loop_ok as (P & L). destruct (ret_nc_in (w_one 1) cnt5 (lift_of w_loop) 5 s_zero 3 0) as (m & R); [vm_compute; reflexivity|].
  exists w_loop, (lift_of w_loop), (after (counter_fast 1000 (f_all (lift_of w_loop)) (lift_of w_loop))), (w_one 1), s_zero, 3%Z, m, 0, 10.
  split; [exact P|]. split; [exact L|]. split; [apply after_ok; vm_compute; reflexivity|]. split; [exists 5; exact R|]. apply end_stuck. vm_compute. reflexivity.
Qed.
Print Assumptions C78_fast_refuted.
Theorem C78_accurate_refuted : exists p f g w s0 r m k n, liftable p /\ lift pk pk p = Ok f /\ counter_accurate 1000 (f_all f) f = Ok g /\
  returns w cnt5 f s0 r m k /\ srun w cnt5 g n 0 (f_entry g) s0 = None.
Proof.
  destruct w_loop_ok as (P & L). destruct (ret_nc_in (w_one 1) cnt5 (lift_of w_loop) 5 s_zero 3 0) as (m & R); [vm_compute; reflexivity|].
  exists w_loop, (lift_of w_loop), (after (counter_accurate 1000 (f_all (lift_of w_loop)) (lift_of w_loop))), (w_one 1), s_zero, 3%Z, m, 0, 10.
  split; [exact P|]. split; [exact L|]. split; [apply after_ok; vm_compute; reflexivity|]. split; [exists 5; exact R|]. apply end_stuck. vm_compute. reflexivity.
Qed.
Print Assumptions C78_accurate_refuted.
(** A program whose division is the first instruction of its block divides by zero in spite of the check. *)
Theorem C78_division_refuted : exists p f g i, liftable p /\ lift pk pk p = Ok f /\ div_by_zero (f_all f) f = Ok g /\ by_zero DIV true cnt5 g i.
Proof.
  destruct w_first_ok as (P & L). exists w_first, (lift_of w_first), (after (div_by_zero (f_all (lift_of w_first)) (lift_of w_first))), 9.
  split; [exact P|]. split; [exact L|]. split; [apply after_ok; vm_compute; reflexivity|]. apply (zerob_ok _ _ _ (w_one 0) s_zero _ 1). vm_compute. reflexivity.
Qed.
Print Assumptions C78_division_refuted.
