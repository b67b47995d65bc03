(** Property C69: the inserted checks stop executions, they do not change them. *)
From Coq Require Import ZArith List Bool Arith Lia.
From Verif Require Import SpecWord SpecFlat SpecSsa SpecIr SpecEdit SpecPass SpecStrict SpecInstr SpecWeave M_Base M_Ir M_Edit M_EditHist M_Pass
  L_PassWit L_InstrWit L_Weave L_WeaveDiv L_WeaveCount L_WeaveWit.
Import ListNotations.
Open Scope nat_scope.

(** ** Division *)
(** The instrumented function returns what the function returns, with the same memory and the same helper
    calls, or it throws. *)
Theorem C69_division_partial : forall bi reach f g, cfg_ok f -> phis_first f -> operands_live f -> divisions_apart f -> div_by_zero reach f = Ok g ->
  transparent bi f g.
Proof. exact div_by_zero_transparent. Qed.
Print Assumptions C69_division_partial.
Example C69_division_applies : cfg_ok dv /\ phis_first dv /\ operands_live dv /\ divisions_apart dv /\
  exists g, div_by_zero [1] dv = Ok g /\ throws (w_one 0) cnt5 g s_zero /\ (exists m, returns_in (w_one 3) cnt5 g 2 s_zero 4 m 1) /\
    exists m, returns_in (w_one 3) cnt5 dv 1 s_zero 4 m 1.
Proof.
  destruct dv_ok as (A & B & C & D). do 4 (split; [assumption|]). exists (after (div_by_zero [1] dv)). split; [apply after_ok; vm_compute; reflexivity|].
  split; [apply (end_throw _ _ _ 2); vm_compute; reflexivity|]. split; apply ret_nc_in; vm_compute; reflexivity.
Qed.
(** It throws only where the function throws or divides by zero. *)
Theorem C69_division_throws_partial : forall reach f g, cfg_ok f -> phis_first f -> operands_live f -> divisions_apart f -> div_by_zero reach f = Ok g ->
  forall w bi s0, throws w bi g s0 -> throws w bi f s0 \/ divides_by_zero w bi f s0.
Proof. exact div_by_zero_throws. Qed.
Print Assumptions C69_division_throws_partial.

(** ** The instruction counter *)
Theorem C69_fast_partial : forall limit reach f g bi, cfg_ok f -> operands_live f -> explored f reach -> phi_free f (f_entry f) -> apart_after f (meets f) ->
  counter_fast limit reach f = Ok g -> transparent bi f g.
Proof. exact fast_transparent. Qed.
Print Assumptions C69_fast_partial.
Theorem C69_accurate_partial : forall limit reach f g bi, cfg_ok f -> operands_live f -> unmarked f -> phi_free f (f_entry f) ->
  apart_after f (fun b => exists m, In m (succs_of f b) /\ (meets f m \/ m = f_entry f)) -> counter_accurate limit reach f = Ok g -> transparent bi f g.
Proof. exact accurate_transparent. Qed.
Print Assumptions C69_accurate_partial.
(** An execution that ends within [n] blocks is not stopped if [n] times the count of a block is within
    the limit. *)
Theorem C69_fast_within_partial : forall limit reach f g bi, cfg_ok f -> operands_live f -> explored f reach -> phi_free f (f_entry f) -> apart_after f (meets f) ->
  counter_fast limit reach f = Ok g -> (0 <= bi B_INSN_COUNT)%Z -> (0 <= limit)%Z -> (limit + bi B_INSN_COUNT < 2 ^ 32)%Z ->
  forall w n s0 r m k, (Z.of_nat n * bi B_INSN_COUNT <= limit)%Z -> returns_in w bi f n s0 r m k -> returns w bi g s0 r m k.
Proof. exact fast_within. Qed.
Print Assumptions C69_fast_within_partial.
Theorem C69_accurate_within_partial : forall limit reach f g bi, cfg_ok f -> operands_live f -> unmarked f -> phi_free f (f_entry f) ->
  apart_after f (fun b => exists m, In m (succs_of f b) /\ (meets f m \/ m = f_entry f)) -> counter_accurate limit reach f = Ok g ->
  (0 <= bi B_INSN_COUNT)%Z -> (0 <= limit)%Z -> (limit + bi B_INSN_COUNT < 2 ^ 32)%Z ->
  forall w n s0 r m k, (Z.of_nat n * bi B_INSN_COUNT <= limit)%Z -> returns_in w bi f n s0 r m k -> returns w bi g s0 r m k.
Proof. exact accurate_within. Qed.
Print Assumptions C69_accurate_within_partial.
Example C69_counter_applies : cfg_ok loop /\ operands_live loop /\ explored loop [1; 2; 3] /\ unmarked loop /\ phi_free loop (f_entry loop) /\
  (forall P, apart_after loop P) /\ meets loop 2 /\
  (exists g, counter_fast 20 [1; 2; 3] loop = Ok g /\ throws (w_one 1) cnt5 g s_zero) /\
  (exists g, counter_accurate 20 [1; 2; 3] loop = Ok g /\ throws (w_one 1) cnt5 g s_zero) /\
  (Z.of_nat 3 * cnt5 B_INSN_COUNT <= 20)%Z /\ (20 + cnt5 B_INSN_COUNT < 2 ^ 32)%Z /\ exists m, returns_in (w_one 0) cnt5 loop 3 s_zero 0 m 1.
Proof.
  destruct loop_cfg as (A & B & C & D & E). do 4 (split; [assumption|]). split; [apply loop_free|]. split; [intros P; apply free_after; exact loop_free|].
  split; [unfold meets; vm_compute; auto|].
  split; [exists (after (counter_fast 20 [1; 2; 3] loop)); split; [apply after_ok; vm_compute; reflexivity|apply (end_throw _ _ _ 11); vm_compute; reflexivity]|].
  split; [exists (after (counter_accurate 20 [1; 2; 3] loop)); split; [apply after_ok; vm_compute; reflexivity|apply (end_throw _ _ _ 10); vm_compute; reflexivity]|].
  split; [unfold cnt5; lia|]. split; [reflexivity|]. apply ret_nc_in. vm_compute. reflexivity.
Qed.

(** ** The full statement is false *)
(** The phis behind a block that is split still name the block, not its new second half: the function
    returns, the instrumented one does not get past the phis. *)
Theorem C69_division_phi_refuted : exists f g reach w bi s0 r m k n, cfg_ok f /\ phis_first f /\ operands_live f /\ div_by_zero reach f = Ok g /\
  returns w bi f s0 r m k /\ srun w bi g n 0 (f_entry g) s0 = None.
Proof.
  destruct div_phi_ok as (A & B & C). destruct (ret_nc_in (w_one 3) cnt5 div_phi 2 s_zero 4 1) as (m & R); [vm_compute; reflexivity|].
  exists div_phi, (after (div_by_zero [1; 2] div_phi)), [1; 2], (w_one 3), cnt5, s_zero, 4%Z, m, 1, 3. do 3 (split; [assumption|]).
  split; [apply after_ok; vm_compute; reflexivity|]. split; [exists 2; exact R|]. apply end_stuck. vm_compute. reflexivity.
Qed.
Print Assumptions C69_division_phi_refuted.
Theorem C69_fast_phi_refuted : exists f g reach limit w bi s0 r m k n, cfg_ok f /\ phis_first f /\ operands_live f /\ explored f reach /\ phi_free f (f_entry f) /\
  counter_fast limit reach f = Ok g /\ returns w bi f s0 r m k /\ srun w bi g n 0 (f_entry g) s0 = None.
Proof.
  destruct loop_phi_ok as (A & B & C & D & E & F). destruct (ret_nc_in (w_one 0) cnt5 loop_phi 4 s_zero 0 2) as (m & R); [vm_compute; reflexivity|].
  exists loop_phi, (after (counter_fast 100 [1; 2; 3] loop_phi)), [1; 2; 3], 100%Z, (w_one 0), cnt5, s_zero, 0%Z, m, 2, 5. do 3 (split; [assumption|]).
  do 2 (split; [assumption|]). split; [apply after_ok; vm_compute; reflexivity|]. split; [exists 4; exact R|]. apply end_stuck. vm_compute. reflexivity.
Qed.
Print Assumptions C69_fast_phi_refuted.
Theorem C69_accurate_phi_refuted : exists f g reach limit w bi s0 r m k n, cfg_ok f /\ phis_first f /\ operands_live f /\ unmarked f /\ phi_free f (f_entry f) /\
  counter_accurate limit reach f = Ok g /\ returns w bi f s0 r m k /\ srun w bi g n 0 (f_entry g) s0 = None.
Proof.
  destruct loop_phi_ok as (A & B & C & D & E & F). destruct (ret_nc_in (w_one 0) cnt5 loop_phi 4 s_zero 0 2) as (m & R); [vm_compute; reflexivity|].
  exists loop_phi, (after (counter_accurate 100 [1; 2; 3] loop_phi)), [1; 2; 3], 100%Z, (w_one 0), cnt5, s_zero, 0%Z, m, 2, 5. do 3 (split; [assumption|]).
  do 2 (split; [assumption|]). split; [apply after_ok; vm_compute; reflexivity|]. split; [exists 4; exact R|]. apply end_stuck. vm_compute. reflexivity.
Qed.
Print Assumptions C69_accurate_phi_refuted.
