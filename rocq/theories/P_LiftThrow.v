(** C78: programs with checks, after throws have become returns. *)
From Coq Require Import ZArith List Bool Arith Lia.
From Verif Require Import SpecWord SpecIsa SpecFlat SpecCfg SpecSsa SpecLift SpecLiftOne SpecIr SpecEdit SpecPass SpecStrict SpecInstr SpecWeave M_Base M_Ir M_Edit M_EditHist M_Lift M_Pass SpecChecked
  L_LiftMain L_PassWit L_InstrWit L_PipeWit L_LiftCfg L_LiftThrow.
Import ListNotations.
Open Scope nat_scope.

(** What the bytecode returns the final function returns, with the same memory and the same helper calls,
    or it returns 1 because a check failed. *)
Theorem C78_thrown_partial : forall w bi ar p m n f g h reach st t k r st' d,
  liftable p -> (forall j i, at_pos p j i -> SpecLift.plain ar i) -> L_LiftMain.agrees ar -> respects w ar -> lift m n p = Ok f -> checked f g ->
  translate_throw reach g = Ok h -> closed g reach -> In (f_entry g) reach ->
  (forall b i x, In b reach -> In i (insns_of g b) -> f_insn g i = Some x -> i_op x = THROW -> i_vals x = []) ->
  st_ok st -> enters st t sp_id arg_id -> crun w ar p k 0 st clean = Some (IExit r st', d) ->
  returns w bi h t r (mem st') (ncall st') \/ exists mm q, returns w bi h t 1 mm q.
Proof. exact checked_thrown. Qed.
Print Assumptions C78_thrown_partial.
(** Turning throws into returns keeps the bound on executions. *)
Theorem C78_thrown_ends : forall reach g h, translate_throw reach g = Ok h -> closed g reach -> In (f_entry g) reach ->
  (forall b i x, In b reach -> In i (insns_of g b) -> f_insn g i = Some x -> i_op x = THROW -> i_vals x = []) ->
  forall bi N, ends_within bi g N -> ends_within bi h N.
Proof. exact thr_ends. Qed.
Print Assumptions C78_thrown_ends.
(** The waiting program of [C78_applies]: stopped by the counter it returns 1, otherwise what the helper
    returned. *)
Example C78_thrown_applies : exists g h reach, counter_fast 20 [1; 2; 3] (lift_of w_wait) = Ok g /\ translate_throw reach g = Ok h /\ closed g reach /\ In (f_entry g) reach /\
  (forall b i x, In b reach -> In i (insns_of g b) -> f_insn g i = Some x -> i_op x = THROW -> i_vals x = []) /\
  ret_of (srun (w_one 1) cnt5 h 20 0 (f_entry h) s_zero) = Some 1%Z /\ ret_of (srun (w_one 5) cnt5 h 20 0 (f_entry h) s_zero) = Some 5%Z.
Proof.
  set (g := after (counter_fast 20 [1; 2; 3] (lift_of w_wait))). set (h := after (translate_throw (f_all g) g)). exists g, h, (f_all g).
  split; [apply after_ok; vm_compute; reflexivity|]. split; [apply after_ok; vm_compute; reflexivity|]. split; [apply closedb_ok; vm_compute; reflexivity|]. split; [vm_compute; tauto|]. split.
  - intros b i x B I X O. assert (Q : forallb (fun b => forallb (fun i => match f_insn g i with Some x => negb (iop_eqb (i_op x) THROW) || (length (i_vals x) =? 0) | None => true end) (insns_of g b)) (f_all g) = true) by (vm_compute; reflexivity).
    rewrite forallb_forall in Q. specialize (Q b B). rewrite forallb_forall in Q. specialize (Q i I). rewrite X, O in Q. cbn in Q. destruct (i_vals x); [reflexivity|discriminate Q].
  - split; vm_compute; reflexivity.
Qed.
