(** Programs with checks, after throws have become returns. *)
From Coq Require Import ZArith List Bool Arith Lia.
From Verif Require Import SpecWord SpecIsa SpecFlat SpecCfg SpecSsa SpecLift SpecLiftOne SpecIr SpecEdit SpecPass SpecStrict SpecInstr SpecWeave M_Base M_Ir M_Edit M_EditHist M_Lift M_Pass SpecChecked
  L_LiftMain L_LiftSame L_PassWit.
Import ListNotations.
Open Scope nat_scope.

Section Thr.
Variables (reach : list nat) (g h : func).
Hypothesis H : translate_throw reach g = Ok h.
Hypothesis C : closed g reach.
Hypothesis E : In (f_entry g) reach.
Hypothesis V : forall b i x, In b reach -> In i (insns_of g b) -> f_insn g i = Some x -> i_op x = THROW -> i_vals x = [].
Lemma thr_returns w bi t r m k : returns w bi g t r m k -> returns w bi h t r m k.
Proof.
  intros (n & u & S & M). exists n, u. split; [|exact M]. rewrite (proj2 (throw_runs reach g h H C E V) w bi n t), S. reflexivity.
Qed.
Lemma thr_throws w bi t : throws w bi g t -> exists m k, returns w bi h t 1 m k.
Proof.
  intros (n & u & S). exists (s_mem u), (s_nc u), n, u. split; [|auto]. rewrite (proj2 (throw_runs reach g h H C E V) w bi n t), S. reflexivity.
Qed.
Lemma thr_ends bi N : ends_within bi g N -> ends_within bi h N.
Proof.
  intros G w s0 n prev b s S. rewrite (proj2 (throw_runs reach g h H C E V) w bi n s0) in S.
  destruct (srun w bi g n 0 (f_entry g) s0) as [[prev' b' s'| |]|] eqn:R; try discriminate S. exact (G w s0 n _ _ _ R).
Qed.
End Thr.
Theorem checked_thrown w bi ar p m n f g h reach st t k r st' d : liftable p -> (forall j i, at_pos p j i -> SpecLift.plain ar i) -> L_LiftMain.agrees ar -> respects w ar -> lift m n p = Ok f -> checked f g ->
  translate_throw reach g = Ok h -> closed g reach -> In (f_entry g) reach ->
  (forall b i x, In b reach -> In i (insns_of g b) -> f_insn g i = Some x -> i_op x = THROW -> i_vals x = []) ->
  st_ok st -> enters st t sp_id arg_id -> crun w ar p k 0 st clean = Some (IExit r st', d) ->
  returns w bi h t r (mem st') (ncall st') \/ exists mm q, returns w bi h t 1 mm q.
Proof.
  intros P Pl Ag Rs Hl Ck H C E V So En R. destruct (checked_exit w bi ar p m n f g st t k r st' d P Pl Ag Rs Hl Ck So En R) as [A|A].
  - left. exact (thr_returns reach g h H C E V w bi t r _ _ A).
  - right. exact (thr_throws reach g h H C E V w bi t A).
Qed.
