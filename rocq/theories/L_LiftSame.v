(** What a program does and what the function with checks does. *)
From Coq Require Import ZArith List Bool Arith Lia.
From Verif Require Import SpecWord SpecIsa SpecFlat SpecCfg SpecSsa SpecLift SpecLiftOne SpecIr SpecEdit SpecPass SpecStrict SpecInstr SpecWeave M_Base M_Ir M_Edit M_EditHist M_Lift M_Pass SpecChecked
  L_LiftMain L_LiftEx L_LiftWit L_PassWit L_InstrWit L_WeaveWit L_WeaveDiv L_WeaveCount L_PipeWit L_LiftCfg.
Import ListNotations.
Open Scope nat_scope.

Section Same.
Variables (w : world) (bi : bconst -> Z) (ar : arity_table) (p : list bpf_insn) (m n : nat) (f g : func).
Hypothesis P : liftable p.
Hypothesis Pl : forall j i, at_pos p j i -> SpecLift.plain ar i.
Hypothesis Ag : L_LiftMain.agrees ar.
Hypothesis Rs : respects w ar.
Hypothesis Hl : lift m n p = Ok f.
Hypothesis T : transparent bi f g.
Lemma same_exit st t k r st' d : st_ok st -> enters st t sp_id arg_id -> crun w ar p k 0 st clean = Some (IExit r st', d) ->
  returns w bi g t r (mem st') (ncall st') \/ throws w bi g t.
Proof.
  intros So En R. destruct P as [W Len No0 Ra]. destruct (lift_exit w bi ar p m n f st t k r st' d W Len No0 Ra Pl Ag Rs Hl So En R) as (k' & t' & S & M & N).
  apply (tp_all _ _ _ T). exists k', t'. auto.
Qed.
Lemma same_only st t r mm k : st_ok st -> enters st t sp_id arg_id -> (forall k, crun w ar p k 0 st clean <> None) -> returns w bi g t r mm k ->
  exists j st' d, crun w ar p j 0 st clean = Some (IExit r st', d) /\ mem st' = mm /\ ncall st' = k.
Proof.
  intros So En Ns G. apply (tp_only _ _ _ T) in G as (q & t1 & S & M & N). destruct P as [W Len No0 Ra].
  destruct (lift_any w bi ar p m n f st t q W Len No0 Ra Pl Ag Rs Hl So En Ns) as [(prev & b & t' & S')|(j & r' & st' & d & t' & C & S' & M' & N')]; [congruence|].
  rewrite S in S'. injection S' as <- <-. exists j, st', d. split; [exact C|]. split; congruence.
Qed.
End Same.
Lemma checked_transparent bi p m n f g : liftable p -> lift m n p = Ok f -> checked f g -> transparent bi f g.
Proof.
  intros P Hl C. destruct (lift_all_meet p m n f P Hl) as (A & B & D & E & F & G & _). destruct C as [limit reach X Y H|limit reach Y H|reach Y H].
  - exact (fast_transparent limit reach f g bi A D X G Y H).
  - exact (accurate_transparent limit reach f g bi A D E G Y H).
  - exact (div_by_zero_transparent bi reach f g A B D Y H).
Qed.
Theorem checked_exit w bi ar p m n f g st t k r st' d : liftable p -> (forall j i, at_pos p j i -> SpecLift.plain ar i) -> L_LiftMain.agrees ar -> respects w ar -> lift m n p = Ok f -> checked f g ->
  st_ok st -> enters st t sp_id arg_id -> crun w ar p k 0 st clean = Some (IExit r st', d) ->
  returns w bi g t r (mem st') (ncall st') \/ throws w bi g t.
Proof. intros P Pl Ag Rs Hl C. exact (same_exit w bi ar p m n f g P Pl Ag Rs Hl (checked_transparent bi p m n f g P Hl C) st t k r st' d). Qed.
Theorem checked_only w bi ar p m n f g st t r mm k : liftable p -> (forall j i, at_pos p j i -> SpecLift.plain ar i) -> L_LiftMain.agrees ar -> respects w ar -> lift m n p = Ok f -> checked f g ->
  st_ok st -> enters st t sp_id arg_id -> (forall k, crun w ar p k 0 st clean <> None) -> returns w bi g t r mm k ->
  exists j st' d, crun w ar p j 0 st clean = Some (IExit r st', d) /\ mem st' = mm /\ ncall st' = k.
Proof. intros P Pl Ag Rs Hl C. exact (same_only w bi ar p m n f g P Pl Ag Rs Hl (checked_transparent bi p m n f g P Hl C) st t r mm k). Qed.

Lemma w_one_respects z : respects (w_one z) ar_table.
Proof. intros id k a a' n m _ _ _ _. reflexivity. Qed.
Lemma wait_free : forall P, apart_after (lift_of w_wait) P.
Proof.
  intros P. destruct w_wait_ok as (L & H). destruct (lift_all_meet _ _ _ _ L H) as (C & _). apply free_after. apply no_phib_free; [exact (cf_fresh _ C)|vm_compute; reflexivity].
Qed.
(** an execution that exits is never stuck *)
Lemma exits_on w ar p : forall n pc s d r s' d', crun w ar p n pc s d = Some (IExit r s', d') -> forall k, crun w ar p k pc s d <> None.
Proof.
  induction n as [|n IH]; intros pc s d r s' d' E k; [discriminate E|]. destruct k as [|k]; [discriminate|]. cbn [crun] in E |- *.
  destruct (fetch p pc) as [i|]; [|discriminate E]. destruct (existsb d (reads ar i)); [discriminate E|]. destruct (isa_step w p pc s); try discriminate.
  exact (IH _ _ _ _ _ _ E k).
Qed.
