(** The lifter on well-formed programs. *)
From Coq Require Import ZArith List Bool Arith Lia.
From Verif Require Import M_Base M_Ir M_Edit SpecWord SpecIsa SpecFlat M_GenBB SpecCfg M_Lift SpecSsa SpecLift SpecGuard L_Guard
  L_Word L_Edit L_GenBB L_Lift L_LiftRead L_LiftFill L_LiftDfs L_LiftSim L_LiftRun.
Import ListNotations.
Open Scope nat_scope.

Section Main.
Variable p : list bpf_insn.
Hypothesis W : wf_prog p.
Hypothesis Len : (Z.of_nat (length p) <= 32768)%Z.
Hypothesis No0 : ~ jump_target p 0.
Variable bs : list pblock.
Hypothesis Hbo : blocks_of p bs.
Hypothesis Heo : edges_of p bs.

Lemma bs_ne : bs <> [].
Proof. destruct (bo_entry _ _ Hbo) as (b & H & _). intros ->. discriminate. Qed.
Lemma in_range c : c < length bs -> exists B, blk bs (S c) = Some B /\ In B bs.
Proof.
  intros H. cbn. destruct (nth_error bs c) eqn:E; [|apply nth_error_None in E; lia].
  exists p0. split; [reflexivity | eapply nth_error_In; eauto].
Qed.
Lemma block_span B : In B bs -> pb_start B < pb_end B /\ exists i, at_pos p (pb_start B) i /\ b_code i <> 0%Z.
Proof.
  intros I. destruct (bo_code _ _ Hbo B I) as [C N].
  inversion C as [s0 E1 E2 E3 | s0 e0 i i' l A Q1 Q2 Q3 K E1 E2 E3 | s0 e0 i j l A Q1 Q2 Q3 K E1 E2 E3]; subst.
  - congruence.
  - pose proof (code_of_le _ _ _ _ K). split; [lia | eauto].
  - pose proof (code_of_le _ _ _ _ K). split; [lia|]. exists i. split; [assumption | lia].
Qed.
Lemma block_last B : In B bs -> exists q i, last_pos B q /\ at_pos p q i /\ pb_start B <= q < pb_end B /\ b_code i <> 0%Z /\
  ((b_code i <> 24%Z /\ S q = pb_end B) \/ (b_code i = 24%Z /\ S (S q) = pb_end B)).
Proof.
  intros I. destruct (block_span B I) as [L _]. destruct (bo_code _ _ Hbo B I) as [C N].
  destruct (code_of_last _ _ _ _ C L) as (l0 & x & i & E & A & Lx & Nz & Ee). exists (pi_pos x), i.
  split; [exists l0, x; auto|]. repeat split; auto; lia.
Qed.

Lemma main_pred b pb q : blk bs b = Some pb -> In q (pb_preds pb) -> blk bs (S q) <> None.
Proof.
  intros B H. destruct b as [|b]; [discriminate|]. apply nth_error_In in B.
  destruct (in_range q) as (X & -> & _); [|discriminate]. apply (eo_range _ _ Heo pb q B). auto.
Qed.
Lemma main_succ b pb q : blk bs b = Some pb -> In q (pb_succs pb) -> blk bs (S q) <> None.
Proof.
  intros B H. destruct b as [|b]; [discriminate|]. apply nth_error_In in B.
  destruct (in_range q) as (X & -> & _); [|discriminate]. apply (eo_range _ _ Heo pb q B). auto.
Qed.
Lemma main_mir a c A C : blk bs (S a) = Some A -> blk bs (S c) = Some C -> (In c (pb_succs A) <-> In a (pb_preds C)).
Proof. intros HA HC. symmetry. apply (eo_pred _ _ Heo a c A C HA HC). Qed.

Lemma main_entry pb : blk bs 1 = Some pb -> pb_preds pb = [].
Proof.
  intros B. destruct (bo_entry _ _ Hbo) as (b0 & E0 & S0). change (nth_error bs 0 = Some pb) in B. assert (b0 = pb) by congruence. subst b0.
  destruct (pb_preds pb) as [|a l] eqn:Ep; [reflexivity|]. exfalso.
  assert (Ia : In a (pb_preds pb)) by (rewrite Ep; now left).
  destruct (in_range a) as (A & BA & IA); [apply (eo_range _ _ Heo pb a); [eapply nth_error_In; eauto | auto]|].
  pose proof (proj1 (eo_pred _ _ Heo a 0 A pb BA B) Ia) as Hs.
  destruct (block_last A IA) as (q & i & Lp & Aq & _ & Nz & _).
  pose proof (proj1 (eo_succ _ _ Heo a 0 A pb q i BA B Lp Aq) Hs) as Hn. rewrite S0 in Hn. unfold next_pcs in Hn.
  destruct (Z.eqb_spec (b_code i) 5) as [X|X].
  { destruct Hn as [Hn|[]]. apply No0. exists q, i. split; [exact Aq|]. split; [auto | lia]. }
  destruct (two_way (b_code i)) eqn:Tw.
  { destruct Hn as [Hn|[Hn|[]]]; [|lia]. apply No0. exists q, i. split; [exact Aq|]. split; [auto | lia]. }
  destruct (b_code i =? 0x95)%Z; [destruct Hn|]. destruct (b_code i =? 24)%Z; destruct Hn as [Hn|[]]; lia.
Qed.

(** a block contains every reachable instruction *)
Lemma reach_path t : reach p t -> exists n b pb q i, path bs n b /\ blk bs b = Some pb /\ t = Z.of_nat q /\
  pb_start pb <= q < pb_end pb /\ at_pos p q i /\ b_code i <> 0%Z.
Proof.
  induction 1 as [|pc i t _ IH F Ht].
  - destruct (bo_entry _ _ Hbo) as (b0 & E0 & S0). destruct (block_span b0) as (L & i & A & N); [eapply nth_error_In; eauto|].
    exists 0, 1, b0, 0, i. rewrite S0 in *. repeat split; auto; try lia. constructor.
  - destruct IH as (n & b & pb & q & i' & P & B & -> & R & A & N).
    assert (i' = i).
    { unfold fetch in F. destruct (Z.ltb_spec (Z.of_nat q) 0); [lia|]. rewrite Nat2Z.id in F. unfold at_pos in A. congruence. }
    subst i'. destruct (wf_next _ W q i t A N Ht) as (k & i2 & -> & A2 & N2).
    destruct (blk_in _ _ _ B) as (Ib & Eb & Nb).
    destruct (block_last pb Ib) as (ql & il & Lp & Al & Rl & Nl & El).
    destruct (Nat.eq_dec q ql) as [->|Nq].
    + assert (il = i) by (unfold at_pos in *; congruence). subst il.
      destruct (eo_total _ _ Heo pb ql i _ Ib Lp A Ht) as (B' & IB & SB). apply In_nth_error in IB as [c IB].
      assert (Hc : In c (pb_succs pb)). { apply (eo_succ _ _ Heo _ _ _ _ _ _ Nb IB Lp A). rewrite <- SB. exact Ht. }
      exists (S n), (S c), B', k, i2. split; [econstructor; eauto|]. split; [exact IB|]. split; [reflexivity|].
      assert (k = pb_start B') by lia. subst k. destruct (block_span B' (nth_error_In _ _ IB)) as [L _].
      split; [lia | auto].
    + assert (NJ : ~ (b_code i = 5%Z \/ b_code i = 0x95%Z \/ two_way (b_code i) = true)).
      { intros J. pose proof (bo_last _ _ Hbo pb q i Ib A R J) as E. destruct El as [[El1 El2]|[El1 El2]]; [lia|].
        assert (q = S ql) by lia. subst q. destruct (wf_wide _ W ql il Al El1) as (i3 & A3 & C3). unfold at_pos in *. congruence. }
      assert (Lq : q < ql).
      { destruct El as [[El1 El2]|[El1 El2]]; [lia|]. destruct (Nat.eq_dec q (S ql)) as [->|]; [|lia].
        destruct (wf_wide _ W ql il Al El1) as (i3 & A3 & C3). unfold at_pos in *. congruence. }
      exists n, b, pb, k, i2. split; [exact P|]. split; [exact B|]. split; [reflexivity|]. split; [|auto].
      unfold next_pcs in Ht. destruct (Z.eqb_spec (b_code i) 5) as [X|_]; [tauto|].
      destruct (two_way (b_code i)); [tauto|]. destruct (Z.eqb_spec (b_code i) 0x95) as [X|_]; [tauto|].
      destruct (Z.eqb_spec (b_code i) 24) as [X|_]; destruct Ht as [Ht|[]]; [|lia].
      destruct (Nat.eq_dec ql (S q)) as [->|]; [|lia].
      destruct (wf_wide _ W q i A X) as (i3 & A3 & C3). unfold at_pos in *. congruence.
Qed.

Lemma main_reach : all_reach p -> forall b pb, blk bs b = Some pb -> exists n, path bs n b.
Proof.
  intros Ra b pb B. destruct (blk_in _ _ _ B) as (Ib & Eb & Nb).
  destruct (block_span pb Ib) as (L & i & A & N).
  destruct (reach_path _ (Ra _ _ A N)) as (n & b' & pb' & q & i' & P & B' & Eq & R & _). exists n.
  assert (q = pb_start pb) by lia. subst q.
  destruct (blk_in _ _ _ B') as (Ib' & Eb' & Nb').
  assert (Bd : boundary p (pb_start pb)) by (apply (bo_start _ _ Hbo), in_map; exact Ib).
  assert (Es : pb_start pb' = pb_start pb).
  { destruct (Nat.eq_dec (pb_start pb') (pb_start pb)) as [|Ne]; [assumption|].
    pose proof (bo_inner _ _ Hbo pb' _ Ib' Bd ltac:(lia)). lia. }
  assert (E : Nat.pred b' = Nat.pred b).
  { pose proof (proj1 (NoDup_nth_error (map pb_start bs)) (bo_once _ _ Hbo)) as U. apply U.
    - rewrite map_length. apply nth_error_Some. congruence.
    - rewrite !nth_error_map, Nb, Nb'. cbn. congruence. }
  rewrite Eb, <- E, <- Eb'. exact P.
Qed.

Lemma main_filled m n s : all_reach p -> lift_blocks m n bs = Ok s ->
  exists e dn, inv bs e dn noX s /\ (forall b pb, blk bs b = Some pb -> l_fill s b = true) /\
    (forall b pb, blk bs b = Some pb -> l_seal s b = true).
Proof.
  intros Ra H. destruct (lift_blocks_ok bs main_pred main_succ main_mir main_entry m n s bs_ne H) as ((e & dn & I & _) & F1 & Fs & Se).
  assert (Pf : forall k b, path bs k b -> l_fill s b = true).
  { induction 1; [exact F1 | eapply Fs; eauto]. }
  assert (Fa : forall b pb, blk bs b = Some pb -> l_fill s b = true).
  { intros b pb B. destruct (main_reach Ra b pb B) as [k P]. eauto. }
  exists e, dn. split; [exact I|]. split; [exact Fa|]. intros b pb B. eapply Se; eauto.
  intros q Hq. pose proof (main_pred b pb q B Hq) as X. destruct (blk bs (S q)) eqn:E; [eauto | congruence].
Qed.
End Main.

Definition agrees (ar : arity_table) : Prop :=
  forall id k, ar id = Some k -> nth_error helper_args (Z.to_nat id) = Some (Z.of_nat k).

Section Sem.
Variables (w : world) (bi : bconst -> Z) (ar : arity_table) (p : list bpf_insn) (m n : nat) (f : func).
Hypothesis W : wf_prog p.
Hypothesis Len : (Z.of_nat (length p) <= 32768)%Z.
Hypothesis No0 : ~ jump_target p 0.
Hypothesis Ra : all_reach p.
Hypothesis Hpl : forall j i, at_pos p j i -> plain ar i.
Hypothesis Har : agrees ar.
Hypothesis Hw : respects w ar.
Hypothesis Hl : lift m n p = Ok f.

Lemma lift_gexit1 Rg st t k r st' d : st_ok st -> enters st t sp_id arg_id ->
  gcrun Rg w ar p k 0 st clean = Some (IExit r st', d) ->
  exists k' t', gsrun Rg w bi f k' 0 1 t = Some (ORet r t') /\ s_mem t' = mem st' /\ s_nc t' = ncall st'.
Proof.
  intros O En Hc. destruct (gen_bb_ok p W Len No0) as (bs & Hg & Hbo & Heo).
  unfold lift in Hl. rewrite Hg in Hl. cbn [bind] in Hl. destruct (lift_blocks m n bs) as [s| | | |] eqn:Lb; try discriminate. injection Hl as <-.
  destruct (main_filled p W No0 bs Hbo Heo m n s Ra Lb) as (e & dn & I & F & Sl).
  destruct (bo_entry _ _ Hbo) as (b0 & E0 & S0).
  eapply (run_exit Rg w bi ar p bs Har Hw Hpl Hbo Heo s e dn I F); eauto using main_entry, main_reach.
  - eapply ent_start; eauto using main_entry, main_reach, bs_ne.
  - rewrite S0. exact Hc.
Qed.
Lemma lift_exit1 st t k r st' d : st_ok st -> enters st t sp_id arg_id ->
  crun w ar p k 0 st clean = Some (IExit r st', d) ->
  exists k' t', srun w bi f k' 0 1 t = Some (ORet r t') /\ s_mem t' = mem st' /\ s_nc t' = ncall st'.
Proof.
  intros O En Hc. rewrite <- gcrun_nowhere in Hc. destruct (lift_gexit1 _ _ _ _ _ _ _ O En Hc) as (k' & t' & K & E). exists k', t'. now rewrite gsrun_nowhere in K.
Qed.
Lemma lift_any1 st t k : st_ok st -> enters st t sp_id arg_id ->
  (forall k, crun w ar p k 0 st clean <> None) ->
  (exists prev b t', srun w bi f k 0 1 t = Some (OAt prev b t')) \/
  (exists k' r st' d t', crun w ar p k' 0 st clean = Some (IExit r st', d) /\
     srun w bi f k 0 1 t = Some (ORet r t') /\ s_mem t' = mem st' /\ s_nc t' = ncall st').
Proof.
  intros O En Hc. destruct (gen_bb_ok p W Len No0) as (bs & Hg & Hbo & Heo).
  unfold lift in Hl. rewrite Hg in Hl. cbn [bind] in Hl. destruct (lift_blocks m n bs) as [s| | | |] eqn:Lb; try discriminate. injection Hl as <-.
  destruct (main_filled p W No0 bs Hbo Heo m n s Ra Lb) as (e & dn & I & F & Sl).
  destruct (bo_entry _ _ Hbo) as (b0 & E0 & S0).
  pose proof (run_any nowhere w bi ar p bs Har Hw Hpl Hbo Heo s e dn I F (fun b pb B _ => Sl b pb B)
    (main_entry p No0 bs Hbo Heo) (main_reach p W bs Hbo Heo Ra) k 0 1 t st clean b0) as K.
  rewrite S0 in K. setoid_rewrite gsrun_nowhere in K. setoid_rewrite gcrun_nowhere in K. apply K; auto.
  eapply ent_start; eauto using main_entry, main_reach, bs_ne.
Qed.
End Sem.
