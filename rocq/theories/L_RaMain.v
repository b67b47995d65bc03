(** The analysis as a whole, and what an assignment computed from it satisfies. *)
From Verif Require Import M_Base M_Ir M_Edit M_Ra SpecIr SpecRa L_Edit L_RaGraph L_RaLive.
From Coq Require Import Permutation.
Open Scope nat_scope.

(** ** clean_cg_data *)
Definition bare (e : extra) : Prop := x_in e = [] /\ x_out e = [] /\ x_adj e = [] /\ x_lam e = 0 /\ x_w e = 0.
Definition calm (e : extra) : Prop := x_fin e = vp_alloc (x_pos e).

Lemma clean_one_ok s i e : c_ex s i = Some e -> calm e ->
  exists e', clean_one s i = Ok (put_ex s i e') /\ stat e' = stat e /\ bare e'.
Proof.
  intros H Q. unfold clean_one. rewrite H. eexists. split; [reflexivity|]. split; [|unfold bare; cbn; auto].
  unfold stat. cbn. unfold calm in Q. destruct (x_fin e) eqn:F; [reflexivity|].
  destruct (x_pos e) as [al sz rg sp]. cbn in *. subst al. reflexivity.
Qed.
Lemma stat_calm e e' : stat e' = stat e -> calm e -> calm e'.
Proof. intros H. apply stat_inj in H. destruct H as (_ & H2 & H3 & _). unfold calm. rewrite H2, H3. auto. Qed.

(** a fold that cleans the vertices of [l]; [g] may change the set of variables *)
Lemma clean_fold (g : cgs -> nat -> outcome cgs) (h : list nat -> nat -> list nat) l :
  (forall s i, g s i = clean_one (with_all (h (c_all s) i) s) i) ->
  forall s, (forall i, In i l -> exists e, c_ex s i = Some e /\ calm e) ->
  exists t, ofold g s l = Ok t /\ ssim s t /\ c_all t = fold_left h l (c_all s) /\
    (forall i e, In i l -> c_ex t i = Some e -> bare e) /\
    (forall i e, c_ex t i = Some e -> (In i l /\ bare e) \/ c_ex s i = Some e).
Proof.
  intros Hg. induction l as [|a r IH]; intros s H; cbn [ofold fold_left].
  - exists s. split; [reflexivity|]. split; [apply ssim_refl|]. split; [reflexivity|]. split; [intros ? ? []|auto].
  - destruct (H a (or_introl eq_refl)) as (e & He & Q).
    destruct (clean_one_ok (with_all (h (c_all s) a) s) a e He Q) as (e' & R & E & B).
    rewrite Hg, R. cbn [bind].
    set (s1 := put_ex (with_all (h (c_all s) a) s) a e').
    assert (S1 : ssim s s1).
    { unfold s1, ssim. cbn. repeat (split; [reflexivity|]). intros v. unfold upd.
      destruct (Nat.eqb_spec v a) as [->|D]; [rewrite He; cbn; congruence|reflexivity]. }
    destruct (IH s1) as (t & Rt & St & At & Bt & Ct).
    { intros i Hi. destruct (H i (or_intror Hi)) as (z & Hz & Qz). destruct (ssim_some _ _ _ _ S1 Hz) as (z' & Hz' & Ez).
      exists z'. split; [exact Hz'|]. eapply stat_calm; eassumption. }
    exists t. split; [exact Rt|]. split; [exact (ssim_trans _ _ _ S1 St)|]. split; [exact At|].
    assert (K : forall i z, c_ex s1 i = Some z -> (i = a /\ bare z) \/ c_ex s i = Some z).
    { intros i z. unfold s1. cbn. unfold upd. destruct (Nat.eqb_spec i a) as [->|D]; [|auto].
      intros X. injection X as <-. auto. }
    split.
    + intros i z Hi Hz. destruct (Ct i z Hz) as [(_ & X)|X]; [exact X|].
      destruct (K i z X) as [(_ & Y)|Y]; [exact Y|].
      destruct Hi as [<-|Hi]; [|eapply Bt; eassumption].
      unfold s1 in X. cbn in X. unfold upd in X. rewrite Nat.eqb_refl in X. injection X as <-. exact B.
    + intros i z Hz. destruct (Ct i z Hz) as [(X & Y)|X]; [left; split; [right; exact X|exact Y]|].
      destruct (K i z X) as [(-> & Y)|Y]; [left; split; [left; reflexivity|exact Y]|right; exact Y].
Qed.

Lemma fold_ins l : forall acc, NoDup (acc ++ l) -> fold_left (fun a r => ins r a) l acc = acc ++ l.
Proof.
  induction l as [|a r IH]; intros acc N; cbn; [rewrite app_nil_r; reflexivity|].
  assert (~ In a acc) by (intros C; apply NoDup_remove_2 in N; apply N, in_or_app; auto).
  unfold ins at 2. assert (mem a acc = false) as -> by (apply mem_not; assumption).
  rewrite IH; rewrite <- app_assoc; [reflexivity|exact N].
Qed.

Lemma clean_ok s : ready s -> tidy s -> exists t, clean s = Ok t /\ ssim s t /\ blank t.
Proof.
  intros R (T1 & T2). unfold clean.
  assert (Lk : forall i, linked s i -> exists e, c_ex s i = Some e /\ calm e).
  { intros i (b & Hb & Hi). destruct (rd_insn s R b i Hb Hi) as (x & e & _ & _ & He & _ & _ & A & _). exists e.
    split; [exact He|]. unfold calm. congruence. }
  destruct (clean_fold (fun t r => clean_one (with_all (ins r (c_all t)) t) r) (fun a r => ins r a) (c_regs s))
    with (s := with_all [] s) as (s1 & R1 & S1 & A1 & B1 & C1).
  { reflexivity. }
  { intros i Hi. apply In_nth_error in Hi. destruct Hi as (k & Hk). destruct (rd_reg s R k i Hk) as (e & He & H1 & _ & H3 & _).
    exists e. split; [exact He|]. unfold calm. congruence. }
  cbn [c_regs with_all] in R1 |- *. rewrite R1. cbn [bind].
  assert (Sx : ssim s s1) by exact S1.
  assert (Ef : c_f s1 = c_f s) by apply Sx. assert (Er : c_reach s1 = c_reach s) by apply Sx.
  rewrite Ef, Er, insns_in_ok by apply (rd_reach s R). cbn [bind].
  destruct (clean_fold clean_one (fun a _ => a) (flat_map (insns_of (c_f s)) (c_reach s)))
    with (s := s1) as (t & Rt & St & At & Bt & Ct).
  { intros z i. destruct z; reflexivity. }
  { intros i Hi. apply flat_linked in Hi. destruct (Lk i Hi) as (e & He & Q). destruct (ssim_some _ _ _ _ Sx He) as (e' & He' & E).
    exists e'. split; [exact He'|]. eapply stat_calm; eassumption. }
  exists t. split; [exact Rt|]. split; [exact (ssim_trans _ _ _ Sx St)|]. split.
  - assert (c_regs t = c_regs s) as -> by (apply (ssim_trans _ _ _ Sx St)).
    rewrite At. assert (F : forall l a, fold_left (fun (a : list nat) (_ : nat) => a) l a = a) by (induction l; cbn; auto).
    rewrite F, A1. cbn [c_all with_all]. rewrite fold_ins; [reflexivity|apply (rd_distinct s R)].
  - intros v e He. destruct (Ct v e He) as [(_ & X)|X]; [exact X|].
    destruct (C1 v e X) as [(_ & Y)|Y]; [exact Y|]. cbn [c_ex with_all] in Y.
    destruct (T1 v e Y) as [Z|[Z|(_ & Z)]]; [exact (B1 v e Z X)|exact (Bt v e (proj2 (flat_linked s v) Z) He)|exact Z].
Qed.

(** ** The analysis *)
Record analysed (s t : cgs) : Prop := {
  an_sim : ssim s t;
  an_gi : gi t;
  an_nd : NoDup (c_all t);
  an_all : forall x, In x (c_all t) <-> In x (c_regs s) \/ tracked s x;
  an_exact : forall v, tracked s v -> exact s v t;
  an_only : forall v i, live_before t i v \/ live_after t i v -> tracked s v;
  an_regs : forall a b, In a (c_regs s) -> In b (c_regs s) -> a <> b -> adjacent t a b;
  an_insn : forall i, linked s i -> settled s i t }.

Lemma tracked_back s t v : ssim s t -> tracked t v -> tracked s v.
Proof. intros H. apply tracked_sim, ssim_sym, H. Qed.
Lemma exact_base s s' v t : ssim s s' -> exact s' v t -> exact s v t.
Proof.
  intros Sx (A & B & C). pose proof (ssim_sym _ _ Sx) as Sy.
  assert (Ef : c_f s' = c_f s) by apply Sx. assert (Er : c_reach s' = c_reach s) by apply Sx.
  unfold insn_at in *. rewrite Ef, Er in A, B, C.
  split; [|split].
  - intros b k i Hb Hi. rewrite (A b k i Hb Hi). split; apply live_sim; assumption.
  - intros b k i Hb Hi. rewrite (B b k i Hb Hi). split; apply live_sim; assumption.
  - intros b k i d Hb Hi L D N. eapply (C b k i d Hb Hi); [eapply live_sim; eassumption|eapply defines_sim; eassumption|exact N].
Qed.
Lemma copy_point_sim s t b k : ssim s t -> copy_point s b k -> copy_point t b k.
Proof.
  intros Sx H. assert (Ef : c_f t = c_f s) by apply Sx. unfold jump_at, ends_at, insn_at in *.
  destruct H as [k E J|H].
  - apply cp_jump; unfold ends_at, jump_at, insn_at in *; rewrite Ef; assumption.
  - replace (ends_at s b) with (ends_at t b) by (unfold ends_at; rewrite Ef; reflexivity).
    apply cp_end. unfold ends_at, jump_at, insn_at in *. rewrite Ef. exact H.
Qed.
Lemma settled_base s s' i t : ssim s s' -> settled s' i t -> settled s i t.
Proof.
  intros Sx H x Hx. assert (Ef : c_f s' = c_f s) by apply Sx. assert (Er : c_reach s' = c_reach s) by apply Sx.
  assert (Eg : c_regs s' = c_regs s) by apply Sx.
  specialize (H x). unfold insn_at in H. rewrite Ef, Er, Eg in H. destruct (H Hx) as (A & B & C). split; [|split].
  - intros Ep w n v m Hw T D Cp L Q. eapply (A Ep w n v m Hw);
      [eapply tracked_sim; eassumption|exact D|eapply copy_point_sim; eassumption|eapply live_sim; eassumption|].
    intros b Hb Pb Lb. rewrite Ef in Pb. rewrite Er in Hb. apply (Q b Hb Pb).
    eapply live_sim; [apply ssim_sym; exact Sx|exact Lb].
  - intros Ep b k v Hb Hk T L1 L2 j r Lj Hr. eapply (B Ep b k v Hb Hk); try eassumption;
      [eapply tracked_sim; eassumption|eapply live_sim; eassumption|eapply live_sim; eassumption].
  - exact C.
Qed.
Lemma shallow_sim s t b d : ssim s t -> shallow s b d -> shallow t b d.
Proof.
  intros Sx H. assert (Ef : c_f t = c_f s) by apply Sx. induction H as [b d H|b d H IH].
  - apply sh_full. rewrite Ef. exact H.
  - apply sh_empty. rewrite Ef. exact IH.
Qed.
Lemma operands_sim s t : ssim s t -> operands_ok s -> operands_ok t.
Proof.
  intros Sx H i x Li Hx Ha. assert (Ef : c_f t = c_f s) by apply Sx. rewrite Ef in Hx.
  assert (Ls : forall j, linked t j -> linked s j) by (intros j; apply linked_sim, ssim_sym, Sx).
  destruct (H i x (Ls i Li) Hx Ha) as (F & v & Hv & K). split.
  - eapply tracked_sim; eassumption.
  - exists v. split; [exact Hv|]. intros d Hd. destruct (K d Hd) as (L & Df & D).
    split; [eapply linked_sim; eassumption|]. split; [eapply defines_sim; eassumption|exact D].
Qed.

Lemma interferes_regs s t a b : ready s -> ssim s t -> In a (c_regs s) -> In b (c_regs s) -> interferes t a b -> adjacent t a b.
Proof.
  intros R Sx Ha Hb H. pose proof (ready_sim _ _ Sx R) as Rt. assert (Eg : c_regs t = c_regs s) by apply Sx.
  apply In_nth_error in Ha. apply In_nth_error in Hb. destruct Ha as (ja & Ja), Hb as (jb & Jb). rewrite <- Eg in Ja, Jb.
  apply H; [apply (node_reg t Rt ja a Ja)|apply (node_reg t Rt jb b Jb)].
Qed.

Theorem analysis_ok fuel d s : ready s -> tidy s -> operands_ok s -> empties_below s d ->
  length (c_reach s) < fuel -> d < fuel -> exists t, analysis fuel s = Ok t /\ analysed s t.
Proof.
  intros R T O Ed F1 F2. unfold analysis.
  destruct (clean_ok s R T) as (s1 & -> & S1 & B1). cbn [bind].
  pose proof (ready_sim _ _ S1 R) as R1. assert (Er : c_reach s1 = c_reach s) by apply S1.
  assert (Ef1 : c_f s1 = c_f s) by apply S1.
  destruct (liveness_ok fuel s1 R1 B1) as (s2 & -> & S2 & G2 & N2 & A2 & X2 & Y2); [rewrite Er; exact F1|]. cbn [bind].
  destruct (conflicts_ok s1 R1 s2 S2 X2 Y2 fuel d) as (t & Rt & Ct & Gt & Qt).
  - intros i x w n Li Hx Ep Hw. eapply shallow_sim; [exact S1|]. rewrite Ef1 in Hx.
    eapply (Ed i x w n); try eassumption. eapply linked_sim; [apply ssim_sym; exact S1|exact Li].
  - exact F2.
  - eapply operands_sim; eassumption.
  - exists t. split; [exact Rt|]. destruct Ct as (G & (La & Lb)).
    pose proof (ssim_trans _ _ _ S2 (gr_sim _ _ G)) as S3. pose proof (ssim_trans _ _ _ S1 S3) as S4.
    assert (Git : gi t) by apply (gr_gi _ _ G), G2.
    assert (Eg : c_regs s1 = c_regs s) by apply S1.
    split.
    + exact S4.
    + exact Git.
    + rewrite (gr_all _ _ G). exact N2.
    + intros x. rewrite (gr_all _ _ G), A2, Eg. split; (intros [H|H]; [left; exact H|right]);
        [exact (tracked_back _ _ _ S1 H)|exact (tracked_sim _ _ _ S1 H)].
    + intros v Tv. eapply exact_base; [exact S1|]. eapply exact_cstep; [exact G|split; assumption|].
      apply X2. exact (tracked_sim _ _ _ S1 Tv).
    + intros v i H. eapply tracked_back; [exact S1|]. apply (Y2 v i). rewrite <- (La i v), <- (Lb i v). exact H.
    + intros a b Ha Hb D. rewrite Eg in Gt. destruct (Gt a b Ha Hb D) as [I|I].
      * exact (interferes_regs s t a b R S4 Ha Hb I).
      * apply (gi_sym t Git). exact (interferes_regs s t b a R S4 Hb Ha I).
    + intros i Li. eapply settled_base; [exact S1|]. apply Qt. exact (linked_sim _ _ _ S1 Li).
Qed.

(** ** The graph before colours are chosen *)
Lemma data_kinds s t v e : ready s -> tidy s -> ssim s t -> c_ex t v = Some e ->
  In v (c_regs s) \/ linked s v \/ v = c_sp s.
Proof.
  intros R (T & _) Sx He. destruct (ssim_some _ _ _ _ (ssim_sym _ _ Sx) He) as (e' & He' & _).
  destruct (T v e' He') as [H|[H|(H & _)]]; auto.
Qed.
Lemma tracked_or_fixed s v : ready s -> linked s v -> defines s v v -> tracked s v \/ fixed s v.
Proof.
  intros R L (e & He & D). destruct (x_fin e) eqn:F; [right; exists e; auto|left].
  split; [exact L|]. exists e. auto.
Qed.
Lemma analysed_graph s t : ready s -> tidy s -> analysed s t -> graph_ok t /\ in_range t /\ proper t /\
  (forall v, In v (c_all t) -> has_data t v /\ v <> c_sp t) /\
  (forall a b, adjacent t a b -> In a (c_all t)) .
Proof.
  intros R T A. pose proof (an_sim s t A) as Sx. pose proof (an_gi s t A) as G. pose proof (ready_sim _ _ Sx R) as Rt.
  assert (Esp : c_sp t = c_sp s) by apply Sx. assert (Eg : c_regs t = c_regs s) by apply Sx.
  split; [|split; [|split; [|split]]].
  - split.
    + apply (gi_sym t G).
    + intros a H. exact (gi_ne t G a a H eq_refl).
    + intros a H. exact (isnode_sp t Rt _ (gi_node t G _ _ H) eq_refl).
  - intros v r Nsp (e & He & Al & Sp & Er). destruct (data_kinds s t v e R T Sx He) as [H|[H|H]].
    + rewrite <- Eg in H. apply In_nth_error in H. destruct H as (k & Hk). pose proof (nth_error_length _ _ _ Hk) as Lk.
      rewrite (rd_regs t Rt) in Lk. destruct (rd_reg t Rt k v Hk) as (e' & He' & _ & _ & _ & _ & E).
      rewrite He in He'. injection He' as <-. unfold assignable. lia.
    + apply (linked_sim _ _ _ Sx) in H. destruct H as (b & Hb & Hi).
      destruct (rd_insn t Rt b v Hb Hi) as (x & e' & _ & _ & He' & _ & _ & Ea & Ef). rewrite He in He'. injection He' as <-.
      destruct (Ef ltac:(congruence)) as [Ef'|Ef']; [contradiction|]. rewrite <- Er. exact Ef'.
    + congruence.
  - intros a b r H Ia Ib.
    assert (K : forall x, isnode t x -> in_reg t x r -> exists k, nth_error (c_regs t) k = Some x /\ Z.of_nat k = r).
    { intros x Nx (e & He & Al & _ & Er). destruct Nx as [Hx|(Lx & Fx)].
      - apply In_nth_error in Hx. destruct Hx as (k & Hk). destruct (rd_reg t Rt k x Hk) as (e' & He' & _ & _ & _ & _ & E).
        rewrite He in He'. injection He' as <-. exists k. split; [exact Hk|congruence].
      - exfalso. destruct Lx as (c & Hc & Hi). destruct (rd_insn t Rt c x Hc Hi) as (y & e' & _ & _ & He' & _ & _ & Ea & _).
        rewrite He in He'. injection He' as <-. destruct Fx as (e' & He' & F & _). congruence. }
    destruct (K a) as (ka & Ka & Ea); [apply (gi_node t G b a), (gi_sym t G), H|exact Ia|].
    destruct (K b) as (kb & Kb & Eb); [apply (gi_node t G a b), H|exact Ib|].
    assert (ka = kb) by lia. subst kb. apply (gi_ne t G a b H). congruence.
  - intros v Hv. apply (an_all s t A) in Hv. rewrite Esp. destruct Hv as [Hv|Hv].
    + split; [apply (reg_data t Rt); rewrite Eg; exact Hv|]. intros ->. destruct (rd_sp s R); contradiction.
    + destruct Hv as (L & _). split; [eapply linked_data; [exact Rt|eapply linked_sim; eassumption]|].
      intros ->. destruct (rd_sp s R); contradiction.
  - intros a b H. apply (an_all s t A). apply (gi_sym t G) in H. apply (gi_node t G) in H. destruct H as [H|(L & F)].
    + left. congruence.
    + right. eapply tracked_back; [exact Sx|]. split; assumption.
Qed.

(** ** Interference of values that are live together *)
Theorem live_together s t : ready s -> analysed s t -> strict s ->
  forall p, arrives s p -> forall a b, tracked s a -> tracked s b -> a <> b -> live s a p -> live s b p -> interferes t a b.
Proof.
  intros R A St p (b0 & Hb0 & Rp). remember (b0, 0) as q eqn:Eq. induction Rp as [q|q p' r Rq IH Fl]; intros a b Ta Tb D La Lb.
  - subst q. destruct (St a b0 Ta Hb0 La).
  - specialize (IH Eq). destruct Fl as [c k i Hc Hi|c d Hd Hc].
    + assert (Dec : forall v, tracked s v -> {defines s i v} + {~ defines s i v}).
      { intros v _. destruct (c_ex s i) as [e|] eqn:He; [|right; intros (e & He' & _); congruence].
        destruct (x_dst e) as [d|] eqn:Ed; [|right; intros (e' & He' & X); congruence].
        destruct (Nat.eq_dec d v) as [->|N]; [left; exists e; auto|right; intros (e' & He' & X); congruence]. }
      destruct (Dec a Ta) as [Da|Na].
      * apply (interferes_sym t b a (an_gi s t A)).
        destruct (an_exact s t A b Tb) as (_ & _ & X). eapply X; [exact Hc|exact Hi|exact Lb|exact Da|exact D].
      * destruct (Dec b Tb) as [Db|Nb].
        -- destruct (an_exact s t A a Ta) as (_ & _ & X). eapply X; [exact Hc|exact Hi|exact La|exact Db|congruence].
        -- apply IH; auto; eapply live_step; eassumption.
    + apply IH; auto; eapply live_edge; eassumption.
Qed.

(** ** Assignments that respect the graph *)
(** [u] assigns places to the analysed state [t] *)
Record assigned (s t u : cgs) : Prop := {
  as_adj : forall a b, adjacent t a b -> adjacent u a b;
  as_proper : proper u;
  as_range : in_range u;
  as_fixed : forall v, fixed s v -> position u v = position s v;
  as_all : forall v, tracked s v -> exists r, in_reg u v r;
  as_none : forall v e, c_ex u v = Some e -> exists e', c_ex s v = Some e' /\ x_fin e = x_fin e' /\ x_dst e = x_dst e';
  as_sp : c_sp u = c_sp s }.

Lemma fixed_in_reg s u v r : position u v = position s v -> in_reg u v r ->
  exists e, c_ex s v = Some e /\ vp_alloc (x_pos e) = true /\ vp_spilled (x_pos e) = 0%Z /\ vp_reg (x_pos e) = r.
Proof.
  unfold position. intros H (e & He & H1 & H2 & H3). rewrite He in H. destruct (c_ex s v) as [e'|]; [|discriminate].
  cbn in H. injection H as H. exists e'. rewrite <- H. auto.
Qed.
(** the vertex of a value is in the same register *)
Lemma vertex_in_reg s t u v r : ready s -> ssim s t -> assigned s t u -> linked s v \/ In v (c_regs s) -> in_reg u v r ->
  exists x, vertex t v x /\ in_reg u x r.
Proof.
  intros R Sx A L I. pose proof (ready_sim _ _ Sx R) as Rt. assert (Eg : c_regs t = c_regs s) by apply Sx.
  destruct I as (e & He & H1 & H2 & H3). pose proof (as_none s t u A v e He) as (e0 & He0 & F & Ds).
  destruct (ssim_some _ _ _ _ Sx He0) as (et & Het & Et). apply stat_inj in Et. destruct Et as (Et1 & Et2 & Et3 & Et4).
  destruct (x_fin e0) eqn:F0.
  - assert (Fx : fixed s v) by (exists e0; auto).
    destruct (fixed_in_reg s u v r (as_fixed s t u A v Fx)) as (e1 & He1 & K1 & K2 & K3); [exists e; auto|].
    rewrite He0 in He1. injection He1 as <-.
    assert (As : assignable r).
    { destruct L as [(b & Hb & Hi)|L].
      - destruct (rd_insn s R b v Hb Hi) as (x & e' & _ & _ & He' & _ & _ & _ & P). rewrite He0 in He'. injection He' as <-.
        destruct (P F0) as [C|P']; [contradiction|congruence].
      - apply In_nth_error in L. destruct L as (k & Hk). pose proof (nth_error_length _ _ _ Hk) as Lk. rewrite (rd_regs s R) in Lk.
        destruct (rd_reg s R k v Hk) as (e' & He' & _ & _ & _ & _ & E). rewrite He0 in He'. injection He' as <-.
        unfold assignable. lia. }
    unfold assignable in As.
    destruct (nth_error (c_regs s) (Z.to_nat r)) as [x|] eqn:Ex.
    2: { apply nth_error_None in Ex. rewrite (rd_regs s R) in Ex. lia. }
    exists x. split.
    + exists et. split; [exact Het|]. right. rewrite Et2, Et3, K3, Eg. repeat split; auto. lia.
    + destruct (rd_reg s R (Z.to_nat r) x Ex) as (ex & Hex & G1 & G2 & G3 & G4 & G5).
      assert (Fxx : fixed s x) by (exists ex; auto). pose proof (as_fixed s t u A x Fxx) as P. unfold position in P.
      rewrite Hex in P. destruct (c_ex u x) as [eu|] eqn:Eu; [|discriminate]. cbn in P. injection P as P.
      exists eu. rewrite P. repeat split; auto. lia.
  - exists v. split; [|exists e; auto]. exists et. split; [exact Het|]. left. split; [congruence|reflexivity].
Qed.
Lemma interferes_apart s t u a b : ready s -> ssim s t -> assigned s t u ->
  linked s a \/ In a (c_regs s) -> linked s b \/ In b (c_regs s) -> interferes t a b -> ~ share u a b.
Proof.
  intros R Sx A La Lb I (r & Ra & Rb).
  destruct (vertex_in_reg s t u a r R Sx A La Ra) as (x & Vx & Rx).
  destruct (vertex_in_reg s t u b r R Sx A Lb Rb) as (y & Vy & Ry).
  eapply (as_proper s t u A x y r); [|exact Rx|exact Ry]. apply (as_adj s t u A), I; assumption.
Qed.

Lemma share_sym u a b : share u a b -> share u b a.
Proof. intros (r & A & B). exists r. auto. Qed.

Theorem assigned_sound s t u : ready s -> operands_ok s -> strict s -> analysed s t -> assigned s t u -> sound_assignment s u.
Proof.
  intros R Op St A U. pose proof (an_sim s t A) as Sx.
  assert (Ap : forall a b, linked s a \/ In a (c_regs s) -> linked s b \/ In b (c_regs s) -> interferes t a b -> ~ share u a b)
    by (intros; eapply interferes_apart; eassumption).
  assert (Lk : forall b k i, In b (c_reach s) -> insn_at s b k i -> linked s i)
    by (intros b k i Hb Hi; exists b; split; [exact Hb|eapply nth_error_In; exact Hi]).
  split.
  - intros v T. destruct (as_all s t u U v T) as (r & I). exists r. split; [exact I|].
    apply (as_range s t u U v r); [|exact I]. rewrite (as_sp s t u U). intros ->. destruct T as (L & _), (rd_sp s R); contradiction.
  - apply (as_fixed s t u U).
  - intros a b p Ta Tb D Hp La Lb. apply Ap; [left; apply Ta|left; apply Tb|].
    eapply live_together; eassumption.
  - intros b k i d v Hb Hi Df T D L.
    assert (d = i).
    { destruct Df as (e & He & Ed). destruct (rd_insn s R b i Hb (nth_error_In _ _ Hi)) as (x & e' & _ & _ & He' & Di & _).
      rewrite He in He'. injection He' as <-. destruct Di; congruence. }
    subst d. intros Sh. apply share_sym in Sh. revert Sh. apply Ap; [left; apply T|left; eapply Lk; eassumption|].
    destruct (an_exact s t A v T) as (_ & _ & X). eapply X; eassumption.
  - intros b k i x v r Hb Hi Hx Ec T L1 L2 I.
    destruct (an_insn s t A i (Lk b k i Hb Hi) x Hx) as (_ & C & _).
    destruct (Z_le_gt_dec 6 r) as [G|G]; [exact G|exfalso].
    assert (As : assignable r) by (apply (as_range s t u U v r); [|exact I]; rewrite (as_sp s t u U); intros ->; destruct T as (L & _), (rd_sp s R); contradiction).
    unfold assignable in As.
    destruct (nth_error (c_regs s) (Z.to_nat r)) as [n|] eqn:En.
    2: { apply nth_error_None in En. rewrite (rd_regs s R) in En. lia. }
    apply (Ap n v); [right; eapply nth_error_In; exact En|left; apply T|eapply (C Ec b k v Hb Hi T L1 L2 (Z.to_nat r)); [lia|exact En]|].
    exists r. split; [|exact I]. destruct (rd_reg s R _ n En) as (ex & Hex & G1 & G2 & G3 & G4 & G5).
    assert (Fx : fixed s n) by (exists ex; auto). pose proof (as_fixed s t u U n Fx) as P. unfold position in P.
    rewrite Hex in P. destruct (c_ex u n) as [eu|] eqn:Eu; [|discriminate]. cbn in P. injection P as P.
    exists eu. rewrite P. repeat split; auto. lia.
  - intros i x w n m v L Hx Ep Hw T D Cp Lv. destruct (an_insn s t A i L x Hx) as (C & _).
    apply Ap; [left; apply T|left; exact L|]. eapply C; try eassumption.
    intros b Hb Pb. apply St; [exact T|]. split; assumption.
  - intros i x v d L Hx Ha Hv Hd. destruct (an_insn s t A i L x Hx) as (_ & _ & C).
    destruct (Op i x L Hx Ha) as (_ & v' & Hv' & K). rewrite Hv in Hv'. injection Hv' as <-.
    destruct (K d Hd) as (Ld & _). apply Ap; [left; exact L|left; exact Ld|eapply C; eassumption].
Qed.

(** ** Colouring *)
(** what is known while registers are being assigned *)
Record placed (s t u : cgs) : Prop := {
  pl_as : assigned s t u;
  pl_f : c_f u = c_f s;
  pl_reach : c_reach u = c_reach s;
  pl_regs : c_regs u = c_regs s;
  pl_graph : graph_ok u;
  pl_adj : forall a b, adjacent u a b <-> adjacent t a b;
  pl_nb : forall a b, adjacent u a b -> allocated u b;
  pl_spill : forall v e e', c_ex u v = Some e -> c_ex s v = Some e' -> vp_spilled (x_pos e) = vp_spilled (x_pos e');
  pl_data : forall v, has_data s v -> has_data u v }.

Lemma simh_graph {A} (h : extra -> A) s t :
  (forall e e', h e = h e' -> x_adj e = x_adj e') -> simh h s t -> graph_ok s -> graph_ok t.
Proof.
  intros Hh Sx [G1 G2 G3]. pose proof (fun a b => adjacent_sim h s t a b Hh Sx) as E.
  assert (Ep : c_sp t = c_sp s) by apply Sx. split.
  - intros a b H. apply E, G1, E, H.
  - intros a H. apply (G2 a), E, H.
  - intros a H. rewrite Ep in H. apply (G3 a), E, H.
Qed.
Lemma but_lw_facts e e' : but_lw e = but_lw e' -> x_dst e = x_dst e' /\ x_in e = x_in e' /\ x_out e = x_out e' /\
  x_adj e = x_adj e' /\ x_fin e = x_fin e' /\ x_pos e = x_pos e' /\ x_nonvr e = x_nonvr e'.
Proof. unfold but_lw, set_lam, set_w. destruct e, e'. cbn. intros H. injection H. intros. subst. repeat split. Qed.
Lemma but_pos_facts e e' : but_pos e = but_pos e' -> x_dst e = x_dst e' /\ x_in e = x_in e' /\ x_out e = x_out e' /\
  x_adj e = x_adj e' /\ x_fin e = x_fin e' /\ x_nonvr e = x_nonvr e'.
Proof. unfold but_pos, set_pos. destruct e, e'. cbn. intros H. injection H. intros. subst. repeat split. Qed.

Theorem coloring_placed s t t1 : ready s -> tidy s -> analysed s t -> simh but_lw t t1 ->
  Permutation (c_seo t1) (c_all t) ->
  coloring t1 = Err \/ exists u, coloring t1 = Ok u /\ placed s t u.
Proof.
  intros R T A S1 P. destruct (analysed_graph s t R T A) as (G & Rg & Pr & Dt & Ad). pose proof (an_sim s t A) as Sx.
  assert (F1 : forall e e', but_lw e = but_lw e' -> x_adj e = x_adj e') by (intros e e' H; apply but_lw_facts in H; apply H).
  assert (Ea : forall a b, adjacent t1 a b <-> adjacent t a b) by (intros a b; apply (adjacent_sim but_lw t t1 a b F1 S1)).
  assert (Epos : forall v e, c_ex t1 v = Some e -> exists e', c_ex t v = Some e' /\ x_pos e = x_pos e' /\ x_fin e = x_fin e' /\ x_dst e = x_dst e').
  { intros v e He. destruct S1 as (_ & _ & _ & _ & _ & _ & _ & S1). specialize (S1 v). rewrite He in S1.
    destruct (c_ex t v) as [e'|]; [|discriminate]. exists e'. split; [reflexivity|]. cbn [option_map] in S1.
    assert (but_lw e = but_lw e') as K by congruence.
    apply but_lw_facts in K. destruct K as (k1 & _ & _ & _ & k5 & k6 & _). auto. }
  assert (Epos' : forall v e, c_ex t v = Some e -> exists e', c_ex t1 v = Some e' /\ x_pos e' = x_pos e /\ x_fin e' = x_fin e /\ x_dst e' = x_dst e).
  { intros v e He. pose proof S1 as (_ & _ & _ & _ & _ & _ & _ & S1'). specialize (S1' v). rewrite He in S1'.
    destruct (c_ex t1 v) as [e'|] eqn:E1; [|discriminate]. exists e'. split; [reflexivity|].
    destruct (Epos v e' E1) as (e2 & He2 & K). rewrite He in He2. injection He2 as <-. exact K. }
  assert (Ereg : forall v r, in_reg t1 v r -> in_reg t v r).
  { intros v r (e & He & H). destruct (Epos v e He) as (e' & He' & K & _). exists e'. rewrite <- K. auto. }
  assert (Esp : c_sp t1 = c_sp t) by apply S1.
  pose proof (simh_graph but_lw t t1 F1 S1 G) as G1.
  assert (Rg1 : in_range t1) by (intros v r N I; apply (Rg v r); [congruence|apply Ereg, I]).
  assert (Pr1 : proper t1) by (intros a b r H Ia Ib; apply (Pr a b r); [apply Ea, H|apply Ereg, Ia|apply Ereg, Ib]).
  unfold coloring. 
  destruct (color_fold (c_seo t1) t1 G1 Rg1) as [E|(u & Ru & Su & Qu & Pu & Ru' & Au & Ku & Nu & Zu)].
  { intros v Hv. apply (Permutation_in _ P) in Hv. destruct (Dt v Hv) as ((e & He) & N). rewrite Esp. split; [|exact N].
    destruct (Epos' v e He) as (e' & He' & _). exists e'. exact He'. }
  { left. exact E. }
  right. exists u. split; [exact Ru|].
  assert (F2 : forall e e', but_pos e = but_pos e' -> x_adj e = x_adj e') by (intros e e' H; apply but_pos_facts in H; apply H).
  assert (Eu : forall a b, adjacent u a b <-> adjacent t a b).
  { intros a b. rewrite (adjacent_sim but_pos t1 u a b F2 Su). apply Ea. }
  assert (Up : forall v e, c_ex u v = Some e -> exists e1, c_ex t1 v = Some e1 /\ x_fin e = x_fin e1 /\ x_dst e = x_dst e1).
  { intros v e He. destruct Su as (_ & _ & _ & _ & _ & _ & _ & Su). specialize (Su v). rewrite He in Su.
    destruct (c_ex t1 v) as [e1|]; [|discriminate]. exists e1. split; [reflexivity|]. cbn [option_map] in Su.
    assert (K : but_pos e = but_pos e1) by congruence. apply but_pos_facts in K. tauto. }
  assert (All : forall v, In v (c_all t) -> In v (c_seo t1)) by (intros v; apply Permutation_in, Permutation_sym, P).
  assert (Fx : forall v, fixed s v -> position u v = position s v).
  { intros v (e & He & F). destruct (ssim_some _ _ _ _ Sx He) as (et & Het & Et). apply stat_inj in Et. destruct Et as (_ & Et2 & Et3 & _).
    destruct (Epos' v et Het) as (e1 & He1 & Q1 & Q2 & _).
    assert (K : c_ex u v = c_ex t1 v).
    { destruct (in_dec Nat.eq_dec v (c_seo t1)) as [I|I]; [|apply Nu, I]. apply Ku. exists e1. split; [exact He1|].
      apply (Permutation_in _ P), (an_all s t A) in I. destruct I as [I|I].
      - apply In_nth_error in I. destruct I as (k & Hk). destruct (rd_reg s R k v Hk) as (e' & He' & _ & _ & K & _).
        rewrite He in He'. injection He' as <-. congruence.
      - destruct I as (_ & e' & He' & C & _). congruence. }
    unfold position. rewrite K, He1, He. cbn. f_equal. congruence. }
  split.
  - split.
    + intros a b H. apply Eu, H.
    + apply Pu, Pr1.
    + exact Ru'.
    + exact Fx.
    + intros v Tv. assert (In v (c_seo t1)) as I by (apply All, (an_all s t A); auto). destruct (Au v I) as (e & He & Al).
      exists (vp_reg (x_pos e)), e. repeat split; auto. destruct (Up v e He) as (e1 & He1 & _).
      rewrite (Zu v e1 e He1 He). destruct (Epos v e1 He1) as (et & Het & Q1 & Q2 & _). rewrite Q1.
      destruct (ssim_some _ _ _ _ (ssim_sym _ _ Sx) Het) as (es & Hes & Es). apply stat_inj in Es. destruct Es as (_ & Es2 & Es3 & _).
      rewrite <- Es3. apply (proj2 T v es Hes). destruct Tv as (_ & e' & He' & F & _). congruence.
    + intros v e He. destruct (Up v e He) as (e1 & He1 & U1 & U2). destruct (Epos v e1 He1) as (et & Het & Q1 & Q2 & Q3).
      destruct (ssim_some _ _ _ _ (ssim_sym _ _ Sx) Het) as (es & Hes & Es). apply stat_inj in Es. destruct Es as (Es1 & Es2 & _).
      exists es. repeat split; congruence.
    + destruct Su as (_ & _ & _ & -> & _). destruct S1 as (_ & _ & _ & -> & _). apply Sx.
  - destruct Su as (-> & _). destruct S1 as (-> & _). apply Sx.
  - destruct Su as (_ & -> & _). destruct S1 as (_ & -> & _). apply Sx.
  - destruct Su as (_ & _ & -> & _). destruct S1 as (_ & _ & -> & _). apply Sx.
  - apply (graph_sim t1 u Su G1).
  - exact Eu.
  - intros a b H. apply Au, All. apply (Ad b a), (g_sym t G), Eu, H.
  - intros v e e' He He'. destruct (Up v e He) as (e1 & He1 & _). rewrite (Zu v e1 e He1 He).
    destruct (Epos v e1 He1) as (et & Het & Q1 & _). rewrite Q1.
    destruct (ssim_some _ _ _ _ Sx He') as (et' & Het' & Es). rewrite Het in Het'. injection Het' as <-. apply stat_inj in Es.
    destruct Es as (_ & _ & Es & _). congruence.
  - intros v (e & He). destruct (ssim_some _ _ _ _ Sx He) as (et & Het & _). destruct (Epos' v et Het) as (e1 & He1 & _).
    destruct Su as (_ & _ & _ & _ & _ & _ & _ & Su). specialize (Su v). rewrite He1 in Su. destruct (c_ex u v) as [eu|] eqn:Eq; [|discriminate].
    exists eu. exact Eq.
Qed.

(** ** Coalescing *)
Lemma shape_facts e e' : shape e = shape e' -> x_dst e = x_dst e' /\ x_adj e = x_adj e' /\ x_fin e = x_fin e' /\
  vp_alloc (x_pos e) = vp_alloc (x_pos e') /\ vp_size (x_pos e) = vp_size (x_pos e') /\ vp_spilled (x_pos e) = vp_spilled (x_pos e').
Proof.
  unfold shape. intros H. assert (B : but_pos e = but_pos e') by congruence. apply but_pos_facts in B.
  destruct B as (b1 & _ & _ & b4 & b5 & _). repeat split; congruence.
Qed.
Lemma shape_some s t v e : simh shape s t -> c_ex s v = Some e -> exists e', c_ex t v = Some e' /\ shape e' = shape e.
Proof.
  intros (_ & _ & _ & _ & _ & _ & _ & H) He. specialize (H v). rewrite He in H. destruct (c_ex t v) as [e'|]; [|discriminate].
  exists e'. split; [reflexivity|]. cbn [option_map] in H. congruence.
Qed.
Lemma shape_sym s t : simh shape s t -> simh shape t s.
Proof. unfold simh. intros (a1 & a2 & a3 & a4 & a5 & a6 & a7 & a8). repeat (split; [congruence|]). intros v. rewrite a8. reflexivity. Qed.

Lemma placed_fixed s t u v : placed s t u -> (fixed u v <-> fixed s v).
Proof.
  intros Pl. split; intros (e & He & F).
  - destruct (as_none s t u (pl_as s t u Pl) v e He) as (e' & He' & K & _). exists e'. split; [exact He'|congruence].
  - destruct (pl_data s t u Pl v (ex_intro _ e He)) as (e' & He'). exists e'. split; [exact He'|].
    destruct (as_none s t u (pl_as s t u Pl) v e' He') as (e2 & He2 & K & _). congruence.
Qed.
Lemma placed_alloc s t u v : ready s -> placed s t u -> has_place s v -> allocated u v /\ v <> c_sp u.
Proof.
  intros R Pl H. rewrite (as_sp s t u (pl_as s t u Pl)).
  assert (Fa : forall e, c_ex s v = Some e -> x_fin e = true -> vp_alloc (x_pos e) = true -> allocated u v).
  { intros e He F Al. pose proof (as_fixed s t u (pl_as s t u Pl) v (ex_intro _ e (conj He F))) as P. unfold position in P.
    rewrite He in P. destruct (c_ex u v) as [eu|] eqn:Eu; [|discriminate]. cbn in P. injection P as P. exists eu. split; [exact Eu|congruence]. }
  destruct H as [H|(L & D)].
  - split; [|intros ->; destruct (rd_sp s R); contradiction].
    apply In_nth_error in H. destruct H as (k & Hk). destruct (rd_reg s R k v Hk) as (e & He & F & _ & Al & _). eapply Fa; eassumption.
  - split; [|intros ->; destruct (rd_sp s R); contradiction].
    destruct (tracked_or_fixed s v R L D) as [T|(e & He & F)].
    + destruct (as_all s t u (pl_as s t u Pl) v T) as (r & e & He & Al & _). exists e. auto.
    + eapply Fa; [exact He|exact F|]. destruct L as (b & Hb & Hi). destruct (rd_insn s R b v Hb Hi) as (x & e' & _ & _ & He' & _ & _ & Al & _).
      rewrite He in He'. injection He' as <-. congruence.
Qed.

Lemma coalesce_placed s t u a b : ready s -> placed s t u -> mergeable s t a b ->
  exists u', coalesce u a b = Ok u' /\ placed s t u'.
Proof.
  intros R Pl (Ha & Hb & M).
  destruct (placed_alloc s t u a R Pl Ha) as (Aa & Na). destruct (placed_alloc s t u b R Pl Hb) as (Ab & Nb).
  assert (Stk : on_stack s a \/ on_stack s b -> coalesce u a b = Ok u).
  { intros H. destruct Aa as (ea & Hea & _), Ab as (eb & Heb & _). unfold coalesce.
    rewrite (proj2 (get_ex_ok u a ea) Hea), (proj2 (get_ex_ok u b eb) Heb). cbn [bind].
    destruct H as [(e & He & _ & K)|(e & He & _ & K)].
    - rewrite <- (pl_spill s t u Pl a ea e Hea He) in K. apply Z.eqb_neq in K. rewrite K. reflexivity.
    - rewrite <- (pl_spill s t u Pl b eb e Heb He) in K. apply Z.eqb_neq in K. rewrite K, andb_false_r. reflexivity. }
  destruct M as [M|[M|(NB & M)]]; [exists u; auto|exists u; auto|].
  pose proof (pl_as s t u Pl) as A.
  destruct (coalesce_ok u a b (pl_graph s t u Pl) (as_range s t u A) (as_proper s t u A) (pl_nb s t u Pl) Aa Ab Na Nb)
    as (u' & R' & S' & Q' & P' & G' & K0 & K1 & K2).
  { rewrite !(placed_fixed s t u) by exact Pl. rewrite (pl_adj s t u Pl). exact M. }
  exists u'. split; [exact R'|].
  assert (Hadj : forall e e', shape e = shape e' -> x_adj e = x_adj e') by (intros e e' H; apply shape_facts in H; apply H).
  pose proof (fun x y => adjacent_sim shape u u' x y Hadj S') as Ead.
  assert (Keep : forall v, fixed s v -> c_ex u' v = c_ex u v).
  { intros v Fv. apply (placed_fixed s t u v Pl) in Fv. destruct (Nat.eq_dec v a) as [->|Da]; [apply K1, Fv|].
    destruct (Nat.eq_dec v b) as [->|Db]; [|apply K0; assumption]. apply K2; [exact Fv|]. intros C. apply NB.
    split; apply (placed_fixed s t u _ Pl); assumption. }
  assert (Al : forall v, allocated u v -> allocated u' v).
  { intros v (e & He & K). destruct (shape_some _ _ _ _ S' He) as (e' & He' & E). apply shape_facts in E. exists e'.
    split; [exact He'|]. destruct E as (_ & _ & _ & E & _). congruence. }
  split.
  - split.
    + intros x y H. apply Ead, (as_adj s t u A), H.
    + exact P'.
    + exact G'.
    + intros v Fv. unfold position. rewrite (Keep v Fv). apply (as_fixed s t u A v Fv).
    + intros v T. destruct (as_all s t u A v T) as (r & e & He & H1 & H2 & _).
      destruct (shape_some _ _ _ _ S' He) as (e' & He' & E). apply shape_facts in E. destruct E as (_ & _ & _ & E4 & _ & E6).
      exists (vp_reg (x_pos e')), e'. repeat split; congruence.
    + intros v e He. destruct (shape_some _ _ _ _ (shape_sym _ _ S') He) as (e' & He' & E). apply shape_facts in E.
      destruct E as (E1 & _ & E3 & _). destruct (as_none s t u A v e' He') as (e0 & He0 & X1 & X2). exists e0. repeat split; congruence.
    + destruct S' as (_ & _ & _ & -> & _). apply (as_sp s t u A).
  - destruct S' as (-> & _). apply (pl_f s t u Pl).
  - destruct S' as (_ & -> & _). apply (pl_reach s t u Pl).
  - destruct S' as (_ & _ & -> & _). apply (pl_regs s t u Pl).
  - eapply simh_graph; [exact Hadj|exact S'|apply (pl_graph s t u Pl)].
  - intros x y. rewrite Ead. apply (pl_adj s t u Pl).
  - intros x y H. apply Al, (pl_nb s t u Pl x y), Ead, H.
  - intros v e e' He He'. destruct (shape_some _ _ _ _ (shape_sym _ _ S') He) as (eu & Heu & E). apply shape_facts in E.
    rewrite <- (pl_spill s t u Pl v eu e' Heu He'). symmetry. apply E.
  - intros v D. destruct (pl_data s t u Pl v D) as (e & He). destruct (shape_some _ _ _ _ S' He) as (e' & He' & _). exists e'. exact He'.
Qed.

Lemma copy_pair_ok s i x : f_insn (c_f s) i = Some x ->
  (i_op x = ASSIGN -> i_vals x <> []) ->
  (i_op x = STORE -> exists v w r d y, i_vals x = v :: w :: r /\ v_data v = VInsn d /\ f_insn (c_f s) d = Some y /\ i_op y = ALLOC) ->
  (i_op x = LOAD -> exists v r d y, i_vals x = v :: r /\ v_data v = VInsn d /\ f_insn (c_f s) d = Some y /\ i_op y = ALLOC) ->
  copy_pair s i = Ok None \/ exists a b, copy_pair s i = Ok (Some (a, b)) /\ copies s i a b.
Proof.
  intros Hx Ca Cs Cl. unfold copy_pair, get_insn. rewrite Hx. cbn [bind].
  destruct (i_op x) eqn:Eo; auto.
  - (* STORE *) destruct (Cs eq_refl) as (v & w & r & d & y & E1 & E2 & E3 & E4). rewrite E1.
    assert (val_target v = Some d) as -> by (unfold val_target; rewrite E2; reflexivity). cbv beta. rewrite E3. cbn [bind].
    rewrite E4. cbn. unfold val_target. destruct (v_data w) as [c|c|c|j|q|] eqn:Ew; cbn [option_map]; auto.
    right. exists d, j. split; [reflexivity|]. exists x. split; [exact Hx|]. right. left. split; [exact Eo|]. exists v, w, r. auto.
  - (* LOAD *) destruct (Cl eq_refl) as (v & r & d & y & E1 & E2 & E3 & E4). rewrite E1.
    assert (val_target v = Some d) as -> by (unfold val_target; rewrite E2; reflexivity). cbv beta. rewrite E3. cbn [bind].
    rewrite E4. cbn. right. exists i, d. split; [reflexivity|]. exists x. split; [exact Hx|]. right. right. split; [exact Eo|].
    split; [reflexivity|]. exists v, r. auto.
  - (* ASSIGN *) destruct (i_vals x) as [|v r] eqn:Ev; [destruct (Ca eq_refl); reflexivity|].
    unfold val_target. destruct (v_data v) as [c|c|c|j|q|] eqn:Ew; cbn [option_map]; auto.
    right. exists i, j. split; [reflexivity|]. exists x. split; [exact Hx|]. left. split; [exact Eo|]. split; [reflexivity|]. exists v, r. auto.
Qed.

Theorem coalescing_placed s t u : ready s -> placed s t u -> copies_ok s ->
  (forall i a b, linked s i -> copies s i a b -> mergeable s t a b) ->
  exists u', coalescing u = Ok u' /\ placed s t u'.
Proof.
  intros R Pl C M. unfold coalescing. rewrite (pl_f s t u Pl), (pl_reach s t u Pl), insns_in_ok by apply (rd_reach s R). cbn [bind].
  assert (H : forall l, (forall i, In i l -> linked s i) -> forall w, placed s t w -> exists w', ofold coalesce_insn w l = Ok w' /\ placed s t w').
  { induction l as [|i l IH]; intros Hl w Pw; cbn [ofold]; [eauto|].
    assert (Li : linked s i) by (apply Hl; left; reflexivity). pose proof Li as (b & Hb & Hi).
    destruct (rd_insn s R b i Hb Hi) as (x & _ & Hx & _). destruct (C i x Li Hx) as (C1 & C2 & C3).
    assert (Step : exists w', coalesce_insn w i = Ok w' /\ placed s t w').
    { unfold coalesce_insn. destruct (copy_pair_ok w i x) as [E|(p & q & E & K)]; try (rewrite (pl_f s t w Pw); assumption); auto.
      - rewrite E. exists w. auto.
      - rewrite E. cbn [bind]. apply (coalesce_placed s t w p q R Pw). apply (M i p q Li). unfold copies in *. rewrite (pl_f s t w Pw) in K. exact K. }
    destruct Step as (w' & -> & Pw'). cbn [bind]. apply IH; [intros j Hj; apply Hl; right; exact Hj|exact Pw']. }
  apply H; [|exact Pl]. intros i Hi. apply flat_linked, Hi.
Qed.

(** ** From the function to the assignment *)
Lemma at_most_ten s t l : ready s -> analysed s t -> NoDup l -> incl l (c_all t) -> (forall v, In v l -> physical t v) -> length l <= 10.
Proof.
  intros R A N I Ph. rewrite <- (rd_regs s R). apply NoDup_incl_length; [exact N|]. intros v Hv.
  specialize (I v Hv). apply (an_all s t A) in I. destruct I as [I|(L & _)]; [exact I|exfalso].
  destruct (Ph v Hv) as (e & He & Nv). pose proof (ready_sim _ _ (an_sim s t A) R) as Rt.
  apply (linked_sim _ _ _ (an_sim s t A)) in L. destruct L as (b & Hb & Hi).
  destruct (rd_insn t Rt b v Hb Hi) as (x & e' & _ & _ & He' & _ & K & _). congruence.
Qed.
