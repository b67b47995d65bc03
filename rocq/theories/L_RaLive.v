(** Lemmas about the liveness and interference analysis of the register allocator. *)
From Verif Require Import M_Base M_Ir M_Edit M_Ra SpecIr SpecRa L_Edit L_RaGraph.
From Coq Require Import Permutation.
Open Scope nat_scope.

(** ** What the analysis does not touch *)
Definition stat (e : extra) := (x_dst e, x_fin e, x_pos e, x_nonvr e).
(** lists of neighbours without duplicates, counters reset *)
Definition nd (s : cgs) : Prop := forall v e, c_ex s v = Some e -> NoDup (x_adj e) /\ x_lam e = 0 /\ x_w e = 0.
Definition ssim (s t : cgs) : Prop :=
  c_f t = c_f s /\ c_reach t = c_reach s /\ c_regs t = c_regs s /\ c_sp t = c_sp s /\ c_args t = c_args s /\
  c_seo t = c_seo s /\ c_off t = c_off s /\
  forall v, option_map stat (c_ex t v) = option_map stat (c_ex s v).
Lemma ssim_refl s : ssim s s.
Proof. unfold ssim. intuition. Qed.
Lemma ssim_trans s t u : ssim s t -> ssim t u -> ssim s u.
Proof.
  unfold ssim. intros (a1 & a2 & a3 & a4 & a5 & a6 & a7 & a8) (b1 & b2 & b3 & b4 & b5 & b6 & b7 & b8).
  repeat (split; [congruence|]). intros v. rewrite b8. apply a8.
Qed.
Lemma ssim_put s i e e' : c_ex s i = Some e -> stat e' = stat e -> ssim s (put_ex s i e').
Proof.
  intros H E. unfold ssim. cbn. repeat (split; [reflexivity|]). intros v. unfold upd.
  destruct (Nat.eqb_spec v i) as [->|D]; [rewrite H; cbn; congruence|reflexivity].
Qed.
Lemma ssim_some s t v e : ssim s t -> c_ex s v = Some e -> exists e', c_ex t v = Some e' /\ stat e' = stat e.
Proof.
  intros (_ & _ & _ & _ & _ & _ & _ & H) E. specialize (H v). rewrite E in H.
  destruct (c_ex t v) as [e'|]; cbn in H; [|discriminate]. exists e'. split; [reflexivity|congruence].
Qed.
Lemma ssim_sym s t : ssim s t -> ssim t s.
Proof. unfold ssim. intros (a1 & a2 & a3 & a4 & a5 & a6 & a7 & a8). repeat (split; [congruence|]). intros v. rewrite a8. reflexivity. Qed.
Lemma ssim_data s t v : ssim s t -> has_data s v -> has_data t v.
Proof. intros S (e & He). destruct (ssim_some _ _ _ _ S He) as (z & Hz & _). exists z. exact Hz. Qed.
Lemma stat_inj e e' : stat e = stat e' ->
  x_dst e = x_dst e' /\ x_fin e = x_fin e' /\ x_pos e = x_pos e' /\ x_nonvr e = x_nonvr e'.
Proof. unfold stat. intros H. injection H as -> -> -> ->. auto. Qed.

Lemma vertex_sim s t v x : ssim s t -> vertex s v x -> vertex t v x.
Proof.
  intros S (e & He & H). destruct (ssim_some _ _ _ _ S He) as (e' & He' & E). apply stat_inj in E.
  destruct E as (_ & E2 & E3 & _). exists e'. split; [exact He'|].
  assert (Q : c_regs t = c_regs s) by apply S. rewrite E2, E3, Q. exact H.
Qed.
Lemma defines_sim s t i v : ssim s t -> defines s i v -> defines t i v.
Proof.
  intros S (e & He & H). destruct (ssim_some _ _ _ _ S He) as (e' & He' & E). apply stat_inj in E.
  exists e'. split; [exact He'|]. destruct E as (E & _). congruence.
Qed.
Lemma linked_sim s t i : ssim s t -> linked s i -> linked t i.
Proof. intros S (b & H1 & H2). exists b. assert (Q1 : c_f t = c_f s) by apply S. assert (Q2 : c_reach t = c_reach s) by apply S. rewrite Q1, Q2. auto. Qed.
Lemma tracked_sim s t i : ssim s t -> tracked s i -> tracked t i.
Proof.
  intros S (L & e & He & F & D). split; [eapply linked_sim; eassumption|].
  destruct (ssim_some _ _ _ _ S He) as (e' & He' & E). apply stat_inj in E.
  destruct E as (E1 & E2 & _). exists e'. split; [exact He'|]. split; congruence.
Qed.
Lemma reads_sim s t i v : ssim s t -> reads s i v -> reads t i v.
Proof. intros S. unfold reads. assert (c_f t = c_f s) as -> by apply S. auto. Qed.
Lemma live_sim s t v p : ssim s t -> live s v p -> live t v p.
Proof.
  intros S H. assert (Q1 : c_f t = c_f s) by apply S. assert (Q2 : c_reach t = c_reach s) by apply S.
  induction H.
  - eapply live_use; unfold insn_at, reads in *; rewrite ?Q1, ?Q2; eassumption.
  - replace (ends_at s b) with (ends_at t b) by (unfold ends_at; rewrite Q1; reflexivity).
    eapply live_phi; rewrite ?Q1; try eassumption. eapply linked_sim; eassumption.
  - eapply live_step; unfold insn_at in *; rewrite ?Q1, ?Q2; try eassumption.
    intros D. apply H1. eapply defines_sim; [apply ssim_sym, S|exact D].
  - replace (ends_at s b) with (ends_at t b) by (unfold ends_at; rewrite Q1; reflexivity).
    eapply live_edge; rewrite ?Q1, ?Q2; eassumption.
Qed.
Lemma ready_sim s t : ssim s t -> ready s -> ready t.
Proof.
  intros S R. pose proof (ssim_sym _ _ S) as S'.
  destruct R as [R1 R2 R3 R4 R5 R6 R7 R8 R9 R10 R12 R11].
  assert (Q1 : c_f t = c_f s) by apply S. assert (Q2 : c_reach t = c_reach s) by apply S.
  assert (Q3 : c_regs t = c_regs s) by apply S. assert (Q4 : c_sp t = c_sp s) by apply S.
  split; unfold reads; rewrite ?Q1, ?Q2, ?Q3, ?Q4; auto.
  - intros k r H. destruct (R3 k r H) as (e & He & H1 & H2 & H3). destruct (ssim_some _ _ _ _ S He) as (e' & He' & E).
    apply stat_inj in E. destruct E as (_ & E2 & E3 & E4). exists e'. rewrite E2, E3, E4. auto.
  - intros r H L. apply (R4 r H). eapply linked_sim; eassumption.
  - destruct R5 as (A & B). split; [exact A|]. intros L. apply B. eapply linked_sim; eassumption.
  - intros b i Hb Hi. destruct (R9 b i Hb Hi) as (x & e & H1 & H2 & He & H3 & H4 & H5 & H6).
    destruct (ssim_some _ _ _ _ S He) as (e' & He' & E). apply stat_inj in E. destruct E as (E1 & E2 & E3 & E4).
    exists x, e'. rewrite E1, E2, E3, E4. auto 10.
  - intros d u L. rewrite R10 by (eapply linked_sim; eassumption). unfold reads. split; intros (A & B); split; auto; eapply linked_sim; eassumption.
  - intros i x e L Hx He J. destruct (ssim_some _ _ _ _ S' He) as (e' & He' & E). apply stat_inj in E.
    destruct E as (E & _). rewrite <- E. eapply R12; try eassumption. eapply linked_sim; eassumption.
  - intros i x L Hx Ep. destruct (R11 i x (linked_sim _ _ _ S' L) Hx Ep) as (A & B & C).
    split; [exact A|]. split; [eapply defines_sim; eassumption|exact C].
Qed.

(** ** Instructions have one place *)
Lemma at_unique s (R : ready s) b k i b' k' :
  In b (c_reach s) -> In b' (c_reach s) -> insn_at s b k i -> insn_at s b' k' i -> b = b' /\ k = k'.
Proof.
  intros Hb Hb' H H'. unfold insn_at in *.
  destruct (rd_insn s R b i Hb (nth_error_In _ _ H)) as (x & e & X1 & X2 & _).
  destruct (rd_insn s R b' i Hb' (nth_error_In _ _ H')) as (y & e' & Y1 & Y2 & _).
  assert (E : b = b') by congruence. clear X2 Y2. subst b'. split; [reflexivity|].
  pose proof (rd_once s R b Hb) as N. rewrite NoDup_nth_error in N. apply N; [|congruence].
  apply nth_error_Some. congruence.
Qed.
Lemma linked_data s (R : ready s) i : linked s i -> has_data s i.
Proof. intros (b & Hb & Hi). destruct (rd_insn s R b i Hb Hi) as (x & e & _ & _ & He & _). exists e. exact He. Qed.
Lemma reg_data s (R : ready s) i : In i (c_regs s) -> has_data s i.
Proof. intros H. apply In_nth_error in H. destruct H as (k & H). destruct (rd_reg s R k i H) as (e & He & _). exists e. exact He. Qed.

(** ** Vertices *)
Definition isnode (s : cgs) (x : nat) : Prop := In x (c_regs s) \/ tracked s x.
Definition valued (s : cgs) (v : nat) : Prop := linked s v /\ defines s v v.
Lemma valued_sim s t v : ssim s t -> valued s v -> valued t v.
Proof. intros S (L & D). split; [eapply linked_sim|eapply defines_sim]; eassumption. Qed.
Lemma tracked_valued s v : tracked s v -> valued s v /\ ~ fixed s v.
Proof. intros (L & e & He & F & D). split; [split; [exact L|exists e; auto]|]. intros (e' & He' & C). congruence. Qed.
Lemma isnode_sim s t x : ssim s t -> isnode s x -> isnode t x.
Proof.
  intros S [H|H]; [left; assert (c_regs t = c_regs s) as -> by apply S; exact H|right]. eapply tracked_sim; eassumption.
Qed.
Lemma isnode_data s (R : ready s) x : isnode s x -> has_data s x.
Proof. intros [H|(L & _)]; [apply reg_data|apply linked_data]; assumption. Qed.
Lemma isnode_sp s (R : ready s) x : isnode s x -> x <> c_sp s.
Proof. intros [H|(L & _)] ->; destruct (rd_sp s R); contradiction. Qed.

Lemma node_linked s (R : ready s) v : valued s v ->
  (node s v = Ok None /\ (forall x, ~ vertex s v x)) \/
  (exists x, node s v = Ok (Some x) /\ vertex s v x /\ isnode s x /\ (forall y, vertex s v y -> y = x)).
Proof.
  intros (L & Df). pose proof L as (b & Hb & Hi). destruct (rd_insn s R b v Hb Hi) as (x & e & _ & _ & He & _ & _ & Al & Ps).
  unfold node, get_ex. rewrite He. cbn [bind]. rewrite Al. destruct (x_fin e) eqn:Fn; cbn [andb negb].
  - destruct (vp_spilled (x_pos e) =? 0)%Z eqn:Sp; cbn [negb].
    + apply Z.eqb_eq in Sp. destruct (Ps eq_refl) as [C|As]; [contradiction|]. unfold assignable in As. right.
      unfold reg_node. assert ((vp_reg (x_pos e) <? 0)%Z = false) as -> by (apply Z.ltb_ge; lia).
      destruct (nth_error (c_regs s) (Z.to_nat (vp_reg (x_pos e)))) as [r|] eqn:Er.
      2: { apply nth_error_None in Er. rewrite (rd_regs s R) in Er. lia. }
      cbn [bind]. exists r. split; [reflexivity|]. split; [|split].
      * exists e. split; [exact He|]. right. split; [exact Fn|]. split; [exact Sp|]. split; [lia|exact Er].
      * left. eapply nth_error_In. exact Er.
      * intros y (e' & He' & H). rewrite He in He'. injection He' as <-. destruct H as [(C & _)|(_ & _ & _ & H)]; congruence.
    + apply Z.eqb_neq in Sp. left. split; [reflexivity|]. intros y (e' & He' & H). rewrite He in He'. injection He' as <-.
      destruct H as [(C & _)|(_ & C & _)]; congruence.
  - right. exists v. split; [reflexivity|]. split; [exists e; auto|]. split.
    + right. split; [exact L|]. exists e. split; [exact He|]. split; [exact Fn|]. destruct Df as (e' & He' & Df). congruence.
    + intros y (e' & He' & H). rewrite He in He'. injection He' as <-. destruct H as [(_ & H)|(C & _)]; congruence.
Qed.
Lemma node_reg s (R : ready s) k r : nth_error (c_regs s) k = Some r -> 
  node s r = Ok (Some r) /\ vertex s r r /\ isnode s r /\ (forall y, vertex s r y -> y = r).
Proof.
  intros H. destruct (rd_reg s R k r H) as (e & He & H1 & H2 & H3 & H4 & H5).
  assert (N : nth_error (c_regs s) (Z.to_nat (vp_reg (x_pos e))) = Some r) by (rewrite H5, Nat2Z.id; exact H).
  split; [|split; [|split]].
  - unfold node, get_ex. rewrite He. cbn [bind]. rewrite H1, H3, H4. cbn. unfold reg_node.
    assert ((vp_reg (x_pos e) <? 0)%Z = false) as -> by (apply Z.ltb_ge; lia). rewrite N. reflexivity.
  - exists e. split; [exact He|]. right. split; [exact H1|]. split; [exact H4|]. split; [lia|exact N].
  - left. eapply nth_error_In. exact H.
  - intros y (e' & He' & X). rewrite He in He'. injection He' as <-. destruct X as [(C & _)|(_ & _ & _ & X)]; congruence.
Qed.

(** ** Adding an edge *)
Definition same_live (s t : cgs) : Prop :=
  (forall i v, live_before t i v <-> live_before s i v) /\ (forall i v, live_after t i v <-> live_after s i v).
Lemma add_adj_ok s a b : has_data s a ->
  exists t, add_adj s a b = Ok t /\ ssim s t /\ c_all t = c_all s /\ same_live s t /\
    (forall p q, adjacent t p q <-> adjacent s p q \/ (p = a /\ q = b)) /\
    (nd s -> nd t).
Proof.
  intros (e & He). unfold add_adj, get_ex. rewrite He. cbn [bind]. eexists. split; [reflexivity|].
  split; [apply (ssim_put _ _ e); [exact He|reflexivity]|]. split; [reflexivity|]. split; [|split].
  - split; intros i v; unfold live_before, live_after; (destruct (Nat.eq_dec i a) as [->|D];
      [rewrite put_ex_eq|rewrite put_ex_ne by exact D; tauto]); split.
    + intros (z & Hz & I). injection Hz as <-. exists e. auto.
    + intros (z & Hz & I). rewrite He in Hz. injection Hz as <-. eexists. split; [reflexivity|exact I].
    + intros (z & Hz & I). injection Hz as <-. exists e. auto.
    + intros (z & Hz & I). rewrite He in Hz. injection Hz as <-. eexists. split; [reflexivity|exact I].
  - intros p q. unfold adjacent. destruct (Nat.eq_dec p a) as [->|D].
    + rewrite put_ex_eq. split.
      * intros (z & Hz & I). injection Hz as <-. cbn in I. apply ins_In in I. destruct I as [->|I]; [right; auto|left; exists e; auto].
      * intros H. eexists. split; [reflexivity|]. cbn. apply ins_In. destruct H as [(z & Hz & I)|(_ & ->)]; [|auto].
        rewrite He in Hz. injection Hz as <-. auto.
    + rewrite put_ex_ne by exact D. split; [auto|]. intros [H|(C & _)]; [exact H|contradiction].
  - intros N v z Hz. destruct (Nat.eq_dec v a) as [->|D].
    + rewrite put_ex_eq in Hz. injection Hz as <-. cbn. destruct (N a e He) as (N1 & N2). split; [apply ins_NoDup, N1|exact N2].
    + rewrite put_ex_ne in Hz by exact D. exact (N v z Hz).
Qed.

(** The graph built so far: symmetric, between distinct vertices, without duplicates. *)
Record gi (s : cgs) : Prop := {
  gi_sym : forall a b, adjacent s a b -> adjacent s b a;
  gi_ne : forall a b, adjacent s a b -> a <> b;
  gi_node : forall a b, adjacent s a b -> isnode s b;
  gi_nd : nd s }.

(** Everything an analysis step may do. *)
Record grows (s t : cgs) : Prop := {
  gr_sim : ssim s t;
  gr_all : c_all t = c_all s;
  gr_adj : forall a b, adjacent s a b -> adjacent t a b;
  gr_gi : gi s -> gi t }.
Lemma grows_refl s : grows s s.
Proof. split; auto. apply ssim_refl. Qed.
Lemma grows_trans s t u : grows s t -> grows t u -> grows s u.
Proof. intros [a1 a2 a3 a4] [b1 b2 b3 b4]. split; auto; [eapply ssim_trans; eassumption|congruence]. Qed.
Lemma interferes_grows s t a b : grows s t -> interferes s a b -> interferes t a b.
Proof.
  intros G H x y Hx Hy. apply (gr_adj s t G). apply H; eapply vertex_sim; try eassumption; apply ssim_sym, (gr_sim s t G).
Qed.
Lemma interferes_sym s a b : gi s -> interferes s a b -> interferes s b a.
Proof. intros G H x y Hx Hy. apply (gi_sym s G). apply H; assumption. Qed.

(** recording a conflict between two values whose vertices are known *)
Lemma conflict_nodes s v1 v2 x y :
  ready s -> v1 <> v2 -> node s v1 = Ok (Some x) -> node s v2 = Ok (Some y) ->
  vertex s v1 x -> vertex s v2 y -> (forall z, vertex s v1 z -> z = x) -> (forall z, vertex s v2 z -> z = y) ->
  isnode s x -> isnode s y -> x <> y ->
  exists t, make_conflict s v1 v2 = Ok t /\ grows s t /\ same_live s t /\ interferes t v1 v2 /\
    (forall p q, adjacent t p q -> adjacent s p q \/ (p = x /\ q = y) \/ (p = y /\ q = x)).
Proof.
  intros R D N1 N2 V1 V2 U1 U2 I1 I2 Dx. unfold make_conflict.
  assert (v1 =? v2 = false) as -> by (apply Nat.eqb_neq; exact D). rewrite N1. cbn [bind]. rewrite N2. cbn [bind].
  destruct (add_adj_ok s x y (isnode_data s R x I1)) as (s1 & R1 & S1 & A1 & L1 & E1 & D1). rewrite R1. cbn [bind].
  destruct (add_adj_ok s1 y x (ssim_data _ _ _ S1 (isnode_data s R y I2))) as (s2 & R2 & S2 & A2 & L2 & E2 & D2).
  rewrite R2. exists s2. split; [reflexivity|].
  pose proof (ssim_trans _ _ _ S1 S2) as S.
  assert (E : forall p q, adjacent s2 p q <-> adjacent s p q \/ (p = x /\ q = y) \/ (p = y /\ q = x)).
  { intros p q. rewrite E2, E1. tauto. }
  split; [split|split; [|split]].
  - exact S.
  - congruence.
  - intros a b H. apply E. auto.
  - intros [G1 G2 G3 G4]. split.
    + intros a b H. apply E in H. apply E. destruct H as [H|[(-> & ->)|(-> & ->)]]; auto.
    + intros a b H. apply E in H. destruct H as [H|[(-> & ->)|(-> & ->)]]; auto.
    + intros a b H. apply E in H. apply (isnode_sim _ _ _ S).
      destruct H as [H|[(-> & ->)|(-> & ->)]]; auto. eapply G3. exact H.
    + apply D2, D1, G4.
  - destruct L1 as (L1 & L1'), L2 as (L2 & L2'). split; intros i v; [rewrite L2; apply L1|rewrite L2'; apply L1'].
  - intros p q Hp Hq. apply E. right. left. split; [apply U1|apply U2]; eapply vertex_sim; try eassumption; apply ssim_sym, S.
  - intros p q H. apply E, H.
Qed.

Lemma interferes_novertex s a b : (forall x, ~ vertex s b x) -> interferes s a b.
Proof. intros H x y _ Hy. destruct (H y Hy). Qed.
Lemma interferes_novertex1 s a b : (forall x, ~ vertex s a x) -> interferes s a b.
Proof. intros H x y Hy. destruct (H x Hy). Qed.
Lemma same_live_refl s : same_live s s.
Proof. split; tauto. Qed.
Lemma same_live_trans s t u : same_live s t -> same_live t u -> same_live s u.
Proof. intros (a & b) (c & d). split; intros i v; [rewrite c; apply a|rewrite d; apply b]. Qed.

(** a value without fixed position against any other instruction of the function *)
Lemma conflict_linked s v d :
  ready s -> valued s v -> ~ fixed s v -> valued s d -> v <> d ->
  exists t, make_conflict s v d = Ok t /\ grows s t /\ same_live s t /\ interferes t v d.
Proof.
  intros R Lv Fv Ld D.
  destruct (node_linked s R v Lv) as [(N1 & U1)|(x & N1 & V1 & I1 & U1)].
  { exists s. unfold make_conflict. assert (v =? d = false) as -> by (apply Nat.eqb_neq; exact D). rewrite N1. cbn [bind].
    split; [reflexivity|]. split; [apply grows_refl|]. split; [apply same_live_refl|apply interferes_novertex1, U1]. }
  destruct (node_linked s R d Ld) as [(N2 & U2)|(y & N2 & V2 & I2 & U2)].
  { exists s. unfold make_conflict. assert (v =? d = false) as -> by (apply Nat.eqb_neq; exact D). rewrite N1, N2. cbn [bind].
    split; [reflexivity|]. split; [apply grows_refl|]. split; [apply same_live_refl|apply interferes_novertex, U2]. }
  destruct (conflict_nodes s v d x y) as (t & H1 & H2 & H3 & H4 & _); auto; [|exists t; auto].
  (* distinct vertices *)
  assert (Ex : x = v).
  { destruct V1 as (e & He & [(_ & E)|(F & _)]); [exact E|]. destruct Fv. exists e. auto. }
  subst x. intros <-. destruct V2 as (e & He & [(_ & E)|(F & _ & _ & Er)]); [congruence|].
  apply nth_error_In in Er. apply (rd_apart s R v Er (proj1 Lv)).
Qed.

Lemma nth_error_length {A} (l : list A) k x : nth_error l k = Some x -> k < length l.
Proof. intros H. apply nth_error_Some. congruence. Qed.

(** ** Liveness of one value *)
Lemma ins_fact_in s i v e : c_ex s i = Some e ->
  let t := put_ex s i (set_in (ins v (x_in e)) e) in
  (forall j w, live_before t j w <-> live_before s j w \/ (j = i /\ w = v)) /\
  (forall j w, live_after t j w <-> live_after s j w) /\ (forall a b, adjacent t a b <-> adjacent s a b) /\
  (nd s -> nd t).
Proof.
  intros He t.
  assert (X : forall (P : extra -> Prop), P e = P (set_in (ins v (x_in e)) e) -> forall j,
    (exists z, c_ex t j = Some z /\ P z) <-> (exists z, c_ex s j = Some z /\ P z)).
  { intros P EP j. unfold t. destruct (Nat.eq_dec j i) as [->|D]; [rewrite put_ex_eq, He|rewrite put_ex_ne by exact D; tauto].
    split; intros (z & Hz & I); injection Hz as <-; eexists; (split; [reflexivity|congruence]). }
  split; [|split; [|split]].
  - intros j w. unfold live_before, t. destruct (Nat.eq_dec j i) as [->|D].
    + rewrite put_ex_eq, He. split.
      * intros (z & Hz & I). injection Hz as <-. cbn in I. apply ins_In in I. destruct I as [->|I]; [auto|]. left. eauto.
      * intros H. eexists. split; [reflexivity|]. cbn. apply ins_In. destruct H as [(z & Hz & I)|(_ & ->)]; [|auto].
        injection Hz as <-. auto.
    + rewrite put_ex_ne by exact D. split; [auto|]. intros [H|(C & _)]; [exact H|contradiction].
  - intros j w. apply (X (fun z => In w (x_out z))). reflexivity.
  - intros a b. apply (X (fun z => In b (x_adj z))). reflexivity.
  - intros N a z Hz. unfold t in Hz. destruct (Nat.eq_dec a i) as [->|D].
    + rewrite put_ex_eq in Hz. injection Hz as <-. exact (N i e He).
    + rewrite put_ex_ne in Hz by exact D. exact (N a z Hz).
Qed.
Lemma ins_fact_out s i v e : c_ex s i = Some e ->
  let t := put_ex s i (set_out (ins v (x_out e)) e) in
  (forall j w, live_before t j w <-> live_before s j w) /\
  (forall j w, live_after t j w <-> live_after s j w \/ (j = i /\ w = v)) /\ (forall a b, adjacent t a b <-> adjacent s a b) /\
  (nd s -> nd t).
Proof.
  intros He t.
  assert (X : forall (P : extra -> Prop), P e = P (set_out (ins v (x_out e)) e) -> forall j,
    (exists z, c_ex t j = Some z /\ P z) <-> (exists z, c_ex s j = Some z /\ P z)).
  { intros P EP j. unfold t. destruct (Nat.eq_dec j i) as [->|D]; [rewrite put_ex_eq, He|rewrite put_ex_ne by exact D; tauto].
    split; intros (z & Hz & I); injection Hz as <-; eexists; (split; [reflexivity|congruence]). }
  split; [|split; [|split]].
  - intros j w. apply (X (fun z => In w (x_in z))). reflexivity.
  - intros j w. unfold live_after, t. destruct (Nat.eq_dec j i) as [->|D].
    + rewrite put_ex_eq, He. split.
      * intros (z & Hz & I). injection Hz as <-. cbn in I. apply ins_In in I. destruct I as [->|I]; [auto|]. left. eauto.
      * intros H. eexists. split; [reflexivity|]. cbn. apply ins_In. destruct H as [(z & Hz & I)|(_ & ->)]; [|auto].
        injection Hz as <-. auto.
    + rewrite put_ex_ne by exact D. split; [auto|]. intros [H|(C & _)]; [exact H|contradiction].
  - intros a b. apply (X (fun z => In b (x_adj z))). reflexivity.
  - intros N a z Hz. unfold t in Hz. destruct (Nat.eq_dec a i) as [->|D].
    + rewrite put_ex_eq in Hz. injection Hz as <-. exact (N i e He).
    + rewrite put_ex_ne in Hz by exact D. exact (N a z Hz).
Qed.
Lemma gi_same s t : ssim s t -> (forall a b, adjacent t a b <-> adjacent s a b) ->
  (nd s -> nd t) -> gi s -> gi t.
Proof.
  intros S E N [G1 G2 G3 G4]. split.
  - intros a b H. apply E in H. apply E. auto.
  - intros a b H. apply E in H. eauto.
  - intros a b H. apply E in H. eapply isnode_sim; [exact S|]. eauto.
  - exact (N G4).
Qed.

(** Steps of the analysis of [v]: more facts about [v], the same facts about the other values. *)
Record eff (v : nat) (s t : cgs) : Prop := {
  ef_grows : grows s t;
  ef_before : forall i w, live_before s i w -> live_before t i w;
  ef_after : forall i w, live_after s i w -> live_after t i w;
  ef_other : forall i w, w <> v -> (live_before t i w -> live_before s i w) /\ (live_after t i w -> live_after s i w) }.
Lemma eff_refl v s : eff v s s.
Proof. split; auto using grows_refl. Qed.
Lemma eff_trans v s t u : eff v s t -> eff v t u -> eff v s u.
Proof.
  intros [a1 a2 a3 a4] [b1 b2 b3 b4]. split; auto; [eapply grows_trans; eassumption|].
  intros i w D. destruct (a4 i w D), (b4 i w D). auto.
Qed.
Lemma eff_conflict v s t : grows s t -> same_live s t -> eff v s t.
Proof.
  intros G (A & B). split; [exact G|intros i w; apply A|intros i w; apply B|].
  intros i w _. split; [apply A|apply B].
Qed.
Lemma add_in_ok v s i : has_data s i ->
  exists t, add_in s i v = Ok t /\ eff v s t /\ live_before t i v /\
    (forall j, live_before t j v -> live_before s j v \/ j = i) /\ (forall j, live_after t j v -> live_after s j v).
Proof.
  intros (e & He). unfold add_in, get_ex. rewrite He. cbn [bind]. eexists. split; [reflexivity|].
  destruct (ins_fact_in s i v e He) as (A & B & C & D).
  assert (S : ssim s (put_ex s i (set_in (ins v (x_in e)) e))) by (apply (ssim_put _ _ e); [exact He|reflexivity]).
  split; [split; [split|..]|split; [|split]].
  - exact S.
  - reflexivity.
  - intros a b H. apply C, H.
  - apply gi_same; assumption.
  - intros j w H. apply A. auto.
  - intros j w H. apply B. auto.
  - intros j w Dw. split; [|apply B]. intros H. apply A in H. destruct H as [H|(_ & H)]; [exact H|contradiction].
  - apply A. auto.
  - intros j H. apply A in H. tauto.
  - intros j. apply B.
Qed.
Lemma add_out_ok v s i : has_data s i ->
  exists t, add_out s i v = Ok t /\ eff v s t /\ live_after t i v /\
    (forall j, live_after t j v -> live_after s j v \/ j = i) /\ (forall j, live_before t j v -> live_before s j v).
Proof.
  intros (e & He). unfold add_out, get_ex. rewrite He. cbn [bind]. eexists. split; [reflexivity|].
  destruct (ins_fact_out s i v e He) as (A & B & C & D).
  assert (S : ssim s (put_ex s i (set_out (ins v (x_out e)) e))) by (apply (ssim_put _ _ e); [exact He|reflexivity]).
  split; [split; [split|..]|split; [|split]].
  - exact S.
  - reflexivity.
  - intros a b H. apply C, H.
  - apply gi_same; assumption.
  - intros j w H. apply A. auto.
  - intros j w H. apply B. auto.
  - intros j w Dw. split; [apply A|]. intros H. apply B in H. destruct H as [H|(_ & H)]; [exact H|contradiction].
  - apply B. auto.
  - intros j H. apply B in H. tauto.
  - intros j. apply A.
Qed.

Section One.
Variable s0 : cgs.
Variable v : nat.
Hypothesis R0 : ready s0.
Hypothesis T0 : tracked s0 v.

Definition Ss (s : cgs) : Prop := ssim s0 s.
Lemma eff_Ss s t : Ss s -> eff v s t -> Ss t.
Proof. intros S E. eapply ssim_trans; [exact S|]. apply E. Qed.

Lemma fixed_not s : Ss s -> ~ fixed s v.
Proof.
  intros S. pose proof (tracked_sim _ _ _ S T0) as (_ & e & He & F & _). intros (e' & He' & F'). congruence.
Qed.

(** the state after walking back over the first instructions of a block *)
Lemma walk_ok b : In b (c_reach s0) -> forall pre suf s,
  Ss s -> insns_of (c_f s0) b = pre ++ suf ->
  exists t top, walk_out s v (rev pre) = Ok (t, top) /\ eff v s t /\
    (forall i, live_before t i v -> live_before s i v \/
       exists j, nth_error pre j = Some i /\
         (forall j' i', j <= j' -> nth_error pre j' = Some i' -> ~ defines s0 i' v) /\
         match j with 0 => top = true | S j' => forall i', nth_error pre j' = Some i' -> live_after t i' v end) /\
    (forall i, live_after t i v -> live_after s i v \/
       exists j, nth_error pre j = Some i /\
         (forall j' i', j < j' -> nth_error pre j' = Some i' -> ~ defines s0 i' v) /\
         (~ defines s0 i v -> live_before t i v) /\
         (forall d, defines s0 i d -> d <> v -> interferes t v d)) /\
    (forall p i, pre = p ++ [i] -> live_after t i v) /\
    (top = true -> forall i, In i pre -> ~ defines s0 i v) /\
    (pre = [] -> top = true).
Proof.
  intros Hb pre. induction pre as [|i pre IH] using rev_ind; intros suf s S E.
  - exists s, true. split; [reflexivity|]. split; [apply eff_refl|]. split; [auto|]. split; [auto|].
    split; [intros [|? ?] ? H; discriminate|]. split; [intros _ ? []|reflexivity].
  - rewrite rev_app_distr. cbn [rev app walk_out].
    assert (Hi : In i (insns_of (c_f s0) b)) by (rewrite E; apply in_or_app; left; apply in_or_app; right; left; reflexivity).
    assert (Li : linked s0 i) by (exists b; auto).
    destruct (add_out_ok v s i) as (s1 & R1 & F1 & A1 & N1 & B1).
    { eapply ssim_data; [exact S|]. apply linked_data; assumption. }
    rewrite R1. cbn [bind]. pose proof (eff_Ss _ _ S F1) as S1.
    destruct (rd_insn s0 R0 b i Hb Hi) as (x & e0 & Hx & Hp & He0 & Dst & Nv & Al & Ps).
    destruct (ssim_some _ _ _ _ S1 He0) as (e & He & Se). apply stat_inj in Se. destruct Se as (Se1 & Se2 & _).
    unfold get_ex at 1. rewrite He. cbn [bind]. rewrite Se1.
    (* both ways of walking on *)
    assert (Cont : forall s2, eff v s1 s2 -> (forall j, live_before s2 j v -> live_before s1 j v) ->
       (forall j, live_after s2 j v -> live_after s1 j v) ->
       ~ defines s0 i v -> (forall d, defines s0 i d -> d <> v -> interferes s2 v d) ->
       exists t top, (do s3 <- add_in s2 i v; walk_out s3 v (rev pre)) = Ok (t, top) /\ eff v s t /\
    (forall i0, live_before t i0 v -> live_before s i0 v \/
       exists j, nth_error (pre ++ [i]) j = Some i0 /\
         (forall j' i', j <= j' -> nth_error (pre ++ [i]) j' = Some i' -> ~ defines s0 i' v) /\
         match j with 0 => top = true | S j' => forall i', nth_error (pre ++ [i]) j' = Some i' -> live_after t i' v end) /\
    (forall i0, live_after t i0 v -> live_after s i0 v \/
       exists j, nth_error (pre ++ [i]) j = Some i0 /\
         (forall j' i', j < j' -> nth_error (pre ++ [i]) j' = Some i' -> ~ defines s0 i' v) /\
         (~ defines s0 i0 v -> live_before t i0 v) /\
         (forall d, defines s0 i0 d -> d <> v -> interferes t v d)) /\
    (forall p i0, pre ++ [i] = p ++ [i0] -> live_after t i0 v) /\
    (top = true -> forall i0, In i0 (pre ++ [i]) -> ~ defines s0 i0 v) /\
    (pre ++ [i] = [] -> top = true)).
    { intros s2 F2 L2 L2' Nd Itf. pose proof (eff_Ss _ _ S1 F2) as S2.
      destruct (add_in_ok v s2 i) as (s3 & R3 & F3 & A3 & N3 & B3).
      { eapply ssim_data; [exact S2|]. apply linked_data; assumption. }
      rewrite R3. cbn [bind]. pose proof (eff_Ss _ _ S2 F3) as S3.
      destruct (IH ([i] ++ suf) s3 S3) as (t & top & R & F & Kb & Ka & Kl & Kt & Ke).
      { rewrite E, <- app_assoc. reflexivity. }
      exists t, top. split; [exact R|].
      assert (F13 : eff v s1 t) by (eapply eff_trans; [exact F2|]; eapply eff_trans; eassumption).
      split; [eapply eff_trans; eassumption|].
      assert (Up : forall j i', nth_error pre j = Some i' -> nth_error (pre ++ [i]) j = Some i').
      { intros j i' H. rewrite nth_error_app1; [exact H|]. apply nth_error_Some. congruence. }
      assert (Dn : forall j i', nth_error (pre ++ [i]) j = Some i' -> nth_error pre j = Some i' \/ (j = length pre /\ i' = i)).
      { intros j i' H. destruct (Nat.lt_ge_cases j (length pre)) as [C|C].
        - left. rewrite nth_error_app1 in H by exact C. exact H.
        - rewrite nth_error_app2 in H by exact C. destruct (j - length pre) as [|m] eqn:Em.
          + right. cbn in H. split; [lia|congruence].
          + cbn in H. destruct m; discriminate. }
      split; [|split; [|split; [|split]]].
      - intros j H. destruct (Kb j H) as [G|(k & K1 & K2 & K3)].
        + destruct (N3 j G) as [G'| ->].
          * left. apply B1, L2, G'.
          * right. exists (length pre). split; [rewrite nth_error_app2, Nat.sub_diag by lia; reflexivity|]. split.
            -- intros j' i' Lj Hj. destruct (Dn _ _ Hj) as [C|(_ & ->)]; [|exact Nd].
               assert (j' < length pre) by (apply nth_error_Some; congruence). lia.
            -- destruct (length pre) as [|m] eqn:Em.
               ++ apply Ke. destruct pre; [reflexivity|discriminate].
               ++ intros i' Hi'. destruct (Dn _ _ Hi') as [C|(C & _)]; [|lia].
                  destruct (exists_last (l := pre)) as (q & z & Eq); [intros ->; discriminate|].
                  assert (i' = z). { rewrite Eq in C, Em. rewrite app_length in Em. cbn in Em.
                    rewrite nth_error_app2 in C by lia. replace (m - length q) with 0 in C by lia. cbn in C. congruence. }
                  subst i'. eapply Kl. exact Eq.
        + right. exists k. split; [apply Up, K1|]. split.
          * intros j' i' Lj Hj. destruct (Dn _ _ Hj) as [C|(_ & ->)]; [eapply K2; eassumption|exact Nd].
          * destruct k as [|k]; [exact K3|]. intros i' Hi'. destruct (Dn _ _ Hi') as [C|(C & _)]; [apply K3, C|].
            apply nth_error_length in K1. lia.
      - intros j H. destruct (Ka j H) as [G|(k & K1 & K2 & K3 & K4)].
        + apply B3, L2', N1 in G. destruct G as [G| ->]; [left; exact G|].
          right. exists (length pre). split; [rewrite nth_error_app2, Nat.sub_diag by lia; reflexivity|]. split; [|split].
          * intros j' i' Lj Hj. destruct (Dn _ _ Hj) as [C|(C & _)]; [|lia].
            assert (j' < length pre) by (apply nth_error_Some; congruence). lia.
          * intros _. apply (ef_before _ _ _ F), A3.
          * intros d Dd Dv. eapply interferes_grows; [apply (ef_grows _ _ _ (eff_trans _ _ _ _ F3 F))|]. apply Itf; assumption.
        + right. exists k. split; [apply Up, K1|]. split; [|split; [exact K3|exact K4]].
          intros j' i' Lj Hj. destruct (Dn _ _ Hj) as [C|(_ & ->)]; [eapply K2; eassumption|exact Nd].
      - intros p i0 Eq. apply app_inj_tail in Eq. destruct Eq as (_ & <-). apply (ef_after _ _ _ F13), A1.
      - intros Et i0 Hi0. apply in_app_or in Hi0. destruct Hi0 as [Hi0|[<-|[]]]; [apply Kt; assumption|exact Nd].
      - intros C. destruct pre; discriminate. }
    destruct Dst as [Dn|Dn]; rewrite Dn.
    + apply (Cont s1).
      * apply eff_refl.
      * auto.
      * auto.
      * intros (e' & He' & C). congruence.
      * intros d (e' & He' & C). congruence.
    + destruct (i =? v) eqn:Eiv.
      * apply Nat.eqb_eq in Eiv. subst i. exists s1, false. split; [reflexivity|]. split; [exact F1|].
        split; [intros j H; left; apply B1, H|]. split; [|split; [|split]].
        -- intros j H. destruct (N1 j H) as [G| ->]; [left; exact G|]. right. exists (length pre).
           split; [rewrite nth_error_app2, Nat.sub_diag by lia; reflexivity|]. split; [|split].
           ++ intros j' i' Lj Hj. assert (j' < length (pre ++ [v])) by (apply nth_error_Some; congruence).
              rewrite app_length in H0. cbn in H0. lia.
           ++ intros C. destruct C. exists e0. auto.
           ++ intros d (e' & He' & C) Dd. congruence.
        -- intros p i0 Eq. apply app_inj_tail in Eq. destruct Eq as (_ & <-). exact A1.
        -- discriminate.
        -- intros C. destruct pre; discriminate.
      * apply Nat.eqb_neq in Eiv.
        destruct (conflict_linked s1 v i) as (s2 & R2 & G2 & L2 & I2).
        -- eapply ready_sim; eassumption.
        -- apply tracked_valued, (tracked_sim _ _ _ S1), T0.
        -- apply fixed_not, S1.
        -- eapply valued_sim; [exact S1|]. split; [exact Li|]. exists e0. split; [exact He0|congruence].
        -- congruence.
        -- rewrite R2. cbn [bind]. apply (Cont s2).
           ++ apply eff_conflict; assumption.
           ++ intros j. apply L2.
           ++ intros j. apply L2.
           ++ intros (e' & He' & C). congruence.
           ++ intros d (e' & He' & C) Dd. assert (d = i) by congruence. subst d. exact I2.
Qed.
End One.

Section Blocks.
Variable s0 : cgs.
Variable v : nat.
Hypothesis R0 : ready s0.
Hypothesis T0 : tracked s0 v.
Notation Ss := (Ss s0).

(** facts recorded about [v] are true *)
Definition sound (t : cgs) : Prop :=
  (forall b k i, In b (c_reach s0) -> insn_at s0 b k i -> live_before t i v -> live s0 v (b, k)) /\
  (forall b k i, In b (c_reach s0) -> insn_at s0 b k i -> live_after t i v -> live s0 v (b, S k)).
Definition cin (t : cgs) (M : list nat) (b k : nat) : Prop :=
  match k with
  | 0 => forall p, In p (preds_of (c_f s0) b) -> In p M
  | S j => forall i, insn_at s0 b j i -> live_after t i v
  end.
Definition cout (t : cgs) (i : nat) : Prop :=
  (~ defines s0 i v -> live_before t i v) /\ (forall d, defines s0 i d -> d <> v -> interferes t v d).
Definition cblk (t : cgs) (M : list nat) (n : nat) : Prop :=
  (insns_of (c_f s0) n = [] -> forall p, In p (preds_of (c_f s0) n) -> In p M) /\
  (forall q i, insns_of (c_f s0) n = q ++ [i] -> live_after t i v).
(** what is new in [(t, M')] has been propagated *)
Record closed (s : cgs) (M : list nat) (t : cgs) (M' : list nat) : Prop := {
  cl_in : forall b k i, In b (c_reach s0) -> insn_at s0 b k i -> live_before t i v -> live_before s i v \/ cin t M' b k;
  cl_out : forall b k i, In b (c_reach s0) -> insn_at s0 b k i -> live_after t i v -> live_after s i v \/ cout t i;
  cl_blk : forall n, In n M' -> In n M \/ cblk t M' n }.

Lemma cin_mono t M u M' b k : eff v t u -> incl M M' -> cin t M b k -> cin u M' b k.
Proof. intros E I. destruct k; cbn; intros H; [intros p Hp; apply I, H, Hp|intros i Hi; apply (ef_after _ _ _ E), H, Hi]. Qed.
Lemma cout_mono t u i : eff v t u -> cout t i -> cout u i.
Proof.
  intros E (A & B). split; [intros D; apply (ef_before _ _ _ E), A, D|].
  intros d Dd Dn. eapply interferes_grows; [apply E|]. apply B; assumption.
Qed.
Lemma cblk_mono t M u M' n : eff v t u -> incl M M' -> cblk t M n -> cblk u M' n.
Proof. intros E I (A & B). split; [intros H p Hp; apply I; eapply A; eassumption|intros q i H; apply (ef_after _ _ _ E); eapply B; exact H]. Qed.
Lemma closed_refl s M : closed s M s M.
Proof. split; auto. Qed.
Lemma closed_trans s M t M' u M'' :
  eff v t u -> incl M' M'' -> closed s M t M' -> closed t M' u M'' -> closed s M u M''.
Proof.
  intros E I [A B C] [A' B' C']. split.
  - intros b k i Hb Hi H. destruct (A' b k i Hb Hi H) as [G|G]; [|auto].
    destruct (A b k i Hb Hi G) as [X|X]; [auto|]. right. eapply cin_mono; eassumption.
  - intros b k i Hb Hi H. destruct (B' b k i Hb Hi H) as [G|G]; [|auto].
    destruct (B b k i Hb Hi G) as [X|X]; [auto|]. right. eapply cout_mono; eassumption.
  - intros n H. destruct (C' n H) as [G|G]; [|auto]. destruct (C n G) as [X|X]; [auto|]. right. eapply cblk_mono; eassumption.
Qed.

Lemma chain b k m : In b (c_reach s0) -> live s0 v (b, m) -> k <= m ->
  m <= length (insns_of (c_f s0) b) ->
  (forall j i, k <= j -> j < m -> insn_at s0 b j i -> ~ defines s0 i v) -> live s0 v (b, k).
Proof.
  intros Hb L. remember (m - k) as n eqn:En. revert m L En.
  induction n as [|n IH]; intros m L En Hk Hm H.
  - replace k with m by lia. exact L.
  - destruct m as [|m]; [lia|]. apply (IH m); try lia.
    + destruct (nth_error (insns_of (c_f s0) b) m) as [i|] eqn:Ei.
      * eapply live_step; [exact Hb|exact Ei| |exact L]. apply (H m i); try lia. exact Ei.
      * apply nth_error_None in Ei. lia.
    + intros j i H1 H2. apply H; lia.
Qed.

(** a walk over the first [length pre] instructions of [b] *)
Lemma walk_block b pre suf s M :
  In b (c_reach s0) -> Ss s -> insns_of (c_f s0) b = pre ++ suf -> sound s -> live s0 v (b, length pre) ->
  exists t top, walk_out s v (rev pre) = Ok (t, top) /\ eff v s t /\ sound t /\
    (top = true -> live s0 v (b, 0)) /\ (pre = [] -> top = true) /\
    (forall p i, pre = p ++ [i] -> live_after t i v) /\
    (forall u M', eff v t u -> incl M M' -> (top = true -> forall p, In p (preds_of (c_f s0) b) -> In p M') ->
       (forall c k i, In c (c_reach s0) -> insn_at s0 c k i -> live_before t i v -> live_before s i v \/ cin u M' c k) /\
       (forall c k i, In c (c_reach s0) -> insn_at s0 c k i -> live_after t i v -> live_after s i v \/ cout u i)).
Proof.
  intros Hb Sx E (Sd1 & Sd2) L.
  destruct (walk_ok s0 v R0 T0 b Hb pre suf s Sx E) as (t & top & R & F & Kb & Ka & Kl & Kt & Ke).
  exists t, top. split; [exact R|]. split; [exact F|].
  assert (Lp : length pre <= length (insns_of (c_f s0) b)) by (rewrite E, app_length; lia).
  assert (At : forall j i, nth_error pre j = Some i -> insn_at s0 b j i).
  { intros j i H. unfold insn_at. rewrite E, nth_error_app1; [exact H|]. eapply nth_error_length. exact H. }
  assert (At' : forall j i, j < length pre -> insn_at s0 b j i -> nth_error pre j = Some i).
  { intros j i Lj H. unfold insn_at in H. rewrite E, nth_error_app1 in H by exact Lj. exact H. }
  assert (Uq : forall c k j i, In c (c_reach s0) -> insn_at s0 c k i -> nth_error pre j = Some i -> c = b /\ k = j).
  { intros c k j i Hc H1 H2. eapply at_unique; try eassumption. apply At, H2. }
  split; [split|split; [|split; [exact Ke|split; [exact Kl|]]]].
  - intros c k i Hc Hi H. destruct (Kb i H) as [G|(j & K1 & K2 & _)]; [eapply Sd1; eassumption|].
    destruct (Uq c k j i Hc Hi K1) as (-> & ->). apply (chain b j (length pre)); auto.
    + pose proof (nth_error_length _ _ _ K1). lia.
    + intros j' i' H1 H2 H3. eapply K2; [exact H1|]. apply At'; assumption.
  - intros c k i Hc Hi H. destruct (Ka i H) as [G|(j & K1 & K2 & _)]; [eapply Sd2; eassumption|].
    destruct (Uq c k j i Hc Hi K1) as (-> & ->). apply (chain b (S j) (length pre)); auto.
    + apply (nth_error_length _ _ _ K1).
    + intros j' i' H1 H2 H3. apply (K2 j'); [lia|]. apply At'; assumption.
  - intros Et. apply (chain b 0 (length pre)); auto; [lia|].
    intros j i _ Lj Hi. apply (Kt Et). eapply nth_error_In. apply At'; eassumption.
  - intros u M' F' I Hp. split.
    + intros c k i Hc Hi H. destruct (Kb i H) as [G|(j & K1 & _ & K3)]; [auto|].
      destruct (Uq c k j i Hc Hi K1) as (-> & ->). right. destruct j as [|j]; cbn.
      * apply Hp, K3.
      * intros i' Hi'. apply (ef_after _ _ _ F'), K3. apply At'; [|exact Hi']. pose proof (nth_error_length _ _ _ K1). lia.
    + intros c k i Hc Hi H. destruct (Ka i H) as [G|(j & K1 & _ & K3 & K4)]; [auto|]. right.
      eapply cout_mono; [exact F'|]. split; assumption.
Qed.

Definition todo (M : list nat) : nat := length (filter (fun b => negb (mem b M)) (c_reach s0)).
Lemma todo_mono M M' : incl M M' -> todo M' <= todo M.
Proof.
  intros I. unfold todo. induction (c_reach s0) as [|a l IH]; cbn; [lia|].
  destruct (mem a M) eqn:E1; destruct (mem a M') eqn:E2; cbn; try lia.
  apply mem_In in E1. apply I in E1. apply mem_In in E1. congruence.
Qed.
Lemma todo_less n M : In n (c_reach s0) -> ~ In n M -> todo (n :: M) < todo M.
Proof.
  intros H Nn. unfold todo. pose proof (proj1 (rd_reach s0 R0)) as N.
  induction (c_reach s0) as [|a l IH]; [destruct H|]. cbn [filter]. inversion N as [|? ? Na Nl]; subst.
  assert (Le : length (filter (fun b => negb (mem b (n :: M))) l) <= length (filter (fun b => negb (mem b M)) l)).
  { clear. induction l as [|b l IH]; cbn [filter]; [lia|]. unfold mem at 1. cbn [existsb]. fold (mem b M).
    destruct (b =? n); destruct (mem b M); cbn [orb negb length]; lia. }
  unfold mem at 1. cbn [existsb]. fold (mem a M).
  destruct H as [->|H].
  - rewrite Nat.eqb_refl. assert (mem n M = false) as -> by (apply mem_not; exact Nn). cbn [orb negb length]. lia.
  - specialize (IH H Nl). destruct (Nat.eqb_spec a n) as [->|D]; [contradiction|].
    destruct (mem a M); cbn [orb negb length]; lia.
Qed.

Definition good (s : cgs) (M : list nat) (t : cgs) (M' : list nat) : Prop :=
  eff v s t /\ incl M M' /\ sound t /\ closed s M t M'.
Lemma good_refl s M : sound s -> good s M s M.
Proof. intros H. split; [apply eff_refl|]. split; [apply incl_refl|]. split; [exact H|apply closed_refl]. Qed.
Lemma good_trans s M t M' u M'' : good s M t M' -> good t M' u M'' -> good s M u M''.
Proof.
  intros (a1 & a2 & a3 & a4) (b1 & b2 & b3 & b4). split; [eapply eff_trans; eassumption|].
  split; [eapply incl_tran; eassumption|]. split; [exact b3|]. eapply closed_trans; eassumption.
Qed.

Lemma blocks_fold k l : 
  (forall n s M, Ss s -> sound s -> In n (c_reach s0) -> todo M < k -> live s0 v (n, ends_at s0 n) ->
     exists t M', live_out_block k v (s, M) n = Ok (t, M') /\ good s M t M' /\ In n M') ->
  forall s M, Ss s -> sound s -> todo M < k ->
  (forall n, In n l -> In n (c_reach s0) /\ live s0 v (n, ends_at s0 n)) ->
  exists t M', ofold (live_out_block k v) (s, M) l = Ok (t, M') /\ good s M t M' /\ (forall n, In n l -> In n M').
Proof.
  intros Step. induction l as [|n l IH]; intros s M S Sd Td H; cbn [ofold].
  - exists s, M. split; [reflexivity|]. split; [apply good_refl, Sd|intros ? []].
  - destruct (H n (or_introl eq_refl)) as (Hn & Ln).
    destruct (Step n s M S Sd Hn Td Ln) as (s1 & M1 & R1 & G1 & I1). rewrite R1. cbn [bind].
    pose proof G1 as (F1 & In1 & Sd1 & _).
    destruct (IH s1 M1) as (t & M' & R & G & I).
    + eapply eff_Ss; eassumption.
    + exact Sd1.
    + pose proof (todo_mono M M1 In1). lia.
    + intros m Hm. apply H. right. exact Hm.
    + exists t, M'. split; [exact R|]. split; [eapply good_trans; eassumption|].
      intros m [<-|Hm]; [|auto]. apply G, I1.
Qed.

Lemma Ss_f s : Ss s -> c_f s = c_f s0.
Proof. intros S. apply S. Qed.
Lemma block_get n : In n (c_reach s0) -> exists x, get_block (c_f s0) n = Ok x /\
  b_insns x = insns_of (c_f s0) n /\ b_preds x = preds_of (c_f s0) n.
Proof.
  intros H. destruct (rd_reach s0 R0) as (_ & E). destruct (E n H) as (x & Hx). exists x.
  unfold get_block, insns_of, preds_of. rewrite Hx. auto.
Qed.

Lemma live_out_block_ok : forall k n s M,
  Ss s -> sound s -> In n (c_reach s0) -> todo M < k -> live s0 v (n, ends_at s0 n) ->
  exists t M', live_out_block k v (s, M) n = Ok (t, M') /\ good s M t M' /\ In n M'.
Proof.
  induction k as [|k IH]; intros n s M S Sd Hn Td L; [lia|]. cbn [live_out_block].
  destruct (mem n M) eqn:Em.
  - apply mem_In in Em. exists s, M. split; [reflexivity|]. split; [apply good_refl, Sd|exact Em].
  - apply mem_not in Em. destruct (block_get n Hn) as (x & Hx & E1 & E2).
    rewrite (Ss_f s S), Hx. cbn [bind]. rewrite E1, E2.
    destruct (walk_block n (insns_of (c_f s0) n) [] s (n :: M) Hn S (eq_sym (app_nil_r _)) Sd L)
      as (s1 & top & R1 & F1 & Sd1 & Lt & Kn & Kl & Kc).
    rewrite R1. cbn [bind fst snd]. pose proof (eff_Ss _ _ _ _ S F1) as S1.
    assert (X : exists t M', (if top then ofold (live_out_block k v) (s1, n :: M) (preds_of (c_f s0) n)
                              else Ok (s1, n :: M)) = Ok (t, M') /\ good s1 (n :: M) t M' /\
                 (top = true -> forall p, In p (preds_of (c_f s0) n) -> In p M')).
    { destruct top.
      - destruct (blocks_fold k (preds_of (c_f s0) n) IH s1 (n :: M) S1 Sd1) as (t & M' & R & G & I).
        + pose proof (todo_less n M Hn Em). lia.
        + intros p Hp. split; [eapply rd_pred; eassumption|]. eapply live_edge; [exact Hn|exact Hp|auto].
        + exists t, M'. auto.
      - exists s1, (n :: M). split; [reflexivity|]. split; [apply good_refl, Sd1|discriminate]. }
    destruct X as (t & M' & R & G & Pr). exists t, M'. split; [exact R|].
    destruct G as (F & I & Sd' & [C1 C2 C3]).
    assert (InM : In n M') by (apply I; left; reflexivity).
    split; [|exact InM]. split; [eapply eff_trans; eassumption|].
    split; [intros p Hp; apply I; right; exact Hp|]. split; [exact Sd'|].
    destruct (Kc t M' F I Pr) as (K1 & K2). split.
    + intros b j i Hb Hi H. destruct (C1 b j i Hb Hi H) as [Y|Y]; [|auto]. eauto.
    + intros b j i Hb Hi H. destruct (C2 b j i Hb Hi H) as [Y|Y]; [|auto]. eauto.
    + intros m Hm. destruct (C3 m Hm) as [[<-|Y]|Y]; [|auto|auto]. right. split.
      * intros En. apply Pr, Kn, En.
      * intros q i Eq. apply (ef_after _ _ _ F). eapply Kl. exact Eq.
Qed.

Lemma in_split_nth (l : list nat) k i : nth_error l k = Some i -> l = firstn k l ++ skipn k l.
Proof. intros _. symmetry. apply firstn_skipn. Qed.
Lemma index_of_ok i l : In i l -> exists k, index_of i l = Some k /\ nth_error l k = Some i.
Proof.
  induction l as [|a r IH]; intros H; [destruct H|]. cbn [index_of].
  destruct (Nat.eqb_spec a i) as [->|D].
  - exists 0. auto.
  - destruct H as [->|H]; [contradiction|]. destruct (IH H) as (k & E & N). rewrite E. exists (S k). auto.
Qed.

Lemma live_in_stmt_ok k i s M :
  Ss s -> sound s -> linked s0 i -> reads s0 i v -> ~ (exists x, f_insn (c_f s0) i = Some x /\ i_op x = PHI) ->
  todo M < k ->
  exists t M', live_in_stmt k v (s, M) i = Ok (t, M') /\ good s M t M' /\ live_before t i v.
Proof.
  intros Sx Sd Li Rd Np Td. unfold live_in_stmt.
  pose proof Li as (b & Hb & Hi). destruct (rd_insn s0 R0 b i Hb Hi) as (x & e & Hx & Hp & _).
  unfold get_insn at 1. rewrite (Ss_f s Sx), Hx. cbn [bind]. rewrite Hp.
  destruct (block_get b Hb) as (y & Hy & E1 & E2). rewrite Hy. cbn [bind].
  destruct (add_in_ok v s i) as (s1 & R1 & F1 & A1 & N1 & B1).
  { eapply ssim_data; [exact Sx|]. apply linked_data; assumption. }
  rewrite R1. cbn [bind]. rewrite E1, E2.
  destruct (index_of_ok i _ Hi) as (j & Ej & Nj). rewrite Ej.
  assert (Lj : live s0 v (b, j)) by (eapply live_use; eassumption).
  assert (Sd1 : sound s1).
  { destruct Sd as (D1 & D2). split.
    - intros c m z Hc Hz H. destruct (N1 z H) as [G| ->]; [eapply D1; eassumption|].
      destruct (at_unique s0 R0 c m i b j Hc Hb Hz Nj) as (-> & ->). exact Lj.
    - intros c m z Hc Hz H. eapply D2; [exact Hc|exact Hz|apply B1, H]. }
  pose proof (eff_Ss _ _ _ _ Sx F1) as S1.
  pose proof (nth_error_length _ _ _ Nj) as Lt.
  assert (Ln : length (firstn j (insns_of (c_f s0) b)) = j) by (rewrite firstn_length; lia).
  destruct (walk_block b (firstn j (insns_of (c_f s0) b)) (skipn j (insns_of (c_f s0) b)) s1 M Hb S1
              (eq_sym (firstn_skipn _ _)) Sd1) as (s2 & top & R2 & F2 & Sd2 & Lt0 & Kn & Kl & Kc).
  { rewrite Ln. exact Lj. }
  rewrite R2. cbn [bind fst snd]. pose proof (eff_Ss _ _ _ _ S1 F2) as S2.
  assert (X : exists t M', (if top then ofold (live_out_block k v) (s2, M) (preds_of (c_f s0) b)
                              else Ok (s2, M)) = Ok (t, M') /\ good s2 M t M' /\
                 (top = true -> forall p, In p (preds_of (c_f s0) b) -> In p M')).
  { destruct top.
    - destruct (blocks_fold k (preds_of (c_f s0) b) (live_out_block_ok k) s2 M S2 Sd2 Td) as (t & M' & R & G & I).
      + intros p Hpp. split; [eapply rd_pred; eassumption|]. eapply live_edge; [exact Hb|exact Hpp|auto].
      + exists t, M'. auto.
    - exists s2, M. split; [reflexivity|]. split; [apply good_refl, Sd2|discriminate]. }
  destruct X as (t & M' & R & G & Pr). exists t, M'. split; [exact R|].
  destruct G as (F & I & Sd' & [C1 C2 C3]).
  destruct (Kc t M' F I Pr) as (K1 & K2).
  pose proof (eff_trans _ _ _ _ F2 F) as F12.
  split; [|apply (ef_before _ _ _ F12), A1].
  split; [eapply eff_trans; eassumption|]. split; [exact I|]. split; [exact Sd'|]. split.
  - intros c m z Hc Hz H. destruct (C1 c m z Hc Hz H) as [Y|Y]; [|auto].
    destruct (K1 c m z Hc Hz Y) as [Y'|Y']; [|auto]. destruct (N1 z Y') as [Y''| ->]; [auto|]. right.
    destruct (at_unique s0 R0 c m i b j Hc Hb Hz Nj) as (-> & ->). destruct j as [|j]; cbn.
    + apply Pr, Kn. reflexivity.
    + intros z Hz'. apply (ef_after _ _ _ F).
      destruct (exists_last (l := firstn (S j) (insns_of (c_f s0) b))) as (q & z' & Eq).
      { intros C. rewrite C in Ln. discriminate. }
      assert (z' = z).
      { assert (Lq : length q = j) by (rewrite Eq, app_length in Ln; cbn in Ln; lia).
        assert (Hq : nth_error (firstn (S j) (insns_of (c_f s0) b)) j = Some z').
        { rewrite Eq, nth_error_app2, Lq, Nat.sub_diag by lia. reflexivity. }
        unfold insn_at in Hz'. rewrite <- (firstn_skipn (S j) (insns_of (c_f s0) b)), nth_error_app1 in Hz' by lia. congruence. }
      subst z'. eapply Kl. exact Eq.
  - intros c m z Hc Hz H. destruct (C2 c m z Hc Hz H) as [Y|Y]; [|auto].
    destruct (K2 c m z Hc Hz Y) as [Y'|Y']; [|auto]. left. apply B1, Y'.
  - exact C3.
Qed.

Lemma refers_use w : refers v w = is_use_of v w.
Proof. unfold refers, val_target, is_use_of. destruct (v_data w); reflexivity. Qed.

(** what a user contributes *)
Definition served (t : cgs) (M : list nat) (u : nat) : Prop :=
  forall x, f_insn (c_f s0) u = Some x ->
    (i_op x <> PHI -> live_before t u v) /\
    (i_op x = PHI -> forall w b, In (w, b) (i_phi x) -> is_use_of v w = true -> In b M).
Lemma served_mono t M u M' n : eff v t u -> incl M M' -> served t M n -> served u M' n.
Proof.
  intros E I H x Hx. destruct (H x Hx) as (A & B). split; [intros N; apply (ef_before _ _ _ E), A, N|].
  intros N w b Hw Hu. apply I. eapply B; eassumption.
Qed.

Lemma live_user_ok k u s M :
  Ss s -> sound s -> linked s0 u -> reads s0 u v -> todo M < k ->
  exists t M', live_user k v (s, M) u = Ok (t, M') /\ good s M t M' /\ served t M' u.
Proof.
  intros S Sd Lu Rd Td. unfold live_user. cbn [fst].
  pose proof Lu as (b & Hb & Hi). destruct (rd_insn s0 R0 b u Hb Hi) as (x & e & Hx & _).
  unfold get_insn. rewrite (Ss_f s S), Hx. cbn [bind]. unfold iop_eqb. destruct (iop_eq_dec (i_op x) PHI) as [Ep|Np].
  - destruct (rd_phi s0 R0 u x Lu Hx Ep) as (Ev & _ & Eb).
    assert (Ne : phi_uses v x <> []).
    { unfold reads, uses in Rd. rewrite Hx in Rd. unfold operand_values in Rd. rewrite Ev, Ep in Rd. cbn [app] in Rd.
      unfold phi_uses. clear - Rd. induction (i_phi x) as [|(w, c) l IH]; cbn in *; [lia|].
      rewrite refers_use. destruct (is_use_of v w); cbn in *; [discriminate|auto]. }
    assert (Mb : forall c, In c (phi_uses v x) <-> exists w, In (w, c) (i_phi x) /\ is_use_of v w = true).
    { intros c. unfold phi_uses. rewrite in_map_iff. split.
      - intros ((w & c') & <- & H). apply filter_In in H. destruct H as (H & E). exists w. cbn in E. rewrite refers_use in E. auto.
      - intros (w & H & E). exists (w, c). split; [reflexivity|]. apply filter_In. cbn. rewrite refers_use. auto. }
    destruct (blocks_fold k (phi_uses v x) (live_out_block_ok k) s M S Sd Td) as (t & M' & R & G & I).
    { intros c Hc. apply Mb in Hc. destruct Hc as (w & H & E). split; [eapply Eb; exact H|]. eapply live_phi; eassumption. }
    exists t, M'. destruct (phi_uses v x) as [|c0 l0] eqn:El; [contradiction|]. split; [exact R|]. split; [exact G|].
    intros y Hy. rewrite Hx in Hy. injection Hy as <-. split; [contradiction|]. intros _ w c H E. apply I, Mb. eauto.
  - destruct (live_in_stmt_ok k u s M S Sd Lu Rd) as (t & M' & R & G & A); [intros (y & Hy & C); congruence|exact Td|].
    exists t, M'. split; [exact R|]. split; [exact G|]. intros y Hy. split; [auto|]. intros C. congruence.
Qed.

Lemma users_fold k l : forall s M,
  Ss s -> sound s -> todo M < k -> (forall u, In u l -> linked s0 u /\ reads s0 u v) ->
  exists t M', ofold (live_user k v) (s, M) l = Ok (t, M') /\ good s M t M' /\ (forall u, In u l -> served t M' u).
Proof.
  induction l as [|u l IH]; intros s M S Sd Td H; cbn [ofold].
  - exists s, M. split; [reflexivity|]. split; [apply good_refl, Sd|intros ? []].
  - destruct (H u (or_introl eq_refl)) as (Lu & Ru).
    destruct (live_user_ok k u s M S Sd Lu Ru Td) as (s1 & M1 & R1 & G1 & V1). rewrite R1. cbn [bind].
    pose proof G1 as (F1 & I1 & Sd1 & _).
    destruct (IH s1 M1) as (t & M' & R & G & V).
    + eapply eff_Ss; eassumption.
    + exact Sd1.
    + pose proof (todo_mono M M1 I1). lia.
    + intros w Hw. apply H. right. exact Hw.
    + exists t, M'. split; [exact R|]. split; [eapply good_trans; eassumption|].
      intros w [<-|Hw]; [|auto]. destruct G as (F & I & _). eapply served_mono; eassumption.
Qed.

(** ** The facts are exact *)
Definition exact (t : cgs) : Prop :=
  (forall b k i, In b (c_reach s0) -> insn_at s0 b k i -> (live_before t i v <-> live s0 v (b, k))) /\
  (forall b k i, In b (c_reach s0) -> insn_at s0 b k i -> (live_after t i v <-> live s0 v (b, S k))) /\
  (forall b k i d, In b (c_reach s0) -> insn_at s0 b k i -> live s0 v (b, S k) -> defines s0 i d -> d <> v -> interferes t v d).

Lemma last_at (l : list nat) k i : nth_error l k = Some i -> S k = length l -> exists q, l = q ++ [i].
Proof.
  intros H E. destruct (exists_last (l := l)) as (q & z & Eq); [intros ->; destruct k; discriminate|].
  exists q. rewrite Eq in *. rewrite app_length in E. cbn in E. rewrite nth_error_app2 in H by lia.
  replace (k - length q) with 0 in H by lia. cbn in H. congruence.
Qed.

Lemma exact_of s t M :
  (forall i, ~ live_before s i v) -> (forall i, ~ live_after s i v) ->
  good s [] t M -> (forall u, linked s0 u -> reads s0 u v -> served t M u) -> exact t.
Proof.
  intros N1 N2 (F & _ & (Sd1 & Sd2) & [C1 C2 C3]) V.
  assert (Q1 : forall b k i, In b (c_reach s0) -> insn_at s0 b k i -> live_before t i v -> cin t M b k).
  { intros b k i Hb Hi H. destruct (C1 b k i Hb Hi H) as [X|X]; [destruct (N1 i X)|exact X]. }
  assert (Q2 : forall b k i, In b (c_reach s0) -> insn_at s0 b k i -> live_after t i v -> cout t i).
  { intros b k i Hb Hi H. destruct (C2 b k i Hb Hi H) as [X|X]; [destruct (N2 i X)|exact X]. }
  assert (Q3 : forall n, In n M -> cblk t M n).
  { intros n H. destruct (C3 n H) as [[]|X]. exact X. }
  (* what is known at a live point *)
  assert (P : forall p, live s0 v p -> 
      (forall i, In (fst p) (c_reach s0) -> insn_at s0 (fst p) (snd p) i -> live_before t i v) /\
      (snd p = ends_at s0 (fst p) -> In (fst p) (c_reach s0) -> In (fst p) M)).
  { intros p L. induction L as [b k i Hb Hi Rd Np|b q x w Lq Hx Ep Hw Eu|b k i Hb Hi Nd L (IH1 & IH2)|b c Hc Hp L (IH1 & IH2)]; cbn [fst snd] in *.
    - split.
      + intros i' _ Hi'. assert (i' = i) by (unfold insn_at in *; congruence). subst i'.
        assert (Li : linked s0 i) by (exists b; split; [exact Hb|eapply nth_error_In; exact Hi]).
        destruct (rd_insn s0 R0 b i Hb (nth_error_In _ _ Hi)) as (x & e & Hx & _).
        destruct (V i Li Rd x Hx) as (A & _). apply A. intros C. apply Np. eauto.
      + intros Ek _. unfold insn_at in Hi. apply nth_error_length in Hi. unfold ends_at in Ek. lia.
    - split.
      + intros i' _ Hi'. unfold insn_at, ends_at in Hi'. apply nth_error_length in Hi'. lia.
      + intros _ _. assert (Rq : reads s0 q v).
        { unfold reads, uses. rewrite Hx. unfold operand_values. rewrite Ep.
          assert (G : In w (filter (is_use_of v) (i_vals x ++ map fst (i_phi x)))).
          { apply filter_In. split; [|exact Eu]. apply in_or_app. right. apply (in_map fst _ _ Hw). }
          destruct (filter _ _); [destruct G|cbn; lia]. }
        destruct (V q Lq Rq x Hx) as (_ & B). eapply B; eassumption.
    - assert (Af : live_after t i v).
      { destruct (nth_error (insns_of (c_f s0) b) (S k)) as [i'|] eqn:Ei'.
        - pose proof (IH1 i' Hb Ei') as G. apply (Q1 b (S k) i' Hb Ei') in G. cbn in G. apply G, Hi.
        - apply nth_error_None in Ei'. pose proof (nth_error_length _ _ _ Hi) as Lk.
          assert (Ek : S k = ends_at s0 b) by (unfold ends_at; lia).
          specialize (IH2 Ek Hb). destruct (Q3 b IH2) as (_ & Y).
          destruct (last_at _ _ _ Hi Ek) as (q & Eq). eapply Y. exact Eq. }
      split.
      + intros i' _ Hi'. assert (i' = i) by (unfold insn_at in *; congruence). subst i'.
        apply (Q2 b k i Hb Hi Af), Nd.
      + intros Ek _. unfold insn_at in Hi. apply nth_error_length in Hi. unfold ends_at in Ek. lia.
    - split.
      + intros i' _ Hi'. unfold insn_at, ends_at in Hi'. apply nth_error_length in Hi'. lia.
      + intros _ Hb. destruct (insns_of (c_f s0) c) as [|i l] eqn:Ei.
        * assert (E0 : 0 = ends_at s0 c) by (unfold ends_at; rewrite Ei; reflexivity).
          specialize (IH2 E0 Hc). destruct (Q3 c IH2) as (Y & _). apply Y; assumption.
        * assert (H0 : insn_at s0 c 0 i) by (unfold insn_at; rewrite Ei; reflexivity).
          pose proof (IH1 i Hc H0) as G. apply (Q1 c 0 i Hc H0) in G. apply G, Hp. }
  assert (A : forall b k i, In b (c_reach s0) -> insn_at s0 b k i -> live s0 v (b, S k) -> live_after t i v).
  { intros b k i Hb Hi L. destruct (P _ L) as (IH1 & IH2). cbn [fst snd] in *.
    destruct (nth_error (insns_of (c_f s0) b) (S k)) as [i'|] eqn:Ei'.
    - pose proof (IH1 i' Hb Ei') as G. apply (Q1 b (S k) i' Hb Ei') in G. cbn in G. apply G, Hi.
    - apply nth_error_None in Ei'. pose proof (nth_error_length _ _ _ Hi) as Lk.
      assert (Ek : S k = ends_at s0 b) by (unfold ends_at; lia).
      specialize (IH2 Ek Hb). destruct (Q3 b IH2) as (_ & Y).
      destruct (last_at _ _ _ Hi Ek) as (q & Eq). eapply Y. exact Eq. }
  split; [|split].
  - intros b k i Hb Hi. split; [eapply Sd1; eassumption|]. intros L. apply (P _ L); assumption.
  - intros b k i Hb Hi. split; [eapply Sd2; eassumption|]. apply A; assumption.
  - intros b k i d Hb Hi L Dd Dn. apply (Q2 b k i Hb Hi (A b k i Hb Hi L)); assumption.
Qed.
End Blocks.

(** ** All values *)
Lemma exact_eff s0 v w s t : v <> w -> ssim s0 s -> eff w s t -> exact s0 v s -> exact s0 v t.
Proof.
  intros D S F (A & B & C). split; [|split].
  - intros b k i Hb Hi. rewrite <- (A b k i Hb Hi). split; [apply (ef_other _ _ _ F i v D)|apply (ef_before _ _ _ F)].
  - intros b k i Hb Hi. rewrite <- (B b k i Hb Hi). split; [apply (ef_other _ _ _ F i v D)|apply (ef_after _ _ _ F)].
  - intros b k i d Hb Hi L Dd Dn. eapply interferes_grows; [apply F|]. eapply C; eassumption.
Qed.
Lemma exact_cstep s0 v s t : grows s t -> same_live s t -> exact s0 v s -> exact s0 v t.
Proof.
  intros G (LA & LB) (A & B & C). split; [|split].
  - intros b k i Hb Hi. rewrite LA. apply A; assumption.
  - intros b k i Hb Hi. rewrite LB. apply B; assumption.
  - intros b k i d Hb Hi L Dd Dn. eapply interferes_grows; [exact G|]. eapply C; eassumption.
Qed.

Lemma insns_in_ok f l : (forall b, In b l -> exists x, f_block f b = Some x) ->
  insns_in f l = Ok (flat_map (insns_of f) l).
Proof.
  induction l as [|b l IH]; intros H; cbn [insns_in flat_map]; [reflexivity|].
  destruct (H b (or_introl eq_refl)) as (x & Hx). unfold get_block. rewrite Hx. cbn [bind].
  rewrite IH by (intros c Hc; apply H; right; exact Hc). cbn [bind]. unfold insns_of at 2. rewrite Hx. reflexivity.
Qed.
Lemma flat_linked s i : In i (flat_map (insns_of (c_f s)) (c_reach s)) <-> linked s i.
Proof. rewrite in_flat_map. reflexivity. Qed.

Lemma todo_all s0 : todo s0 [] <= length (c_reach s0).
Proof.
  unfold todo. generalize (c_reach s0) as l. intros l. assert (E : filter (fun b => negb (mem b [])) l = l).
  { induction l as [|a l IH]; cbn [filter mem existsb negb]; [reflexivity|]. f_equal. exact IH. }
  rewrite E. lia.
Qed.

Section All.
Variable s0 : cgs.
Hypothesis R0 : ready s0.
Variable fuel : nat.
Hypothesis Fu : length (c_reach s0) < fuel.

Record lv (P : list nat) (s : cgs) : Prop := {
  lv_sim : ssim s0 s;
  lv_done : forall v, In v P -> tracked s0 v -> exact s0 v s;
  lv_none : forall v i, live_before s i v \/ live_after s i v -> In v P /\ tracked s0 v;
  lv_gi : gi s0 -> gi s;
  lv_adj : forall a b, adjacent s0 a b -> adjacent s a b;
  lv_nd : NoDup (c_all s0) -> NoDup (c_all s);
  lv_all : forall x, In x (c_all s) <-> In x (c_all s0) \/ (In x P /\ tracked s0 x) }.

Lemma adjacent_with_all l s a b : adjacent (with_all l s) a b <-> adjacent s a b.
Proof. unfold adjacent. reflexivity. Qed.

Lemma tracked_dec x e : linked s0 x -> c_ex s0 x = Some e -> (x_dst e = None \/ x_dst e = Some x) ->
  tracked s0 x \/ (~ tracked s0 x /\ (x_dst e = None \/ x_fin e = true)).
Proof.
  intros L He D. destruct D as [D|D].
  - right. split; [|auto]. intros (_ & e' & He' & _ & C). congruence.
  - destruct (x_fin e) eqn:F.
    + right. split; [|auto]. intros (_ & e' & He' & C & _). congruence.
    + left. split; [exact L|]. exists e. auto.
Qed.

Lemma live_var_ok P s x : lv P s -> linked s0 x -> ~ In x P ->
  exists t, live_var fuel s x = Ok t /\ lv (P ++ [x]) t.
Proof.
  intros I Lx Nx. pose proof (lv_sim P s I) as S. unfold live_var.
  pose proof Lx as (b & Hb & Hi). destruct (rd_insn s0 R0 b x Hb Hi) as (y & e0 & Hy & _ & He0 & Dst & _).
  destruct (ssim_some _ _ _ _ S He0) as (e & He & E). apply stat_inj in E. destruct E as (E1 & E2 & _).
  unfold get_ex. rewrite He. cbn [bind]. rewrite E1, E2.
  assert (Skip : ~ tracked s0 x -> lv (P ++ [x]) s).
  { intros Nt. destruct I as [a1 a2 a3 a4 a5 a6 a7]. split; auto.
    - intros v Hv T. apply in_app_or in Hv. destruct Hv as [Hv|[<-|[]]]; [auto|contradiction].
    - intros v i H. destruct (a3 v i H) as (H1 & H2). split; [apply in_or_app; auto|exact H2].
    - intros z. rewrite a7, in_app_iff. cbn. split; [tauto|]. intros [H|([H|[<-|[]]] & T)]; tauto. }
  destruct (tracked_dec x e0 Lx He0 Dst) as [T|(Nt & D)].
  2: { exists s. split; [|apply Skip, Nt]. destruct D as [D|D]; rewrite D; [reflexivity|]. destruct (x_dst e0); reflexivity. }
  pose proof T as (_ & e0' & He0' & F & D). rewrite He0 in He0'. injection He0' as <-.
  rewrite D, F, Nat.eqb_refl. cbn [negb].
  set (s1 := with_all (ins x (c_all s)) s).
  assert (S1 : ssim s0 s1) by exact S.
  unfold get_insn. assert (Ef : c_f s1 = c_f s0) by apply S1. rewrite Ef, Hy. cbn [bind].
  assert (N1 : forall i, ~ live_before s1 i x) by (intros i H; destruct (lv_none P s I x i (or_introl H)); contradiction).
  assert (N2 : forall i, ~ live_after s1 i x) by (intros i H; destruct (lv_none P s I x i (or_intror H)); contradiction).
  assert (Us : users_of (c_f s0) x = i_users y) by (unfold users_of; rewrite Hy; reflexivity).
  destruct (users_fold s0 x R0 T fuel (i_users y) s1 [] S1) as (t & M & R & G & V).
  - split; intros c k i _ _ H; [destruct (N1 i H)|destruct (N2 i H)].
  - pose proof (todo_all s0). lia.
  - intros u Hu. rewrite <- Us in Hu. apply (rd_users s0 R0 x u Lx), Hu.
  - rewrite R. cbn [bind fst]. exists t. split; [reflexivity|].
    pose proof G as (Fe & _ & _ & _).
    destruct I as [a1 a2 a3 a4 a5 a6 a7]. split.
    + eapply ssim_trans; [exact S1|]. apply Fe.
    + intros v Hv Tv. apply in_app_or in Hv. destruct Hv as [Hv|[<-|[]]].
      * eapply exact_eff; [|exact S1|exact Fe|]; [intros ->; contradiction|]. apply a2; assumption.
      * eapply exact_of; [exact R0|exact N1|exact N2|exact G|]. intros u Lu Ru. apply V. rewrite <- Us.
        apply (rd_users s0 R0 x u Lx). auto.
    + intros v i H. destruct (Nat.eq_dec v x) as [->|Dv]; [split; [apply in_or_app; right; left; reflexivity|exact T]|].
      assert (H' : live_before s i v \/ live_after s i v).
      { destruct (ef_other _ _ _ Fe i v Dv) as (X & Y). destruct H as [H|H]; [left; exact (X H)|right; exact (Y H)]. }
      destruct (a3 v i H') as (H1 & H2). split; [apply in_or_app; auto|exact H2].
    + intros G0. apply (gr_gi s1 t); [apply Fe|]. apply (gi_same s s1); [unfold ssim; cbn; intuition| | |auto].
      * intros; reflexivity.
      * auto.
    + intros a c H. apply (gr_adj s1 t); [apply Fe|]. apply a5, H.
    + intros H. rewrite (gr_all s1 t) by apply Fe. apply ins_NoDup. auto.
    + intros z. rewrite (gr_all s1 t) by apply Fe. unfold s1. cbn [c_all with_all]. rewrite ins_In, a7, in_app_iff. cbn.
      split; [intros [->|[H|(H & H')]]; tauto|]. intros [H|([H|[<-|[]]] & H')]; tauto.
Qed.

Lemma live_fold l : forall P s, lv P s -> (forall x, In x l -> linked s0 x) -> NoDup (P ++ l) ->
  exists t, ofold (live_var fuel) s l = Ok t /\ lv (P ++ l) t.
Proof.
  induction l as [|x l IH]; intros P s I H N; cbn [ofold].
  - exists s. rewrite app_nil_r. auto.
  - destruct (live_var_ok P s x I (H x (or_introl eq_refl))) as (s1 & R1 & I1).
    { apply NoDup_remove_2 in N. intros C. apply N. apply in_or_app. auto. }
    rewrite R1. cbn [bind]. destruct (IH (P ++ [x]) s1 I1) as (t & R & It).
    + intros y Hy. apply H. right. exact Hy.
    + rewrite <- app_assoc. exact N.
    + exists t. split; [exact R|]. rewrite <- app_assoc in It. exact It.
Qed.
End All.

Lemma NoDup_flat s : ready s -> NoDup (flat_map (insns_of (c_f s)) (c_reach s)).
Proof.
  intros R. pose proof (rd_reach s R) as (N & _). pose proof (rd_once s R) as O.
  assert (P : forall b i, In b (c_reach s) -> In i (insns_of (c_f s) b) -> exists x, f_insn (c_f s) i = Some x /\ i_parent x = b).
  { intros b i Hb Hi. destruct (rd_insn s R b i Hb Hi) as (x & e & H1 & H2 & _). eauto. }
  clear R. induction (c_reach s) as [|b l IH]; cbn; [constructor|]. inversion N as [|? ? Nb Nl]; subst.
  assert (X : NoDup (insns_of (c_f s) b)) by (apply O; left; reflexivity).
  assert (Y : NoDup (flat_map (insns_of (c_f s)) l)).
  { apply IH; [exact Nl| |]; intros; [apply O|apply P]; try (right; assumption); assumption. }
  assert (Z : forall i, In i (insns_of (c_f s) b) -> ~ In i (flat_map (insns_of (c_f s)) l)).
  { intros i Hi C. apply in_flat_map in C. destruct C as (c & Hc & Hi').
    destruct (P b i (or_introl eq_refl) Hi) as (x & H1 & H2). destruct (P c i (or_intror Hc) Hi') as (y & H3 & H4).
    apply Nb. replace b with c by congruence. exact Hc. }
  clear - X Y Z. induction (insns_of (c_f s) b) as [|a r IH]; cbn; [exact Y|]. inversion X; subst.
  constructor.
  - intros C. apply in_app_or in C. destruct C as [C|C]; [contradiction|]. apply (Z a); [left; reflexivity|exact C].
  - apply IH; [assumption|]. intros i Hi. apply Z. right. exact Hi.
Qed.

Lemma gi_blank s : blank s -> gi s.
Proof.
  intros (_ & B). assert (N : forall a b, ~ adjacent s a b).
  { intros a b (e & He & H). destruct (B a e He) as (_ & _ & E & _). rewrite E in H. destruct H. }
  split; try (intros a b H; destruct (N a b H)).
  intros v e He. destruct (B v e He) as (_ & _ & E & E'). rewrite E. split; [constructor|exact E'].
Qed.

Lemma liveness_ok fuel s : ready s -> blank s -> length (c_reach s) < fuel ->
  exists t, liveness fuel s = Ok t /\ ssim s t /\ gi t /\ NoDup (c_all t) /\
    (forall x, In x (c_all t) <-> In x (c_regs s) \/ tracked s x) /\
    (forall v, tracked s v -> exact s v t) /\
    (forall v i, live_before t i v \/ live_after t i v -> tracked s v).
Proof.
  intros R B Fu. unfold liveness. rewrite insns_in_ok by apply (rd_reach s R). cbn [bind].
  pose proof B as (Ba & Bb).
  destruct (live_fold s R fuel Fu (flat_map (insns_of (c_f s)) (c_reach s)) [] s) as (t & Rt & [a1 a2 a3 a4 a5 a6 a7]).
  - split; auto.
    + apply ssim_refl.
    + intros v [].
    + intros v i [(e & He & H)|(e & He & H)]; destruct (Bb i e He) as (E1 & E2 & _); [rewrite E1 in H|rewrite E2 in H]; destruct H.
    + intros x. cbn. tauto.
  - intros x Hx. apply flat_linked, Hx.
  - apply NoDup_flat, R.
  - cbn [app] in *. exists t. split; [exact Rt|]. split; [exact a1|]. split; [apply a4, gi_blank, B|].
    split; [apply a6; rewrite Ba; apply (rd_distinct s R)|]. split; [|split].
    + intros x. rewrite a7, Ba. split; [tauto|]. intros [H|H]; [auto|]. right. split; [apply flat_linked, H|exact H].
    + intros v T. apply a2; [apply flat_linked, T|exact T].
    + intros v i H. apply (a3 v i H).
Qed.

(** ** The remaining conflicts *)
Definition cstep (s t : cgs) : Prop := grows s t /\ same_live s t.
Lemma cstep_refl s : cstep s s.
Proof. split; [apply grows_refl|apply same_live_refl]. Qed.
Lemma cstep_trans s t u : cstep s t -> cstep t u -> cstep s u.
Proof. intros (a & b) (c & d). split; [eapply grows_trans|eapply same_live_trans]; eassumption. Qed.
Lemma cstep_interferes s t a b : cstep s t -> interferes s a b -> interferes t a b.
Proof. intros (G & _). apply interferes_grows, G. Qed.

(** folding over a list of pairwise conflicts *)
Lemma conflict_fold {A} (g : cgs -> A -> outcome cgs) (Q : A -> cgs -> Prop) s0 l :
  (forall a s, In a l -> cstep s0 s -> exists t, g s a = Ok t /\ cstep s t /\ Q a t) ->
  (forall a s t, cstep s t -> Q a s -> Q a t) ->
  forall s, cstep s0 s -> exists t, ofold g s l = Ok t /\ cstep s t /\ forall a, In a l -> Q a t.
Proof.
  intros H M. assert (G : forall l', incl l' l -> forall s, cstep s0 s -> exists t, ofold g s l' = Ok t /\ cstep s t /\ forall a, In a l' -> Q a t).
  { induction l' as [|a r IH]; intros I s C; cbn [ofold].
    - exists s. split; [reflexivity|]. split; [apply cstep_refl|intros ? []].
    - destruct (H a s (I a (or_introl eq_refl)) C) as (s1 & R1 & C1 & Q1). rewrite R1. cbn [bind].
      destruct (IH (fun x Hx => I x (or_intror Hx)) s1 (cstep_trans _ _ _ C C1)) as (t & R & Ct & Qt).
      exists t. split; [exact R|]. split; [eapply cstep_trans; eassumption|].
      intros x [<-|Hx]; [eapply M; eassumption|auto]. }
  apply G, incl_refl.
Qed.

Lemma conflict_reg_linked s k r v : ready s -> nth_error (c_regs s) k = Some r -> valued s v -> ~ fixed s v ->
  exists t, make_conflict s r v = Ok t /\ cstep s t /\ interferes t r v.
Proof.
  intros R Hr Lv Fv. destruct (node_reg s R k r Hr) as (N1 & V1 & I1 & U1).
  assert (D : r <> v) by (intros ->; apply (rd_apart s R v (nth_error_In _ _ Hr) (proj1 Lv))).
  destruct (node_linked s R v Lv) as [(N2 & U2)|(y & N2 & V2 & I2 & U2)].
  { exists s. unfold make_conflict. assert (r =? v = false) as -> by (apply Nat.eqb_neq; exact D). rewrite N1, N2. cbn [bind].
    split; [reflexivity|]. split; [apply cstep_refl|apply interferes_novertex, U2]. }
  assert (Ey : y = v). { destruct V2 as (e & He & [(_ & E)|(F & _)]); [exact E|]. destruct Fv. exists e. auto. }
  subst y. destruct (conflict_nodes s r v r v) as (t & H1 & H2 & H3 & H4 & _); auto.
  exists t. split; [exact H1|]. split; [split; assumption|exact H4].
Qed.
Lemma conflict_regs s j k r r' : ready s -> nth_error (c_regs s) j = Some r -> nth_error (c_regs s) k = Some r' -> r <> r' ->
  exists t, make_conflict s r r' = Ok t /\ cstep s t /\ interferes t r r'.
Proof.
  intros R Hr Hr' D. destruct (node_reg s R j r Hr) as (N1 & V1 & I1 & U1).
  destruct (node_reg s R k r' Hr') as (N2 & V2 & I2 & U2).
  destruct (conflict_nodes s r r' r r') as (t & H1 & H2 & H3 & H4 & _); auto.
  exists t. split; [exact H1|]. split; [split; assumption|exact H4].
Qed.

Lemma pairs_spec l : NoDup l -> forall a b, In (a, b) (pairs l) -> In a l /\ In b l /\ a <> b.
Proof.
  induction l as [|x r IH]; intros N a b H; cbn in H; [destruct H|]. inversion N as [|? ? Nx Nr]; subst.
  apply in_app_or in H. destruct H as [H|H].
  - apply in_map_iff in H. destruct H as (y & E & Hy). injection E as <- <-.
    split; [left; reflexivity|]. split; [right; exact Hy|]. intros ->. contradiction.
  - destruct (IH Nr a b H) as (A & B & C). split; [right; exact A|]. split; [right; exact B|exact C].
Qed.
Lemma pairs_all l a b : In a l -> In b l -> a <> b -> In (a, b) (pairs l) \/ In (b, a) (pairs l).
Proof.
  induction l as [|x r IH]; intros Ha Hb D; [destruct Ha|]. cbn. destruct Ha as [->|Ha], Hb as [->|Hb].
  - contradiction.
  - left. apply in_or_app. left. apply in_map, Hb.
  - right. apply in_or_app. left. apply in_map, Ha.
  - destruct (IH Ha Hb D) as [H|H]; [left|right]; apply in_or_app; right; exact H.
Qed.

Section Conf.
Variable s0 : cgs.
Hypothesis R0 : ready s0.
(** the state after liveness: same function, exact facts *)
Variable s1 : cgs.
Hypothesis S1 : ssim s0 s1.
Hypothesis X1 : forall v, tracked s0 v -> exact s0 v s1.
Hypothesis Y1 : forall v i, live_before s1 i v \/ live_after s1 i v -> tracked s0 v.
Variable fuel : nat.

Lemma cs_sim s : cstep s1 s -> ssim s0 s.
Proof. intros (G & _). eapply ssim_trans; [exact S1|apply G]. Qed.
Lemma cs_ready s : cstep s1 s -> ready s.
Proof. intros C. eapply ready_sim; [apply cs_sim, C|exact R0]. Qed.
Lemma tracked_free s v : ssim s0 s -> tracked s0 v -> valued s v /\ ~ fixed s v.
Proof. intros S T. apply tracked_valued, (tracked_sim _ _ _ S T). Qed.

(** the values that interfere with a phi because of the copy in block [n] *)
Lemma phi_conflict_ok p : valued s0 p -> forall k n d s,
  cstep s1 s -> In n (c_reach s0) -> shallow s0 n d -> d < k ->
  exists t, phi_conflict k p s n = Ok t /\ cstep s t /\
    forall w m, tracked s0 w -> w <> p -> copy_point s0 n m -> live s0 w (n, m) ->
      (forall b, In b (c_reach s0) -> preds_of (c_f s0) b = [] -> ~ live s0 w (b, 0)) -> interferes t w p.
Proof.
  intros Lp. induction k as [|k IH]; intros n d s C Hn Sh Lt; [lia|]. cbn [phi_conflict].
  pose proof (cs_sim s C) as Sx. destruct (block_get s0 R0 n Hn) as (x & Hx & E1 & E2).
  assert (Ef : c_f s = c_f s0) by apply Sx. rewrite Ef, Hx. cbn [bind]. rewrite E1, E2.
  destruct (rev (insns_of (c_f s0) n)) as [|z rl] eqn:Er.
  - assert (En : insns_of (c_f s0) n = []) by (rewrite <- (rev_involutive (insns_of (c_f s0) n)), Er; reflexivity).
    assert (Pr : exists d', d = S d' /\ forall q, In q (preds_of (c_f s0) n) -> shallow s0 q d').
    { inversion Sh as [? ? Ne|? d' H]; subst; [contradiction|]. exists d'. auto. }
    destruct Pr as (d' & -> & Sp).
    destruct (conflict_fold (phi_conflict k p)
       (fun q t => forall w m, tracked s0 w -> w <> p -> copy_point s0 q m -> live s0 w (q, m) ->
      (forall b, In b (c_reach s0) -> preds_of (c_f s0) b = [] -> ~ live s0 w (b, 0)) -> interferes t w p)
      s1 (preds_of (c_f s0) n)) with (s := s) as (t & R & Ct & Q).
    + intros q u Hq Cu. apply (IH q d' u Cu); [eapply rd_pred; eassumption|apply Sp, Hq|lia].
    + intros q u u' Cu H w m T D Cp L O. eapply cstep_interferes; [exact Cu|]. eapply H; eassumption.
    + exact C.
    + exists t. split; [exact R|]. split; [exact Ct|]. intros w m T D Cp L O.
      assert (Em : m = 0).
      { inversion Cp as [k' Ek J|Nj]; subst; unfold ends_at in *; rewrite En in *; cbn in *; [lia|reflexivity]. }
      subst m. destruct (preds_of (c_f s0) n) as [|q qs] eqn:Eq; [exfalso; eapply O; eassumption|].
      assert (Hq : In q (preds_of (c_f s0) n)) by (rewrite Eq; left; reflexivity).
      pose proof (rd_pred s0 R0 n q Hn Hq) as Rq.
      pose proof (live_edge s0 w q n Hn Hq L) as Le.
      (* the copy point of q *)
      destruct (insns_of (c_f s0) q) as [|i0 r0] eqn:Eiq.
      * eapply (Q q (or_introl eq_refl) w (ends_at s0 q)); try assumption.
        apply cp_end. intros k' Ek. unfold ends_at in Ek. rewrite Eiq in Ek. discriminate.
      * destruct (exists_last (l := insns_of (c_f s0) q)) as (pre & z & Ez); [rewrite Eiq; discriminate|].
        assert (Hz : insn_at s0 q (length pre) z) by (unfold insn_at; rewrite Ez, nth_error_app2, Nat.sub_diag by lia; reflexivity).
        assert (Ee : S (length pre) = ends_at s0 q) by (unfold ends_at; rewrite Ez, app_length; cbn; lia).
        pose proof (nth_error_In _ _ Hz) as Iz.
        destruct (rd_insn s0 R0 q z Rq Iz) as (y & e & Hy & _ & He & _).
        destruct (is_jmp_op (i_op y)) eqn:J.
        -- eapply (Q q (or_introl eq_refl) w (length pre)); try assumption.
           ++ apply cp_jump; [exact Ee|]. exists z, y. auto.
           ++ eapply live_step; [exact Rq|exact Hz| |rewrite Ee; exact Le].
              intros (e' & He' & Dd). pose proof (rd_jump s0 R0 z y e (ex_intro _ q (conj Rq Iz)) Hy He J) as Ed. congruence.
        -- eapply (Q q (or_introl eq_refl) w (ends_at s0 q)); try assumption.
           apply cp_end. intros k' Ek (z' & y' & Hz' & Hy' & J'). assert (k' = length pre) by lia. subst k'.
           assert (z' = z) by (unfold insn_at in *; congruence). subst z'. congruence.
  - assert (En : insns_of (c_f s0) n = rev rl ++ [z]) by (rewrite <- (rev_involutive (insns_of (c_f s0) n)), Er; reflexivity).
    assert (Hz : insn_at s0 n (length (rev rl)) z) by (unfold insn_at; rewrite En, nth_error_app2, Nat.sub_diag by lia; reflexivity).
    assert (Ee : S (length (rev rl)) = ends_at s0 n) by (unfold ends_at; rewrite En, app_length; cbn; lia).
    pose proof (nth_error_In _ _ Hz) as Iz.
    destruct (rd_insn s0 R0 n z Hn Iz) as (y & e0 & Hy & _ & He0 & _).
    destruct (ssim_some _ _ _ _ Sx He0) as (e & He & _).
    unfold get_insn. rewrite Hy. cbn [bind]. unfold get_ex. rewrite He. cbn [bind].
    set (l := if is_jmp_op (i_op y) then x_in e else x_out e).
    assert (Tl : forall w, In w l -> tracked s0 w).
    { intros w Hw. destruct C as (_ & (LA & LB)). apply (Y1 w z). unfold l in Hw. destruct (is_jmp_op (i_op y)).
      - left. apply LA. exists e. auto.
      - right. apply LB. exists e. auto. }
    destruct (conflict_fold (fun t i => if i =? p then Ok t else make_conflict t i p)
                (fun w t => w <> p -> interferes t w p) s1 l) with (s := s) as (t & R & Ct & Q).
    + intros w u Hw Cu. destruct (Nat.eqb_spec w p) as [->|D].
      * exists u. split; [reflexivity|]. split; [apply cstep_refl|]. intros N. contradiction.
      * pose proof (cs_sim u Cu) as Su. destruct (tracked_free u w Su (Tl w Hw)) as (Lw & Fw).
        destruct (conflict_linked u w p (cs_ready u Cu) Lw Fw (valued_sim _ _ _ Su Lp) D) as (t & H1 & H2 & H3 & H4).
        exists t. split; [exact H1|]. split; [split; assumption|auto].
    + intros w u u' Cu H D. eapply cstep_interferes; [exact Cu|]. auto.
    + exact C.
    + exists t. split; [exact R|]. split; [exact Ct|]. intros w m T D Cp L _. apply Q; [|exact D].
      destruct (X1 w T) as (A & B & _). destruct C as (_ & (LA & LB)).
      inversion Cp as [k' Ek (z' & y' & Hz' & Hy' & J')|Nj]; subst.
      * assert (m = length (rev rl)) by lia. subst m. assert (z' = z) by (unfold insn_at in *; congruence). subst z'.
        assert (y' = y) by congruence. subst y'. unfold l. rewrite J'.
        assert (G : live_before s z w) by (apply LA, (A n _ z Hn Hz), L). destruct G as (e' & He' & G). congruence.
      * unfold l. destruct (is_jmp_op (i_op y)) eqn:J.
        { destruct (Nj (length (rev rl)) Ee). exists z, y. auto. }
        assert (G : live_after s z w) by (apply LB, (B n _ z Hn Hz); rewrite Ee; exact L).
        destruct G as (e' & He' & G). congruence.
Qed.

(** a value live across a call conflicts with the caller-saved registers *)
Lemma caller_ok v s : tracked s0 v -> cstep s1 s ->
  exists t, caller_constraint s v = Ok t /\ cstep s t /\
    forall k r, k < 6 -> nth_error (c_regs s0) k = Some r -> interferes t r v.
Proof.
  intros T C. unfold caller_constraint.
  destruct (conflict_fold (fun t k => do r <- reg_node t (Z.of_nat k); make_conflict t r v)
     (fun k t => forall r, nth_error (c_regs s0) k = Some r -> interferes t r v) s1 (seq 0 6)) with (s := s) as (t & R & Ct & Q).
  - intros k u Hk Cu. apply in_seq in Hk. pose proof (cs_sim u Cu) as Su.
    assert (Er : c_regs u = c_regs s0) by apply Su.
    destruct (nth_error (c_regs u) k) as [r|] eqn:Ek.
    2: { apply nth_error_None in Ek. rewrite Er, (rd_regs s0 R0) in Ek. lia. }
    unfold reg_node. assert ((Z.of_nat k <? 0)%Z = false) as -> by (apply Z.ltb_ge; lia).
    rewrite Nat2Z.id, Ek. cbn [bind].
    destruct (tracked_free u v Su T) as (Lv & Fv).
    destruct (conflict_reg_linked u k r v (cs_ready u Cu) Ek Lv Fv) as (t & H1 & H2 & H3).
    exists t. split; [exact H1|]. split; [exact H2|]. intros r' Hr'. rewrite <- Er, Ek in Hr'. injection Hr' as <-. exact H3.
  - intros k u u' Cu H r Hr. eapply cstep_interferes; [exact Cu|]. auto.
  - exact C.
  - exists t. split; [exact R|]. split; [exact Ct|]. intros k r Lk. apply Q. apply in_seq. lia.
Qed.

Variable deep : nat.
Hypothesis Dp : forall i x w n, linked s0 i -> f_insn (c_f s0) i = Some x -> i_op x = PHI -> In (w, n) (i_phi x) -> shallow s0 n deep.
Hypothesis Fu : deep < fuel.
Hypothesis Op : operands_ok s0.

Definition quiet (w : nat) : Prop := forall b, In b (c_reach s0) -> preds_of (c_f s0) b = [] -> ~ live s0 w (b, 0).
(** what is known about instruction [i] afterwards *)
Definition settled (i : nat) (t : cgs) : Prop :=
  forall x, f_insn (c_f s0) i = Some x ->
    (i_op x = PHI -> forall w n v m, In (w, n) (i_phi x) -> tracked s0 v -> v <> i -> copy_point s0 n m ->
       live s0 v (n, m) -> quiet v -> interferes t v i) /\
    (i_op x = CALL -> forall b k v, In b (c_reach s0) -> insn_at s0 b k i -> tracked s0 v ->
       live s0 v (b, k) -> live s0 v (b, S k) ->
       forall j r, j < 6 -> nth_error (c_regs s0) j = Some r -> interferes t r v) /\
    (is_bin_alu_op (i_op x) = true -> forall v d, nth_error (i_vals x) 1 = Some v -> v_data v = VInsn d -> interferes t i d).
Lemma settled_mono i s t : cstep s t -> settled i s -> settled i t.
Proof.
  intros C H x Hx. destruct (H x Hx) as (A & B & D). split; [|split].
  - intros. eapply cstep_interferes; [exact C|]. eapply A; eassumption.
  - intros. eapply cstep_interferes; [exact C|]. eapply B; eassumption.
  - intros. eapply cstep_interferes; [exact C|]. eapply D; eassumption.
Qed.

Lemma conflict_one_ok i s : linked s0 i -> cstep s1 s ->
  exists t, conflict_one fuel s i = Ok t /\ cstep s t /\ settled i t.
Proof.
  intros Li C. unfold conflict_one. pose proof (cs_sim s C) as Sx.
  pose proof Li as (b & Hb & Hi). destruct (rd_insn s0 R0 b i Hb Hi) as (x & e0 & Hx & _ & He0 & _).
  assert (Ef : c_f s = c_f s0) by apply Sx. unfold get_insn. rewrite Ef, Hx. cbn [bind].
  (* phi *)
  assert (H1 : exists t, (if iop_eqb (i_op x) PHI then ofold (phi_conflict fuel i) s (map snd (i_phi x)) else Ok s) = Ok t /\
     cstep s t /\ (i_op x = PHI -> forall w n v m, In (w, n) (i_phi x) -> tracked s0 v -> v <> i -> copy_point s0 n m ->
       live s0 v (n, m) -> quiet v -> interferes t v i)).
  { unfold iop_eqb. destruct (iop_eq_dec (i_op x) PHI) as [Ep|Np].
    - destruct (conflict_fold (phi_conflict fuel i)
        (fun n t => forall v m, tracked s0 v -> v <> i -> copy_point s0 n m -> live s0 v (n, m) -> quiet v -> interferes t v i)
        s1 (map snd (i_phi x))) with (s := s) as (t & R & Ct & Q).
      + intros n u Hn Cu. apply in_map_iff in Hn. destruct Hn as ((w & n') & <- & Hw). cbn [snd].
        assert (Vi : valued s0 i) by (split; [exact Li|apply (rd_phi s0 R0 i x Li Hx Ep)]).
        apply (phi_conflict_ok i Vi fuel n' deep u Cu); [|eapply Dp; eassumption|exact Fu].
        eapply (rd_phi s0 R0 i x); eassumption.
      + intros n u u' Cu H v m T D Cp L O. eapply cstep_interferes; [exact Cu|]. eapply H; eassumption.
      + exact C.
      + exists t. split; [exact R|]. split; [exact Ct|]. intros _ w n v m Hw. apply Q.
        apply in_map_iff. exists (w, n). auto.
    - exists s. split; [reflexivity|]. split; [apply cstep_refl|]. intros. contradiction. }
  destruct H1 as (sa & -> & Ca & Qa). cbn [bind]. pose proof (cstep_trans _ _ _ C Ca) as C1.
  (* call *)
  assert (H2 : exists t, (if iop_eqb (i_op x) CALL then
              do e <- get_ex sa i;
              ofold (fun t v => if mem v (x_out e) then caller_constraint t v else Ok t) sa (x_in e)
            else Ok sa) = Ok t /\ cstep sa t /\
     (i_op x = CALL -> forall b k v, In b (c_reach s0) -> insn_at s0 b k i -> tracked s0 v ->
       live s0 v (b, k) -> live s0 v (b, S k) ->
       forall j r, j < 6 -> nth_error (c_regs s0) j = Some r -> interferes t r v)).
  { unfold iop_eqb. destruct (iop_eq_dec (i_op x) CALL) as [Ec|Nc].
    - destruct (ssim_some _ _ _ _ (cs_sim sa C1) He0) as (e & He & _). unfold get_ex. rewrite He. cbn [bind].
      destruct C1 as (G1 & (LA & LB)).
      destruct (conflict_fold (fun t v => if mem v (x_out e) then caller_constraint t v else Ok t)
        (fun v t => In v (x_out e) -> forall j r, j < 6 -> nth_error (c_regs s0) j = Some r -> interferes t r v)
        s1 (x_in e)) with (s := sa) as (t & R & Ct & Q).
      + intros v u Hv Cu.
        assert (Tv : tracked s0 v) by (apply (Y1 v i); left; apply LA; exists e; auto).
        destruct (mem v (x_out e)) eqn:Em.
        * destruct (caller_ok v u Tv Cu) as (t & H1 & H2 & H3). exists t. split; [exact H1|]. split; [exact H2|]. intros _ j r Lj. apply H3, Lj.
        * exists u. split; [reflexivity|]. split; [apply cstep_refl|]. intros H. apply mem_In in H. congruence.
      + intros v u u' Cu H Hv j r Lj Hr. eapply cstep_interferes; [exact Cu|]. eapply H; eassumption.
      + split; [exact G1|split; assumption].
      + exists t. split; [exact R|]. split; [exact Ct|]. intros _ c k v Hc Hk T L1 L2 j r Lj Hr.
        destruct (X1 v T) as (A & B & _).
        assert (G : live_before sa i v) by (apply LA, (A c k i Hc Hk), L1). destruct G as (e' & He' & Iv).
        assert (G : live_after sa i v) by (apply LB, (B c k i Hc Hk), L2). destruct G as (e'' & He'' & Ov).
        rewrite He in He', He''. injection He' as <-. injection He'' as <-. eapply Q; eassumption.
    - exists sa. split; [reflexivity|]. split; [apply cstep_refl|]. intros. contradiction. }
  destruct H2 as (sb & -> & Cb & Qb). cbn [bind]. pose proof (cstep_trans _ _ _ C1 Cb) as C2.
  assert (H3 : exists t, (if is_bin_alu_op (i_op x) then
    match nth_error (i_vals x) 1 with
    | None => UB
    | Some v => match val_target v with Some d => make_conflict sb i d | None => Ok sb end
    end
  else Ok sb) = Ok t /\ cstep sb t /\
    (is_bin_alu_op (i_op x) = true -> forall v d, nth_error (i_vals x) 1 = Some v -> v_data v = VInsn d -> interferes t i d)).
  { destruct (is_bin_alu_op (i_op x)) eqn:Ea.
    - destruct (Op i x Li Hx Ea) as (Ti & v & Hv & Hd). rewrite Hv. unfold val_target.
      destruct (v_data v) as [c|c|c|d|q|] eqn:Ed; try (exists sb; split; [reflexivity|]; split; [apply cstep_refl|]; intros; congruence).
      destruct (Hd d eq_refl) as (Ld & Df & Dd). pose proof (cs_sim sb C2) as Sb.
      destruct (conflict_linked sb i d (cs_ready sb C2)) as (t & G1 & G2 & G3 & G4).
      + apply (tracked_free sb i Sb Ti).
      + apply (tracked_free sb i Sb Ti).
      + eapply valued_sim; [exact Sb|]. split; assumption.
      + congruence.
      + exists t. split; [exact G1|]. split; [split; assumption|]. intros _ v' d' Hv' Hd'. injection Hv' as <-.
        rewrite Ed in Hd'. injection Hd' as <-. exact G4.
    - exists sb. split; [reflexivity|]. split; [apply cstep_refl|]. discriminate. }
  destruct H3 as (t & -> & Ct & Qt). exists t. split; [reflexivity|].
  split; [exact (cstep_trans _ _ _ Ca (cstep_trans _ _ _ Cb Ct))|].
  intros y Hy. rewrite Hx in Hy. injection Hy as <-. split; [|split].
  - intros. eapply cstep_interferes; [exact (cstep_trans _ _ _ Cb Ct)|]. eapply Qa; eassumption.
  - intros. eapply cstep_interferes; [exact Ct|]. eapply Qb; eassumption.
  - exact Qt.
Qed.

Lemma conflicts_ok : exists t, conflicts fuel s1 = Ok t /\ cstep s1 t /\
  (forall a b, In a (c_regs s0) -> In b (c_regs s0) -> a <> b -> interferes t a b \/ interferes t b a) /\
  (forall i, linked s0 i -> settled i t).
Proof.
  unfold conflicts. assert (Er : c_regs s1 = c_regs s0) by apply S1. 
  assert (F10 : firstn 10 (c_regs s1) = c_regs s0) by (rewrite Er; apply firstn_all2; rewrite (rd_regs s0 R0); lia).
  rewrite F10.
  destruct (conflict_fold (fun t p => make_conflict t (fst p) (snd p)) (fun p t => interferes t (fst p) (snd p)) s1 (pairs (c_regs s0)))
    with (s := s1) as (s2 & R2 & C2 & Q2).
  - intros (a & b) u H Cu. destruct (pairs_spec _ (rd_distinct s0 R0) a b H) as (Ia & Ib & D). cbn [fst snd].
    assert (Eu : c_regs u = c_regs s0) by apply (cs_sim u Cu).
    apply In_nth_error in Ia. apply In_nth_error in Ib. destruct Ia as (ja & Ja), Ib as (jb & Jb). rewrite <- Eu in Ja, Jb.
    apply (conflict_regs u ja jb a b (cs_ready u Cu) Ja Jb D).
  - intros (a & b) u u' Cu H. eapply cstep_interferes; eassumption.
  - apply cstep_refl.
  - rewrite R2. cbn [bind]. pose proof (cs_sim s2 C2) as S2.
    assert (Ef : c_f s2 = c_f s0) by apply S2. assert (Erc : c_reach s2 = c_reach s0) by apply S2. rewrite Ef, Erc.
    rewrite insns_in_ok by apply (rd_reach s0 R0). cbn [bind].
    destruct (conflict_fold (conflict_one fuel) settled s1 (flat_map (insns_of (c_f s0)) (c_reach s0))) with (s := s2)
      as (t & R & Ct & Q).
    + intros i u Hi Cu. apply conflict_one_ok; [apply flat_linked, Hi|exact Cu].
    + intros i u u'. apply settled_mono.
    + exact C2.
    + exists t. split; [exact R|]. split; [exact (cstep_trans _ _ _ C2 Ct)|]. split.
      * intros a b Ha Hb D. destruct (pairs_all _ a b Ha Hb D) as [H|H]; [left|right];
          (eapply cstep_interferes; [exact Ct|apply (Q2 _ H)]).
      * intros i Li. apply Q, flat_linked, Li.
Qed.
End Conf.
