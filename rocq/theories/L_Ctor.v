From Verif Require Import M_Base M_Ir M_Edit M_EditHist SpecIr SpecEdit SpecCtor L_Edit L_Uses L_Hist.
From Coq Require Import Lia.
Open Scope nat_scope.

Lemma describes_build bb k l : describes k (set_users l (build bb k)).
Proof. destruct k; cbn; auto 8. Qed.
Lemma operands_names bb k v d : ctor_ok k -> In v (operands (build bb k)) -> val_target v = Some d -> names k d.
Proof.
  intros OK I T. assert (V : v_data v = VInsn d). { unfold val_target in T. destruct (v_data v); congruence. }
  destruct k; cbn in I |- *; try tauto; try (destruct o; cbn in I; try discriminate OK; try (destruct OK; discriminate));
    repeat (destruct I as [<-|I]; [cbn in V; auto; try (injection V as ->; auto)|]); try tauto.
Qed.
Lemma fold_add_total u : forall l f, (forall v d, In v l -> val_target v = Some d -> live f d) ->
  exists f', ofold (fun g v => add_user g v u) f l = Ok f'.
Proof.
  induction l as [|v l IH]; intros f H; cbn [ofold]; [eauto|].
  destruct (add_user_total f v u) as (f1 & E); [intros d T; apply (H v d); cbn; auto|]. rewrite E. cbn [bind]. apply IH.
  intros w d I T. unfold live. apply add_user_spec in E as (UE & _). intros X. apply (ue_live _ _ UE) in X. apply (H w d); cbn; auto.
Qed.
Lemma create_insn_total f bb k : ctor_ok k -> (forall d, names k d -> exists y, f_insn f d = Some y) -> exists f' i, create_insn f bb k = Ok (f', i).
Proof.
  intros OK H. unfold create_insn. set (f1 := mkFunc _ _ _ _ _ _).
  destruct (fold_add_total (f_ni f) (operands (build bb k)) f1) as (f2 & E).
  { intros v d I T. unfold live, f1. cbn [f_insn]. destruct (H d) as (y & Y); [eapply operands_names; eauto|].
    unfold upd. destruct (d =? f_ni f); congruence. }
  rewrite E. cbn [bind]. eauto.
Qed.
Lemma placed_ext f g p l b a : (forall i, In i l -> (is_phi f i <-> is_phi g i) /\ (is_terminator f i <-> is_terminator g i)) -> placed f p l b a -> placed g p l b a.
Proof.
  intros H (E & P). split; auto. destruct p; auto.
  - destruct P as [(A & N)|(z & A & N)]; [left|right].
    + split; auto. intros r z Z T. apply (N r z Z). apply H; auto. rewrite E, Z. apply in_or_app. left. apply in_or_app. cbn. auto.
    + exists z. split; auto. apply H; auto. rewrite E, A. apply in_or_app. cbn. auto.
  - destruct P as (A & B). split.
    + intros i I. apply H; auto. rewrite E. apply in_or_app. auto.
    + intros z r Z T. apply (B z r Z). apply H; auto. rewrite E, Z. apply in_or_app. cbn. auto.
Qed.
Lemma only_users_phi f g i j : only_users f g i -> j <> i -> (is_phi f j <-> is_phi g j) /\ (is_terminator f j <-> is_terminator g j).
Proof.
  intros O N. destruct (O j N) as (l & E). unfold is_phi, is_terminator. rewrite E. destruct (f_insn f j) as [y|]; cbn; [|split; split; intros (x & X & _); discriminate].
  split; split; intros (x & X & Y); injection X as <-; eexists; split; try reflexivity; cbn in *; auto.
Qed.

Lemma create_at_bb_ok f bb b k p : wf_func f -> f_block f bb = Some b -> ctor_ok k -> (forall d, names k d -> exists y, f_insn f d = Some y) ->
  exists g i before after x, create_at_bb f bb k p = Ok (g, i) /\ f_insn f i = None /\
    f_insn g i = Some x /\ describes k x /\ i_parent x = bb /\ only_users f g i /\
    placed f p (insns_of f bb) before after /\ insns_of g bb = before ++ i :: after /\
    (forall c, c <> bb -> f_block g c = f_block f c) /\
    (forall c, succs_of g c = succs_of f c) /\ (forall c, preds_of g c = preds_of f c) /\ f_nb g = f_nb f.
Proof.
  intros W B OK H. destruct (create_insn_total f bb k OK H) as (f1 & i & E).
  destruct (create_insn_wf _ _ _ _ _ W E) as (W1 & (x & X & PX) & NI & EI & FI & EB & _).
  assert (CE := create_insn_exact _ _ _ _ _ (wf_fresh _ W) (proj1 (exact_iff f) (wf_uses _ W)) E).
  destruct CE as (_ & _ & _ & ENB & _ & _ & _ & (l & XI) & OU).
  destruct (insert_at_bb_places f1 i bb p b) as (g & bf & af & E2 & P & L & O1 & O2 & O3 & O4); [rewrite EB; auto|].
  assert (II : insns_of f1 bb = insns_of f bb) by (unfold insns_of; now rewrite EB).
  exists g, i, bf, af, (set_users l (build bb k)). unfold create_at_bb. rewrite E. cbn [bind fst snd]. rewrite E2. cbn [bind].
  split; [reflexivity|]. split; [auto|]. split; [now rewrite O4|]. split; [apply describes_build|]. split; [apply build_parent|].
  split; [intros j J; rewrite O4; auto|]. split.
  { rewrite <- II. eapply placed_ext; [|exact P]. intros j J.
    destruct (only_users_phi f f1 i j) as [A C]; [exact OU|intros ->; eapply NI; eauto|]. split; symmetry; auto. }
  split; [auto|]. split; [intros c C; now rewrite O1, EB|].
  split; [intros c; rewrite O2; unfold succs_of; now rewrite EB|]. split; [intros c; rewrite O3; unfold preds_of; now rewrite EB|].
  assert (NBG : f_nb g = f_nb f1); [|congruence].
  unfold insert_at_bb, get_block in E2. rewrite EB, B in E2. cbn [bind] in E2. injection E2 as <-. reflexivity.
Qed.

Lemma split_nb f i p x f1 r : wf_func f -> f_insn f i = Some x -> In i (insns_of f (i_parent x)) -> split_bb f i p = Ok (f1, r) -> f_nb f <= f_nb f1.
Proof.
  intros W X I E. apply in_split in I as (l1 & l2 & L).
  destruct (split_moves_tail f i p x l1 l2 W X L) as (g & E' & C & _). rewrite E in E'. injection E' as <- _.
  destruct C as (_ & _ & _ & _ & _ & _ & _ & N1 & N2 & N3 & N4 & DOM). lia.
Qed.
Lemma error_block_ok f i p x : wf_func f -> f_insn f i = Some x -> forall f1 nb kept moved,
  split_bb f i p = Ok (f1, Some nb) -> split_edges f f1 (i_parent x) nb -> insns_of f1 (i_parent x) = kept -> insns_of f1 nb = moved ->
  (forall c, c <> i_parent x -> c <> nb -> insns_of f1 c = insns_of f c) -> moved_to f f1 moved nb ->
  In i (insns_of f (i_parent x)) ->
  exists g eb t y, create_error_block f i p = Ok (g, Some (eb, nb)) /\
    f_block f eb = None /\ f_block f nb = None /\ eb <> nb /\
    insns_of g (i_parent x) = kept /\ insns_of g nb = moved /\ insns_of g eb = [t] /\
    f_insn f t = None /\ f_insn g t = Some y /\ i_op y = THROW /\
    (forall c, c <> i_parent x -> c <> nb -> c <> eb -> insns_of g c = insns_of f c) /\
    succs_of g (i_parent x) = [nb; eb] /\ succs_of g nb = succs_of f (i_parent x) /\ succs_of g eb = [] /\
    preds_of g eb = [i_parent x] /\ preds_of g nb = [i_parent x] /\
    (forall c, c <> i_parent x -> c <> nb -> c <> eb -> succs_of g c = succs_of f c).
Proof.
  intros W X f1 nb kept moved SP SE IK IM IO MV IP. set (bb := i_parent x) in *.
  assert (W1 : wf_func f1). { eapply (split_wf f i p); eauto. exists x. auto. }
  destruct (create_bb f1) as [f2 eb] eqn:CB.
  destruct (create_bb_spec _ _ _ CB (wf_fresh _ W1)) as (E1 & E2 & E3 & E4 & E5 & E6 & E7 & E8 & E9 & _).
  assert (W2 : wf_func f2) by (eapply create_bb_wf; eauto).
  destruct (create_at_bb_ok f2 eb (mkBlock [] [] [] 0%Z) K_throw P_BACK W2) as (f3 & t & bf & af & y & C1 & C2 & C3 & C4 & C5 & C6 & C7 & C8 & C9 & C10 & C11 & C12).
  { rewrite E4, Nat.eqb_refl. reflexivity. } { exact I. } { intros d []. }
  assert (NBX : f_block f1 nb <> None).
  { intros Z. assert (Q := se_in _ _ _ _ SE). unfold preds_of in Q. rewrite Z in Q. discriminate. }
  assert (BBX : f_block f1 bb <> None). { intros Z. assert (Q := se_out _ _ _ _ SE). unfold succs_of in Q. rewrite Z in Q. discriminate. }
  assert (NEB : eb <> nb) by congruence. assert (NEBB : eb <> bb) by congruence.
  assert (NBB : nb <> bb).
  { intros ->. assert (Q := se_new _ _ _ _ SE). unfold insns_of in IP. rewrite Q in IP. destruct IP. }
  destruct (connect_total f3 bb eb) as (g & CN).
  { rewrite C9 by auto. rewrite E4. destruct (Nat.eqb_spec bb eb); auto. }
  { intros Z. unfold insns_of in C8. rewrite Z in C8. destruct bf; discriminate. }
  destruct (connect_spec _ _ _ _ CN) as (SS & _ & _ & SU & PR).
  assert (FEB : f_block f eb = None).
  { assert (IE : insns_of f1 eb = []) by (unfold insns_of; now rewrite E2).
    destruct (f_block f eb) eqn:Z; auto. exfalso.
    assert (LT : eb < f_nb f). { destruct (Nat.lt_ge_cases eb (f_nb f)) as [?|Q]; auto. rewrite (proj2 (wf_fresh _ W) eb Q) in Z. discriminate. }
    assert (MN : f_nb f <= f_nb f1).
    { eapply split_nb; eauto. }
    lia. }
  assert (IBF : bf ++ t :: af = [t]).
  { destruct C7 as (Q & ->). rewrite E7 in Q. unfold insns_of in Q. rewrite E2 in Q. rewrite app_nil_r in Q. subst bf. reflexivity. }
  exists g, eb, t, y. split.
  { unfold create_error_block, get_insn. rewrite X. cbn [bind]. rewrite SP. cbn [bind]. rewrite CB. rewrite C1. cbn [bind fst]. fold bb. rewrite CN. reflexivity. }
  split; [auto|]. split; [apply (se_new _ _ _ _ SE)|]. split; [auto|].
  assert (IN : forall c, c <> eb -> insns_of g c = insns_of f1 c).
  { intros c NC. rewrite (ss_insns _ _ SS). rewrite <- E7. unfold insns_of. now rewrite C9. }
  assert (S3 : forall c, succs_of f3 c = succs_of f1 c) by (intros c; now rewrite C10, E5).
  assert (P3 : forall c, preds_of f3 c = preds_of f1 c) by (intros c; now rewrite C11, E6).
  split; [rewrite IN; auto|]. split; [rewrite IN; auto|]. split; [rewrite (ss_insns _ _ SS), C8; auto|].
  assert (TF1 : f_insn f1 t = None) by now rewrite <- E8.
  split.
  { destruct (in_dec Nat.eq_dec t moved) as [Q|Q].
    - rewrite (proj1 MV t Q) in TF1. destruct (f_insn f t); auto. discriminate.
    - rewrite (proj2 MV t Q) in TF1. auto. }
  split; [rewrite (ss_insn _ _ SS); auto|]. split; [apply C4|].
  split; [intros c N1 N2 N3; rewrite IN; auto|].
  split; [rewrite SU, Nat.eqb_refl, S3, (se_out _ _ _ _ SE); rewrite push_unique_notin; auto; cbn; intros [Q|[]]; auto|].
  split; [rewrite SU; destruct (Nat.eqb_spec nb bb); [contradiction|]; rewrite S3; apply (se_moved _ _ _ _ SE)|].
  split; [rewrite SU; destruct (Nat.eqb_spec eb bb); [contradiction|]; rewrite S3; unfold succs_of; now rewrite E2|].
  split; [rewrite PR, Nat.eqb_refl, P3; unfold preds_of; rewrite E2; reflexivity|].
  split; [rewrite PR; destruct (Nat.eqb_spec nb eb); [congruence|]; rewrite P3; apply (se_in _ _ _ _ SE)|].
  intros c N1 N2 N3. rewrite SU. destruct (Nat.eqb_spec c bb); [contradiction|]. rewrite S3. apply (se_other _ _ _ _ SE); auto.
Qed.
Lemma error_front f i x l1 l2 : wf_func f -> f_insn f i = Some x -> insns_of f (i_parent x) = l1 ++ i :: l2 ->
  exists g eb nb, create_error_block f i P_FRONT = Ok (g, Some (eb, nb)) /\ error_blocks f g (i_parent x) nb eb l1 (i :: l2).
Proof.
  intros W X L. destruct (split_front f i x l1 l2 W X L) as (f1 & nb & S & SE & A & B & C & M).
  destruct (error_block_ok f i P_FRONT x W X f1 nb l1 (i :: l2)) as (g & eb & t & y & H); auto.
  { rewrite L. apply in_or_app. cbn. auto. }
  exists g, eb, nb. unfold error_blocks. intuition eauto 10.
Qed.
Lemma error_back f i x l1 l2 : wf_func f -> f_insn f i = Some x -> insns_of f (i_parent x) = l1 ++ i :: l2 -> l2 <> [] ->
  exists g eb nb, create_error_block f i P_BACK = Ok (g, Some (eb, nb)) /\ error_blocks f g (i_parent x) nb eb (l1 ++ [i]) l2.
Proof.
  intros W X L N. destruct (split_back f i x l1 l2 W X L N) as (f1 & nb & S & SE & A & B & C & M).
  destruct (error_block_ok f i P_BACK x W X f1 nb (l1 ++ [i]) l2) as (g & eb & t & y & H); auto.
  { rewrite L. apply in_or_app. cbn. auto. }
  exists g, eb, nb. unfold error_blocks. intuition eauto 10.
Qed.
