From Verif Require Import M_Base M_Ir M_Edit M_EditHist SpecIr SpecEdit L_Edit L_Uses.
Open Scope nat_scope.

(** linked_ok/once/mirrored only depend on parents, blocks *)
Lemma linked_ext f g :
  (forall b, insns_of g b = insns_of f b) ->
  (forall i x, f_insn f i = Some x -> exists y, f_insn g i = Some y /\ i_parent y = i_parent x) ->
  linked_ok f -> linked_ok g.
Proof.
  intros HB HI L b i Hi. rewrite HB in Hi. destruct (L b i Hi) as (x & Hx & <-).
  destruct (HI i x Hx) as (y & Hy & E). eauto.
Qed.

Lemma users_edit_parent f g : users_edit f g ->
  forall i x, f_insn f i = Some x -> exists y, f_insn g i = Some y /\ i_parent y = i_parent x.
Proof.
  intros UE i x Hx. destruct (ue_rec _ _ UE i) as [l R]. rewrite Hx in R. simpl in R. eauto.
Qed.

Lemma mirrored_blocks f g : (forall b, f_block g b = f_block f b) -> mirrored f -> mirrored g.
Proof.
  intros H (A & B & C). unfold mirrored, succs_of, preds_of in *. setoid_rewrite H. auto.
Qed.
Lemma insns_blocks f g : (forall b, f_block g b = f_block f b) -> forall b, insns_of g b = insns_of f b.
Proof. intros H b. unfold insns_of. now rewrite H. Qed.

(** edits that keep blocks, liveness, parents and counters *)
Definition keeps (f g : func) : Prop :=
  (forall b, f_block g b = f_block f b) /\
  (forall i, f_insn g i = None <-> f_insn f i = None) /\
  (forall i x, f_insn f i = Some x -> exists y, f_insn g i = Some y /\ i_parent y = i_parent x) /\
  f_ni g = f_ni f /\ f_nb g = f_nb f.

Lemma keeps_refl f : keeps f f.
Proof. repeat split; auto; eauto. Qed.
Lemma keeps_trans f g h : keeps f g -> keeps g h -> keeps f h.
Proof.
  intros (A1 & A2 & A3 & A4 & A5) (B1 & B2 & B3 & B4 & B5).
  split; [congruence|]. split; [intros; rewrite B2; auto|]. split; [|split; congruence].
  intros i x Hx. destruct (A3 i x Hx) as (y & Hy & E1). destruct (B3 i y Hy) as (z & Hz & E2).
  exists z; split; congruence.
Qed.
Lemma users_edit_keeps f g : users_edit f g -> keeps f g.
Proof.
  intros UE. split; [apply (ue_block _ _ UE)|]. split; [apply (ue_live _ _ UE)|].
  split; [apply users_edit_parent; auto|]. split; [apply (ue_ni _ _ UE)|apply (ue_nb _ _ UE)].
Qed.
Lemma put_keeps f i x y : f_insn f i = Some x -> i_parent y = i_parent x -> keeps f (put_insn f i y).
Proof.
  intros Hx Hp. split; [reflexivity|]. split; [|split; [|split; reflexivity]].
  - intros j. rewrite f_insn_put. destruct (Nat.eqb_spec j i) as [->|]; [|tauto].
    rewrite Hx; split; discriminate.
  - intros j z Hz. rewrite f_insn_put. destruct (Nat.eqb_spec j i) as [->|]; eauto.
    rewrite Hx in Hz. injection Hz as <-. eauto.
Qed.

Lemma keeps_wf f g : keeps f g -> wf_func f -> uses_exact g -> wf_func g.
Proof.
  intros (A1 & A2 & A3 & A4 & A5) W H. constructor; auto.
  - eapply mirrored_blocks; eauto. apply (wf_mirror _ W).
  - destruct (wf_fresh _ W) as (F1 & F2). split; intros.
    + apply A2. apply F1. congruence.
    + rewrite A1. apply F2. congruence.
  - eapply linked_ext; [|exact A3|apply (wf_linked _ W)]. now apply insns_blocks.
  - intros b. rewrite (insns_blocks f g) by auto. apply (wf_once _ W).
Qed.

Lemma replace_in_user_keeps d rep f u g : replace_in_user d rep f u = Ok g -> keeps f g.
Proof.
  unfold replace_in_user. intros E. apply bind_ok in E as (x & Hx & E). apply get_insn_ok in Hx.
  apply add_user_n_spec in E as (UE & _).
  eapply keeps_trans; [|apply users_edit_keeps; exact UE].
  eapply put_keeps; eauto. unfold subst_insn. destruct (i_op x); reflexivity.
Qed.
Lemma ofold_keeps {A} (F : func -> A -> outcome func) :
  (forall f a g, F f a = Ok g -> keeps f g) -> forall l f g, ofold F f l = Ok g -> keeps f g.
Proof.
  intros H. induction l as [|a l IH]; intros f g E; cbn [ofold] in E.
  - injection E as <-. apply keeps_refl.
  - apply bind_ok in E as (f1 & E1 & E). eapply keeps_trans; eauto.
Qed.

(** insertion into a block *)
Lemma Permutation_NoDup_insert (l1 l2 : list nat) x : ~ In x (l1 ++ l2) -> NoDup (l1 ++ l2) -> NoDup (l1 ++ x :: l2).
Proof.
  intros Hn HN. induction l1 as [|a l1 IH]; simpl in *.
  - constructor; auto.
  - inversion HN; subst. constructor.
    + rewrite in_app_iff in *. simpl. intuition.
    + apply IH; auto.
Qed.

(** [ins l l'] : l' is l with the single element x inserted somewhere *)
Definition inserted (x : nat) (l l' : list nat) : Prop := exists l1 l2, l = l1 ++ l2 /\ l' = l1 ++ x :: l2.

Lemma insert_list_inserted f new l p : inserted new l (insert_list_bb f new l p).
Proof.
  destruct p; simpl.
  - exists l, []. now rewrite app_nil_r.
  - exists [], l; auto.
  - destruct (rev l) as [|z r] eqn:E.
    + exists l, []. now rewrite app_nil_r.
    + destruct (is_jmp_op (op_of f z)).
      * exists (rev r), [z]. split; auto. rewrite <- (rev_involutive l), E. reflexivity.
      * exists l, []. now rewrite app_nil_r.
  - eexists _, _. split; [|reflexivity]. now rewrite firstn_skipn.
Qed.

Lemma put_block_insns_wf f bb b i l' x :
  wf_func f -> f_block f bb = Some b -> f_insn f i = Some x -> i_parent x = bb ->
  (forall c, ~ In i (insns_of f c)) ->
  inserted i (b_insns b) l' ->
  wf_func (put_block f bb (set_insns l' b)).
Proof.
  intros W Hb Hx Hp Hn (l1 & l2 & E1 & E2).
  assert (IB : insns_of f bb = l1 ++ l2) by (unfold insns_of; rewrite Hb; auto).
  assert (I' : forall c, insns_of (put_block f bb (set_insns l' b)) c = if c =? bb then l' else insns_of f c).
  { intros c. unfold insns_of. rewrite f_block_put. destruct (c =? bb); reflexivity. }
  constructor.
  - destruct (wf_mirror _ W) as (A & B & C).
    assert (S' : forall c, succs_of (put_block f bb (set_insns l' b)) c = succs_of f c).
    { intros c. unfold succs_of. rewrite f_block_put. destruct (Nat.eqb_spec c bb) as [->|]; auto. now rewrite Hb. }
    assert (P' : forall c, preds_of (put_block f bb (set_insns l' b)) c = preds_of f c).
    { intros c. unfold preds_of. rewrite f_block_put. destruct (Nat.eqb_spec c bb) as [->|]; auto. now rewrite Hb. }
    split; [|split]; intros; rewrite ?S', ?P'; auto.
  - destruct (wf_fresh _ W) as (F1 & F2). split; [exact F1|].
    intros c Hc. rewrite f_block_put. simpl in Hc. destruct (Nat.eqb_spec c bb) as [->|]; auto.
    rewrite F2 in Hb by auto. discriminate.
  - apply exact_iff. eapply exact_blocks; [|apply exact_iff, (wf_uses _ W)]. reflexivity.
  - intros c j. rewrite I'. destruct (Nat.eqb_spec c bb) as [->|].
    + subst l'. rewrite in_app_iff. simpl. intros [H|[<-|H]].
      * apply (wf_linked _ W). rewrite IB, in_app_iff; auto.
      * exists x. split; auto.
      * apply (wf_linked _ W). rewrite IB, in_app_iff; auto.
    + apply (wf_linked _ W).
  - intros c. rewrite I'. destruct (Nat.eqb_spec c bb) as [->|]; [|apply (wf_once _ W)].
    subst l'. apply Permutation_NoDup_insert.
    + rewrite <- IB. apply Hn.
    + rewrite <- IB. apply (wf_once _ W).
Qed.

Lemma build_parent bb k l : i_parent (set_users l (build bb k)) = bb.
Proof. now destruct k. Qed.

Lemma create_insn_wf f bb k f' i : wf_func f -> create_insn f bb k = Ok (f', i) ->
  wf_func f' /\ (exists x, f_insn f' i = Some x /\ i_parent x = bb) /\
  (forall c, ~ In i (insns_of f' c)) /\ i = f_ni f /\ f_insn f i = None /\
  (forall b, f_block f' b = f_block f b) /\
  (forall j x, f_insn f j = Some x -> exists l, f_insn f' j = Some (set_users l x)).
Proof.
  intros W E. pose proof (wf_fresh _ W) as F.
  pose proof (create_insn_exact _ _ _ _ _ F (proj1 (exact_iff f) (wf_uses _ W)) E)
    as (X & -> & N1 & N2 & N3 & N4 & B & (l & Hi) & Hj).
  assert (Hnone : f_insn f (f_ni f) = None) by (apply F; lia).
  assert (Hother : forall j x, f_insn f j = Some x -> exists l, f_insn f' j = Some (set_users l x)).
  { intros j x Hx. destruct (Hj j) as [l' E']. { intros ->. congruence. }
    rewrite Hx in E'. eauto. }
  assert (Hnot : forall c, ~ In (f_ni f) (insns_of f' c)).
  { intros c Hc. rewrite (insns_blocks f f') in Hc by auto.
    destruct (wf_linked _ W _ _ Hc) as (x & Hx & _). congruence. }
  split; [|split; [|split; [|split; [|split; [|split]]]]]; auto.
  - constructor.
    + eapply mirrored_blocks; eauto. apply (wf_mirror _ W).
    + destruct F as (F1 & F2). split.
      * rewrite N1. intros j Hge. destruct (Hj j) as [l' E']; [lia|]. rewrite E', F1 by lia. reflexivity.
      * rewrite N2. intros b Hb. rewrite B. auto.
    + now apply exact_iff.
    + eapply linked_ext; [apply insns_blocks; exact B| |apply (wf_linked _ W)].
      intros j x Hx. destruct (Hother j x Hx) as [l' E']. eauto.
    + intros b. rewrite (insns_blocks f f') by auto. apply (wf_once _ W).
  - exists (set_users l (build bb k)). split; auto. apply build_parent.
Qed.

Lemma create_at_bb_wf f bb k p f' i : wf_func f -> create_at_bb f bb k p = Ok (f', i) -> wf_func f'.
Proof.
  intros W E. unfold create_at_bb in E. apply bind_ok in E as ((f1 & j) & E1 & E).
  cbn [fst snd] in E. apply bind_ok in E as (f2 & E2 & E). injection E as <- <-.
  apply create_insn_wf in E1 as (W1 & (x & Hx & Hp) & Hn & _); auto.
  unfold insert_at_bb in E2. apply bind_ok in E2 as (b & Hb & E2). apply get_block_ok in Hb.
  injection E2 as <-. eapply put_block_insns_wf; eauto. apply insert_list_inserted.
Qed.

Lemma insert_before_inserted new node l l' : insert_before new node l = Ok l' -> inserted new l l'.
Proof.
  unfold insert_before. destruct (index_of node l); [|discriminate]. intros [= <-].
  eexists _, _. split; [|reflexivity]. now rewrite firstn_skipn.
Qed.
Lemma insert_after_inserted new node l l' : insert_after new node l = Ok l' -> inserted new l l'.
Proof.
  unfold insert_after. destruct (index_of node l) as [k|]; [|discriminate]. intros E.
  exists (firstn (S k) l), (skipn (S k) l). split; [symmetry; apply firstn_skipn|].
  injection E as <-. reflexivity.
Qed.

Lemma create_at_wf f a k p f' i : wf_func f -> create_at f a k p = Ok (f', i) -> wf_func f'.
Proof.
  intros W E. unfold create_at in E. apply bind_ok in E as (y & Hy & E). apply get_insn_ok in Hy.
  apply bind_ok in E as ((f1 & j) & E1 & E).
  cbn [fst snd] in E. apply bind_ok in E as (f2 & E2 & E). injection E as <- <-.
  apply create_insn_wf in E1 as (W1 & (x & Hx & Hp) & Hn & _ & _ & B & Ho); auto.
  destruct (Ho a y Hy) as [l Hy1].
  unfold insert_at in E2. rewrite (proj2 (get_insn_ok _ _ _) Hy1) in E2. cbn [bind] in E2.
  rewrite (proj2 (get_insn_ok _ _ _) Hx) in E2. cbn [bind] in E2.
  replace (i_parent (set_users l y)) with (i_parent y) in E2 by reflexivity.
  destruct (iop_eqb _ PHI && _).
  - unfold insert_at_bb in E2. apply bind_ok in E2 as (b & Hb & E2). apply get_block_ok in Hb.
    injection E2 as <-. eapply (put_block_insns_wf f1 _ _ j); eauto.
    exact (insert_list_inserted f1 j (b_insns b) P_FRONT_AFTER_PHI).
  - apply bind_ok in E2 as (b & Hb & E2). apply get_block_ok in Hb.
    destruct p; try discriminate; apply bind_ok in E2 as (l' & E3 & E2); injection E2 as <-;
      eapply (put_block_insns_wf f1 _ _ j); eauto using insert_before_inserted, insert_after_inserted.
Qed.

Lemma connect_wf f a b f' : wf_func f -> connect_bb f a b = Ok f' -> wf_func f'.
Proof.
  intros W E. pose proof (connect_spec _ _ _ _ E) as (S & _).
  constructor.
  - eapply connect_mirrored; eauto. apply (wf_mirror _ W).
  - eapply same_shape_fresh; eauto. apply (wf_fresh _ W).
  - apply exact_iff. eapply exact_blocks; [apply (ss_insn _ _ S)|apply exact_iff, (wf_uses _ W)].
  - eapply linked_ext; [apply (ss_insns _ _ S)| |apply (wf_linked _ W)].
    intros i x Hx. exists x. now rewrite (ss_insn _ _ S).
  - intros c. rewrite (ss_insns _ _ S). apply (wf_once _ W).
Qed.
Lemma disconnect_wf f a b f' : wf_func f -> disconnect_bb f a b = Ok f' -> wf_func f'.
Proof.
  intros W E. pose proof (disconnect_spec _ _ _ _ E) as (S & _).
  constructor.
  - eapply disconnect_mirrored; eauto. apply (wf_mirror _ W).
  - eapply same_shape_fresh; eauto. apply (wf_fresh _ W).
  - apply exact_iff. eapply exact_blocks; [apply (ss_insn _ _ S)|apply exact_iff, (wf_uses _ W)].
  - eapply linked_ext; [apply (ss_insns _ _ S)| |apply (wf_linked _ W)].
    intros i x Hx. exists x. now rewrite (ss_insn _ _ S).
  - intros c. rewrite (ss_insns _ _ S). apply (wf_once _ W).
Qed.
Lemma create_bb_wf f f' b : wf_func f -> create_bb f = (f', b) -> wf_func f'.
Proof.
  intros W E. pose proof (create_bb_spec _ _ _ E (wf_fresh _ W)) as
    (-> & C1 & C2 & C3 & C4 & C5 & C6 & C7 & C8 & C9 & C10 & C11 & C12).
  constructor; auto.
  - destruct (wf_mirror _ W) as (M & N1 & N2). split; [|split]; intros; rewrite ?C4, ?C5; auto.
  - apply exact_iff. eapply exact_blocks; [exact C7|apply exact_iff, (wf_uses _ W)].
  - eapply linked_ext; [exact C6| |apply (wf_linked _ W)]. intros i x Hx. exists x. now rewrite C7.
  - intros c. rewrite C6. apply (wf_once _ W).
Qed.

Lemma nodup_app_disj (l1 l2 : list nat) : NoDup (l1 ++ l2) -> NoDup l1 /\ NoDup l2 /\ forall x, In x l1 -> ~ In x l2.
Proof.
  induction l1 as [|a l1 IH]; simpl; intros H; [repeat split; auto; constructor|].
  inversion H; subst. destruct (IH H3) as (A & B & C). split; [|split]; auto.
  - constructor; auto. intros Hi; apply H2; apply in_app_iff; auto.
  - intros x [<-|Hx]; auto. intros Hi; apply H2; apply in_app_iff; auto.
Qed.

Lemma split_wf f i p f' r : wf_func f -> in_place f i -> split_bb f i p = Ok (f', r) -> wf_func f'.
Proof.
  intros W (x & Hx & Hin) E.
  destruct (in_split _ _ Hin) as (l1 & l2 & Hl).
  pose proof (wf_once _ W (i_parent x)) as ND. rewrite Hl in ND.
  assert (Hb : f_block f (i_parent x) <> None).
  { intros Hb. unfold insns_of in Hin. rewrite Hb in Hin. exact Hin. }
  destruct (split_spec f i p x l1 l2 (wf_mirror _ W) (wf_fresh _ W) Hx Hb Hl ND)
    as (g & Eg & CFG & REST).
  { intros j Hj. assert (Hj' : In j (insns_of f (i_parent x))) by (rewrite Hl, in_app_iff; auto).
    destruct (wf_linked _ W _ _ Hj') as (y & Hy & _). congruence. }
  rewrite Eg in E. injection E as <- _.
  set (bb := i_parent x) in *. set (nb := f_nb f) in *.
  assert (Hnb : f_block f nb = None) by apply CFG.
  assert (Hne : bb <> nb) by (intros Q; rewrite Q in Hb; contradiction).
  assert (MI : mirrored g) by (eapply split_cfg_mirrored; eauto; apply (wf_mirror _ W)).
  assert (Inb : insns_of f nb = []) by (unfold insns_of; now rewrite Hnb).
  destruct (wf_fresh _ W) as (F1 & F2).
  destruct CFG as (_ & _ & _ & _ & _ & _ & _ & N1 & N2 & N3 & N4 & DOM).
  assert (FB : forall c, f_nb g <= c -> f_block g c = None).
  { intros c Hc. destruct (f_block g c) eqn:Q; auto. exfalso.
    assert (Q' : f_block g c <> None) by congruence. apply DOM in Q' as [Q'|Q'].
    - apply Q'. apply F2. rewrite N2 in Hc. fold nb. lia.
    - rewrite N2 in Hc. lia. }
  destruct (cut_at p l1 i l2) as [[keep moved]|] eqn:CUT.
  - destruct REST as (R1 & R2 & R3 & R4).
    assert (KM : keep ++ moved = l1 ++ i :: l2).
    { destruct p; simpl in CUT; try discriminate.
      - destruct l2; [discriminate|]. injection CUT as <- <-. now rewrite <- app_assoc.
      - injection CUT as <- <-. reflexivity. }
    rewrite <- KM in ND, Hl. destruct (nodup_app_disj _ _ ND) as (K1 & K2 & K3).
    assert (INM : forall j, existsb (Nat.eqb j) moved = true <-> In j moved).
    { intros j. rewrite existsb_exists. split.
      - intros (z & Hz & Ez). apply Nat.eqb_eq in Ez; now subst.
      - intros Hj; exists j; split; auto. apply Nat.eqb_refl. }
    assert (NM : forall j, ~ In j moved -> f_insn g j = f_insn f j).
    { intros j Hj. rewrite R4. destruct (existsb (Nat.eqb j) moved) eqn:Q; auto.
      apply INM in Q; contradiction. }
    constructor; auto.
    + split; auto. rewrite N1. intros j Hj. rewrite R4, (F1 j Hj). now destruct (existsb _ _).
    + apply exact_iff. eapply exact_parent; [exact R4|apply exact_iff, (wf_uses _ W)].
    + intros c j Hj. destruct (Nat.eq_dec c nb) as [->|Hc].
      * rewrite R2 in Hj. assert (Hj' : In j (insns_of f bb)) by (rewrite Hl, in_app_iff; auto).
        destruct (wf_linked _ W _ _ Hj') as (y & Hy & _). exists (set_parent nb y). split; [|reflexivity].
        rewrite R4, (proj2 (INM j) Hj), Hy. reflexivity.
      * destruct (Nat.eq_dec c bb) as [->|Hc'].
        -- rewrite R1 in Hj. rewrite NM by auto. apply (wf_linked _ W). rewrite Hl, in_app_iff; auto.
        -- rewrite R3 in Hj by auto. destruct (wf_linked _ W _ _ Hj) as (y & Hy & Hp).
           rewrite NM; eauto. intros Hm.
           assert (Hj' : In j (insns_of f bb)) by (rewrite Hl, in_app_iff; auto).
           destruct (wf_linked _ W _ _ Hj') as (y' & Hy' & Hp'). congruence.
    + intros c. destruct (Nat.eq_dec c nb) as [->|Hc]; [rewrite R2; auto|].
      destruct (Nat.eq_dec c bb) as [->|Hc']; [rewrite R1; auto|]. rewrite R3; auto. apply (wf_once _ W).
  - destruct REST as (R1 & R2). constructor; auto.
    + split; auto. rewrite N1. intros j Hj. rewrite R2. auto.
    + apply exact_iff. eapply exact_blocks; [exact R2|apply exact_iff, (wf_uses _ W)].
    + eapply linked_ext; [exact R1| |apply (wf_linked _ W)]. intros j y Hy. exists y. now rewrite R2.
    + intros c. rewrite R1. apply (wf_once _ W).
Qed.

Lemma erase_wf f i f' : wf_func f -> in_place f i -> erase_insn f i = Ok f' -> wf_func f'.
Proof.
  intros W (x & Hx & Hin) E.
  assert (Hb : f_block f (i_parent x) <> None).
  { intros Hb. unfold insns_of in Hin. rewrite Hb in Hin. exact Hin. }
  pose proof (proj1 (exact_iff f) (wf_uses _ W)) as X.
  destruct (erase_insn_spec f i x X Hx Hb) as [(E' & _)|(_ & g & E' & X' & G0 & G1 & G2 & G3 & G4 & G5 & G6 & G7)];
    [congruence|].
  rewrite E' in E. injection E as ->.
  destruct (wf_fresh _ W) as (F1 & F2).
  assert (INS : forall c j, In j (insns_of f' c) -> In j (insns_of f c) /\ j <> i).
  { intros c j Hj. rewrite G2 in Hj. destruct (Nat.eqb_spec c (i_parent x)) as [->|Hc].
    - apply erase_first_in in Hj; auto. apply (wf_once _ W).
    - split; auto. intros ->. destruct (wf_linked _ W _ _ Hj) as (y & Hy & Hp). congruence. }
  constructor.
  - destruct (wf_mirror _ W) as (M & N1 & N2). split; [|split]; intros; rewrite ?G3, ?G4; auto.
  - split.
    + rewrite G6. intros j Hj. destruct (Nat.eq_dec j i) as [->|Hn]; auto.
      destruct (G1 j Hn) as [l E1]. rewrite E1, F1; auto.
    + rewrite G7. intros c Hc. apply G5. auto.
  - now apply exact_iff.
  - intros c j Hj. destruct (INS c j Hj) as (Hj' & Hn). destruct (wf_linked _ W _ _ Hj') as (y & Hy & Hp).
    destruct (G1 j Hn) as [l E1]. rewrite Hy in E1. simpl in E1. eauto.
  - intros c. rewrite G2. destruct (c =? i_parent x); [apply erase_first_nodup|]; apply (wf_once _ W).
Qed.

Lemma error_block_wf f i p f' r : wf_func f -> in_place f i -> create_error_block f i p = Ok (f', r) -> wf_func f'.
Proof.
  intros W P E. unfold create_error_block in E. apply bind_ok in E as (x & Hx & E).
  apply bind_ok in E as ((f1 & o) & E1 & E). apply split_wf in E1; auto.
  destruct o as [nb|]; [|injection E as <- _; auto].
  destruct (create_bb f1) as [f2 eb] eqn:EC. apply create_bb_wf in EC; auto.
  apply bind_ok in E as ((f3 & j) & E3 & E). apply create_at_bb_wf in E3; auto.
  apply bind_ok in E as (f4 & E4 & E). injection E as <- _. simpl in E4. eapply connect_wf; eauto.
Qed.

Lemma not_refers d v : v_data v <> VInsn d -> refers d v = false.
Proof.
  intros H. destruct (refers d v) eqn:E; auto. apply refers_iff in E. unfold val_target in E.
  destruct (v_data v); try discriminate. congruence.
Qed.

Lemma apply_edit_wf f e f' : wf_func f -> edit_ok f e -> apply_edit f e = Ok f' -> wf_func f'.
Proof.
  intros W P E. pose proof (proj1 (exact_iff f) (wf_uses _ W)) as X.
  destruct e; cbn [apply_edit edit_ok] in P, E.
  - destruct (create_bb f) as [g b] eqn:EC. injection E as <-. eapply create_bb_wf; eauto.
  - eapply connect_wf; eauto.
  - eapply disconnect_wf; eauto.
  - apply bind_ok in E as ((g & r) & E1 & E). injection E as <-. eapply split_wf; eauto.
  - apply bind_ok in E as ((g & r) & E1 & E). injection E as <-. eapply error_block_wf; eauto.
  - apply bind_ok in E as ((g & r) & E1 & E). injection E as <-. eapply create_at_bb_wf; eauto.
  - apply bind_ok in E as ((g & r) & E1 & E). injection E as <-. eapply create_at_wf; eauto.
  - assert (K : keeps f f').
    { unfold change_value in E. apply bind_ok in E as (x & Hx & E). apply get_insn_ok in Hx.
      destruct (slot_get x s) as [old|]; [|discriminate].
      apply bind_ok in E as (f1 & E1 & E). apply remove_user_spec in E1 as (U1 & _).
      apply bind_ok in E as (x1 & Hx1 & E). apply get_insn_ok in Hx1. apply add_user_spec in E as (U2 & _).
      eapply keeps_trans; [apply users_edit_keeps; exact U1|].
      eapply keeps_trans; [|apply users_edit_keeps; exact U2].
      eapply put_keeps; eauto. destruct s; simpl; auto. destruct (nth_error (i_phi x1) k) as [[? ?]|]; auto. }
    eapply keeps_wf; eauto. apply exact_iff. eapply change_value_exact; eauto.
  - assert (K : keeps f f').
    { unfold replace_all in E. apply bind_ok in E as (x & Hx & E). apply get_insn_ok in Hx.
      eapply keeps_trans; [|eapply ofold_keeps; [|exact E]; apply replace_in_user_keeps].
      eapply put_keeps; eauto. }
    eapply keeps_wf; eauto. apply exact_iff.
    eapply replace_all_exact; [| |exact E]; auto using not_refers.
  - assert (K : keeps f f').
    { unfold replace_all_except in E. apply bind_ok in E as (x & Hx & E). apply get_insn_ok in Hx.
      eapply keeps_trans; [|eapply ofold_keeps; [|exact E]].
      - eapply put_keeps; eauto.
      - intros h u h' Eh. cbv beta in Eh. destruct (u =? ex); [|eapply replace_in_user_keeps; eauto].
        apply bind_ok in Eh as (y & Hy & Eh). apply get_insn_ok in Hy. injection Eh as <-.
        eapply put_keeps; eauto. }
    eapply keeps_wf; eauto. apply exact_iff.
    eapply replace_all_except_exact; [| |exact E]; auto using not_refers.
  - destruct P as (x & Hx & Hop).
    assert (K : keeps f f').
    { unfold phi_add_operand in E. rewrite (proj2 (get_insn_ok _ _ _) Hx) in E. cbn [bind] in E.
      apply add_user_spec in E as (U & _). eapply keeps_trans; [|apply users_edit_keeps; exact U].
      eapply put_keeps; eauto. }
    eapply keeps_wf; eauto. apply exact_iff. eapply phi_add_exact; eauto.
  - assert (K : keeps f f').
    { unfold add_call_arg in E. apply bind_ok in E as (x & Hx & E). apply get_insn_ok in Hx.
      destruct (5 <=? length (i_vals x)); [discriminate|].
      apply add_user_spec in E as (U & _). eapply keeps_trans; [|apply users_edit_keeps; exact U].
      eapply put_keeps; eauto. }
    eapply keeps_wf; eauto. apply exact_iff. eapply add_arg_exact; eauto.
  - eapply erase_wf; eauto.
Qed.

Lemma reachable_wf f g : wf_func f -> reachable f g -> wf_func g.
Proof. intros W R. induction R; auto. eapply apply_edit_wf; eauto. Qed.

Lemma empty_func_wf : wf_func empty_func.
Proof.
  assert (S0 : forall a, succs_of empty_func a = []).
  { intros a. unfold succs_of; simpl. unfold upd. destruct (a =? 1); auto. }
  assert (P0 : forall a, preds_of empty_func a = []).
  { intros a. unfold preds_of; simpl. unfold upd. destruct (a =? 1); auto. }
  assert (I0 : forall a, insns_of empty_func a = []).
  { intros a. unfold insns_of; simpl. unfold upd. destruct (a =? 1); auto. }
  constructor.
  - split; [|split]; intros; rewrite ?S0, ?P0; try constructor; simpl; tauto.
  - split; simpl; intros; auto. rewrite upd_ne by lia. reflexivity.
  - intros d u. reflexivity.
  - intros b i. rewrite I0. intros [].
  - intros b. rewrite I0. constructor.
Qed.

(** Statements in the vocabulary of the specification *)
Lemma uses_zero f u d : uses f u d = 0 <-> (forall x v, f_insn f u = Some x -> In v (operand_values x) -> v_data v <> VInsn d).
Proof.
  rewrite uses_nref. split.
  - intros H x v Hx Hv Hd.
    assert (nref d (ops_of f u) > 0); [|lia].
    apply nref_pos. exists v. unfold ops_of. rewrite Hx, operands_spec. split; auto.
    unfold val_target. now rewrite Hd.
  - intros H. destruct (nref d (ops_of f u)) eqn:Q; auto. exfalso.
    assert (Q' : nref d (ops_of f u) > 0) by lia. apply nref_pos in Q' as (v & Hv & T).
    unfold ops_of in Hv. destruct (f_insn f u) as [x|] eqn:Hx; [|contradiction].
    rewrite operands_spec in Hv. apply (H x v eq_refl Hv). unfold val_target in T.
    destruct (v_data v); try discriminate. congruence.
Qed.

Lemma erase_no_dangling f i : wf_func f -> in_place f i ->
  (erase_insn f i = Err /\ exists u, u <> i /\ uses f u i > 0) \/
  ((forall u, u <> i -> uses f u i = 0) /\
   exists g, erase_insn f i = Ok g /\ f_insn g i = None /\
     (forall u, uses g u i = 0) /\ (forall d, ~ In i (users_of g d)) /\ (forall b, ~ In i (insns_of g b)) /\
     (forall j, j <> i -> exists l, f_insn g j = option_map (set_users l) (f_insn f j)) /\
     (forall b, insns_of g b = filter (fun j => negb (j =? i)) (insns_of f b))).
Proof.
  intros W (x & Hx & Hin).
  assert (Hb : f_block f (i_parent x) <> None).
  { intros Hb. unfold insns_of in Hin. rewrite Hb in Hin. exact Hin. }
  destruct (erase_insn_spec f i x (proj1 (exact_iff f) (wf_uses _ W)) Hx Hb) as
    [(E & u & Hu & Hn)|(A & g & E & X & G0 & G1 & G2 & _)].
  - left. split; auto. exists u. rewrite uses_nref. auto.
  - right. split; [intros; rewrite uses_nref; auto|].
    assert (W' : wf_func g) by (eapply erase_wf; eauto; exists x; auto).
    exists g. split; auto. split; auto. split.
    { intros u. rewrite <- (wf_uses _ W'). unfold users_of. now rewrite G0. }
    split.
    { intros d Hd. apply count_in in Hd. rewrite (wf_uses _ W') in Hd.
      unfold uses in Hd. rewrite G0 in Hd. lia. }
    split.
    { intros b Hi. destruct (wf_linked _ W' _ _ Hi) as (y & Hy & _). congruence. }
    split; auto.
    intros b. rewrite G2.
    assert (FL : forall l, ~ In i l -> filter (fun j => negb (j =? i)) l = l).
    { induction l as [|a l IH]; simpl; auto. intros Hn. destruct (Nat.eqb_spec a i); [tauto|].
      simpl. f_equal; auto. }
    destruct (Nat.eqb_spec b (i_parent x)) as [->|Hne].
    + pose proof (wf_once _ W (i_parent x)) as ND. clear -ND FL.
      induction (insns_of f (i_parent x)) as [|a l IH]; simpl; auto. inversion ND; subst.
      destruct (Nat.eqb_spec a i) as [->|]; simpl; [symmetry; auto|]. f_equal; auto.
    + symmetry; apply FL. intros Hi. destruct (wf_linked _ W _ _ Hi) as (y & Hy & Hp). congruence.
Qed.

(** Split, in the vocabulary of the specification *)
Lemma split_moves_tail f i p x l1 l2 :
  wf_func f -> f_insn f i = Some x -> insns_of f (i_parent x) = l1 ++ i :: l2 ->
  exists g,
    split_bb f i p = Ok (g, match cut_at p l1 i l2 with Some _ => Some (f_nb f) | None => None end) /\
    split_cfg f g (i_parent x) (f_nb f) /\
    match cut_at p l1 i l2 with
    | Some (keep, moved) =>
        insns_of g (i_parent x) = keep /\ insns_of g (f_nb f) = moved /\
        (forall c, c <> i_parent x -> c <> f_nb f -> insns_of g c = insns_of f c) /\
        (forall j, f_insn g j = if existsb (Nat.eqb j) moved
                                then option_map (set_parent (f_nb f)) (f_insn f j) else f_insn f j)
    | None =>
        (forall c, insns_of g c = insns_of f c) /\ (forall j, f_insn g j = f_insn f j)
    end.
Proof.
  intros W Hx Hl. pose proof (wf_once _ W (i_parent x)) as ND. rewrite Hl in ND.
  apply split_spec; auto; try apply W.
  - intros Hb. unfold insns_of in Hl. rewrite Hb in Hl. destruct l1; discriminate.
  - intros j Hj. assert (Hj' : In j (insns_of f (i_parent x))) by (rewrite Hl, in_app_iff; auto).
    destruct (wf_linked _ W _ _ Hj') as (y & Hy & _). congruence.
Qed.

(** Insertion positions *)
Lemma first_non_phi_spec P l : let k := first_non_phi P l in
  Forall (fun i => P i = true) (firstn k l) /\
  match skipn k l with [] => True | z :: _ => P z = false end.
Proof.
  induction l as [|a l IH]; simpl; auto. destruct (P a) eqn:E; simpl; auto.
  destruct IH; split; auto.
Qed.

Lemma split_cfg_edges f g bb nb : mirrored f -> split_cfg f g bb nb -> split_edges f g bb nb.
Proof.
  intros M (E & N & S1 & S2 & S3 & P1 & P2 & _). destruct M as (M & MS & MP).
  assert (EX : forall c, existsb (Nat.eqb c) (succs_of f bb) = true <-> In c (succs_of f bb)).
  { intros c. rewrite existsb_exists. split.
    - intros (z & Hz & Ez). apply Nat.eqb_eq in Ez; now subst.
    - intros Hc; exists c; split; auto. apply Nat.eqb_refl. }
  constructor; auto.
  intros c a Hc. rewrite P2 by auto. destruct (existsb (Nat.eqb c) (succs_of f bb)) eqn:Q.
  - apply EX in Q. rewrite in_app_iff, erase_first_in by auto. simpl. intuition.
  - assert (~ In c (succs_of f bb)) by (intros H; apply EX in H; congruence).
    split; [|intuition]. intros Ha. left. split; auto. intros ->. apply M in Ha. contradiction.
Qed.

Lemma moved_to_intro f g moved nb :
  (forall j, f_insn g j = if existsb (Nat.eqb j) moved then option_map (set_parent nb) (f_insn f j) else f_insn f j) ->
  moved_to f g moved nb.
Proof.
  intros H. split; intros j Hj; rewrite H.
  - replace (existsb (Nat.eqb j) moved) with true; auto. symmetry. apply existsb_exists.
    exists j; split; auto. apply Nat.eqb_refl.
  - destruct (existsb (Nat.eqb j) moved) eqn:Q; auto.
    apply existsb_exists in Q as (z & Hz & Ez). apply Nat.eqb_eq in Ez; subst. contradiction.
Qed.

Lemma split_front f i x l1 l2 :
  wf_func f -> f_insn f i = Some x -> insns_of f (i_parent x) = l1 ++ i :: l2 ->
  exists g nb, split_bb f i P_FRONT = Ok (g, Some nb) /\
    split_edges f g (i_parent x) nb /\
    insns_of g (i_parent x) = l1 /\ insns_of g nb = i :: l2 /\
    (forall c, c <> i_parent x -> c <> nb -> insns_of g c = insns_of f c) /\
    moved_to f g (i :: l2) nb.
Proof.
  intros W Hx Hl. destruct (split_moves_tail f i P_FRONT x l1 l2 W Hx Hl) as (g & E & C & A & B & D & F).
  exists g, (f_nb f). split; [exact E|]. split; [apply split_cfg_edges; auto; apply W|].
  split; [exact A|]. split; [exact B|]. split; [exact D|]. exact (moved_to_intro _ _ _ _ F).
Qed.
Lemma split_back f i x l1 l2 :
  wf_func f -> f_insn f i = Some x -> insns_of f (i_parent x) = l1 ++ i :: l2 -> l2 <> [] ->
  exists g nb, split_bb f i P_BACK = Ok (g, Some nb) /\
    split_edges f g (i_parent x) nb /\
    insns_of g (i_parent x) = l1 ++ [i] /\ insns_of g nb = l2 /\
    (forall c, c <> i_parent x -> c <> nb -> insns_of g c = insns_of f c) /\
    moved_to f g l2 nb.
Proof.
  intros W Hx Hl Hne. destruct (split_moves_tail f i P_BACK x l1 l2 W Hx Hl) as (g & E & C & REST).
  destruct l2 as [|r l2]; [congruence|]. cbn [cut_at] in E, REST. destruct REST as (A & B & D & F).
  exists g, (f_nb f). split; [exact E|]. split; [apply split_cfg_edges; auto; apply W|].
  split; [exact A|]. split; [exact B|]. split; [exact D|]. exact (moved_to_intro _ _ _ _ F).
Qed.

(** ** Insertion positions *)
Lemma jmp_terminator o : is_jmp_op o = true <->
  In o [RET; THROW; JA; JEQ; JGT; JGE; JLT; JLE; JNE; JSGE; JSLE; JSGT; JSLT].
Proof. destruct o; cbn; split; intros H; try reflexivity; try discriminate; repeat (destruct H as [H|H]; try discriminate H); try contradiction; intuition. Qed.

Lemma insert_bb_ok f new bb p b : f_block f bb = Some b ->
  insert_at_bb f new bb p = Ok (put_block f bb (set_insns (insert_list_bb f new (b_insns b) p) b)).
Proof. intros H. unfold insert_at_bb, get_block. now rewrite H. Qed.

Lemma put_block_only f bb l b : f_block f bb = Some b ->
  insns_of (put_block f bb (set_insns l b)) bb = l /\
  (forall c, c <> bb -> f_block (put_block f bb (set_insns l b)) c = f_block f c) /\
  (forall c, succs_of (put_block f bb (set_insns l b)) c = succs_of f c) /\
  (forall c, preds_of (put_block f bb (set_insns l b)) c = preds_of f c) /\
  (forall i, f_insn (put_block f bb (set_insns l b)) i = f_insn f i).
Proof.
  intros H. unfold insns_of, succs_of, preds_of. repeat split.
  - rewrite f_block_put, Nat.eqb_refl. reflexivity.
  - intros c Hc. rewrite f_block_put. destruct (Nat.eqb_spec c bb); congruence.
  - intros c. rewrite f_block_put. destruct (Nat.eqb_spec c bb) as [->|]; auto. now rewrite H.
  - intros c. rewrite f_block_put. destruct (Nat.eqb_spec c bb) as [->|]; auto. now rewrite H.
Qed.

Lemma op_phi f i : iop_eqb (op_of f i) PHI = true <-> is_phi f i.
Proof.
  unfold op_of, is_phi, iop_eqb. destruct (f_insn f i) as [x|]; cbn.
  - destruct (iop_eq_dec (i_op x) PHI); split; intros H; try discriminate; eauto.
    destruct H as (y & E & H). congruence.
  - split; [discriminate|]. intros (y & E & _); discriminate.
Qed.
Lemma op_term f i : is_jmp_op (op_of f i) = true <-> is_terminator f i.
Proof.
  unfold op_of, is_terminator. destruct (f_insn f i) as [x|].
  - rewrite jmp_terminator. split; [intros H; exists x; auto|]. intros (y & E & H). congruence.
  - cbn. split; [discriminate|]. intros (y & E & _); discriminate.
Qed.

Lemma insert_list_placed f new l p : exists before after,
  placed f p l before after /\ insert_list_bb f new l p = before ++ new :: after.
Proof.
  destruct p; unfold placed.
  - exists l, []. now rewrite app_nil_r.
  - exists [], l. auto.
  - cbn [insert_list_bb]. destruct (rev l) as [|z r] eqn:E.
    + assert (l = []) by (rewrite <- (rev_involutive l), E; reflexivity). subst.
      exists [], []. repeat split; auto. left; split; auto. intros r z H. destruct r; discriminate.
    + assert (El : l = rev r ++ [z]) by (rewrite <- (rev_involutive l), E; reflexivity).
      destruct (is_jmp_op (op_of f z)) eqn:J.
      * exists (rev r), [z]. repeat split; auto. right. exists z. split; auto. now apply op_term.
      * exists l, []. rewrite app_nil_r. repeat split; auto. left. split; auto.
        intros r' z' H. rewrite El in H. apply app_inj_tail in H as [_ <-].
        rewrite <- op_term. congruence.
  - cbn [insert_list_bb]. set (P := fun i => iop_eqb (op_of f i) PHI).
    pose proof (first_non_phi_spec P l) as (A & B). cbv zeta in *.
    exists (firstn (first_non_phi P l) l), (skipn (first_non_phi P l) l).
    split; [|reflexivity]. split; [now rewrite firstn_skipn|]. split.
    + intros i Hi. rewrite Forall_forall in A. apply op_phi. apply (A i Hi).
    + intros z r H. rewrite H in B. rewrite <- op_phi. unfold P in B. congruence.
Qed.

Lemma insert_at_bb_places f new bb p b : f_block f bb = Some b ->
  exists g before after, insert_at_bb f new bb p = Ok g /\
    placed f p (insns_of f bb) before after /\ insns_of g bb = before ++ new :: after /\
    (forall c, c <> bb -> f_block g c = f_block f c) /\
    (forall c, succs_of g c = succs_of f c) /\ (forall c, preds_of g c = preds_of f c) /\
    (forall i, f_insn g i = f_insn f i).
Proof.
  intros Hb. rewrite (insert_bb_ok _ _ _ _ _ Hb).
  destruct (insert_list_placed f new (b_insns b) p) as (x & y & P & E).
  assert (I : insns_of f bb = b_insns b) by (unfold insns_of; now rewrite Hb).
  eexists; exists x, y. split; [reflexivity|]. rewrite I, <- E. split; [exact P|].
  apply put_block_only; auto.
Qed.

Lemma insert_at_places f new i x n l1 l2 p :
  f_insn f i = Some x -> f_insn f new = Some n -> insns_of f (i_parent x) = l1 ++ i :: l2 ->
  ~ In i l1 -> p = P_FRONT \/ p = P_BACK -> (i_op x = PHI -> i_op n = PHI) ->
  exists g, insert_at f new i p = Ok g /\
    insns_of g (i_parent x) = (if match p with P_FRONT => true | _ => false end
      then l1 ++ new :: i :: l2 else l1 ++ i :: new :: l2) /\
    (forall c, c <> i_parent x -> f_block g c = f_block f c) /\
    (forall c, succs_of g c = succs_of f c) /\ (forall c, preds_of g c = preds_of f c) /\
    (forall j, f_insn g j = f_insn f j).
Proof.
  intros Hx Hn Hl Hni Hp Hphi. unfold insert_at.
  rewrite (proj2 (get_insn_ok _ _ _) Hx), (proj2 (get_insn_ok _ _ _) Hn). cbn [bind].
  assert (C : iop_eqb (i_op x) PHI && negb (iop_eqb (i_op n) PHI) = false).
  { unfold iop_eqb. destruct (iop_eq_dec (i_op x) PHI) as [E|]; auto. rewrite (Hphi E). reflexivity. }
  rewrite C. destruct (f_block f (i_parent x)) as [b|] eqn:Hb.
  2:{ unfold insns_of in Hl. rewrite Hb in Hl. destruct l1; discriminate. }
  rewrite (proj2 (get_block_ok _ _ _) Hb). cbn [bind].
  assert (I : b_insns b = l1 ++ i :: l2) by (rewrite <- Hl; unfold insns_of; now rewrite Hb).
  destruct Hp as [-> | ->]; unfold insert_before, insert_after; rewrite I, index_of_app by auto; cbn [bind];
    (eexists; split; [reflexivity|]).
  - replace (firstn (length l1) (l1 ++ i :: l2) ++ new :: skipn (length l1) (l1 ++ i :: l2))
      with (l1 ++ new :: i :: l2); [apply put_block_only; auto|].
    rewrite firstn_app, firstn_all, Nat.sub_diag, skipn_app, skipn_all, Nat.sub_diag. simpl. now rewrite app_nil_r.
  - replace (firstn (S (length l1)) (l1 ++ i :: l2) ++ new :: skipn (S (length l1)) (l1 ++ i :: l2))
      with (l1 ++ i :: new :: l2); [apply put_block_only; auto|].
    rewrite firstn_app, skipn_app. replace (S (length l1) - length l1) with 1 by lia.
    rewrite firstn_all2, skipn_all2 by lia. simpl. now rewrite <- app_assoc.
Qed.

Lemma insert_at_phi f new i x n p b :
  f_insn f i = Some x -> f_insn f new = Some n -> i_op x = PHI -> i_op n <> PHI ->
  f_block f (i_parent x) = Some b ->
  insert_at f new i p = insert_at_bb f new (i_parent x) P_FRONT_AFTER_PHI.
Proof.
  intros Hx Hn H1 H2 Hb. unfold insert_at.
  rewrite (proj2 (get_insn_ok _ _ _) Hx), (proj2 (get_insn_ok _ _ _) Hn). cbn [bind].
  unfold iop_eqb. rewrite H1. destruct (iop_eq_dec (i_op n) PHI); [contradiction|]. reflexivity.
Qed.

(** ** change_value on set-like users lists *)
Lemma change_value_registered f u s new f' x old :
  registered f -> f_insn f u = Some x -> slot_get x s = Some old ->
  (forall d, v_data old = VInsn d -> uses f u d = 1) ->
  change_value f u s new = Ok f' -> registered f'.
Proof.
  intros R Hx G One E. unfold change_value in E.
  rewrite (proj2 (get_insn_ok _ _ _) Hx) in E. cbn [bind] in E. rewrite G in E.
  apply bind_ok in E as (f1 & E1 & E). apply remove_user_spec in E1 as (UE1 & U1).
  apply bind_ok in E as (x1 & Hx1 & E). apply get_insn_ok in Hx1.
  apply add_user_spec in E as (UE2 & U2).
  destruct (ue_rec _ _ UE1 u) as [l Q]. rewrite Hx, Hx1 in Q. simpl in Q. injection Q as ->.
  set (f2 := put_insn f1 u _) in *.
  intros w d Hw. rewrite uses_nref, (ue_ops _ _ UE2) in Hw. rewrite U2.
  assert (V2 : users_of f2 d = users_of f1 d).
  { unfold users_of, f2. rewrite f_insn_put. destruct (Nat.eqb_spec d u) as [->|]; auto.
    rewrite Hx1, slot_set_users. reflexivity. }
  assert (O2 : ops_of f2 w = if w =? u then operands (slot_set (set_users l x) s new) else ops_of f w).
  { unfold ops_of at 1, f2. rewrite f_insn_put. destruct (w =? u); auto. apply (ue_ops _ _ UE1). }
  rewrite O2 in Hw.
  assert (Ox : ops_of f u = operands x) by (unfold ops_of; now rewrite Hx).
  assert (KEY : In w (users_of f2 d) \/ (refers d new = true /\ w = u)).
  { rewrite V2, U1. destruct (Nat.eqb_spec w u) as [->|Hwu].
    - assert (G' : slot_get (set_users l x) s = Some old) by now rewrite slot_get_users.
      pose proof (slot_set_nref _ _ new _ d G') as Q. rewrite operands_users in Q.
      destruct (refers d new) eqn:Rn; [auto|]. left.
      destruct (refers d old) eqn:Ro.
      + assert (v_data old = VInsn d).
        { apply refers_iff in Ro. unfold val_target in Ro. destruct (v_data old); congruence. }
        specialize (One d H). rewrite uses_nref, Ox in One. lia.
      + apply R. rewrite uses_nref, Ox. lia.
    - left. assert (Hi : In w (users_of f d)) by (apply R; rewrite uses_nref; auto).
      destruct (refers d old); auto. apply count_in. rewrite erase_first_count.
      destruct (Nat.eq_dec u w); [congruence|]. now apply count_in. }
  destruct (refers d new) eqn:Rn.
  - apply in_app_iff. destruct KEY as [K|[_ ->]]; auto. right; left; auto.
  - destruct KEY as [K|[K _]]; [auto|discriminate].
Qed.

(** A checked runner, to exhibit concrete reachable states. *)
Definition edit_okb (f : func) (e : edit) : bool :=
  match e with
  | E_split i _ | E_error_block i _ | E_create_at i _ _ | E_erase i =>
      match f_insn f i with Some x => existsb (Nat.eqb i) (insns_of f (i_parent x)) | None => false end
  | E_replace d rep | E_replace_except d rep _ => negb (refers d rep)
  | E_phi_add i _ _ => match f_insn f i with Some x => iop_eqb (i_op x) PHI | None => false end
  | _ => true
  end.
Lemma edit_okb_ok f e : edit_okb f e = true -> edit_ok f e.
Proof.
  assert (IP : forall i, match f_insn f i with Some x => existsb (Nat.eqb i) (insns_of f (i_parent x)) | None => false end = true -> in_place f i).
  { intros i. destruct (f_insn f i) as [x|] eqn:E; [|discriminate]. intros H.
    apply existsb_exists in H as (z & Hz & Ez). apply Nat.eqb_eq in Ez; subst. exists x; auto. }
  destruct e; cbn [edit_okb edit_ok]; auto; intros H.
  - intros D. apply negb_true_iff in H. unfold refers, val_target in H. rewrite D, Nat.eqb_refl in H. discriminate.
  - intros D. apply negb_true_iff in H. unfold refers, val_target in H. rewrite D, Nat.eqb_refl in H. discriminate.
  - destruct (f_insn f i) as [x|]; [|discriminate]. exists x. split; auto. unfold iop_eqb in H.
    destruct (iop_eq_dec (i_op x) PHI); [auto|discriminate].
Qed.
Fixpoint run_checked (f : func) (l : list edit) : option func :=
  match l with
  | [] => Some f
  | e :: r => if edit_okb f e then match apply_edit f e with Ok g => run_checked g r | _ => None end else None
  end.
Lemma reachable_trans f g h : reachable f g -> reachable g h -> reachable f h.
Proof. intros A B. induction B; auto. eapply reach_step; eauto. Qed.
Lemma run_checked_reachable l : forall f g, run_checked f l = Some g -> reachable f g.
Proof.
  induction l as [|e l IH]; intros f g H; cbn [run_checked] in H.
  - injection H as <-. constructor.
  - destruct (edit_okb f e) eqn:O; [|discriminate]. destruct (apply_edit f e) eqn:E; try discriminate.
    eapply reachable_trans; [|apply IH; exact H].
    eapply reach_step; [constructor| |exact E]. now apply edit_okb_ok.
Qed.
Definition run_get (l : list edit) : func :=
  match run_checked empty_func l with Some f => f | None => empty_func end.
Lemma run_get_reachable l : reachable empty_func (run_get l).
Proof.
  unfold run_get. destruct (run_checked empty_func l) eqn:E; [|constructor].
  eapply run_checked_reachable; eauto.
Qed.

Lemma replace_all_complete f d rep g :
  wf_func f -> v_data rep <> VInsn d -> replace_all f d rep = Ok g ->
  users_of g d = [] /\ (forall u, uses g u d = 0) /\
  (forall u d', d' <> d -> uses g u d' = uses f u d' + (if is_use_of d' rep then uses f u d else 0)).
Proof.
  intros W H E. apply not_refers in H.
  destruct (replace_all_exact f d rep g H (proj1 (exact_iff f) (wf_uses f W)) E)
    as (X & U & _ & _ & _ & _ & OPS).
  split; [exact U|]. split; intros u; [|intros d' Hne]; rewrite !uses_nref, OPS.
  - now apply nref_subst_self.
  - rewrite nref_subst by auto. now rewrite refers_is_use.
Qed.

Lemma insns_bound f b i n : wf_func f -> f_nb f = n -> In i (insns_of f b) -> b < n.
Proof.
  intros W <- Hi. destruct (Nat.lt_ge_cases b (f_nb f)) as [H|H]; [exact H|].
  unfold insns_of in Hi. rewrite (proj2 (wf_fresh _ W) b H) in Hi. destruct Hi.
Qed.

(** Deciding [phis_match] on a concrete function. *)
Definition phis_matchb (f : func) : bool :=
  forallb (fun b => forallb (fun i => match f_insn f i with
     | Some x => match i_op x with
                 | PHI => forallb (fun vp => existsb (Nat.eqb (snd vp)) (preds_of f b)) (i_phi x)
                 | _ => true end
     | None => true end) (insns_of f b)) (seq 0 (f_nb f)).
Lemma phis_matchb_ok f : wf_func f -> (phis_matchb f = true <-> phis_match f).
Proof.
  intros W. unfold phis_matchb, phis_match. rewrite forallb_forall. split; intros H.
  - intros b i x v p Hi Hx Ho Hp.
    pose proof (insns_bound f b i _ W eq_refl Hi) as Hb.
    specialize (H b). rewrite in_seq in H. specialize (H ltac:(lia)).
    rewrite forallb_forall in H. specialize (H i Hi). rewrite Hx, Ho in H.
    rewrite forallb_forall in H. specialize (H _ Hp). apply existsb_exists in H.
    destruct H as (q & Hq & E). apply Nat.eqb_eq in E. simpl in E. subst q. exact Hq.
  - intros b _. apply forallb_forall. intros i Hi.
    destruct (f_insn f i) as [x|] eqn:Hx; [|reflexivity].
    destruct (i_op x) eqn:Ho; try reflexivity.
    apply forallb_forall. intros [v p] Hp. apply existsb_exists. exists p.
    split; [apply (H b i x v p); auto|apply Nat.eqb_refl].
Qed.
