From Verif Require Import M_Base M_Ir M_Edit SpecIr.
Open Scope nat_scope.

(** * Maps *)
Lemma upd_eq {A} (m : nat -> A) k v : upd m k v k = v.
Proof. unfold upd; now rewrite Nat.eqb_refl. Qed.
Lemma upd_ne {A} (m : nat -> A) k v x : x <> k -> upd m k v x = m x.
Proof. unfold upd; intros; destruct (Nat.eqb_spec x k); congruence. Qed.

Lemma bind_ok {A B} (x : outcome A) (f : A -> outcome B) r :
  bind x f = Ok r -> exists a, x = Ok a /\ f a = Ok r.
Proof. destruct x; simpl; intros H; try discriminate; eauto. Qed.

Lemma get_block_ok f b x : get_block f b = Ok x <-> f_block f b = Some x.
Proof. unfold get_block; destruct (f_block f b); split; intros H; congruence. Qed.
Lemma get_insn_ok f b x : get_insn f b = Ok x <-> f_insn f b = Some x.
Proof. unfold get_insn; destruct (f_insn f b); split; intros H; congruence. Qed.

(** * push_unique and erase_first *)
Lemma push_unique_in l x y : In y (push_unique l x) <-> In y l \/ y = x.
Proof.
  unfold push_unique; destruct (existsb (Nat.eqb x) l) eqn:E.
  - split; auto. intros [H| ->]; auto.
    apply existsb_exists in E as (z & Hz & E). apply Nat.eqb_eq in E; now subst.
  - rewrite in_app_iff; simpl; intuition.
Qed.
Lemma push_unique_nodup l x : NoDup l -> NoDup (push_unique l x).
Proof.
  unfold push_unique; destruct (existsb (Nat.eqb x) l) eqn:E; auto; intros H.
  assert (~ In x l).
  { intros Hi. assert (existsb (Nat.eqb x) l = true) by
      (apply existsb_exists; exists x; split; auto; apply Nat.eqb_refl). congruence. }
  apply NoDup_rev in H. rewrite <- (rev_involutive (l ++ [x])). apply NoDup_rev.
  rewrite rev_app_distr; simpl. constructor; auto. rewrite <- in_rev; auto.
Qed.
Lemma push_unique_notin l x : ~ In x l -> push_unique l x = l ++ [x].
Proof.
  unfold push_unique; destruct (existsb (Nat.eqb x) l) eqn:E; auto; intros H.
  apply existsb_exists in E as (z & Hz & E). apply Nat.eqb_eq in E; now subst.
Qed.

Lemma erase_first_count x l y :
  count_occ Nat.eq_dec (erase_first x l) y =
  if Nat.eq_dec x y then pred (count_occ Nat.eq_dec l y) else count_occ Nat.eq_dec l y.
Proof.
  induction l as [|a l IH]; simpl.
  - destruct (Nat.eq_dec x y); auto.
  - destruct (Nat.eqb_spec a x) as [->|Hn].
    + destruct (Nat.eq_dec x y); simpl; auto.
    + simpl. rewrite IH. destruct (Nat.eq_dec a y), (Nat.eq_dec x y); subst; auto; congruence.
Qed.
Lemma erase_first_nodup x l : NoDup l -> NoDup (erase_first x l).
Proof.
  induction 1; simpl; [constructor|]. destruct (Nat.eqb_spec x0 x); auto.
  constructor; auto. intros Hi. apply H. clear -Hi. induction l; simpl in *; auto.
  destruct (Nat.eqb_spec a x); simpl in *; intuition.
Qed.
Lemma erase_first_in x l y : NoDup l -> (In y (erase_first x l) <-> In y l /\ y <> x).
Proof.
  induction 1; simpl; [tauto|].
  destruct (Nat.eqb_spec x0 x) as [->|Hn].
  - split; [intros Hy; split; auto; intros ->; auto | intuition; congruence].
  - simpl. rewrite IHNoDup. intuition congruence.
Qed.
Lemma erase_first_notin x l : ~ In x l -> erase_first x l = l.
Proof.
  induction l as [|a l IH]; simpl; auto. intros H.
  destruct (Nat.eqb_spec a x); [subst; tauto|]. f_equal; auto.
Qed.

(** * Block edits *)
Lemma f_block_put f b x c : f_block (put_block f b x) c = if c =? b then Some x else f_block f c.
Proof. reflexivity. Qed.

Record same_shape (f g : func) : Prop := {
  ss_insn : forall i, f_insn g i = f_insn f i;
  ss_ni : f_ni g = f_ni f; ss_nb : f_nb g = f_nb f; ss_all : f_all g = f_all f;
  ss_entry : f_entry g = f_entry f;
  ss_dom : forall c, f_block g c = None <-> f_block f c = None;
  ss_insns : forall c, insns_of g c = insns_of f c }.

Lemma same_shape_refl f : same_shape f f.
Proof. constructor; try reflexivity; auto. Qed.
Lemma same_shape_trans f g h : same_shape f g -> same_shape g h -> same_shape f h.
Proof.
  intros A B; constructor; intros.
  - rewrite (ss_insn _ _ B). apply (ss_insn _ _ A).
  - rewrite (ss_ni _ _ B). apply (ss_ni _ _ A).
  - rewrite (ss_nb _ _ B). apply (ss_nb _ _ A).
  - rewrite (ss_all _ _ B). apply (ss_all _ _ A).
  - rewrite (ss_entry _ _ B). apply (ss_entry _ _ A).
  - rewrite (ss_dom _ _ B). apply (ss_dom _ _ A).
  - rewrite (ss_insns _ _ B). apply (ss_insns _ _ A).
Qed.

Lemma connect_spec f a b f' : connect_bb f a b = Ok f' ->
  same_shape f f' /\ f_block f a <> None /\ f_block f b <> None /\
  (forall c, succs_of f' c = if c =? a then push_unique (succs_of f c) b else succs_of f c) /\
  (forall c, preds_of f' c = if c =? b then push_unique (preds_of f c) a else preds_of f c).
Proof.
  unfold connect_bb; intros H.
  apply bind_ok in H as (bf & Hbf & H). apply get_block_ok in Hbf.
  apply bind_ok in H as (bt & Hbt & H). apply get_block_ok in Hbt. injection H as <-.
  rewrite f_block_put in Hbt.
  assert (Hb : f_block f b <> None).
  { destruct (Nat.eqb_spec b a) as [->|]; congruence. }
  split; [|split; [congruence|split; [exact Hb|]]].
  - constructor; try reflexivity.
    + intros c. rewrite !f_block_put. destruct (Nat.eqb_spec c b) as [->|]; [split; intros; congruence|].
      destruct (Nat.eqb_spec c a) as [->|]; [split; congruence|tauto].
    + intros c. unfold insns_of. rewrite !f_block_put.
      destruct (Nat.eqb_spec c b) as [->|].
      * destruct (Nat.eqb_spec b a) as [->|]; [injection Hbt as <-; simpl; now rewrite Hbf|].
        simpl. now rewrite Hbt.
      * destruct (Nat.eqb_spec c a) as [->|]; auto. simpl. now rewrite Hbf.
  - split; intros c; unfold succs_of, preds_of; rewrite !f_block_put.
    + destruct (Nat.eqb_spec c b) as [->|].
      * destruct (Nat.eqb_spec b a) as [->|]; [injection Hbt as <-; simpl; now rewrite Hbf|].
        simpl. now rewrite Hbt.
      * destruct (Nat.eqb_spec c a) as [->|]; auto. simpl. now rewrite Hbf.
    + destruct (Nat.eqb_spec c b) as [->|].
      * destruct (Nat.eqb_spec b a) as [->|]; [injection Hbt as <-; simpl; now rewrite Hbf|].
        simpl. now rewrite Hbt.
      * destruct (Nat.eqb_spec c a) as [->|]; auto. simpl. now rewrite Hbf.
Qed.

Lemma disconnect_spec f a b f' : disconnect_bb f a b = Ok f' ->
  same_shape f f' /\ f_block f a <> None /\ f_block f b <> None /\
  (forall c, succs_of f' c = if c =? a then erase_first b (succs_of f c) else succs_of f c) /\
  (forall c, preds_of f' c = if c =? b then erase_first a (preds_of f c) else preds_of f c).
Proof.
  unfold disconnect_bb; intros H.
  apply bind_ok in H as (bf & Hbf & H). apply get_block_ok in Hbf.
  apply bind_ok in H as (bt & Hbt & H). apply get_block_ok in Hbt. injection H as <-.
  rewrite f_block_put in Hbt.
  assert (Hb : f_block f b <> None).
  { destruct (Nat.eqb_spec b a) as [->|]; congruence. }
  split; [|split; [congruence|split; [exact Hb|]]].
  - constructor; try reflexivity.
    + intros c. rewrite !f_block_put. destruct (Nat.eqb_spec c b) as [->|]; [split; intros; congruence|].
      destruct (Nat.eqb_spec c a) as [->|]; [split; congruence|tauto].
    + intros c. unfold insns_of. rewrite !f_block_put.
      destruct (Nat.eqb_spec c b) as [->|].
      * destruct (Nat.eqb_spec b a) as [->|]; [injection Hbt as <-; simpl; now rewrite Hbf|].
        simpl. now rewrite Hbt.
      * destruct (Nat.eqb_spec c a) as [->|]; auto. simpl. now rewrite Hbf.
  - split; intros c; unfold succs_of, preds_of; rewrite !f_block_put.
    + destruct (Nat.eqb_spec c b) as [->|].
      * destruct (Nat.eqb_spec b a) as [->|]; [injection Hbt as <-; simpl; now rewrite Hbf|].
        simpl. now rewrite Hbt.
      * destruct (Nat.eqb_spec c a) as [->|]; auto. simpl. now rewrite Hbf.
    + destruct (Nat.eqb_spec c b) as [->|].
      * destruct (Nat.eqb_spec b a) as [->|]; [injection Hbt as <-; simpl; now rewrite Hbf|].
        simpl. now rewrite Hbt.
      * destruct (Nat.eqb_spec c a) as [->|]; auto. simpl. now rewrite Hbf.
Qed.

(** connect and disconnect are total on existing blocks *)
Lemma connect_total f a b : f_block f a <> None -> f_block f b <> None ->
  exists f', connect_bb f a b = Ok f'.
Proof.
  intros Ha Hb. unfold connect_bb, get_block. destruct (f_block f a) as [ba|] eqn:Ea; [|congruence].
  cbn [bind]. rewrite f_block_put. destruct (b =? a); [cbn [bind]; eauto|].
  destruct (f_block f b) eqn:Eb; [|congruence]. cbn [bind]; eauto.
Qed.
Lemma disconnect_total f a b : f_block f a <> None -> f_block f b <> None ->
  exists f', disconnect_bb f a b = Ok f'.
Proof.
  intros Ha Hb. unfold disconnect_bb, get_block. destruct (f_block f a) as [ba|] eqn:Ea; [|congruence].
  cbn [bind]. rewrite f_block_put. destruct (b =? a); [cbn [bind]; eauto|].
  destruct (f_block f b) eqn:Eb; [|congruence]. cbn [bind]; eauto.
Qed.

Lemma connect_mirrored f a b f' : connect_bb f a b = Ok f' -> mirrored f -> mirrored f'.
Proof.
  intros H (M & NS & NP). apply connect_spec in H as (_ & _ & _ & HS & HP).
  split; [|split].
  - intros c d. rewrite HS, HP.
    destruct (Nat.eqb_spec c a) as [->|], (Nat.eqb_spec d b) as [->|];
      rewrite ?push_unique_in; rewrite M; intuition congruence.
  - intros c; rewrite HS; destruct (c =? a); auto using push_unique_nodup.
  - intros c; rewrite HP; destruct (c =? b); auto using push_unique_nodup.
Qed.
Lemma disconnect_mirrored f a b f' : disconnect_bb f a b = Ok f' -> mirrored f -> mirrored f'.
Proof.
  intros H (M & NS & NP). apply disconnect_spec in H as (_ & _ & _ & HS & HP).
  split; [|split].
  - intros c d. rewrite HS, HP.
    destruct (Nat.eqb_spec c a) as [->|], (Nat.eqb_spec d b) as [->|];
      rewrite ?erase_first_in by auto; rewrite M; intuition congruence.
  - intros c; rewrite HS; destruct (c =? a); auto using erase_first_nodup.
  - intros c; rewrite HP; destruct (c =? b); auto using erase_first_nodup.
Qed.

Lemma create_bb_spec f f' b : create_bb f = (f', b) -> fresh_ok f ->
  b = f_nb f /\ f_block f b = None /\ f_block f' b <> None /\
  (forall c, f_block f' c = if c =? b then Some (mkBlock [] [] [] 0%Z) else f_block f c) /\
  (forall c, succs_of f' c = succs_of f c) /\ (forall c, preds_of f' c = preds_of f c) /\
  (forall c, insns_of f' c = insns_of f c) /\ (forall i, f_insn f' i = f_insn f i) /\
  f_ni f' = f_ni f /\ f_nb f' = S b /\ f_all f' = f_all f ++ [b] /\ f_entry f' = f_entry f /\ fresh_ok f'.
Proof.
  intros H (FI & FB). injection H as <- <-.
  assert (FN : f_block f (f_nb f) = None) by (apply FB; lia).
  split; [reflexivity|]. split; [exact FN|]. split; [simpl; rewrite upd_eq; discriminate|].
  split; [reflexivity|].
  unfold succs_of, preds_of, insns_of; simpl.
  repeat split; try reflexivity; try (intros c; unfold upd;
    destruct (Nat.eqb_spec c (f_nb f)) as [->|]; [rewrite FN; reflexivity|reflexivity]).
  - exact FI.
  - simpl. intros c Hc. rewrite upd_ne by lia. apply FB; lia.
Qed.

Lemma same_shape_fresh f g : same_shape f g -> fresh_ok f -> fresh_ok g.
Proof.
  intros S (A & B). split; intros.
  - rewrite (ss_insn _ _ S). apply A. rewrite <- (ss_ni _ _ S); auto.
  - apply (ss_dom _ _ S). apply B. rewrite <- (ss_nb _ _ S); auto.
Qed.

(** * Split *)

(** the loop moving the outgoing edges *)
Definition retarget (bb nb : nat) (g : func) (s : nat) : outcome func :=
  do g1 <- disconnect_bb g bb s; connect_bb g1 nb s.

Lemma retarget_loop bb nb old : forall f f',
  ofold (retarget bb nb) f old = Ok f' ->
  NoDup old -> bb <> nb -> ~ In nb old ->
  succs_of f bb = [nb] ->
  (forall s, In s (succs_of f nb) -> ~ In s old) ->
  (forall s, NoDup (preds_of f s)) ->
  (forall s, In s old -> ~ In nb (preds_of f s)) ->
  same_shape f f' /\
  succs_of f' bb = [nb] /\
  succs_of f' nb = succs_of f nb ++ old /\
  (forall c, c <> bb -> c <> nb -> succs_of f' c = succs_of f c) /\
  (forall c, preds_of f' c =
     if existsb (Nat.eqb c) old then erase_first bb (preds_of f c) ++ [nb] else preds_of f c).
Proof.
  induction old as [|s old IH]; intros f f' H ND Hn Hin HB HN HP HQ.
  - injection H as <-. split; [apply same_shape_refl|]. rewrite app_nil_r. auto.
  - cbn [ofold] in H. apply bind_ok in H as (g & Hg & H).
    unfold retarget in Hg. apply bind_ok in Hg as (g1 & Hd & Hc).
    apply disconnect_spec in Hd as (S1 & _ & _ & DS & DP).
    apply connect_spec in Hc as (S2 & _ & _ & CS & CP).
    inversion ND; subst.
    assert (Hs : s <> nb) by (intros ->; apply Hin; left; auto).
    assert (Gbb : succs_of g bb = [nb]).
    { rewrite CS, DS. destruct (Nat.eqb_spec bb nb); [congruence|].
      rewrite Nat.eqb_refl. rewrite HB. simpl. destruct (Nat.eqb_spec nb s); congruence. }
    assert (Gnb : succs_of g nb = succs_of f nb ++ [s]).
    { rewrite CS, DS, Nat.eqb_refl. destruct (Nat.eqb_spec nb bb); [congruence|].
      apply push_unique_notin. intros Hi. apply (HN s); auto. left; auto. }
    assert (Gp : forall c, preds_of g c =
      if c =? s then erase_first bb (preds_of f c) ++ [nb] else preds_of f c).
    { intros c. rewrite CP, DP. destruct (Nat.eqb_spec c s) as [->|]; auto.
      apply push_unique_notin. rewrite erase_first_in by auto. intros [Hi _].
      apply (HQ s); auto. left; auto. }
    apply IH in H; auto.
    + destruct H as (S3 & A & B & C & D). split; [eauto using same_shape_trans|].
      split; [exact A|]. split; [rewrite B, Gnb, <- app_assoc; reflexivity|]. split.
      * intros c H1 H2'. rewrite C by auto. rewrite CS, DS.
        destruct (Nat.eqb_spec c nb); [congruence|]. destruct (Nat.eqb_spec c bb); congruence.
      * intros c. rewrite D, Gp. simpl. destruct (Nat.eqb_spec c s) as [->|]; auto.
        destruct (existsb (Nat.eqb s) old) eqn:E; auto.
        apply existsb_exists in E as (z & Hz & E). apply Nat.eqb_eq in E; subst; contradiction.
    + intros Hi; apply Hin; right; auto.
    + intros t. rewrite Gnb, in_app_iff. simpl. intros [Ht|[<-|[]]]; auto.
      intros Ho. apply (HN t); auto. right; auto.
    + intros t. rewrite Gp. destruct (Nat.eqb_spec t s) as [->|]; auto.
      assert (NoDup (erase_first bb (preds_of f s))) by auto using erase_first_nodup.
      assert (~ In nb (erase_first bb (preds_of f s))).
      { rewrite erase_first_in by auto. intros [Hi _]. apply (HQ s); auto; left; auto. }
      rewrite <- (push_unique_notin _ nb) by auto. apply push_unique_nodup; auto.
    + intros t Ht. rewrite Gp. destruct (Nat.eqb_spec t s) as [->|]; [contradiction|].
      apply HQ; right; auto.
Qed.

Lemma retarget_loop_total bb nb old : forall f,
  f_block f bb <> None -> f_block f nb <> None -> (forall s, In s old -> f_block f s <> None) ->
  exists f', ofold (retarget bb nb) f old = Ok f'.
Proof.
  induction old as [|s old IH]; intros f Hb Hn Ho; cbn [ofold]; eauto.
  destruct (disconnect_total f bb s) as (g1 & E1); auto. { apply Ho; left; auto. }
  pose proof (disconnect_spec _ _ _ _ E1) as (S1 & _).
  destruct (connect_total g1 nb s) as (g2 & E2).
  { rewrite (ss_dom _ _ S1); auto. } { rewrite (ss_dom _ _ S1). apply Ho; left; auto. }
  pose proof (connect_spec _ _ _ _ E2) as (S2 & _).
  unfold retarget at 1. rewrite E1. cbn [bind]. rewrite E2. cbn [bind].
  apply IH; intros; rewrite (ss_dom _ _ S2), (ss_dom _ _ S1); auto. apply Ho; right; auto.
Qed.

(** the loop moving the instructions *)
Lemma erase_first_app_r x l r : ~ In x l -> erase_first x (l ++ x :: r) = l ++ r.
Proof.
  induction l as [|a l IH]; simpl; intros H; [now rewrite Nat.eqb_refl|].
  destruct (Nat.eqb_spec a x); [subst; tauto|]. f_equal; auto.
Qed.

Lemma f_insn_put f b x c : f_insn (put_insn f b x) c = if c =? b then Some x else f_insn f c.
Proof. reflexivity. Qed.

Lemma move_loop bb nb : forall rest f keep got b n,
  bb <> nb ->
  f_block f bb = Some b -> b_insns b = keep ++ rest -> NoDup (keep ++ rest) ->
  f_block f nb = Some n -> b_insns n = got ->
  (forall i, In i rest -> exists x, f_insn f i = Some x) ->
  exists f', ofold (move_insn bb nb) f rest = Ok f' /\
    f_block f' bb = Some (set_insns keep b) /\
    f_block f' nb = Some (set_insns (got ++ rest) n) /\
    (forall c, c <> bb -> c <> nb -> f_block f' c = f_block f c) /\
    (forall i, f_insn f' i = if existsb (Nat.eqb i) rest
                             then option_map (set_parent nb) (f_insn f i) else f_insn f i) /\
    f_ni f' = f_ni f /\ f_nb f' = f_nb f /\ f_all f' = f_all f /\ f_entry f' = f_entry f.
Proof.
  induction rest as [|i rest IH]; intros f keep got b n Hne Hb Hk ND Hn Hg Hl.
  - exists f. rewrite app_nil_r in *. repeat split; auto.
    + rewrite Hb. destruct b; simpl in *; now subst.
    + rewrite Hn. destruct n; simpl in *; now subst.
  - assert (Hik : ~ In i keep /\ ~ In i rest).
    { apply NoDup_remove_2 in ND. rewrite in_app_iff in ND. tauto. }
    destruct (Hl i) as (x & Hx); [left; auto|].
    cbn [ofold]. unfold move_insn at 1.
    rewrite (proj2 (get_insn_ok f i x) Hx). cbn [bind].
    rewrite (proj2 (get_block_ok f bb b) Hb). cbn [bind].
    rewrite Hk, erase_first_app_r by tauto.
    set (f1 := put_block f bb _). 
    assert (Hn1 : f_block f1 nb = Some n).
    { unfold f1; rewrite f_block_put. destruct (Nat.eqb_spec nb bb); congruence. }
    rewrite (proj2 (get_block_ok f1 nb n) Hn1). cbn [bind]. rewrite Hg.
    set (f2 := put_block f1 nb _). set (f3 := put_insn f2 i _).
    destruct (IH f3 keep (got ++ [i]) (set_insns (keep ++ rest) b) (set_insns (got ++ [i]) n))
      as (f' & E & B1 & B2 & B3 & B4 & B5); auto.
    + unfold f3, f2, f1. simpl. unfold upd. destruct (Nat.eqb_spec bb nb); [congruence|].
      now rewrite Nat.eqb_refl.
    + clear -ND. apply NoDup_remove_1 in ND; auto.
    + unfold f3, f2. simpl. unfold upd. now rewrite Nat.eqb_refl.
    + intros j Hj. unfold f3; simpl. unfold upd. destruct (j =? i); eauto. apply Hl; right; auto.
    + exists f'. split; [exact E|]. split; [rewrite B1; reflexivity|].
      split; [rewrite B2; simpl; now rewrite <- app_assoc|]. split; [|split].
      * intros c H1 H2. rewrite B3 by auto. unfold f3, f2, f1; simpl. unfold upd.
        destruct (Nat.eqb_spec c nb); [congruence|]. destruct (Nat.eqb_spec c bb); congruence.
      * intros j. rewrite B4. unfold f3; simpl. unfold upd. simpl.
        destruct (Nat.eqb_spec j i) as [->|].
        -- simpl. destruct (existsb (Nat.eqb i) rest) eqn:E'.
           { apply existsb_exists in E' as (z & Hz & E'). apply Nat.eqb_eq in E'; subst; tauto. }
           rewrite Hx. reflexivity.
        -- reflexivity.
      * exact B5.
Qed.

Lemma index_of_app l1 i l2 : ~ In i l1 -> index_of i (l1 ++ i :: l2) = Some (length l1).
Proof.
  induction l1 as [|a l1 IH]; simpl; intros H; [now rewrite Nat.eqb_refl|].
  destruct (Nat.eqb_spec a i); [subst; tauto|]. rewrite IH by tauto. reflexivity.
Qed.

(** The cut: what stays and what moves. *)
Definition cut_at (p : ipos) (l1 : list nat) (i : nat) (l2 : list nat) : option (list nat * list nat) :=
  match p with
  | P_FRONT => Some (l1, i :: l2)
  | P_BACK => match l2 with [] => None | _ => Some (l1 ++ [i], l2) end
  | _ => None
  end.

Definition split_cfg (f g : func) (bb nb : nat) : Prop :=
  nb = f_nb f /\ f_block f nb = None /\
  succs_of g bb = [nb] /\ succs_of g nb = succs_of f bb /\
  (forall c, c <> bb -> c <> nb -> succs_of g c = succs_of f c) /\
  preds_of g nb = [bb] /\
  (forall c, c <> nb -> preds_of g c =
     if existsb (Nat.eqb c) (succs_of f bb) then erase_first bb (preds_of f c) ++ [nb]
     else preds_of f c) /\
  f_ni g = f_ni f /\ f_nb g = S nb /\ f_all g = f_all f ++ [nb] /\ f_entry g = f_entry f /\
  (forall c, f_block g c <> None <-> (f_block f c <> None \/ c = nb)).

Lemma split_spec f i p x l1 l2 :
  mirrored f -> fresh_ok f ->
  f_insn f i = Some x -> f_block f (i_parent x) <> None ->
  insns_of f (i_parent x) = l1 ++ i :: l2 -> NoDup (l1 ++ i :: l2) ->
  (forall j, In j (i :: l2) -> f_insn f j <> None) ->
  exists g, 
    split_bb f i p = Ok (g, match cut_at p l1 i l2 with Some _ => Some (f_nb f) | None => None end) /\
    split_cfg f g (i_parent x) (f_nb f) /\
    match cut_at p l1 i l2 with
    | Some (keep, moved) =>
        insns_of g (i_parent x) = keep /\ insns_of g (f_nb f) = moved /\
        (forall c, c <> i_parent x -> c <> f_nb f -> insns_of g c = insns_of f c) /\
        (forall j, f_insn g j = if existsb (Nat.eqb j) moved
                                then option_map (set_parent (f_nb f)) (f_insn f j) else f_insn f j)
    | None =>
        (forall c, insns_of g c = insns_of f c) /\ (forall j, f_insn g j = f_insn f j)
    end.
Proof.
  intros M F Hx Hbb Hl ND Hlive. pose proof M as (MM & MS & MP).
  set (bb := i_parent x) in *.
  unfold split_bb. rewrite (proj2 (get_insn_ok f i x) Hx). cbn [bind]. fold bb.
  destruct (create_bb f) as [f0 nb] eqn:EC.
  pose proof (create_bb_spec _ _ _ EC F) as
    (-> & C1 & C2 & C3 & C4 & C5 & C6 & C7 & C8 & C9 & C10 & C11 & C12).
  set (nb := f_nb f) in *.
  assert (Hne : bb <> nb) by (intros E; rewrite E in Hbb; contradiction).
  destruct (f_block f bb) as [b|] eqn:Eb; [|congruence].
  assert (E0 : f_block f0 bb = Some b).
  { rewrite C3. destruct (Nat.eqb_spec bb nb); congruence. }
  rewrite (proj2 (get_block_ok _ _ _) E0). cbn [bind].
  set (f1 := put_block f0 bb (set_succs [] b)).
  assert (Bs : b_succs b = succs_of f bb) by (unfold succs_of; now rewrite Eb).
  assert (D1 : forall c, f_block f1 c <> None <-> (f_block f c <> None \/ c = nb)).
  { intros c. unfold f1. rewrite f_block_put. destruct (Nat.eqb_spec c bb) as [->|].
    - split; intros; [left; congruence|congruence].
    - rewrite C3. destruct (Nat.eqb_spec c nb); [subst; split; auto; congruence|tauto]. }
  destruct (connect_total f1 bb nb) as (f2 & E2).
  { apply D1; left; congruence. } { apply D1; auto. }
  rewrite E2. cbn [bind].
  pose proof (connect_spec _ _ _ _ E2) as (S2 & _ & _ & CS & CP).
  assert (S1 : forall c, succs_of f1 c = if c =? bb then [] else succs_of f c).
  { intros c. unfold f1. unfold succs_of at 1. rewrite f_block_put. destruct (c =? bb); auto.
    fold (succs_of f0 c). apply C4. }
  assert (P1 : forall c, preds_of f1 c = preds_of f c).
  { intros c. unfold f1. unfold preds_of at 1. rewrite f_block_put.
    destruct (Nat.eqb_spec c bb) as [->|].
    - simpl. unfold preds_of. now rewrite Eb.
    - fold (preds_of f0 c). apply C5. }
  assert (I1 : forall c, insns_of f1 c = insns_of f c).
  { intros c. unfold f1. unfold insns_of at 1. rewrite f_block_put.
    destruct (Nat.eqb_spec c bb) as [->|].
    - simpl. unfold insns_of. now rewrite Eb.
    - fold (insns_of f0 c). apply C6. }
  assert (Nnb : forall a, ~ In nb (succs_of f a)).
  { intros a Hi. apply MM in Hi. unfold preds_of in Hi. rewrite C1 in Hi. exact Hi. }
  assert (Nnb' : forall a, ~ In nb (preds_of f a)).
  { intros a Hi. apply MM in Hi. unfold succs_of in Hi. rewrite C1 in Hi. exact Hi. }
  assert (Snb : succs_of f nb = []) by (unfold succs_of; now rewrite C1).
  assert (Pnb : preds_of f nb = []) by (unfold preds_of; now rewrite C1).
  rewrite Bs.
  change (fun g s => do g1 <- disconnect_bb g bb s; connect_bb g1 nb s) with (retarget bb nb).
  destruct (retarget_loop_total bb nb (succs_of f bb) f2) as (f3 & E3).
  { rewrite (ss_dom _ _ S2). apply D1; left; congruence. }
  { rewrite (ss_dom _ _ S2). apply D1; auto. }
  { intros s Hs. rewrite (ss_dom _ _ S2). apply D1; left. apply MM in Hs.
    unfold preds_of in Hs. destruct (f_block f s); [congruence|contradiction]. }
  rewrite E3. cbn [bind].
  apply retarget_loop in E3; auto.
  2:{ rewrite CS, S1, Nat.eqb_refl. reflexivity. }
  2:{ intros s. rewrite CS, S1. destruct (Nat.eqb_spec nb bb); [congruence|].
      rewrite Snb. intros []. }
  2:{ intros s. rewrite CP, P1. destruct (s =? nb); auto using push_unique_nodup. }
  2:{ intros s Hs. rewrite CP, P1. destruct (Nat.eqb_spec s nb) as [->|]; auto.
      exfalso; apply (Nnb bb); auto. }
  destruct E3 as (S3 & RS1 & RS2 & RS3 & RP).
  assert (CFG : split_cfg f f3 bb nb).
  { split; [reflexivity|]. split; [exact C1|]. split; [exact RS1|].
    split.
    { rewrite RS2, CS, S1. destruct (Nat.eqb_spec nb bb); [congruence|]. now rewrite Snb. }
    split.
    { intros c A B. rewrite RS3, CS, S1 by auto. destruct (Nat.eqb_spec c bb); congruence. }
    split.
    { rewrite RP, CP, P1, Nat.eqb_refl, Pnb.
      destruct (existsb (Nat.eqb nb) (succs_of f bb)) eqn:E; [|reflexivity].
      apply existsb_exists in E as (z & Hz & E). apply Nat.eqb_eq in E; subst.
      exfalso; apply (Nnb bb); auto. }
    split.
    { intros c Hc. rewrite RP, CP, P1. destruct (Nat.eqb_spec c nb); [congruence|]. reflexivity. }
    rewrite (ss_ni _ _ S3), (ss_ni _ _ S2), (ss_nb _ _ S3), (ss_nb _ _ S2),
      (ss_all _ _ S3), (ss_all _ _ S2), (ss_entry _ _ S3), (ss_entry _ _ S2).
    split; [exact C8|]. split; [exact C9|]. split; [exact C10|]. split; [exact C11|].
    intros c. rewrite (ss_dom _ _ S3), (ss_dom _ _ S2). apply D1. }
  assert (I3 : forall c, insns_of f3 c = insns_of f c).
  { intros c. rewrite (ss_insns _ _ S3), (ss_insns _ _ S2). apply I1. }
  assert (N3 : forall j, f_insn f3 j = f_insn f j).
  { intros j. rewrite (ss_insn _ _ S3), (ss_insn _ _ S2). apply C7. }
  assert (Q3 : f_block f3 bb <> None).
  { rewrite (ss_dom _ _ S3), (ss_dom _ _ S2). apply D1; left; congruence. }
  assert (Q4 : f_block f3 nb <> None).
  { rewrite (ss_dom _ _ S3), (ss_dom _ _ S2). apply D1; auto. }
  destruct (f_block f3 bb) as [b3|] eqn:Eb3; [|congruence].
  destruct (f_block f3 nb) as [n3|] eqn:En3; [|congruence].
  rewrite (proj2 (get_block_ok _ _ _) Eb3). cbn [bind].
  assert (Hb3 : b_insns b3 = l1 ++ i :: l2).
  { rewrite <- Hl, <- I3. unfold insns_of. now rewrite Eb3. }
  assert (Hn3 : b_insns n3 = []).
  { transitivity (insns_of f3 nb); [unfold insns_of; now rewrite En3|].
    rewrite I3. unfold insns_of. now rewrite C1. }
  rewrite Hb3, index_of_app.
  2:{ apply NoDup_remove_2 in ND. rewrite in_app_iff in ND. tauto. }
  assert (DONE : exists g, Ok (f3, @None nat) = Ok (g, None) /\ split_cfg f g bb nb /\
     (forall c, insns_of g c = insns_of f c) /\ (forall j, f_insn g j = f_insn f j)).
  { exists f3. auto. }
  assert (MOVE : forall keep r rest, keep ++ (r :: rest) = l1 ++ i :: l2 ->
     (forall j, In j (r :: rest) -> In j (i :: l2)) ->
     exists g, (do f4 <- ofold (move_insn bb nb) f3 (r :: rest); Ok (f4, Some nb)) = Ok (g, Some nb)
       /\ split_cfg f g bb nb /\ insns_of g bb = keep /\ insns_of g nb = r :: rest /\
       (forall c, c <> bb -> c <> nb -> insns_of g c = insns_of f c) /\
       (forall j, f_insn g j = if existsb (Nat.eqb j) (r :: rest)
                               then option_map (set_parent nb) (f_insn f j) else f_insn f j)).
  { intros keep r rest Hk Hsub.
    destruct (move_loop bb nb (r :: rest) f3 keep [] b3 n3) as (f4 & E & B1 & B2 & B3 & B4 & B5);
      auto.
    - congruence.
    - rewrite Hk; auto.
    - intros j Hj. rewrite N3. specialize (Hlive j (Hsub j Hj)).
      destruct (f_insn f j); [eauto|congruence].
    - exists f4. split; [rewrite E; reflexivity|].
      assert (T1 : forall c, succs_of f4 c = succs_of f3 c).
      { intros c. unfold succs_of. destruct (Nat.eq_dec c bb) as [->|]; [rewrite B1, Eb3; reflexivity|].
        destruct (Nat.eq_dec c nb) as [->|]; [rewrite B2, En3; reflexivity|]. now rewrite B3. }
      assert (T2 : forall c, preds_of f4 c = preds_of f3 c).
      { intros c. unfold preds_of. destruct (Nat.eq_dec c bb) as [->|]; [rewrite B1, Eb3; reflexivity|].
        destruct (Nat.eq_dec c nb) as [->|]; [rewrite B2, En3; reflexivity|]. now rewrite B3. }
      destruct B5 as (Z1 & Z2 & Z3 & Z4).
      split.
      { destruct CFG as (Y1 & Y2 & Y3 & Y4 & Y5 & Y6 & Y7 & Y8 & Y9 & Y10 & Y11 & Y12).
        unfold split_cfg. rewrite !T1, T2, Z1, Z2, Z3, Z4.
        split; [exact Y1|]. split; [exact Y2|]. split; [exact Y3|]. split; [exact Y4|].
        split; [intros; rewrite T1; auto|]. split; [exact Y6|].
        split; [intros; rewrite T2; auto|].
        split; [exact Y8|]. split; [exact Y9|]. split; [exact Y10|]. split; [exact Y11|].
        intros c. rewrite <- Y12. destruct (Nat.eq_dec c bb) as [->|]; [rewrite B1, Eb3; split; discriminate|].
        destruct (Nat.eq_dec c nb) as [->|]; [rewrite B2, En3; split; discriminate|]. now rewrite B3. }
      split; [unfold insns_of; rewrite B1; reflexivity|].
      split; [unfold insns_of; rewrite B2; reflexivity|].
      split; [intros c A B; rewrite <- I3; unfold insns_of; now rewrite B3|].
      intros j. rewrite B4, !N3. reflexivity. }
  destruct p; try exact DONE.
  - (* BACK *)
    replace (skipn (S (length l1)) (l1 ++ i :: l2)) with l2.
    2:{ change (i :: l2) with ([i] ++ l2). rewrite app_assoc.
        replace (S (length l1)) with (length (l1 ++ [i]) + 0) by (rewrite app_length; simpl; lia).
        rewrite skipn_app, skipn_all2 by lia.
        replace (length (l1 ++ [i]) + 0 - length (l1 ++ [i])) with 0 by lia. reflexivity. }
    unfold cut_at. destruct l2 as [|r l2]; [exact DONE|].
    apply (MOVE (l1 ++ [i])). { rewrite <- app_assoc. reflexivity. }
    intros j Hj; right; auto.
  - (* FRONT *)
    replace (skipn (length l1) (l1 ++ i :: l2)) with (i :: l2).
    2:{ rewrite skipn_app, skipn_all, Nat.sub_diag. reflexivity. }
    unfold cut_at. apply MOVE; auto.
Qed.

Lemma split_cfg_mirrored f g bb nb :
  mirrored f -> bb <> nb -> split_cfg f g bb nb -> mirrored g.
Proof.
  intros (M & MS & MP) Hne (E & N & S1 & S2 & S3 & P1 & P2 & _).
  assert (Pn : preds_of f nb = []) by (unfold preds_of; now rewrite N).
  assert (Sn : succs_of f nb = []) by (unfold succs_of; now rewrite N).
  assert (Nin : forall a, ~ In nb (succs_of f a)).
  { intros a Hi. apply M in Hi. rewrite Pn in Hi. exact Hi. }
  assert (Nip : forall a, ~ In nb (preds_of f a)).
  { intros a Hi. apply M in Hi. rewrite Sn in Hi. exact Hi. }
  assert (EX : forall c, existsb (Nat.eqb c) (succs_of f bb) = true <-> In c (succs_of f bb)).
  { intros c. rewrite existsb_exists. split.
    - intros (z & Hz & Ez). apply Nat.eqb_eq in Ez; now subst.
    - intros Hc; exists c; split; auto. apply Nat.eqb_refl. }
  assert (PIN : forall c a, c <> nb ->
    (In a (preds_of g c) <-> (if In_dec Nat.eq_dec c (succs_of f bb)
      then (In a (preds_of f c) /\ a <> bb) \/ a = nb else In a (preds_of f c)))).
  { intros c a Hc. rewrite P2 by auto.
    destruct (In_dec Nat.eq_dec c (succs_of f bb)) as [Hi|Hi].
    - rewrite (proj2 (EX c) Hi). rewrite in_app_iff, erase_first_in by auto. simpl. intuition.
    - destruct (existsb (Nat.eqb c) (succs_of f bb)) eqn:Q; [apply EX in Q; contradiction|tauto]. }
  split; [|split].
  - intros a c.
    destruct (Nat.eq_dec c nb) as [->|Hc].
    + rewrite P1. simpl. destruct (Nat.eq_dec a bb) as [->|Ha].
      * rewrite S1; simpl; tauto.
      * split; [|intros [->|[]]; congruence]. intros Hi. exfalso.
        destruct (Nat.eq_dec a nb) as [->|Ha'].
        -- rewrite S2 in Hi. eapply Nin; eauto.
        -- rewrite S3 in Hi by auto. eapply Nin; eauto.
    + rewrite PIN by auto.
      destruct (Nat.eq_dec a bb) as [->|Ha]; [|destruct (Nat.eq_dec a nb) as [->|Ha']].
      * rewrite S1. simpl. destruct (In_dec Nat.eq_dec c (succs_of f bb)) as [Hi|Hi].
        -- split; [intros [->|[]]; congruence|]. intros [[_ Hk]|Hk]; congruence.
        -- rewrite <- M. split; [intros [->|[]]; congruence|contradiction].
      * rewrite S2. destruct (In_dec Nat.eq_dec c (succs_of f bb)) as [Hi|Hi]; [tauto|].
        split; [contradiction|]. intros Hk; exfalso; eapply Nip; eauto.
      * rewrite S3 by auto. rewrite M.
        destruct (In_dec Nat.eq_dec c (succs_of f bb)) as [Hi|Hi]; [|tauto]. intuition.
  - intros a. destruct (Nat.eq_dec a bb) as [->|Ha]; [rewrite S1; repeat constructor; simpl; tauto|].
    destruct (Nat.eq_dec a nb) as [->|Ha']; [rewrite S2; auto|rewrite S3; auto].
  - intros c. destruct (Nat.eq_dec c nb) as [->|Hc]; [rewrite P1; repeat constructor; simpl; tauto|].
    rewrite P2 by auto. destruct (existsb (Nat.eqb c) (succs_of f bb)); auto.
    rewrite <- push_unique_notin.
    + apply push_unique_nodup, erase_first_nodup; auto.
    + rewrite erase_first_in by auto. intros [Hk _]; eapply Nip; eauto.
Qed.
