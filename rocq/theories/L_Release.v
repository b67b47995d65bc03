(** The data flow analysis of translate_throw_df. *)
From Coq Require Import ZArith List Bool Arith Lia.
From Verif Require Import M_Base M_Ir M_Edit SpecIr SpecEdit L_Edit M_Release SpecRelease.
Import ListNotations.
Open Scope list_scope.
Open Scope nat_scope.

(** sets *)
Lemma contains_in l i : contains l i = true <-> In i l.
Proof.
  unfold contains. rewrite existsb_exists. split.
  - intros (x & I & E). apply Nat.eqb_eq in E. now subst.
  - intros I. exists i. split; auto. apply Nat.eqb_refl.
Qed.
Lemma delta_in a b x : In x (delta a b) <-> In x a /\ ~ In x b.
Proof. unfold delta. rewrite filter_In, negb_true_iff, <- (contains_in b x). destruct (contains b x); intuition congruence. Qed.
Lemma intersect_in a b x : In x (intersect a b) <-> In x a /\ In x b.
Proof. unfold intersect. now rewrite filter_In, contains_in. Qed.
Lemma merge_in b : forall a x, In x (merge a b) <-> In x a \/ In x b.
Proof.
  unfold merge. induction b as [|y b IH]; intros a x; cbn [fold_left In]; [tauto|]. rewrite IH, push_unique_in.
  intuition congruence.
Qed.
Lemma merge_nodup b : forall a, NoDup a -> NoDup (merge a b).
Proof. unfold merge. induction b as [|y b IH]; intros a N; cbn [fold_left]; auto. apply IH. now apply push_unique_nodup. Qed.
Lemma equal_set_false a b : NoDup a -> NoDup b -> incl a b -> equal_set a b = false -> length a < length b.
Proof.
  intros NA NB I E. pose proof (NoDup_incl_length NA I) as L. unfold equal_set in E. destruct (Nat.eqb_spec (length a) (length b)); [|lia].
  cbn [andb] in E. exfalso. assert (X : forallb (contains b) a = true); [|congruence].
  apply forallb_forall. intros x X. apply contains_in. auto.
Qed.
Lemma equal_set_true a b : NoDup a -> NoDup b -> equal_set a b = true -> forall x, In x a <-> In x b.
Proof.
  intros NA NB E. apply andb_true_iff in E as [L F]. apply Nat.eqb_eq in L. rewrite forallb_forall in F.
  assert (I : incl a b) by (intros x X; apply contains_in; auto). intros x. split; auto.
  apply (NoDup_length_incl NA); auto. lia.
Qed.

(** blocks as functions on one reference *)
Lemma is_reserve_eq x : is_reserve x = reserving x.
Proof.
  unfold is_reserve, reserving, RESERVE, iop_eqb. destruct (iop_eq_dec (i_op x) CALL); reflexivity.
Qed.
(** generated and killed *)
Definition gens (f : func) (l : list nat) (r : nat) : Prop := In r l /\ exists x, f_insn f r = Some x /\ reserving x = true.
Definition kills (f : func) (l : list nat) (r : nat) : Prop := exists i x, In i l /\ f_insn f i = Some x /\ releasing x r = true.
Lemma scan_ok f l : forall s g k, ofold (scan_insn f) s l = Ok (g, k) ->
  (forall r, In r g <-> In r (fst s) \/ gens f l r) /\ (forall r, In r k <-> In r (snd s) \/ kills f l r) /\
  (forall i x r, In i l -> f_insn f i = Some x -> releasing x r = true -> exists y, f_insn f r = Some y /\ reserving y = true) /\
  (NoDup (fst s ++ l) -> NoDup g) /\ (forall i, In i l -> f_insn f i <> None).
Proof.
  induction l as [|i l IH]; intros [g0 k0] g k H; cbn [ofold] in H.
  - injection H as <- <-. cbn [fst snd]. rewrite app_nil_r. unfold gens, kills. repeat split; auto; try (intros [?|?]; auto; firstorder; fail); firstorder.
  - apply bind_ok in H as ([g1 k1] & S & H). destruct (IH _ _ _ H) as (A & B & C & D & E). cbn [fst snd] in *. clear IH H.
    unfold scan_insn in S. apply bind_ok in S as (x & X & S). apply get_insn_ok in X.
    assert (GC : forall r, gens f (i :: l) r <-> (r = i /\ reserving x = true) \/ gens f l r).
    { intros r. unfold gens. cbn [In]. split.
      - intros ([->|I] & y & Y & R); [left; split; auto; congruence|right; eauto].
      - intros [(-> & R)|(I & R)]; eauto. }
    assert (KC : forall r, kills f (i :: l) r <-> releasing x r = true \/ kills f l r).
    { intros r. unfold kills. cbn [In]. split.
      - intros (j & y & [<-|I] & Y & R); [left; congruence|right; eauto 6].
      - intros [R|(j & y & I & Y & R)]; eauto 8. }
    assert (SP : (forall r, In r g1 <-> In r g0 \/ r = i /\ reserving x = true) /\ (forall r, In r k1 <-> In r k0 \/ releasing x r = true) /\
      (forall r, releasing x r = true -> exists y, f_insn f r = Some y /\ reserving y = true) /\ (g1 = g0 \/ g1 = g0 ++ [i])).
    { unfold releasing, reserving. cbn [fst snd] in S. unfold iop_eqb in S. destruct (iop_eq_dec (i_op x) CALL) as [OC|OC].
      2:{ injection S as <- <-. repeat split; try tauto; try (intros [?|?]; auto; intuition discriminate); try discriminate. }
      set (g2 := if (i_u x =? RESERVE)%Z then g0 ++ [i] else g0) in S.
      assert (G2 : (forall r, In r g2 <-> In r g0 \/ r = i /\ (i_u x =? 131)%Z = true) /\ (g2 = g0 \/ g2 = g0 ++ [i])).
      { unfold g2, RESERVE. destruct (i_u x =? 131)%Z; split; auto; intros r; [rewrite in_app_iff; cbn; intuition|intuition discriminate]. }
      destruct G2 as (G2 & G3). unfold DISCARD, SUBMIT in S. rewrite orb_comm in S.
      destruct ((i_u x =? 132)%Z || (i_u x =? 133)%Z) eqn:EU.
      - destruct (i_vals x) as [|v vs] eqn:EV; [discriminate|]. cbn [nth_error] in S. destruct (v_data v) as [?|?|?|d|?|] eqn:VD; try discriminate.
        apply bind_ok in S as (y & Y & S). apply get_insn_ok in Y. rewrite is_reserve_eq in S. destruct (reserving y) eqn:RY; [|discriminate].
        injection S as <- <-. cbn [andb]. split; [exact G2|]. split; [|split; [|exact G3]].
        + intros r. rewrite in_app_iff, Nat.eqb_eq. cbn. tauto.
        + intros r R. apply Nat.eqb_eq in R. subst r. eauto.
      - injection S as <- <-. cbn [andb]. split; [exact G2|]. split; [|split; [|exact G3]]; [intuition discriminate|discriminate]. }
    destruct SP as (SG & SK & SC & SE). split; [|split; [|split; [|split]]].
    + intros r. rewrite A, SG, GC. tauto.
    + intros r. rewrite B, SK, KC. tauto.
    + intros j y r [<-|I] Y R; [rewrite X in Y; injection Y as <-; auto|eauto].
    + intros N. apply D. destruct SE as [->| ->].
      * apply NoDup_remove_1 in N. exact N.
      * rewrite <- app_assoc. exact N.
    + intros j [<-|I]; [congruence|auto].
Qed.
Lemma after_block f r l : forall h, (forall i, In i l -> f_insn f i <> None) ->
  (gens f l r \/ h = true) -> ~ kills f l r -> fold_left (after f r) l h = true.
Proof.
  induction l as [|i l IH]; intros h D G K; cbn [fold_left].
  - destruct G as [([] & _)|G]; auto.
  - destruct (f_insn f i) as [x|] eqn:X; [|exfalso; apply (D i); [left; auto|auto]].
    assert (KI : ~ kills f l r) by (intros (j & y & J & R); apply K; exists j, y; split; [right; auto|auto]).
    assert (NR : releasing x r = false). { destruct (releasing x r) eqn:R; auto. exfalso. apply K. exists i, x. split; [left; auto|auto]. }
    apply IH; [intros j J; apply D; now right| |auto]. unfold after. rewrite X, NR.
    destruct G as [([->|I] & R)|G]; [|left; split; auto|right].
    + right. destruct R as (y & Y & R). rewrite X in Y. injection Y as <-. now rewrite R, Nat.eqb_refl.
    + subst h. destruct (reserving x && (i =? r)); auto.
Qed.
(** the converse, when nothing is released before it is made *)
Lemma after_held f r l : forall h, fold_left (after f r) l h = true -> gens f l r \/ h = true.
Proof.
  induction l as [|i l IH]; intros h H; cbn [fold_left] in H; auto. apply IH in H as [(I & R)|H]; [left; split; [right; auto|auto]|].
  unfold after in H. destruct (f_insn f i) as [x|] eqn:X; auto. destruct (reserving x) eqn:R; cbn [andb] in H.
  - destruct (Nat.eqb_spec i r) as [->|]; [left; split; [left; auto|eauto]|]. destruct (releasing x r); [discriminate|auto].
  - destruct (releasing x r); [discriminate|auto].
Qed.
Lemma after_not_killed f r l : forall h, (exists y, f_insn f r = Some y /\ reserving y = true) ->
  (forall l1 i l2 x, l = l1 ++ i :: l2 -> f_insn f i = Some x -> releasing x r = true -> ~ In r l2) ->
  (forall x, f_insn f r = Some x -> releasing x r = false) ->
  fold_left (after f r) l h = true -> ~ kills f l r.
Proof.
  intros h RY MF NS H (i & x & I & X & R). apply in_split in I as (l1 & l2 & ->).
  pose proof (MF l1 i l2 x eq_refl X R) as NI. rewrite fold_left_app in H. cbn [fold_left] in H.
  assert (AF : after f r (fold_left (after f r) l1 h) i = false).
  { unfold after. rewrite X, R. destruct (Nat.eqb_spec i r) as [->|]; [rewrite (NS _ X) in R; discriminate|]. now rewrite andb_false_r. }
  rewrite AF in H. apply after_held in H as [(K & _)|H]; [contradiction|discriminate].
Qed.

(** the initial state *)
Definition blk (f : func) (x : bx) (b : nat) : Prop :=
  (forall r, In r (x_gen x) <-> gens f (insns_of f b) r) /\ (forall r, In r (x_kill x) <-> kills f (insns_of f b) r) /\
  (forall i, In i (insns_of f b) -> f_insn f i <> None) /\ f_block f b <> None.
Lemma get_insns f b bb : get_block f b = Ok bb -> b_insns bb = insns_of f b /\ b_preds bb = preds_of f b.
Proof. intros H. apply get_block_ok in H. unfold insns_of, preds_of. now rewrite H. Qed.
Definition start (f : func) (reach : list nat) (e : extra) : Prop :=
  (forall b, In b reach -> exists x, e b = Some x /\ x_in x = [] /\ x_out x = [] /\ blk f x b) /\ (forall b, ~ In b reach -> e b = None).
Lemma scan_start f reach e : ofold (scan_block f) (fun _ => None) reach = Ok e -> start f reach e.
Proof.
  assert (G : forall l done e0 e, start f done e0 -> ofold (scan_block f) e0 l = Ok e -> start f (done ++ l) e).
  { induction l as [|b l IH]; intros done e0 e1 S H; cbn [ofold] in H; [injection H as <-; now rewrite app_nil_r|].
    apply bind_ok in H as (e2 & B & H). unfold scan_block in B. apply bind_ok in B as (bb & GB & B). apply bind_ok in B as ([g k] & SC & B).
    injection B as <-. destruct (get_insns _ _ _ GB) as (E & _). rewrite E in SC. apply scan_ok in SC as (A1 & A2 & A3 & A4 & A5). cbn [fst snd] in *.
    change (b :: l) with ([b] ++ l). rewrite app_assoc. eapply IH; [|exact H]. destruct S as (S1 & S2). split.
    - intros c I. unfold upd. destruct (Nat.eqb_spec c b) as [->|NE].
      + eexists. split; [reflexivity|]. cbn. split; auto. split; auto. split; [|split; [|split]]; cbn.
        * intros r. rewrite A1. cbn. tauto.
        * intros r. rewrite A2. cbn. tauto.
        * exact A5.
        * apply get_block_ok in GB. congruence.
      + apply S1. apply in_app_iff in I as [I|[I|[]]]; auto. congruence.
    - intros c I. unfold upd. destruct (Nat.eqb_spec c b) as [->|NE]; [exfalso; apply I, in_or_app; right; left; auto|].
      apply S2. intros K. apply I, in_or_app. auto. }
  intros H. apply (G reach [] (fun _ => None) e); [split; [intros b []|auto]|exact H].
Qed.

(** meets *)
Lemma meet_ok e l : forall acc r, ofold (meet e) acc l = Ok r ->
  (forall p, In p l -> e p <> None) /\
  (l = [] /\ r = acc \/ l <> [] /\ exists s, r = Some s /\
     (forall i, In i s <-> (forall a, acc = Some a -> In i a) /\ forall p x, In p l -> e p = Some x -> In i (x_out x))).
Proof.
  induction l as [|p l IH]; intros acc r H; cbn [ofold] in H.
  - injection H as <-. split; [intros p []|left; auto].
  - apply bind_ok in H as (a & M & H). unfold meet in M. apply bind_ok in M as (x & X & M). injection M as <-.
    unfold get_extra in X. destruct (e p) as [x'|] eqn:EP; [|discriminate]. injection X as ->.
    destruct (IH _ _ H) as (D & R). split; [intros q [<-|Q]; [congruence|auto]|]. right. split; [discriminate|].
    set (a0 := match acc with None => x_out x | Some l0 => intersect l0 (x_out x) end) in *.
    assert (A0 : forall i, In i a0 <-> (forall a, acc = Some a -> In i a) /\ In i (x_out x)).
    { intros i. unfold a0. destruct acc as [a|]; [rewrite intersect_in|]; split.
      - intros (I & J). split; auto. intros ? [= <-]. auto.
      - intros (I & J). auto.
      - intros J. split; auto. discriminate.
      - tauto. }
    destruct R as [(-> & ->)|(NE & s & -> & S)].
    + exists a0. split; auto. intros i. rewrite A0. split.
      * intros (I & J). split; auto. intros q y [<-|[]] Y. congruence.
      * intros (I & J). split; auto. eapply J; [left; reflexivity|exact EP].
    + exists s. split; auto. intros i. rewrite S. split.
      * intros (I & J). specialize (I _ eq_refl). apply A0 in I as (I & I'). split; auto. intros q y [<-|Q] Y; [congruence|eauto].
      * intros (I & J). split; [|intros q y Q Y; eapply J; [right; exact Q|exact Y]]. intros a [= <-]. apply A0. split; auto.
        eapply J; [left; reflexivity|exact EP].
Qed.
Lemma in_of_ok f e b i : in_of f e b = Ok i -> (forall p, In p (preds_of f b) -> e p <> None) /\
  (preds_of f b = [] /\ i = [] \/ preds_of f b <> [] /\ forall r, In r i <-> forall p x, In p (preds_of f b) -> e p = Some x -> In r (x_out x)).
Proof.
  unfold in_of. intros H. apply bind_ok in H as (bb & GB & H). destruct (get_insns _ _ _ GB) as (_ & E). rewrite E in H.
  apply bind_ok in H as (o & M & H). injection H as <-. apply meet_ok in M as (D & M). split; auto.
  destruct M as [(P & ->)|(NE & s & -> & S)]; auto. right. split; auto. intros r. rewrite S. split; [tauto|]. intros K. split; auto. discriminate.
Qed.
Lemma intersect_nodup a b : NoDup a -> NoDup (intersect a b).
Proof. apply NoDup_filter. Qed.
Lemma in_of_nodup f e b i : (forall p x, e p = Some x -> NoDup (x_out x)) -> in_of f e b = Ok i -> NoDup i.
Proof.
  intros N H. unfold in_of in H. apply bind_ok in H as (bb & _ & H). apply bind_ok in H as (o & M & H). injection H as <-.
  assert (G : forall l acc r, (forall a, acc = Some a -> NoDup a) -> ofold (meet e) acc l = Ok r -> forall a, r = Some a -> NoDup a).
  { clear - N. induction l as [|p l IH]; intros acc r A H; cbn [ofold] in H; [injection H as <-; auto|].
    apply bind_ok in H as (a & M & H). unfold meet in M. apply bind_ok in M as (x & X & M). injection M as <-.
    unfold get_extra in X. destruct (e p) as [x'|] eqn:EP; [|discriminate]. injection X as ->. eapply IH; [|exact H].
    intros a [= <-]. destruct acc as [a'|]; [apply intersect_nodup; auto|eauto]. }
  destruct o as [l|]; [|constructor]. eapply G; [|exact M|reflexivity]. discriminate.
Qed.

(** the invariant of the iteration *)
Record good (f : func) (reach : list nat) (e : extra) : Prop := {
  gd_dom : forall b, In b reach -> exists x, e b = Some x /\ blk f x b;
  gd_none : forall b, ~ In b reach -> e b = None;
  gd_nodup : forall b x, e b = Some x -> NoDup (x_in x) /\ NoDup (x_out x);
  gd_grow : forall b x r, e b = Some x -> In r (x_in x) -> preds_of f b <> [] /\
     forall p y, In p (preds_of f b) -> e p = Some y -> In r (x_out y);
  gd_out : forall b x r, e b = Some x -> In r (x_out x) -> (In r (x_in x) \/ In r (x_gen x)) /\ ~ In r (x_kill x);
  gd_univ : forall b x r, e b = Some x -> In r (x_in x) \/ In r (x_out x) -> gens f (flat_map (insns_of f) reach) r;
  gd_sound : preds_of f (f_entry f) = [] -> mirrored f -> forall b x r, e b = Some x -> In r (x_out x) -> held_at f b r }.
Lemma start_good f reach e : start f reach e -> good f reach e.
Proof.
  intros (S1 & S2). assert (EM : forall b x, e b = Some x -> x_in x = [] /\ x_out x = []).
  { intros b x H. destruct (in_dec Nat.eq_dec b reach) as [I|I]; [|rewrite S2 in H by auto; discriminate].
    destruct (S1 b I) as (y & Y & A & B & _). rewrite H in Y. injection Y as <-. auto. }
  constructor; auto.
  - intros b I. destruct (S1 b I) as (y & Y & A & B & C). eauto.
  - intros b x H. destruct (EM _ _ H) as (-> & ->). split; constructor.
  - intros b x r H I. destruct (EM _ _ H) as (E & _). rewrite E in I. destruct I.
  - intros b x r H I. destruct (EM _ _ H) as (_ & E). rewrite E in I. destruct I.
  - intros b x r H I. destruct (EM _ _ H) as (E1 & E). rewrite E, E1 in I. destruct I as [[]|[]].
  - intros _ _ b x r H I. destruct (EM _ _ H) as (_ & E). rewrite E in I. destruct I.
Qed.
Lemma walk_last f p b : walk f (p ++ [b]) -> p = [] /\ b = f_entry f \/ exists q a, p = q ++ [a] /\ walk f (q ++ [a]) /\ In b (succs_of f a).
Proof.
  intros H. inversion H as [E|q a c W S E].
  - left. destruct p as [|x [|y p]]; try discriminate. injection E as <-. auto.
  - apply app_inj_tail in E as [<- <-]. right. eauto 6.
Qed.
Lemma held_snoc f p b r : held f (p ++ [b]) r = fold_left (after f r) (insns_of f b) (held f p r).
Proof. unfold held. rewrite flat_map_app, fold_left_app. cbn [flat_map]. now rewrite app_nil_r. Qed.

Lemma block_good f reach e c b e' c' : good f reach e -> In b reach -> df_block f (e, c) b = Ok (e', c') ->
  good f reach e' /\
  (forall q y, q <> b -> e q = Some y -> e' q = Some y) /\
  exists x i o, e b = Some x /\ e' b = Some (mkBx (x_gen x) (x_kill x) i o) /\ NoDup i /\ incl (x_in x) i /\ incl (x_out x) o /\
    in_of f e b = Ok i /\ o = delta (merge i (x_gen x)) (x_kill x) /\ c' = c || negb (equal_set (x_in x) i).
Proof.
  intros G I H. unfold df_block in H. cbn [fst snd] in H. apply bind_ok in H as (x & X & H). unfold get_extra in X.
  destruct (e b) as [x'|] eqn:EB; [|discriminate]. injection X as ->. apply bind_ok in H as (i & IN & H). injection H as <- <-.
  pose proof (in_of_ok _ _ _ _ IN) as (DP & SI). set (o := delta (merge i (x_gen x)) (x_kill x)) in *.
  assert (NI : NoDup i) by (eapply in_of_nodup; [|exact IN]; intros p y Y; apply (gd_nodup _ _ _ G _ _ Y)).
  destruct (gd_nodup _ _ _ G _ _ EB) as (N1 & N2).
  assert (INC : incl (x_in x) i).
  { intros r R. destruct (gd_grow _ _ _ G b x r EB R) as (NE & A). destruct SI as [(P & _)|(_ & SI)]; [congruence|]. apply SI. exact A. }
  assert (INO : incl (x_out x) o).
  { intros r R. destruct (gd_out _ _ _ G b x r EB R) as (A & B). apply delta_in. rewrite merge_in. intuition. }
  assert (NO : NoDup o) by (apply NoDup_filter, merge_nodup; auto).
  assert (BX : blk f x b). { destruct (gd_dom _ _ _ G b I) as (y & Y & B). rewrite EB in Y. injection Y as <-. exact B. }
  assert (OUTS : forall q y, e q = Some y -> exists z, upd e b (Some (mkBx (x_gen x) (x_kill x) i o)) q = Some z /\ incl (x_out y) (x_out z)).
  { intros q y Y. unfold upd. destruct (Nat.eqb_spec q b) as [->|NE].
    - eexists. split; [reflexivity|]. cbn. rewrite EB in Y. injection Y as <-. exact INO.
    - exists y. split; auto. apply incl_refl. }
  split; [|split].
  - constructor.
    + intros q Q. unfold upd. destruct (Nat.eqb_spec q b) as [->|NE]; [|apply (gd_dom _ _ _ G); auto].
      eexists. split; [reflexivity|]. exact BX.
    + intros q Q. unfold upd. destruct (Nat.eqb_spec q b) as [->|NE]; [contradiction|]. apply (gd_none _ _ _ G); auto.
    + intros q y. unfold upd. destruct (Nat.eqb_spec q b) as [->|NE]; [intros [= <-]; auto|]. apply (gd_nodup _ _ _ G).
    + intros q y r Y R.
      assert (OLD : preds_of f q <> [] /\ forall p z, In p (preds_of f q) -> e p = Some z -> In r (x_out z)).
      { unfold upd in Y. destruct (Nat.eqb_spec q b) as [->|NE].
        - injection Y as <-. cbn in R. destruct SI as [(_ & E)|(NE & SI)]; [rewrite E in R; destruct R|]. split; auto. now apply SI.
        - eapply (gd_grow _ _ _ G); eauto. }
      destruct OLD as (NE & OLD). split; auto. intros p z P Z. destruct (e p) as [z0|] eqn:Z0.
      * destruct (OUTS p z0 Z0) as (z1 & Z1 & IC). rewrite Z in Z1. injection Z1 as <-. apply IC. eauto.
      * unfold upd in Z. destruct (Nat.eqb_spec p b) as [->|]; congruence.
    + intros q y r. unfold upd. destruct (Nat.eqb_spec q b) as [->|NE]; [|apply (gd_out _ _ _ G)].
      intros [= <-] R. cbn in *. apply delta_in in R as (R & K). apply merge_in in R. auto.
    + assert (UI : forall r, In r i -> gens f (flat_map (insns_of f) reach) r).
      { intros r R. destruct SI as [(_ & E)|(NE & SI)]; [rewrite E in R; destruct R|]. destruct (preds_of f b) as [|p ps]; [congruence|].
        destruct (e p) as [z|] eqn:Z; [|exfalso; apply (DP p); [left; auto|auto]].
        apply (gd_univ _ _ _ G p z r Z). right. eapply (proj1 (SI r)); eauto. left; auto. }
      intros q y r. unfold upd. destruct (Nat.eqb_spec q b) as [->|NE]; [|apply (gd_univ _ _ _ G)].
      intros [= <-] [R|R]; cbn in R; auto. apply delta_in in R as (R & _). apply merge_in in R as [R|R]; auto.
      apply BX in R as (R1 & R2). split; auto. apply in_flat_map. exists b. split; auto.
    + intros NP MI q y r. unfold upd. destruct (Nat.eqb_spec q b) as [->|NE]; [|apply (gd_sound _ _ _ G); auto].
      intros [= <-] R. cbn in R. apply delta_in in R as (R & K). apply merge_in in R.
      intros p W. rewrite held_snoc. destruct BX as (B1 & B2 & B3 & _). apply after_block; [exact B3| |now rewrite <- B2].
      destruct R as [R|R]; [right|left; now apply B1].
      destruct SI as [(_ & E)|(_ & SI)]; [rewrite E in R; destruct R|].
      destruct (walk_last _ _ _ W) as [(-> & ->)|(w & a & -> & WA & S)].
      * (* the entry has no predecessors *) exfalso. assert (X : in_of f e (f_entry f) = Ok []).
        { unfold in_of. destruct (get_block f (f_entry f)) as [bb| | | |] eqn:GB; unfold in_of in IN; rewrite GB in IN; try discriminate.
          cbn [bind]. destruct (get_insns _ _ _ GB) as (_ & E). rewrite E, NP. reflexivity. }
        rewrite X in IN. injection IN as <-. destruct R.
      * apply MI in S. destruct (e a) as [z|] eqn:Z; [|exfalso; eapply DP; eauto].
        apply (gd_sound _ _ _ G NP MI a z r Z); [|exact WA]. eapply (proj1 (SI r)); eauto.
  - intros q y NE Y. unfold upd. destruct (Nat.eqb_spec q b); [contradiction|auto].
  - exists x, i, o. unfold upd. rewrite Nat.eqb_refl. repeat (split; auto).
Qed.

(** a whole round *)
Definition size (reach : list nat) (e : extra) : nat :=
  list_sum (map (fun b => match e b with Some x => length (x_in x) | None => 0 end) reach).
Lemma sum_le (g h : nat -> nat) l : (forall b, g b <= h b) -> list_sum (map g l) <= list_sum (map h l).
Proof. intros H. induction l as [|a l IH]; cbn [map list_sum fold_right]; [lia|]. specialize (H a). cbn in IH. unfold list_sum in IH. lia. Qed.
Lemma sum_lt (g h : nat -> nat) l a : (forall b, g b <= h b) -> In a l -> g a < h a -> list_sum (map g l) < list_sum (map h l).
Proof.
  intros H I L. apply in_split in I as (l1 & l2 & ->). rewrite !map_app, !list_sum_app. cbn [map list_sum fold_right].
  pose proof (sum_le g h l1 H). pose proof (sum_le g h l2 H). unfold list_sum in *. lia.
Qed.
Lemma block_size f reach e c b e' c' : good f reach e -> In b reach -> df_block f (e, c) b = Ok (e', c') ->
  size reach e <= size reach e' /\ (c' = true -> c = true \/ size reach e < size reach e').
Proof.
  intros G I H. destruct (block_good _ _ _ _ _ _ _ G I H) as (G' & O & x & i & o & X & X' & NI & I1 & I2 & _ & _ & C).
  assert (L : forall q, match e q with Some x => length (x_in x) | None => 0 end <= match e' q with Some x => length (x_in x) | None => 0 end).
  { intros q. destruct (Nat.eq_dec q b) as [->|NE].
    - rewrite X, X'. cbn. apply NoDup_incl_length; auto. apply (gd_nodup _ _ _ G _ _ X).
    - destruct (e q) as [y|] eqn:Y; [|lia]. now rewrite (O q y NE Y). }
  split; [apply sum_le; auto|]. intros ->. destruct c; [auto|]. right. cbn [orb] in C. symmetry in C. apply negb_true_iff in C.
  apply sum_lt with (a := b); auto. rewrite X, X'. cbn. apply equal_set_false; auto. apply (gd_nodup _ _ _ G _ _ X).
Qed.
Lemma round_good f reach l : incl l reach -> forall e c e' c', good f reach e -> ofold (df_block f) (e, c) l = Ok (e', c') ->
  good f reach e' /\ size reach e <= size reach e' /\ (c' = true -> c = true \/ size reach e < size reach e').
Proof.
  induction l as [|b l IH]; intros I e c e' c' G H; cbn [ofold] in H.
  - injection H as <- <-. auto.
  - apply bind_ok in H as ([e1 c1] & B & H). assert (IB : In b reach) by (apply I; left; auto).
    destruct (block_good _ _ _ _ _ _ _ G IB B) as (G1 & _). destruct (block_size _ _ _ _ _ _ _ G IB B) as (L1 & C1).
    destruct (IH (fun q Q => I q (or_intror Q)) _ _ _ _ G1 H) as (G2 & L2 & C2). split; auto. split; [lia|].
    intros C. destruct (C2 C) as [C'|C']; [destruct (C1 C')|]; auto; right; lia.
Qed.
Lemma size_bound f reach e : good f reach e -> size reach e <= length reach * length (flat_map (insns_of f) reach).
Proof.
  intros G. unfold size. set (U := flat_map (insns_of f) reach).
  assert (H : forall b, match e b with Some x => length (x_in x) | None => 0 end <= length U).
  { intros b. destruct (e b) as [x|] eqn:X; [|lia]. apply NoDup_incl_length; [apply (gd_nodup _ _ _ G _ _ X)|].
    intros r R. apply (gd_univ _ _ _ G b x r X). auto. }
  pose proof (sum_le _ (fun _ => length U) reach H) as L. etransitivity; [exact L|]. clear. generalize (length U) as m. clear. intros m.
  induction reach as [|a l IH]; cbn [map list_sum fold_right length]; [lia|]. unfold list_sum in IH. lia.
Qed.
Definition allowed (f : func) (reach : list nat) : Prop :=
  (forall b, In b reach -> f_block f b <> None) /\ forall a b, In b reach -> In a (preds_of f b) -> In a reach.
Lemma block_runs f reach e c b : allowed f reach -> good f reach e -> In b reach -> exists s, df_block f (e, c) b = Ok s.
Proof.
  intros (AB & AP) G I. destruct (gd_dom _ _ _ G b I) as (x & X & _). unfold df_block, get_extra. cbn [fst snd]. rewrite X. cbn [bind].
  assert (Z : exists i, in_of f e b = Ok i).
  { unfold in_of, get_block. destruct (f_block f b) as [bb|] eqn:B; [|exfalso; eapply AB; eauto]. cbn [bind].
    assert (P : forall p, In p (b_preds bb) -> In p reach) by (intros p P; apply (AP p b I); unfold preds_of; now rewrite B).
    assert (M : forall l acc, (forall p, In p l -> In p reach) -> exists r, ofold (meet e) acc l = Ok r).
    { clear - G. induction l as [|p l IH]; intros acc H; cbn [ofold]; [eauto|].
      destruct (gd_dom _ _ _ G p (H p (or_introl eq_refl))) as (y & Y & _). unfold meet at 1, get_extra. rewrite Y. cbn [bind].
      apply IH. intros q Q. apply H. now right. }
    destruct (M (b_preds bb) None P) as (r & R). rewrite R. cbn [bind]. eauto. }
  destruct Z as (i & ->). cbn [bind]. eauto.
Qed.
Lemma round_runs f reach l : allowed f reach -> incl l reach -> forall e c, good f reach e -> exists s, ofold (df_block f) (e, c) l = Ok s.
Proof.
  intros A. induction l as [|b l IH]; intros I e c G; cbn [ofold]; [eauto|]. assert (IB : In b reach) by (apply I; left; auto).
  destruct (block_runs f reach e c b A G IB) as ([e1 c1] & B). rewrite B. cbn [bind]. apply IH; [intros q Q; apply I; now right|].
  apply (block_good _ _ _ _ _ _ _ G IB B).
Qed.
Lemma loop_ends f reach : allowed f reach -> forall fuel e, good f reach e ->
  length reach * length (flat_map (insns_of f) reach) < size reach e + fuel -> exists e', df_loop fuel f reach e = Ok e'.
Proof.
  intros A. induction fuel as [|k IH]; intros e G L.
  - pose proof (size_bound _ _ _ G). lia.
  - cbn [df_loop]. destruct (round_runs f reach reach A (incl_refl _) e false G) as ([e1 c1] & R). rewrite R. cbn [bind fst snd].
    destruct (round_good f reach reach (incl_refl _) _ _ _ _ G R) as (G1 & L1 & C1). destruct c1; [|eauto].
    apply IH; auto. destruct (C1 eq_refl) as [C|C]; [discriminate|lia].
Qed.
Lemma loop_good f reach : forall fuel e e', good f reach e -> df_loop fuel f reach e = Ok e' -> good f reach e'.
Proof.
  induction fuel as [|k IH]; intros e e' G H; cbn [df_loop] in H; [discriminate|]. apply bind_ok in H as ([e1 c1] & R & H).
  destruct (round_good f reach reach (incl_refl _) _ _ _ _ G R) as (G1 & _). cbn [fst snd] in H. destruct c1; [eauto|]. injection H as <-. auto.
Qed.
Lemma df_good fuel f reach e : df fuel f reach = Ok e -> good f reach e.
Proof. unfold df. intros H. apply bind_ok in H as (e0 & S & H). eapply loop_good; [|exact H]. apply start_good, scan_start, S. Qed.

(** * Nothing is missed without loops *)
Definition before (f : func) (b r : nat) : Prop := forall p, walk f (p ++ [b]) -> held f p r = true.
Definition outs (x : bx) : Prop := forall r, In r (x_out x) <-> (In r (x_in x) \/ In r (x_gen x)) /\ ~ In r (x_kill x).
Definition settled (e : extra) : Prop := forall b x, e b = Some x -> outs x.
Definition same (e e' : extra) : Prop := forall b, match e b, e' b with
  | Some x, Some y => (forall r, In r (x_in x) <-> In r (x_in y)) /\ (forall r, In r (x_out x) <-> In r (x_out y))
  | None, None => True | _, _ => False end.
Definition fixed (f : func) (e : extra) (b : nat) : Prop := forall x, e b = Some x ->
  forall r, In r (x_in x) <-> preds_of f b <> [] /\ forall p y, In p (preds_of f b) -> e p = Some y -> In r (x_out y).
Lemma same_refl e : same e e.
Proof. intros b. destruct (e b); auto. split; tauto. Qed.
Lemma same_trans e1 e2 e3 : same e1 e2 -> same e2 e3 -> same e1 e3.
Proof.
  intros A B b. specialize (A b). specialize (B b). destruct (e1 b), (e2 b), (e3 b); auto; try contradiction.
  destruct A as (A1 & A2), B as (B1 & B2). split; intros r; [rewrite A1|rewrite A2]; auto.
Qed.
Lemma fixed_same f e e' b : same e e' -> fixed f e b -> fixed f e' b.
Proof.
  intros S F y Y r. pose proof (S b) as SB. rewrite Y in SB. destruct (e b) as [x|] eqn:X; [|contradiction]. destruct SB as (SI & _).
  rewrite <- SI, (F x X r). split; intros (N & H); (split; [exact N|]); intros p z P Z; pose proof (S p) as SP; rewrite Z in SP.
  - destruct (e p) as [w|] eqn:W; [|contradiction]. apply SP. eauto.
  - destruct (e' p) as [w|] eqn:W; [|contradiction]. apply SP. eauto.
Qed.
Lemma out_outs g k i o : o = delta (merge i g) k -> outs (mkBx g k i o).
Proof. intros -> r. cbn. rewrite delta_in, merge_in. tauto. Qed.
Lemma block_settled f reach e b e' : good f reach e -> settled e -> In b reach -> df_block f (e, false) b = Ok (e', false) ->
  settled e' /\ same e e' /\ fixed f e' b.
Proof.
  intros G S I H. destruct (block_good _ _ _ _ _ _ _ G I H) as (G' & O & x & i & o & X & X' & NI & I1 & I2 & IN & OD & C).
  destruct (gd_nodup _ _ _ G _ _ X) as (N1 & _). cbn [orb] in C. symmetry in C. apply negb_false_iff in C.
  pose proof (equal_set_true _ _ N1 NI C) as EI. pose proof (out_outs (x_gen x) (x_kill x) i o OD) as OO.
  assert (NONE : forall q, q <> b -> e' q = e q).
  { intros q N. destruct (e q) as [y|] eqn:Y; [now apply O|]. unfold df_block in H. cbn [fst snd] in H. apply bind_ok in H as (z & _ & H).
    apply bind_ok in H as (w & _ & H). injection H as <- _. unfold upd. destruct (Nat.eqb_spec q b); [contradiction|auto]. }
  assert (SM : same e e').
  { intros q. destruct (Nat.eq_dec q b) as [->|N]; [|rewrite (NONE q N); destruct (e q); auto; split; tauto].
    rewrite X, X'. cbn. split; [exact EI|]. intros r. rewrite (S b x X r), (OO r). cbn. now rewrite EI. }
  split; [|split; [exact SM|]].
  - intros q y Y. destruct (Nat.eq_dec q b) as [->|N]; [rewrite X' in Y; injection Y as <-; exact OO|]. rewrite (NONE q N) in Y. eauto.
  - apply (fixed_same f e e' b SM). intros z Z r. rewrite X in Z. injection Z as <-. rewrite EI.
    apply in_of_ok in IN as (_ & [(P & ->)|(NE & SI)]); [rewrite P; cbn; tauto|]. rewrite SI. tauto.
Qed.
Lemma flag_down f l : forall e c e', ofold (df_block f) (e, c) l = Ok (e', false) -> c = false.
Proof.
  induction l as [|b l IH]; intros e c e' H; cbn [ofold] in H; [now injection H|]. apply bind_ok in H as ([e1 c1] & B & H).
  apply IH in H. subst c1. unfold df_block in B. cbn [fst snd] in B. apply bind_ok in B as (z & _ & B). apply bind_ok in B as (w & _ & B).
  injection B as _ B. now apply orb_false_iff in B as (B & _).
Qed.
Lemma round_settled f reach l : incl l reach -> forall e e', good f reach e -> settled e -> ofold (df_block f) (e, false) l = Ok (e', false) ->
  settled e' /\ same e e' /\ forall b, In b l -> fixed f e' b.
Proof.
  induction l as [|b l IH]; intros I e e' G S H; cbn [ofold] in H.
  - injection H as <-. split; auto. split; [apply same_refl|intros b []].
  - apply bind_ok in H as ([e1 c1] & B & H). assert (IB : In b reach) by (apply I; left; auto). pose proof (flag_down _ _ _ _ _ H) as ->.
    destruct (block_settled _ _ _ _ _ G S IB B) as (S1 & M1 & F1). destruct (block_good _ _ _ _ _ _ _ G IB B) as (G1 & _).
    destruct (IH (fun q Q => I q (or_intror Q)) _ _ G1 S1 H) as (S2 & M2 & F2). split; auto. split; [eapply same_trans; eauto|].
    intros q [<-|Q]; [eapply fixed_same; eauto|auto].
Qed.
(** the first round, if it changes nothing *)
Definition plain (f : func) (x : bx) (b : nat) : Prop := x_in x = [] /\ outs x /\ blk f x b.
Lemma round_first f reach l : NoDup l -> incl l reach -> forall e e', good f reach e ->
  (forall b, In b l -> exists x, e b = Some x /\ x_in x = []) -> ofold (df_block f) (e, false) l = Ok (e', false) ->
  (forall b, In b l -> exists x, e' b = Some x /\ plain f x b) /\ (forall b, ~ In b l -> e' b = e b).
Proof.
  induction l as [|b l IH]; intros N I e e' G S H; cbn [ofold] in H.
  - injection H as <-. split; [intros b []|auto].
  - apply NoDup_cons_iff in N as (NB & N). apply bind_ok in H as ([e1 c1] & B & H). assert (IB : In b reach) by (apply I; left; auto). pose proof (flag_down _ _ _ _ _ H) as ->.
    destruct (block_good _ _ _ _ _ _ _ G IB B) as (G1 & O & x & i & o & X & X' & NI & I1 & I2 & IN & OD & C).
    assert (NONE : forall q, q <> b -> e1 q = e q).
    { intros q Q. destruct (e q) as [y|] eqn:Y; [now apply O|]. unfold df_block in B. cbn [fst snd] in B. apply bind_ok in B as (z & _ & B).
      apply bind_ok in B as (w & _ & B). injection B as <- _. unfold upd. destruct (Nat.eqb_spec q b); [contradiction|auto]. }
    destruct (IH N (fun q Q => I q (or_intror Q)) e1 e' G1) as (A1 & A2); auto.
    { intros q Q. rewrite NONE by congruence. apply S. now right. }
    split.
    + intros q [<-|Q]; [|auto]. rewrite A2 by auto. eexists. split; [exact X'|]. destruct (S b (or_introl eq_refl)) as (x0 & X0 & E0).
      rewrite X in X0. injection X0 as <-. cbn [orb] in C. symmetry in C. apply negb_false_iff in C. rewrite E0 in C.
      split; [|split; [apply out_outs; auto|]].
      * cbn. unfold equal_set in C. destruct i; [auto|discriminate].
      * destruct (gd_dom _ _ _ G b IB) as (y & Y & BY). rewrite X in Y. injection Y as <-. exact BY.
    + intros q Q. rewrite A2 by (intros K; apply Q; now right). apply NONE. intros ->. apply Q. now left.
Qed.
Lemma ofold_app {S A} (F : S -> A -> outcome S) l1 : forall l2 s s', ofold F s (l1 ++ l2) = Ok s' -> exists m, ofold F s l1 = Ok m /\ ofold F m l2 = Ok s'.
Proof.
  induction l1 as [|a l1 IH]; intros l2 s s' H; cbn [app ofold] in *; [eauto|]. apply bind_ok in H as (m & M & H).
  destruct (IH _ _ _ H) as (n & A1 & A2). exists n. rewrite M. auto.
Qed.

Lemma gens_dec f l r : gens f l r \/ ~ gens f l r.
Proof.
  destruct (in_dec Nat.eq_dec r l) as [I|I]; [|right; intros (K & _); contradiction]. destruct (f_insn f r) as [x|] eqn:X.
  - destruct (reserving x) eqn:R; [left; split; eauto|right; intros (_ & y & Y & K)]. congruence.
  - right. intros (_ & y & Y & _). congruence.
Qed.
Lemma not_both x r : reserving x = true -> releasing x r = false.
Proof.
  unfold reserving, releasing. destruct (iop_eq_dec (i_op x) CALL); [|discriminate]. intros E. apply Z.eqb_eq in E. rewrite E. reflexivity.
Qed.
Section Complete.
Variables (f : func) (reach : list nat).
Hypothesis MI : mirrored f.
Hypothesis CP : complete f reach.
Hypothesis LF : loop_free f reach.
Hypothesis MF : made_first f.
Hypothesis UN : forall a b i, In i (insns_of f a) -> In i (insns_of f b) -> a = b.
Lemma held_split b r : held_at f b r -> gens f (insns_of f b) r \/ before f b r.
Proof.
  intros H. destruct (gens_dec f (insns_of f b) r) as [G|G]; [auto|]. right. intros p W. specialize (H p W). rewrite held_snoc in H.
  apply after_held in H as [K|K]; [contradiction|auto].
Qed.
Lemma held_kept b r : In b reach -> (exists y, f_insn f r = Some y /\ reserving y = true) -> held_at f b r -> ~ kills f (insns_of f b) r.
Proof.
  intros I R H. destruct (cp_walk _ _ CP b I) as (p & W). specialize (H p W). rewrite held_snoc in H. eapply after_not_killed; eauto.
  - intros l1 i l2 x E X K. destruct R as (y & Y & R). eapply MF; eauto.
  - intros x X. destruct R as (y & Y & R). rewrite X in Y. injection Y as <-. now apply not_both.
Qed.
Lemma before_pred b r a : before f b r -> In a (preds_of f b) -> held_at f a r.
Proof. intros H A p W. apply H. apply wk_step; auto. now apply MI. Qed.
Lemma before_not_entry b r : before f b r -> b <> f_entry f.
Proof. intros H ->. specialize (H [] (wk_entry f)). discriminate. Qed.
Lemma held_made b r : held_at f b r -> In b reach -> exists y, f_insn f r = Some y /\ reserving y = true.
Proof.
  intros H I. destruct (cp_walk _ _ CP b I) as (p & W). specialize (H p W). unfold held in H. apply after_held in H as [(_ & G)|H]; [auto|discriminate].
Qed.
Lemma first_none (DI : discovered f reach) e0 e : start f reach e0 -> ofold (df_block f) (e0, false) reach = Ok (e, false) ->
  forall b r, In b reach -> ~ before f b r.
Proof.
  intros S R. destruct LF as (rank & RK). intros b. remember (rank b) as n eqn:EN. revert b EN.
  induction n as [n IH] using lt_wf_ind. intros b EN r I H.
  apply in_split in I as (l1 & l2 & EL). destruct (DI l1 b l2 EL) as [E|(a & AL & AP)]; [now apply before_not_entry in H|].
  assert (IB : In b reach) by (rewrite EL; apply in_or_app; right; left; auto).
  pose proof (start_good _ _ _ S) as G0.
  assert (ALL : forall q, In q (preds_of f b) -> q = a /\ gens f (insns_of f q) r /\ ~ kills f (insns_of f q) r).
  { assert (GQ : forall q, In q (preds_of f b) -> gens f (insns_of f q) r /\ ~ kills f (insns_of f q) r).
    { intros q Q. assert (QR : In q reach) by (eapply (cp_pred _ _ CP); eauto). pose proof (before_pred b r q H Q) as HQ.
      destruct (held_split q r HQ) as [GQ|BQ].
      - split; auto. apply held_kept; auto. apply GQ.
      - exfalso. apply (IH (rank q)) with (b := q) (r := r); auto. subst n. eauto. }
    intros q Q. destruct (GQ q Q) as (G1 & G2). destruct (GQ a AP) as (G3 & _). split; [|auto]. apply (UN q a r); [apply G1|apply G3]. }
  rewrite EL in R. apply ofold_app in R as ([e1 c1] & R1 & R2). pose proof (flag_down _ _ _ _ _ R2) as ->.
  pose proof (cp_once _ _ CP) as ND. rewrite EL in ND.
  assert (IL : incl l1 reach) by (intros q Q; rewrite EL; apply in_or_app; auto).
  assert (NL : NoDup l1) by (clear - ND; induction l1 as [|x l1 IH]; [constructor|]; cbn in ND; apply NoDup_cons_iff in ND as (A & B); constructor; [intros K; apply A, in_or_app; auto|auto]).
  assert (NB : ~ In b l1) by (apply NoDup_remove_2 in ND; intros K; apply ND, in_or_app; auto).
  destruct (round_first f reach l1 NL IL e0 e1 G0) as (A1 & A2); auto.
  { intros q Q. destruct (proj1 S q (IL q Q)) as (x & X & E & _). eauto. }
  cbn [ofold] in R2. apply bind_ok in R2 as ([e2 c2] & B & R2). pose proof (flag_down _ _ _ _ _ R2) as ->.
  destruct (round_good f reach l1 IL _ _ _ _ G0 R1) as (G1 & _).
  destruct (block_good _ _ _ _ _ _ _ G1 IB B) as (_ & _ & x & i & o & X & _ & _ & _ & _ & IN & _ & C).
  rewrite (A2 b NB) in X. destruct (proj1 S b IB) as (x' & X' & E & _). rewrite X in X'. injection X' as <-. rewrite E in C.
  cbn [orb] in C. symmetry in C. apply negb_false_iff in C. assert (i = []) by (unfold equal_set in C; destruct i; [auto|discriminate]). subst i.
  apply in_of_ok in IN as (_ & [(P & _)|(_ & SI)]); [rewrite P in AP; destruct AP|]. apply (proj2 (SI r)).
  intros q y Q Y. destruct (ALL q Q) as (-> & GQ & KQ). destruct (A1 a AL) as (z & Z & _ & OZ & B1 & B2 & _). rewrite Y in Z. injection Z as <-.
  apply OZ. rewrite B1, B2. auto.
Qed.
Lemma settled_complete e : good f reach e -> settled e -> (forall b, In b reach -> fixed f e b) ->
  forall b r x, In b reach -> e b = Some x -> held_at f b r -> In r (x_out x).
Proof.
  intros G S F. destruct LF as (rank & RK). intros b. remember (rank b) as n eqn:EN. revert b EN.
  induction n as [n IH] using lt_wf_ind. intros b EN r x I X H.
  destruct (gd_dom _ _ _ G b I) as (y & Y & B1 & B2 & _). rewrite X in Y. injection Y as <-.
  apply (S b x X). rewrite B1, B2. split; [|apply held_kept; auto; eapply held_made; eauto].
  destruct (held_split b r H) as [K|K]; [auto|]. left. apply (F b I x X). split.
  - destruct (cp_walk _ _ CP b I) as (p & W). destruct (walk_last _ _ _ W) as [(_ & E)|(q & a & _ & _ & Q)]; [now apply before_not_entry in K|].
    apply MI in Q. intros E. rewrite E in Q. destruct Q.
  - intros p z P Z. assert (PR : In p reach) by (eapply (cp_pred _ _ CP); eauto). apply (IH (rank p)) with (b := p); auto.
    + subst n. eauto.
    + eapply before_pred; eauto.
Qed.
Lemma round_outs l : incl l reach -> NoDup l -> forall e c e' c', good f reach e -> ofold (df_block f) (e, c) l = Ok (e', c') ->
  (forall b, In b l -> exists x, e' b = Some x /\ outs x) /\ (forall b, ~ In b l -> e' b = e b).
Proof.
  induction l as [|b l IH]; intros I N e c e' c' G H; cbn [ofold] in H; [injection H as <- <-; split; [intros b []|auto]|].
  apply NoDup_cons_iff in N as (NB & N). apply bind_ok in H as ([e1 c1] & B & H). assert (IB : In b reach) by (apply I; left; auto).
  destruct (block_good _ _ _ _ _ _ _ G IB B) as (G1 & O & x & i & o & X & X' & NI & I1 & I2 & IN & OD & C).
  destruct (IH (fun q Q => I q (or_intror Q)) N _ _ _ _ G1 H) as (A1 & A2). split.
  - intros q [<-|Q]; [|auto]. rewrite A2 by auto. eexists. split; [exact X'|]. now apply out_outs.
  - intros q Q. rewrite A2 by (intros K; apply Q; now right). unfold df_block in B. cbn [fst snd] in B. apply bind_ok in B as (z & _ & B).
    apply bind_ok in B as (w & _ & B). injection B as <- _. unfold upd. destruct (Nat.eqb_spec q b) as [->|]; [exfalso; apply Q; now left|auto].
Qed.
Lemma loop_settled : forall fuel e e', good f reach e -> settled e -> df_loop fuel f reach e = Ok e' ->
  settled e' /\ forall b, In b reach -> fixed f e' b.
Proof.
  induction fuel as [|k IH]; intros e e' G S H; cbn [df_loop] in H; [discriminate|]. apply bind_ok in H as ([e1 c1] & R & H). cbn [fst snd] in H.
  destruct (round_good f reach reach (incl_refl _) _ _ _ _ G R) as (G1 & _).
  destruct c1; [|injection H as <-; destruct (round_settled f reach reach (incl_refl _) e e1 G S R) as (A & _ & B); auto].
  apply (IH e1); auto. destruct (round_outs reach (incl_refl _) (cp_once _ _ CP) _ _ _ _ G R) as (A1 & A2).
  intros b x X. destruct (in_dec Nat.eq_dec b reach) as [I|I]; [|rewrite (gd_none _ _ _ G1 b I) in X; discriminate].
  destruct (A1 b I) as (y & Y & O). rewrite X in Y. injection Y as <-. exact O.
Qed.
Theorem df_complete fuel e : discovered f reach -> df fuel f reach = Ok e ->
  forall b x r, In b reach -> e b = Some x -> held_at f b r -> In r (x_out x).
Proof.
  intros DI H. pose proof (df_good _ _ _ _ H) as GE. unfold df in H. apply bind_ok in H as (e0 & S & H). apply scan_start in S.
  pose proof (start_good _ _ _ S) as G0. destruct fuel as [|k]; cbn [df_loop] in H; [discriminate|]. apply bind_ok in H as ([e1 c1] & R & H). cbn [fst snd] in H.
  destruct (round_good f reach reach (incl_refl _) _ _ _ _ G0 R) as (G1 & _).
  destruct (round_outs reach (incl_refl _) (cp_once _ _ CP) _ _ _ _ G0 R) as (A1 & _).
  destruct c1.
  - assert (S1 : settled e1).
    { intros b x X. destruct (in_dec Nat.eq_dec b reach) as [I|I]; [|rewrite (gd_none _ _ _ G1 b I) in X; discriminate].
      destruct (A1 b I) as (y & Y & O). rewrite X in Y. injection Y as <-. exact O. }
    destruct (loop_settled k e1 e G1 S1 H) as (S2 & F2). intros b x r I X HH. exact (settled_complete e GE S2 F2 b r x I X HH).
  - injection H as <-. intros b x r I X HH. destruct (A1 b I) as (y & Y & O). rewrite X in Y. injection Y as <-.
    destruct (gd_dom _ _ _ G1 b I) as (y & Y & B1 & B2 & _). rewrite X in Y. injection Y as <-.
    apply O. rewrite B1, B2. split; [|apply held_kept; auto; eapply held_made; eauto].
    destruct (held_split b r HH) as [K|K]; [auto|]. exfalso. exact (first_none DI e0 e1 S R b r I K).
Qed.
End Complete.

(** when the scan succeeds *)
Definition plainly (f : func) (l : list nat) : Prop :=
  forall i x, In i l -> f_insn f i = Some x -> i_op x = CALL -> i_u x = 132%Z \/ i_u x = 133%Z ->
    exists r y, releasing x r = true /\ f_insn f r = Some y /\ reserving y = true.
Lemma scan_insn_dec f s i x : f_insn f i = Some x ->
  (exists s', scan_insn f s i = Ok s') <-> (i_op x = CALL -> i_u x = 132%Z \/ i_u x = 133%Z -> exists r y, releasing x r = true /\ f_insn f r = Some y /\ reserving y = true).
Proof.
  intros X. unfold scan_insn. rewrite (proj2 (get_insn_ok _ _ _) X). cbn [bind]. unfold iop_eqb, releasing, DISCARD, SUBMIT.
  destruct (iop_eq_dec (i_op x) CALL) as [O|O]; [|split; [intros _ K; contradiction|eauto]].
  rewrite (orb_comm (i_u x =? 133)%Z). destruct ((i_u x =? 132)%Z || (i_u x =? 133)%Z) eqn:EU.
  - destruct (i_vals x) as [|v vs] eqn:EV.
    + cbn [nth_error andb]. split; [intros (s' & K); discriminate|]. intros K. destruct K as (r & y & K & _); auto; [|discriminate].
      apply orb_true_iff in EU as [E|E]; apply Z.eqb_eq in E; auto.
    + cbn [nth_error andb]. destruct (v_data v) as [?|?|?|d|?|] eqn:VD;
        try (split; [intros (s' & K); discriminate|intros K; destruct K as (r & y & K & _); auto; [|discriminate]; apply orb_true_iff in EU as [E|E]; apply Z.eqb_eq in E; auto]).
      split.
      * intros (s' & K) _ _. apply bind_ok in K as (y & Y & K). apply get_insn_ok in Y. rewrite is_reserve_eq in K. exists d, y.
        rewrite Nat.eqb_refl. destruct (reserving y); [auto|discriminate].
      * intros K. destruct K as (r & y & E & Y & R); auto. { apply orb_true_iff in EU as [E|E]; apply Z.eqb_eq in E; auto. }
        apply Nat.eqb_eq in E. subst r. rewrite (proj2 (get_insn_ok _ _ _) Y). cbn [bind]. rewrite is_reserve_eq, R. eauto.
  - split; [|eauto]. intros _ _ E. apply orb_false_iff in EU as (E1 & E2). apply Z.eqb_neq in E1, E2. tauto.
Qed.
Lemma scan_dec f l : (forall i, In i l -> f_insn f i <> None) -> forall s, (exists s', ofold (scan_insn f) s l = Ok s') <-> plainly f l.
Proof.
  induction l as [|i l IH]; intros D s; cbn [ofold].
  - split; [intros _ i x []|eauto].
  - destruct (f_insn f i) as [x|] eqn:X; [|exfalso; apply (D i); [now left|auto]]. pose proof (scan_insn_dec f s i x X) as SI.
    assert (D' : forall j, In j l -> f_insn f j <> None) by (intros j J; apply D; now right). split.
    + intros (s' & H). apply bind_ok in H as (s1 & H1 & H). intros j y [<-|J] Y O U.
      * rewrite X in Y. injection Y as <-. apply (proj1 SI); eauto.
      * apply (proj1 (IH D' s1)) with (i := j); eauto.
    + intros P. destruct (proj2 SI) as (s1 & E); [intros O U; apply (P i x); auto; now left|]. rewrite E. cbn [bind]. apply IH; auto.
      intros j y J. apply P. now right.
Qed.
Lemma scans_dec f l : (forall b, In b l -> f_block f b <> None) -> (forall b i, In i (insns_of f b) -> f_insn f i <> None) ->
  forall e, (exists e', ofold (scan_block f) e l = Ok e') <-> forall b, In b l -> plainly f (insns_of f b).
Proof.
  induction l as [|b l IH]; intros B D e; cbn [ofold].
  - split; [intros _ b []|eauto].
  - unfold scan_block at 1. destruct (f_block f b) as [bb|] eqn:EB; [|exfalso; apply (B b); [now left|auto]]. unfold get_block at 1. rewrite EB. cbn [bind].
    assert (IB : insns_of f b = b_insns bb) by (unfold insns_of; now rewrite EB).
    pose proof (scan_dec f (insns_of f b) (D b) ([], [])) as SD. rewrite IB in SD. split.
    + intros (e' & H). apply bind_ok in H as (e1 & H1 & H). apply bind_ok in H1 as (s & H1 & H2). intros c [<-|C].
      * rewrite IB. apply SD. eauto.
      * apply (proj1 (IH (fun c C => B c (or_intror C)) D e1)); eauto.
    + intros P. destruct (proj2 SD) as (s & E); [rewrite <- IB; apply P; now left|]. rewrite E. cbn [bind]. apply IH; auto.
      * intros c C. apply B. now right.
      * intros c C. apply P. now right.
Qed.
