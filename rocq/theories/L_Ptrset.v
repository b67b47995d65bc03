From Coq Require Import Permutation FinFun.
From Verif Require Import M_Base M_Ptrset SpecSet.

Lemma NoDup_map_in : forall A B (f : A -> B) l, NoDup l ->
  (forall x y, In x l -> In y l -> f x = f y -> x = y) -> NoDup (map f l).
Proof.
  intros A B f l. induction l as [|a l IH]; intros Hnd Hinj; simpl; [constructor|].
  inversion Hnd; subst. constructor.
  - intros Hin. apply in_map_iff in Hin. destruct Hin as (y & E & Hy).
    apply Hinj in E; [subst; contradiction|right; exact Hy|left; reflexivity].
  - apply IH; auto. intros x y Hx Hy. apply Hinj; right; assumption.
Qed.

(** ** Probe sequence *)

Definition probe (k : Z) (size i : nat) : nat := (start_index k size + STEP * i) mod size.

Definition good_size (n : nat) : Prop := 0 < n /\ Nat.gcd 31 n = 1.

Lemma start_index_lt : forall k n, 0 < n -> start_index k n < n.
Proof.
  intros k n H. unfold start_index.
  pose proof (Z.mod_pos_bound (hash32_ptr k) (Z.of_nat n) ltac:(lia)). lia.
Qed.

Lemma probe_0 : forall k n, 0 < n -> probe k n 0 = start_index k n.
Proof.
  intros k n H. unfold probe. rewrite Nat.mul_0_r, Nat.add_0_r.
  apply Nat.mod_small. apply start_index_lt; exact H.
Qed.

Lemma probe_S : forall k n i, 0 < n -> (probe k n i + STEP) mod n = probe k n (S i).
Proof.
  intros k n i H. unfold probe. rewrite Nat.add_mod_idemp_l by lia. f_equal. unfold STEP. lia.
Qed.

Lemma probe_lt : forall k n i, 0 < n -> probe k n i < n.
Proof. intros. apply Nat.mod_upper_bound. lia. Qed.

Lemma probe_inj : forall k n i j, good_size n -> i < n -> j < n -> probe k n i = probe k n j -> i = j.
Proof.
  intros k n i j [Hn Hg] Hi Hj H. unfold probe in H.
  assert (W : forall a b, a < b -> b < n -> (start_index k n + STEP * a) mod n = (start_index k n + STEP * b) mod n -> False).
  { intros a b Hab Hb E.
    assert (D : Nat.divide n (STEP * (b - a))).
    { pose proof (Nat.div_mod (start_index k n + STEP * a) n ltac:(lia)) as E1.
      pose proof (Nat.div_mod (start_index k n + STEP * b) n ltac:(lia)) as E2.
      exists ((start_index k n + STEP * b) / n - (start_index k n + STEP * a) / n).
      rewrite Nat.mul_sub_distr_r. rewrite <- E in E2.
      rewrite Nat.mul_sub_distr_l.
      lia. }
    assert (D2 : Nat.divide n (b - a)).
    { apply (Nat.gauss n STEP (b - a)); [exact D|]. unfold STEP. rewrite Nat.gcd_comm. exact Hg. }
    destruct D2 as [c Hc]. destruct c; [lia|]. nia. }
  destruct (Nat.lt_trichotomy i j) as [L|[L|L]]; auto; exfalso.
  - apply (W i j); auto.
  - apply (W j i); auto.
Qed.

Lemma probe_surj : forall k n j, good_size n -> j < n -> exists i, i < n /\ probe k n i = j.
Proof.
  intros k n j Hg Hj.
  set (l := map (probe k n) (seq 0 n)).
  assert (ND : NoDup l).
  { unfold l. apply NoDup_map_in; [apply seq_NoDup|].
    intros x y Hx Hy E. apply in_seq in Hx. apply in_seq in Hy.
    apply (probe_inj k n); auto; lia. }
  assert (I : incl (seq 0 n) l).
  { apply NoDup_length_incl; auto.
    - unfold l. rewrite map_length. lia.
    - intros x Hx. unfold l in Hx. apply in_map_iff in Hx. destruct Hx as (i & <- & _).
      apply in_seq. pose proof (probe_lt k n i (proj1 Hg)). lia. }
  specialize (I j ltac:(apply in_seq; lia)). unfold l in I. apply in_map_iff in I.
  destruct I as (i & E & Hi). apply in_seq in Hi. exists i. split; [lia|exact E].
Qed.

(** ** Table lemmas *)

Lemma set_slot_length : forall l i v, length (set_slot l i v) = length l.
Proof. induction l as [|x l IH]; intros [|i] v; simpl; auto. Qed.

Lemma nth_set_slot : forall l i j v, i < length l ->
  nth_error (set_slot l i v) j = if j =? i then Some v else nth_error l j.
Proof.
  induction l as [|x l IH]; intros i j v H; simpl in *; [lia|].
  destruct i as [|i]; destruct j as [|j]; simpl; auto. apply IH; lia.
Qed.

Lemma occ_keys_in : forall tab k, In k (occ_keys tab) <-> exists j, nth_error tab j = Some (SOcc k).
Proof.
  induction tab as [|s tab IH]; intros k; simpl.
  - split; [tauto|]. intros [[|j] H]; discriminate.
  - assert (R : (exists j, nth_error (s :: tab) j = Some (SOcc k)) <->
                s = SOcc k \/ exists j, nth_error tab j = Some (SOcc k)).
    { split.
      - intros [[|j] H]; simpl in H; [left; congruence|right; eauto].
      - intros [->|[j H]]; [exists 0; reflexivity|exists (S j); exact H]. }
    rewrite R. destruct s; simpl; rewrite IH; split; intros H.
    + right; exact H.
    + destruct H; [discriminate|assumption].
    + destruct H as [->|H]; auto.
    + destruct H as [H|H]; [injection H; auto|auto].
    + right; exact H.
    + destruct H; [discriminate|assumption].
Qed.

Lemma occ_keys_NoDup : forall tab,
  (forall i j k, nth_error tab i = Some (SOcc k) -> nth_error tab j = Some (SOcc k) -> i = j) ->
  NoDup (occ_keys tab).
Proof.
  induction tab as [|s tab IH]; intros H; simpl; [constructor|].
  assert (IH' : NoDup (occ_keys tab)).
  { apply IH. intros i j k Hi Hj. assert (S i = S j) by (apply (H (S i) (S j) k); auto). lia. }
  destruct s; auto. constructor; auto.
  intros Hin. apply occ_keys_in in Hin. destruct Hin as [j Hj].
  specialize (H 0 (S j) k eq_refl Hj). discriminate.
Qed.

Lemma occ_keys_length : forall tab, length (occ_keys tab) <= length tab.
Proof. induction tab as [|[| |] tab IH]; simpl; lia. Qed.

Lemma occ_full : forall tab, length (occ_keys tab) = length tab ->
  forall j s, nth_error tab j = Some s -> exists k, s = SOcc k.
Proof.
  induction tab as [|s0 tab IH]; intros H j s Hj; [destruct j; discriminate|].
  pose proof (occ_keys_length tab).
  destruct s0; simpl in H; try lia.
  destruct j as [|j]; simpl in Hj; [injection Hj as <-; eauto|]. apply (IH ltac:(lia) j s Hj).
Qed.

Lemma occ_not_full : forall tab, length (occ_keys tab) < length tab ->
  exists j s, nth_error tab j = Some s /\ (s = SEmpty \/ s = SDel).
Proof.
  induction tab as [|s0 tab IH]; simpl; intros H; [lia|].
  destruct s0.
  - exists 0, SEmpty. auto.
  - simpl in H. destruct (IH ltac:(lia)) as (j & s & Hj & Hs). exists (S j), s. auto.
  - exists 0, SDel. auto.
Qed.

(** ** Representation *)

(** every occupied slot is reached by its key's probe path without meeting an empty slot or the key itself *)
Definition reach_ok (tab : list slot) : Prop :=
  forall j k, nth_error tab j = Some (SOcc k) ->
  exists i, i < length tab /\ probe k (length tab) i = j /\
            forall i', i' < i -> exists s, nth_error tab (probe k (length tab) i') = Some s /\ s <> SEmpty /\ s <> SOcc k.

Definition no_tomb (tab : list slot) : Prop := forall j s, nth_error tab j = Some s -> s <> SDel.

Definition wf_tab (tab : list slot) : Prop := good_size (length tab) /\ reach_ok tab.

Lemma wf_unique : forall tab, wf_tab tab ->
  forall i j k, nth_error tab i = Some (SOcc k) -> nth_error tab j = Some (SOcc k) -> i = j.
Proof.
  intros tab [Hg Hr] i j k Hi Hj.
  destruct (Hr i k Hi) as (a & Ha & Ea & Pa). destruct (Hr j k Hj) as (b & Hb & Eb & Pb).
  destruct (Nat.lt_trichotomy a b) as [L|[L|L]].
  - destruct (Pb a L) as (s & Hs & _ & Hk). rewrite Ea in Hs. congruence.
  - subst b. congruence.
  - destruct (Pa b L) as (s & Hs & _ & Hk). rewrite Eb in Hs. congruence.
Qed.

Lemma slot_dec_stop : forall tab key j, j < length tab ->
  { (nth_error tab j = Some SEmpty \/ nth_error tab j = Some SDel) } +
  { nth_error tab j = Some (SOcc key) } +
  { exists k, nth_error tab j = Some (SOcc k) /\ k <> key }.
Proof.
  intros tab key j H. destruct (nth_error tab j) as [[|k|]|] eqn:E.
  - left; left; auto.
  - destruct (Z.eq_dec k key) as [->|]; [left; right; reflexivity|right; eauto].
  - left; left; auto.
  - exfalso. apply nth_error_None in E. lia.
Qed.

(** insert: the loop stops at the first slot on the path that is free or holds the key *)
Lemma insert_loop_stop : forall tab key n i m,
  0 < length tab -> i <= m -> m < i + n ->
  (forall i', i <= i' -> i' < m -> exists k, nth_error tab (probe key (length tab) i') = Some (SOcc k) /\ k <> key) ->
  (nth_error tab (probe key (length tab) m) = Some SEmpty \/ nth_error tab (probe key (length tab) m) = Some SDel) ->
  insert_loop tab key (probe key (length tab) i) n = Ok (set_slot tab (probe key (length tab) m) (SOcc key), true).
Proof.
  intros tab key. induction n as [|n IH]; intros i m Hs Him Hmn Hpre Hm; [lia|].
  cbn [insert_loop]. destruct (Nat.eq_dec i m) as [->|Hne].
  - destruct Hm as [->| ->]; reflexivity.
  - destruct (Hpre i ltac:(lia) ltac:(lia)) as (k & -> & Hk).
    destruct (Z.eqb_spec k key); [contradiction|].
    rewrite probe_S by exact Hs. apply IH; auto; try lia. intros i' H1 H2. apply Hpre; lia.
Qed.

Lemma insert_loop_found : forall tab key n i m,
  0 < length tab -> i <= m -> m < i + n ->
  (forall i', i <= i' -> i' < m -> exists k, nth_error tab (probe key (length tab) i') = Some (SOcc k) /\ k <> key) ->
  nth_error tab (probe key (length tab) m) = Some (SOcc key) ->
  insert_loop tab key (probe key (length tab) i) n = Ok (tab, false).
Proof.
  intros tab key. induction n as [|n IH]; intros i m Hs Him Hmn Hpre Hm; [lia|].
  cbn [insert_loop]. destruct (Nat.eq_dec i m) as [->|Hne].
  - rewrite Hm, Z.eqb_refl. reflexivity.
  - destruct (Hpre i ltac:(lia) ltac:(lia)) as (k & -> & Hk).
    destruct (Z.eqb_spec k key); [contradiction|].
    rewrite probe_S by exact Hs. apply IH with (m := m); auto; try lia. intros i' H1 H2. apply Hpre; lia.
Qed.

(** search for the first stopping position *)
Lemma first_stop : forall tab key n, 0 < length tab ->
  (forall i, i < n -> exists k, nth_error tab (probe key (length tab) i) = Some (SOcc k) /\ k <> key) \/
  (exists m, m < n /\ (forall i, i < m -> exists k, nth_error tab (probe key (length tab) i) = Some (SOcc k) /\ k <> key) /\
     (nth_error tab (probe key (length tab) m) = Some SEmpty \/ nth_error tab (probe key (length tab) m) = Some SDel \/
      nth_error tab (probe key (length tab) m) = Some (SOcc key))).
Proof.
  intros tab key n Hs. induction n as [|n IH].
  - left. intros i Hi; lia.
  - destruct IH as [H|(m & Hm & Hpre & Hst)].
    + destruct (slot_dec_stop tab key (probe key (length tab) n) (probe_lt _ _ _ Hs)) as [[H1|H1]|H1].
      * right. exists n. split; [lia|]. split; [exact H|]. tauto.
      * right. exists n. split; [lia|]. split; [exact H|]. tauto.
      * left. intros i Hi. destruct (Nat.eq_dec i n) as [->|]; [exact H1|apply H; lia].
    + right. exists m. split; [lia|]. auto.
Qed.

Definition free_slot (tab : list slot) (j : nat) : Prop :=
  nth_error tab j = Some SEmpty \/ nth_error tab j = Some SDel.

Lemma wf_no_key_before : forall tab key m, wf_tab tab -> m < length tab ->
  (forall i, i < m -> exists k, nth_error tab (probe key (length tab) i) = Some (SOcc k) /\ k <> key) ->
  nth_error tab (probe key (length tab) m) = Some SEmpty -> ~ In key (occ_keys tab).
Proof.
  intros tab key m [Hg Hr] Hm Hpre He Hin. apply occ_keys_in in Hin. destruct Hin as [j Hj].
  destruct (Hr j key Hj) as (i & Hi & Ei & Pi).
  destruct (Nat.lt_trichotomy i m) as [L|[L|L]].
  - destruct (Hpre i L) as (k & Hk & Hne). rewrite Ei in Hk. congruence.
  - subst i. congruence.
  - destruct (Pi m L) as (s & Hs & Hs1 & _). congruence.
Qed.

Lemma occ_keys_set_slot : forall tab j key, free_slot tab j -> Permutation (occ_keys (set_slot tab j (SOcc key))) (key :: occ_keys tab).
Proof.
  unfold free_slot. induction tab as [|s tab IH]; intros j key H.
  - destruct j; destruct H; discriminate.
  - destruct j as [|j]; simpl in *.
    + destruct H as [H|H]; injection H as ->; reflexivity.
    + specialize (IH j key H). destruct s; auto.
      simpl. rewrite IH. constructor.
Qed.

Lemma insert_loop_wf : forall tab key,
  wf_tab tab -> length (occ_keys tab) < length tab ->
  (no_tomb tab \/ ~ In key (occ_keys tab)) ->
  exists tab' added,
    insert_loop tab key (start_index key (length tab)) (length tab) = Ok (tab', added) /\
    wf_tab tab' /\ length tab' = length tab /\
    (no_tomb tab -> no_tomb tab') /\
    (if added then ~ In key (occ_keys tab) /\ Permutation (occ_keys tab') (key :: occ_keys tab)
     else In key (occ_keys tab) /\ tab' = tab).
Proof.
  intros tab key Hwf Hlen Hcond. pose proof Hwf as [Hg Hr]. pose proof (proj1 Hg) as Hpos.
  rewrite <- probe_0 by exact Hpos.
  destruct (first_stop tab key (length tab) Hpos) as [Hall|(m & Hm & Hpre & Hst)].
  - exfalso. destruct (occ_not_full tab Hlen) as (j & s & Hj & Hs).
    assert (Hjl : j < length tab) by (apply nth_error_Some; congruence).
    destruct (probe_surj key (length tab) j Hg Hjl) as (i & Hi & Ei).
    destruct (Hall i Hi) as (k & Hk & _). rewrite Ei in Hk. rewrite Hj in Hk.
    destruct Hs; subst s; discriminate.
  - assert (Hpm : probe key (length tab) m < length tab) by (apply probe_lt; exact Hpos).
    destruct (slot_dec_stop tab key (probe key (length tab) m) Hpm) as [[Hfree|Hk]|(k & Hk & Hne)].
    + exists (set_slot tab (probe key (length tab) m) (SOcc key)), true.
      assert (Hnk : ~ In key (occ_keys tab)).
      { destruct Hcond as [Ht|]; [|assumption].
        apply (wf_no_key_before tab key m Hwf Hm Hpre).
        destruct Hfree as [H|H]; [exact H|]. exfalso. exact (Ht _ _ H eq_refl). }
      split; [apply insert_loop_stop; auto; try lia|].
      split; [|split; [apply set_slot_length|split; [|split; [exact Hnk|apply occ_keys_set_slot; exact Hfree]]]].
      * split; rewrite ?set_slot_length; [exact Hg|].
        intros j k Hj. rewrite set_slot_length. rewrite nth_set_slot in Hj by exact Hpm.
        destruct (Nat.eqb_spec j (probe key (length tab) m)) as [->|Hjm].
        -- injection Hj as <-. exists m. split; [exact Hm|]. split; [reflexivity|].
           intros i' Hi'. destruct (Hpre i' Hi') as (k & Hk & Hne).
           exists (SOcc k). rewrite nth_set_slot by exact Hpm.
           destruct (Nat.eqb_spec (probe key (length tab) i') (probe key (length tab) m)) as [E|].
           ++ apply probe_inj in E; auto; lia.
           ++ split; [exact Hk|]. split; congruence.
        -- destruct (Hr j k Hj) as (i & Hi & Ei & Pi). exists i. split; [exact Hi|]. split; [exact Ei|].
           intros i' Hi'. destruct (Pi i' Hi') as (s & Hs & Hs1 & Hs2).
           rewrite nth_set_slot by exact Hpm.
           destruct (Nat.eqb_spec (probe k (length tab) i') (probe key (length tab) m)) as [E|].
           ++ exists (SOcc key). split; [reflexivity|]. split; [discriminate|].
              intros E2. injection E2 as ->. apply Hnk. apply occ_keys_in. eauto.
           ++ eauto.
      * intros Ht j s Hj. rewrite nth_set_slot in Hj by exact Hpm.
        destruct (Nat.eqb_spec j (probe key (length tab) m)); [injection Hj as <-; discriminate|].
        apply (Ht j s Hj).
    + exists tab, false. split; [apply insert_loop_found with (m := m); auto; lia|].
      split; [exact Hwf|]. split; [reflexivity|]. split; [auto|].
      split; [|reflexivity]. apply occ_keys_in. eauto.
    + exfalso. destruct Hst as [H|[H|H]]; congruence.
Qed.

(** ** lookups *)
Lemma path_find : forall tab key, wf_tab tab ->
  (exists m, m < length tab /\ nth_error tab (probe key (length tab) m) = Some (SOcc key) /\
     (forall i, i < m -> exists s, nth_error tab (probe key (length tab) i) = Some s /\ s <> SEmpty /\ s <> SOcc key)) \/
  ~ In key (occ_keys tab).
Proof.
  intros tab key [Hg Hr].
  destruct (in_dec Z.eq_dec key (occ_keys tab)) as [Hin|]; [left|right; assumption].
  apply occ_keys_in in Hin. destruct Hin as [j Hj].
  destruct (Hr j key Hj) as (i & Hi & Ei & Pi). exists i. rewrite Ei. auto.
Qed.

Lemma exists_loop_found : forall tab key n i m, 0 < length tab -> i <= m -> m < i + n ->
  nth_error tab (probe key (length tab) m) = Some (SOcc key) ->
  (forall i', i' < m -> exists s, nth_error tab (probe key (length tab) i') = Some s /\ s <> SEmpty /\ s <> SOcc key) ->
  exists_loop tab key (probe key (length tab) i) n = Ok true.
Proof.
  intros tab key. induction n as [|n IH]; intros i m Hs Him Hmn Hm Hpre; [lia|].
  cbn [exists_loop]. destruct (Nat.eq_dec i m) as [->|Hne].
  - rewrite Hm, Z.eqb_refl. reflexivity.
  - destruct (Hpre i ltac:(lia)) as (s & -> & H1 & H2). rewrite probe_S by exact Hs.
    destruct s as [|k|]; [contradiction| |apply IH with (m := m); auto; lia].
    destruct (Z.eqb_spec k key); [congruence|]. apply IH with (m := m); auto; lia.
Qed.

Lemma exists_loop_absent : forall tab key n i, 0 < length tab -> ~ In key (occ_keys tab) ->
  exists_loop tab key (probe key (length tab) i) n = Ok false.
Proof.
  intros tab key. induction n as [|n IH]; intros i Hs Hk; [reflexivity|].
  cbn [exists_loop]. destruct (nth_error tab (probe key (length tab) i)) as [[|k|]|] eqn:E.
  - reflexivity.
  - destruct (Z.eqb_spec k key) as [->|]; [exfalso; apply Hk, occ_keys_in; eauto|].
    rewrite probe_S by exact Hs. apply IH; auto.
  - rewrite probe_S by exact Hs. apply IH; auto.
  - exfalso. apply nth_error_None in E. pose proof (probe_lt key (length tab) i Hs). lia.
Qed.

Lemma exists_loop_wf : forall tab key, wf_tab tab ->
  exists_loop tab key (start_index key (length tab)) (length tab) = Ok (memb key (occ_keys tab)).
Proof.
  intros tab key Hwf. pose proof (proj1 (proj1 Hwf)) as Hpos. rewrite <- probe_0 by exact Hpos.
  destruct (path_find tab key Hwf) as [(m & Hm & Hk & Hpre)|Hk].
  - rewrite exists_loop_found with (m := m); auto; try lia.
    unfold memb. destruct (in_dec Z.eq_dec key (occ_keys tab)); [reflexivity|].
    exfalso. apply n, occ_keys_in. eauto.
  - rewrite exists_loop_absent by auto. unfold memb.
    destruct (in_dec Z.eq_dec key (occ_keys tab)); [contradiction|reflexivity].
Qed.

Lemma delete_loop_found : forall tab key n i m, 0 < length tab -> i <= m -> m < i + n ->
  nth_error tab (probe key (length tab) m) = Some (SOcc key) ->
  (forall i', i' < m -> exists s, nth_error tab (probe key (length tab) i') = Some s /\ s <> SEmpty /\ s <> SOcc key) ->
  delete_loop tab key (probe key (length tab) i) n = Ok (Some (set_slot tab (probe key (length tab) m) SDel)).
Proof.
  intros tab key. induction n as [|n IH]; intros i m Hs Him Hmn Hm Hpre; [lia|].
  cbn [delete_loop]. destruct (Nat.eq_dec i m) as [->|Hne].
  - rewrite Hm, Z.eqb_refl. reflexivity.
  - destruct (Hpre i ltac:(lia)) as (s & -> & H1 & H2). rewrite probe_S by exact Hs.
    destruct s as [|k|]; [contradiction| |apply IH with (m := m); auto; lia].
    destruct (Z.eqb_spec k key); [congruence|]. apply IH with (m := m); auto; lia.
Qed.

Lemma delete_loop_absent : forall tab key n i, 0 < length tab -> ~ In key (occ_keys tab) ->
  delete_loop tab key (probe key (length tab) i) n = Ok None.
Proof.
  intros tab key. induction n as [|n IH]; intros i Hs Hk; [reflexivity|].
  cbn [delete_loop]. destruct (nth_error tab (probe key (length tab) i)) as [[|k|]|] eqn:E.
  - reflexivity.
  - destruct (Z.eqb_spec k key) as [->|]; [exfalso; apply Hk, occ_keys_in; eauto|].
    rewrite probe_S by exact Hs. apply IH; auto.
  - rewrite probe_S by exact Hs. apply IH; auto.
  - exfalso. apply nth_error_None in E. pose proof (probe_lt key (length tab) i Hs). lia.
Qed.

Lemma occ_keys_del : forall tab j key, nth_error tab j = Some (SOcc key) ->
  Permutation (occ_keys tab) (key :: occ_keys (set_slot tab j SDel)).
Proof.
  induction tab as [|s tab IH]; intros j key H; [destruct j; discriminate|].
  destruct j as [|j]; simpl in *.
  - injection H as ->. reflexivity.
  - specialize (IH j key H). destruct s; auto. simpl.
    rewrite IH. constructor.
Qed.

Lemma delete_wf : forall tab j key, wf_tab tab -> nth_error tab j = Some (SOcc key) -> wf_tab (set_slot tab j SDel).
Proof.
  intros tab j key [Hg Hr] Hj.
  assert (Hjl : j < length tab) by (apply nth_error_Some; congruence).
  split; rewrite ?set_slot_length; [exact Hg|].
  intros j' k Hj'. rewrite set_slot_length. rewrite nth_set_slot in Hj' by exact Hjl.
  destruct (Nat.eqb_spec j' j); [discriminate|].
  destruct (Hr j' k Hj') as (i & Hi & Ei & Pi). exists i. split; [exact Hi|]. split; [exact Ei|].
  intros i' Hi'. destruct (Pi i' Hi') as (s & Hs & H1 & H2). rewrite nth_set_slot by exact Hjl.
  destruct (Nat.eqb_spec (probe k (length tab) i') j); [|eauto].
  exists SDel. split; [reflexivity|]. split; discriminate.
Qed.

(** ** whole sets *)
Definition prep (s : pset) (l : list Z) : Prop :=
  wf_tab (ps_tab s) /\ ps_cnt s = length (occ_keys (ps_tab s)) /\ Permutation (occ_keys (ps_tab s)) l.

Lemma good_double : forall n, good_size n -> good_size (n * 2).
Proof.
  intros n [H1 H2]. split; [lia|].
  assert (D : Nat.divide (Nat.gcd 31 (n * 2)) 31) by apply Nat.gcd_divide_l.
  pose proof (Nat.gcd_divide_r 31 (n * 2)) as D2.
  assert (Hp : Nat.gcd 31 (n * 2) = 1 \/ Nat.gcd 31 (n * 2) = 31).
  { destruct D as [c Hc]. set (g := Nat.gcd 31 (n * 2)) in *.
    assert (g <= 31) by (destruct c; nia).
    do 32 (destruct g as [|g]; [try (right; reflexivity); try (left; reflexivity); exfalso; lia|]).
    exfalso. lia. }
  destruct Hp as [|Hp]; [assumption|]. exfalso. rewrite Hp in D2.
  assert (Nat.divide 31 n).
  { apply (Nat.gauss 31 2 n); [rewrite Nat.mul_comm; exact D2|reflexivity]. }
  assert (Nat.divide 31 (Nat.gcd 31 n)) by (apply Nat.gcd_greatest; [exists 1; reflexivity|assumption]).
  rewrite H2 in H0. destruct H0 as [c Hc]. lia.
Qed.

Lemma repeat_empty_nth : forall n j s, nth_error (repeat SEmpty n) j = Some s -> s = SEmpty.
Proof. intros n j s H. apply nth_error_In in H. apply repeat_spec in H. exact H. Qed.

Lemma init_occ : forall n, occ_keys (repeat SEmpty n) = [].
Proof. induction n; simpl; auto. Qed.

Lemma init_wf : forall n, good_size n -> wf_tab (repeat SEmpty n) /\ no_tomb (repeat SEmpty n).
Proof.
  intros n Hg. split; [split|].
  - rewrite repeat_length. exact Hg.
  - intros j k H. apply repeat_empty_nth in H. discriminate.
  - intros j s H. apply repeat_empty_nth in H. subst. discriminate.
Qed.

Lemma init_prep : forall n, good_size n -> prep (ps_init n) [] /\ no_tomb (ps_tab (ps_init n)).
Proof.
  intros n Hg. destruct (init_wf n Hg). split; [|assumption].
  split; [assumption|]. simpl. rewrite init_occ. split; reflexivity.
Qed.

Lemma prep_in : forall s l k, prep s l -> (In k (occ_keys (ps_tab s)) <-> In k l).
Proof. intros s l k (_ & _ & P). split; apply Permutation_in; [exact P|symmetry; exact P]. Qed.

Lemma insert_raw_prep : forall s l k, prep s l -> length l < ps_size s ->
  (no_tomb (ps_tab s) \/ ~ In k l) ->
  exists s', insert_raw s k = Ok s' /\ prep s' (if memb k l then l else k :: l) /\ ps_size s' = ps_size s /\
             (no_tomb (ps_tab s) -> no_tomb (ps_tab s')).
Proof.
  intros s l k Hp Hl Hc. pose proof Hp as (Hwf & Hcnt & HP). unfold insert_raw, ps_size in *.
  pose proof (Permutation_length HP) as HL.
  destruct (Nat.eqb_spec (length (ps_tab s)) 0); [lia|].
  assert (Hc' : no_tomb (ps_tab s) \/ ~ In k (occ_keys (ps_tab s))).
  { destruct Hc as [|Hc]; [left; assumption|right]. rewrite (prep_in s l k Hp). exact Hc. }
  destruct (insert_loop_wf (ps_tab s) k Hwf ltac:(lia) Hc') as (tab' & added & E & Hwf' & Hlen & Ht & Hres).
  rewrite E. cbn [bind]. destruct added.
  - destruct Hres as [Hn HP']. eexists; split; [reflexivity|]. simpl. split; [|split; [exact Hlen|exact Ht]].
    split; [exact Hwf'|]. simpl. split.
    + rewrite (Permutation_length HP'). simpl. lia.
    + unfold memb. destruct (in_dec Z.eq_dec k l) as [Hin|Hin]; [exfalso; apply Hn; rewrite (prep_in s l k Hp); exact Hin|].
      rewrite HP'. constructor. exact HP.
  - destruct Hres as [Hi ->]. eexists; split; [reflexivity|]. simpl. split; [|split; [reflexivity|exact Ht]].
    split; [exact Hwf|]. simpl. split; [exact Hcnt|].
    unfold memb. destruct (in_dec Z.eq_dec k l) as [Hin|Hin]; [exact HP|].
    exfalso; apply Hin. rewrite <- (prep_in s l k Hp). exact Hi.
Qed.

Lemma occ_NoDup : forall tab, wf_tab tab -> NoDup (occ_keys tab).
Proof. intros tab H. apply occ_keys_NoDup. apply wf_unique; exact H. Qed.

Lemma prep_NoDup : forall s l, prep s l -> NoDup l.
Proof. intros s l (Hw & _ & P). eapply Permutation_NoDup; [exact P|]. apply occ_NoDup; exact Hw. Qed.

(** rehashing *)
Lemma rehash : forall ks s l, prep s l -> no_tomb (ps_tab s) -> length l + length ks <= ps_size s -> NoDup (ks ++ l) ->
  exists s', ofold insert_raw s ks = Ok s' /\ prep s' (rev ks ++ l) /\ no_tomb (ps_tab s') /\ ps_size s' = ps_size s.
Proof.
  induction ks as [|k ks IH]; intros s l Hp Ht Hlen Hnd; simpl in *.
  - eauto 10.
  - inversion Hnd as [|? ? Hk Hnd']; subst.
    destruct (insert_raw_prep s l k Hp ltac:(lia) (or_introl Ht)) as (s1 & -> & Hp1 & Hs1 & Ht1). cbn [bind].
    assert (Hm : memb k l = false).
    { unfold memb. destruct (in_dec Z.eq_dec k l); [|reflexivity]. exfalso. apply Hk. apply in_or_app; auto. }
    rewrite Hm in Hp1.
    destruct (IH s1 (k :: l) Hp1 (Ht1 Ht)) as (s2 & -> & Hp2 & Ht2 & Hs2).
    + simpl. lia.
    + eapply Permutation_NoDup; [|exact Hnd]. apply Permutation_middle.
    + exists s2. split; [reflexivity|]. rewrite <- app_assoc. simpl. split; [exact Hp2|]. split; [exact Ht2|lia].
Qed.

Lemma insert_prep : forall s l k, prep s l -> (no_tomb (ps_tab s) \/ ~ In k l) ->
  exists s', ps_insert s k = Ok s' /\ prep s' (if memb k l then l else k :: l) /\
             (no_tomb (ps_tab s) -> no_tomb (ps_tab s')).
Proof.
  intros s l k Hp Hc. pose proof Hp as (Hwf & Hcnt & HP). unfold ps_insert.
  pose proof (Permutation_length HP) as HL. pose proof (occ_keys_length (ps_tab s)) as HO.
  destruct (Nat.leb_spec (ps_size s) (ps_cnt s)) as [Hge|Hlt].
  - unfold ps_size in *.
    assert (Hg2 : good_size (length (ps_tab s) * 2)) by (apply good_double; apply Hwf).
    destruct (init_prep _ Hg2) as [Hp0 Ht0].
    destruct (rehash (occ_keys (ps_tab s)) (ps_init (length (ps_tab s) * 2)) [] Hp0 Ht0) as (s1 & E1 & Hp1 & Ht1 & Hs1).
    + unfold ps_size, ps_init; simpl. rewrite repeat_length. lia.
    + rewrite app_nil_r. apply occ_NoDup; exact Hwf.
    + rewrite E1. cbn [bind].
      set (s2 := mkPset (ps_tab s1) (ps_cnt s)).
      assert (Hp2 : prep s2 l).
      { destruct Hp1 as (Hw1 & Hc1 & HP1). split; [exact Hw1|]. simpl. rewrite app_nil_r in HP1.
        assert (PP : Permutation (occ_keys (ps_tab s1)) l).
        { rewrite HP1. rewrite <- Permutation_rev. exact HP. }
        split; [|exact PP]. rewrite (Permutation_length PP). lia. }
      destruct (insert_raw_prep s2 l k Hp2) as (s3 & E3 & Hp3 & _ & Ht3).
      * unfold ps_size, s2; simpl. unfold ps_size in Hs1. rewrite Hs1. simpl. rewrite repeat_length.
        pose proof (proj1 (proj1 Hwf)). lia.
      * left. exact Ht1.
      * exists s3. split; [exact E3|]. split; [exact Hp3|]. intros _. apply Ht3. exact Ht1.
  - cbn [bind]. destruct (insert_raw_prep s l k Hp ltac:(unfold ps_size in *; lia) Hc) as (s3 & E3 & Hp3 & _ & Ht3).
    eauto.
Qed.

Lemma exists_prep : forall s l k, prep s l -> ps_exists s k = Ok (memb k l).
Proof.
  intros s l k Hp. pose proof Hp as (Hwf & _ & HP). unfold ps_exists, ps_size.
  destruct (Nat.eqb_spec (length (ps_tab s)) 0); [pose proof (proj1 (proj1 Hwf)); lia|].
  rewrite exists_loop_wf by exact Hwf. f_equal. unfold memb.
  destruct (in_dec Z.eq_dec k (occ_keys (ps_tab s))) as [H|H]; destruct (in_dec Z.eq_dec k l) as [H'|H']; auto; exfalso.
  - apply H', (prep_in s l k Hp); exact H.
  - apply H, (prep_in s l k Hp); exact H'.
Qed.

Lemma remove_notin : forall k l, ~ In k l -> remove Z.eq_dec k l = l.
Proof. intros k l H. apply notin_remove. exact H. Qed.

Lemma remove_perm : forall k l, NoDup l -> In k l -> Permutation l (k :: remove Z.eq_dec k l).
Proof.
  intros k l. induction l as [|x l IH]; intros Hnd Hin; [destruct Hin|].
  inversion Hnd as [|? ? Hx Hnd']; subst. simpl. destruct (Z.eq_dec k x) as [->|Hne].
  - rewrite remove_notin by exact Hx. reflexivity.
  - destruct Hin as [->|Hin]; [congruence|]. rewrite (IH Hnd' Hin) at 1. constructor.
Qed.

Lemma delete_prep : forall s l k, prep s l ->
  exists s', ps_delete s k = Ok (s', memb k l) /\ prep s' (remove Z.eq_dec k l) /\
             (memb k l = false -> s' = s).
Proof.
  intros s l k Hp. pose proof Hp as (Hwf & Hcnt & HP). unfold ps_delete, ps_size.
  pose proof (proj1 (proj1 Hwf)) as Hpos.
  destruct (Nat.eqb_spec (length (ps_tab s)) 0); [lia|].
  rewrite <- probe_0 by exact Hpos.
  destruct (path_find (ps_tab s) k Hwf) as [(m & Hm & Hk & Hpre)|Hk].
  - rewrite delete_loop_found with (m := m); auto; try lia. cbn [bind].
    assert (Hin : In k l). { apply (prep_in s l k Hp). apply occ_keys_in. eauto. }
    unfold memb. destruct (in_dec Z.eq_dec k l); [|contradiction].
    eexists; split; [reflexivity|]. split; [|discriminate].
    pose proof (occ_keys_del _ _ _ Hk) as HD.
    split; [apply delete_wf with (key := k); auto|]. simpl.
    split.
    + rewrite Hcnt, (Permutation_length HD). simpl. lia.
    + apply Permutation_cons_inv with (a := k).
      rewrite <- HD, HP. apply remove_perm; [|assumption]. apply (prep_NoDup s l Hp).
  - rewrite delete_loop_absent by auto. cbn [bind].
    assert (Hin : ~ In k l). { rewrite <- (prep_in s l k Hp). exact Hk. }
    unfold memb. destruct (in_dec Z.eq_dec k l); [contradiction|].
    eexists; split; [reflexivity|]. split; [|auto]. rewrite remove_notin by assumption. exact Hp.
Qed.

(** ** histories *)
Lemma step_prep : forall s l o d, prep s l -> (d = false -> no_tomb (ps_tab s)) ->
  (match o with PIns k => negb d || negb (memb k l) | _ => true end) = true ->
  exists s', ps_step s o = Ok (s', snd (set_step l o)) /\ prep s' (fst (set_step l o)) /\
    ((match o with PDel k => d || memb k l | PClean => false | _ => d end) = false -> no_tomb (ps_tab s')).
Proof.
  intros s l o d Hp Ht Hok. destruct o; simpl.
  - destruct (insert_prep s l k Hp) as (s' & -> & Hp' & Ht').
    + destruct d; [right|left; auto]. simpl in Hok. unfold memb in Hok.
      destruct (in_dec Z.eq_dec k l); [discriminate|assumption].
    + eexists; split; [reflexivity|]. split; [exact Hp'|]. auto.
  - destruct (delete_prep s l k Hp) as (s' & -> & Hp' & Hs'). cbn [bind fst snd].
    eexists; split; [reflexivity|]. split; [exact Hp'|]. intros H. apply orb_false_elim in H. destruct H as [H1 H2].
    rewrite (Hs' H2). auto.
  - rewrite (exists_prep s l k Hp). eexists; split; [reflexivity|]. auto.
  - destruct Hp as (Hw & Hc & HP). rewrite Hc, (Permutation_length HP).
    eexists; split; [reflexivity|]. split; [|exact Ht]. split; auto.
  - eexists; split; [reflexivity|]. destruct (init_prep (ps_size s)) as [H1 H2]; [apply Hp|]. auto.
Qed.

Lemma run_prep : forall os s l d, prep s l -> (d = false -> no_tomb (ps_tab s)) -> no_dup_insert l d os = true ->
  exists s', ps_run s os = Ok (s', snd (set_run l os)) /\ prep s' (fst (set_run l os)).
Proof.
  induction os as [|o os IH]; intros s l d Hp Ht Hok; simpl in *; [eauto|].
  apply andb_true_iff in Hok. destruct Hok as [H1 H2].
  destruct (step_prep s l o d Hp Ht H1) as (s1 & -> & Hp1 & Ht1). cbn [bind].
  destruct (IH s1 (fst (set_step l o)) _ Hp1 Ht1 H2) as (s2 & E & Hp2).
  destruct (set_step l o) as [l1 out]; simpl in *. rewrite E. cbn [bind].
  destruct (set_run l1 os) as [l2 outs]; simpl in *. eauto.
Qed.

Lemma good_8 : good_size 8.
Proof. split; [lia|reflexivity]. Qed.

Lemma ps_refines_set : forall os, no_dup_insert [] false os = true ->
  exists s, ps_run ps_def os = Ok (s, snd (set_run [] os)) /\
            Permutation (occ_keys (ps_tab s)) (fst (set_run [] os)).
Proof.
  intros os H. destruct (init_prep 8 good_8) as [Hp Ht].
  destruct (run_prep os ps_def [] false Hp (fun _ => Ht) H) as (s & E & Hp').
  exists s. split; [exact E|]. apply Hp'.
Qed.

(** ** set algebra *)
Lemma inserts_prep : forall ks s l, prep s l -> no_tomb (ps_tab s) ->
  exists s' l', ofold ps_insert s ks = Ok s' /\ prep s' l' /\ no_tomb (ps_tab s') /\
     (forall k, In k l' <-> In k l \/ In k ks).
Proof.
  induction ks as [|k ks IH]; intros s l Hp Ht; simpl.
  - exists s, l. split; [reflexivity|]. split; [exact Hp|]. split; [exact Ht|]. intros k. simpl. tauto.
  - destruct (insert_prep s l k Hp (or_introl Ht)) as (s1 & -> & Hp1 & Ht1). cbn [bind].
    destruct (IH s1 _ Hp1 (Ht1 Ht)) as (s2 & l2 & -> & Hp2 & Ht2 & Hin).
    exists s2, l2. split; [reflexivity|]. split; [exact Hp2|]. split; [exact Ht2|]. intros x. split.
    + intros H. apply Hin in H. destruct H as [H|H]; [|tauto]. unfold memb in H.
      destruct (in_dec Z.eq_dec k l); simpl in H; tauto.
    + intros H. apply Hin. unfold memb. destruct (in_dec Z.eq_dec k l); simpl; [|tauto].
      destruct H as [H|[<-|H]]; auto.
Qed.

Definition members (s : pset) : list Z := occ_keys (ps_tab s).

(** states that occur: any set satisfying the representation invariant *)
Definition ps_ok (s : pset) : Prop := prep s (members s).

Lemma prep_ok : forall s l, prep s l -> ps_ok s /\ forall k, In k (members s) <-> In k l.
Proof.
  intros s l Hp. split.
  - destruct Hp as (A & B & C). split; [exact A|]. split; [exact B|]. reflexivity.
  - intros k. apply prep_in. exact Hp.
Qed.

Lemma union_ok : forall s1 s2, ps_ok s1 -> ps_ok s2 -> good_size (ps_cnt s1 + ps_cnt s2) ->
  exists s, ps_union s1 s2 = Ok s /\ ps_ok s /\ forall k, In k (members s) <-> In k (members s1) \/ In k (members s2).
Proof.
  intros s1 s2 H1 H2 Hg. unfold ps_union. destruct (init_prep _ Hg) as [Hp Ht].
  destruct (inserts_prep (members s1) _ _ Hp Ht) as (a & la & Ea & Hpa & Hta & Hia).
  unfold members in Ea. rewrite Ea. cbn [bind].
  destruct (inserts_prep (members s2) _ _ Hpa Hta) as (b & lb & Eb & Hpb & Htb & Hib).
  unfold members in Eb. rewrite Eb. exists b. split; [reflexivity|].
  destruct (prep_ok b lb Hpb) as [Hok Hm]. split; [exact Hok|].
  intros k. rewrite Hm, Hib, Hia. simpl. tauto.
Qed.

Lemma intersec_loop : forall s2, ps_ok s2 -> forall ks s l, prep s l -> no_tomb (ps_tab s) ->
  exists s' l', ofold (fun r k => do b <- ps_exists s2 k; if (b : bool) then ps_insert r k else Ok r) s ks = Ok s' /\
     prep s' l' /\ no_tomb (ps_tab s') /\ (forall k, In k l' <-> In k l \/ (In k ks /\ In k (members s2))).
Proof.
  intros s2 H2. induction ks as [|k ks IH]; intros s l Hp Ht; cbn [ofold].
  - exists s, l. split; [reflexivity|]. split; [exact Hp|]. split; [exact Ht|]. intros k. simpl. tauto.
  - rewrite (exists_prep s2 _ k H2). cbn [bind]. unfold memb at 1. fold (members s2).
    destruct (in_dec Z.eq_dec k (members s2)) as [Hk|Hk].
    + destruct (insert_prep s l k Hp (or_introl Ht)) as (s1 & -> & Hp1 & Ht1). cbn [bind].
      destruct (IH s1 _ Hp1 (Ht1 Ht)) as (s3 & l3 & -> & Hp3 & Ht3 & Hin).
      exists s3, l3. split; [reflexivity|]. split; [exact Hp3|]. split; [exact Ht3|].
      intros x. rewrite Hin. unfold memb. simpl.
      destruct (in_dec Z.eq_dec k l); simpl; intuition (subst; auto).
    + cbn [bind]. destruct (IH s l Hp Ht) as (s3 & l3 & -> & Hp3 & Ht3 & Hin).
      exists s3, l3. split; [reflexivity|]. split; [exact Hp3|]. split; [exact Ht3|].
      intros x. rewrite Hin. simpl. intuition (subst; auto; contradiction).
Qed.

Lemma intersec_ok : forall s1 s2, ps_ok s1 -> ps_ok s2 -> good_size (ps_cnt s1) ->
  exists s, ps_intersec s1 s2 = Ok s /\ ps_ok s /\ forall k, In k (members s) <-> In k (members s1) /\ In k (members s2).
Proof.
  intros s1 s2 H1 H2 Hg. unfold ps_intersec. destruct (init_prep _ Hg) as [Hp Ht].
  destruct (intersec_loop s2 H2 (members s1) _ _ Hp Ht) as (a & la & Ea & Hpa & Hta & Hia).
  unfold members in Ea at 1. rewrite Ea. exists a. split; [reflexivity|].
  destruct (prep_ok a la Hpa) as [Hok Hm]. split; [exact Hok|].
  intros k. rewrite Hm, Hia. simpl. tauto.
Qed.

Lemma clone_ok : forall s, ps_ok s -> exists s', ps_clone s = Ok s' /\ ps_ok s' /\ no_tomb (ps_tab s') /\
  forall k, In k (members s') <-> In k (members s).
Proof.
  intros s H. unfold ps_clone. destruct (init_prep (ps_size s)) as [Hp Ht]; [apply H|].
  destruct (inserts_prep (members s) _ _ Hp Ht) as (a & la & Ea & Hpa & Hta & Hia).
  unfold members in Ea. rewrite Ea. exists a. split; [reflexivity|].
  destruct (prep_ok a la Hpa) as [Hok Hm]. split; [exact Hok|]. split; [exact Hta|].
  intros k. rewrite Hm, Hia. simpl. tauto.
Qed.

Lemma add_ok : forall s1 s2, ps_ok s1 -> no_tomb (ps_tab s1) -> ps_ok s2 ->
  exists s, ps_add s1 s2 = Ok s /\ ps_ok s /\ forall k, In k (members s) <-> In k (members s1) \/ In k (members s2).
Proof.
  intros s1 s2 H1 Ht H2. unfold ps_add.
  destruct (inserts_prep (members s2) _ _ H1 Ht) as (a & la & Ea & Hpa & Hta & Hia).
  unfold members in Ea. rewrite Ea. exists a. split; [reflexivity|].
  destruct (prep_ok a la Hpa) as [Hok Hm]. split; [exact Hok|].
  intros k. rewrite Hm, Hia. tauto.
Qed.

Lemma minus_loop : forall ks s l, prep s l ->
  exists s' l', ofold (fun s k => do r <- ps_delete s k; Ok (fst r)) s ks = Ok s' /\ prep s' l' /\
     (forall k, In k l' <-> In k l /\ ~ In k ks).
Proof.
  induction ks as [|k ks IH]; intros s l Hp; cbn [ofold].
  - exists s, l. split; [reflexivity|]. split; [exact Hp|]. intros k. simpl. tauto.
  - destruct (delete_prep s l k Hp) as (s1 & -> & Hp1 & _). cbn [bind fst].
    destruct (IH s1 _ Hp1) as (s2 & l2 & -> & Hp2 & Hin). exists s2, l2.
    split; [reflexivity|]. split; [exact Hp2|]. intros x. rewrite Hin. simpl.
    split.
    + intros [H1 H2]. apply in_remove in H1. destruct H1. split; [assumption|]. intros [E|E]; [congruence|contradiction].
    + intros [H1 H2]. split; [|tauto]. apply in_in_remove; [intros E; apply H2; left; congruence|assumption].
Qed.

Lemma minus_ok : forall s1 s2, ps_ok s1 -> ps_ok s2 ->
  exists s, ps_minus s1 s2 = Ok s /\ ps_ok s /\ forall k, In k (members s) <-> In k (members s1) /\ ~ In k (members s2).
Proof.
  intros s1 s2 H1 H2. unfold ps_minus.
  destruct (minus_loop (members s2) _ _ H1) as (a & la & Ea & Hpa & Hia).
  unfold members in Ea. rewrite Ea. exists a. split; [reflexivity|].
  destruct (prep_ok a la Hpa) as [Hok Hm]. split; [exact Hok|].
  intros k. rewrite Hm, Hia. tauto.
Qed.

Lemma run_ok : forall os, no_dup_insert [] false os = true -> forall s outs,
  ps_run ps_def os = Ok (s, outs) -> ps_ok s /\ forall k, In k (members s) <-> In k (fst (set_run [] os)).
Proof.
  intros os H s outs E. destruct (init_prep 8 good_8) as [Hp Ht].
  destruct (run_prep os ps_def [] false Hp (fun _ => Ht) H) as (s' & E' & Hp').
  rewrite E' in E. injection E as <- <-. apply (prep_ok s' _ Hp').
Qed.

(** A set built from the default set by a history that never re-inserts a member after a deletion. *)
Definition built (os : list ps_op) (s : pset) : Prop :=
  no_dup_insert [] false os = true /\ exists outs, ps_run ps_def os = Ok (s, outs).

Lemma built_ok : forall os s, built os s -> ps_ok s /\ forall k, In k (members s) <-> In k (fst (set_run [] os)).
Proof. intros os s [H [outs E]]. apply (run_ok os H s outs E). Qed.

Lemma exists_members : forall s k, ps_ok s -> ps_exists s k = Ok (memb k (members s)).
Proof. intros s k H. apply exists_prep. exact H. Qed.

Lemma memb_iff : forall k a b, (In k a <-> In k b) -> memb k a = memb k b.
Proof. intros k a b H. unfold memb. destruct (in_dec Z.eq_dec k a), (in_dec Z.eq_dec k b); tauto. Qed.

(** membership as seen through the API *)
Definition answers (s : pset) (f : Z -> bool) : Prop := forall k, ps_exists s k = Ok (f k).

Lemma gcd31 : forall n, Nat.gcd 31 n = 1 -> 0 < n -> good_size n.
Proof. intros n H1 H2. split; assumption. Qed.

Lemma built_answers : forall os s, built os s -> answers s (fun k => memb k (fst (set_run [] os))).
Proof.
  intros os s H k. destruct (built_ok os s H) as [Hok Hin]. rewrite exists_members by exact Hok.
  f_equal. apply memb_iff. apply Hin.
Qed.

Lemma union_answers : forall o1 o2 s1 s2, built o1 s1 -> built o2 s2 ->
  0 < ps_cnt s1 + ps_cnt s2 -> Nat.gcd 31 (ps_cnt s1 + ps_cnt s2) = 1 ->
  exists s, ps_union s1 s2 = Ok s /\
    answers s (fun k => memb k (fst (set_run [] o1)) || memb k (fst (set_run [] o2))).
Proof.
  intros o1 o2 s1 s2 H1 H2 Hp Hg. destruct (built_ok _ _ H1) as [Hk1 Hi1]. destruct (built_ok _ _ H2) as [Hk2 Hi2].
  destruct (union_ok s1 s2 Hk1 Hk2 (gcd31 _ Hg Hp)) as (s & E & Hok & Hin). exists s. split; [exact E|].
  intros k. rewrite exists_members by exact Hok. f_equal.
  unfold memb. specialize (Hin k). rewrite Hi1, Hi2 in Hin.
  destruct (in_dec Z.eq_dec k (members s)), (in_dec Z.eq_dec k (fst (set_run [] o1))), (in_dec Z.eq_dec k (fst (set_run [] o2))); simpl; tauto.
Qed.

Lemma intersec_answers : forall o1 o2 s1 s2, built o1 s1 -> built o2 s2 ->
  0 < ps_cnt s1 -> Nat.gcd 31 (ps_cnt s1) = 1 ->
  exists s, ps_intersec s1 s2 = Ok s /\
    answers s (fun k => memb k (fst (set_run [] o1)) && memb k (fst (set_run [] o2))).
Proof.
  intros o1 o2 s1 s2 H1 H2 Hp Hg. destruct (built_ok _ _ H1) as [Hk1 Hi1]. destruct (built_ok _ _ H2) as [Hk2 Hi2].
  destruct (intersec_ok s1 s2 Hk1 Hk2 (gcd31 _ Hg Hp)) as (s & E & Hok & Hin). exists s. split; [exact E|].
  intros k. rewrite exists_members by exact Hok. f_equal.
  unfold memb. specialize (Hin k). rewrite Hi1, Hi2 in Hin.
  destruct (in_dec Z.eq_dec k (members s)), (in_dec Z.eq_dec k (fst (set_run [] o1))), (in_dec Z.eq_dec k (fst (set_run [] o2))); simpl; tauto.
Qed.

Lemma minus_answers : forall o1 o2 s1 s2, built o1 s1 -> built o2 s2 ->
  exists s, ps_minus s1 s2 = Ok s /\
    answers s (fun k => memb k (fst (set_run [] o1)) && negb (memb k (fst (set_run [] o2)))).
Proof.
  intros o1 o2 s1 s2 H1 H2. destruct (built_ok _ _ H1) as [Hk1 Hi1]. destruct (built_ok _ _ H2) as [Hk2 Hi2].
  destruct (minus_ok s1 s2 Hk1 Hk2) as (s & E & Hok & Hin). exists s. split; [exact E|].
  intros k. rewrite exists_members by exact Hok. f_equal.
  unfold memb. specialize (Hin k). rewrite Hi1, Hi2 in Hin.
  destruct (in_dec Z.eq_dec k (members s)), (in_dec Z.eq_dec k (fst (set_run [] o1))), (in_dec Z.eq_dec k (fst (set_run [] o2))); simpl; tauto.
Qed.

Lemma clone_answers : forall o s, built o s ->
  exists s', ps_clone s = Ok s' /\ answers s' (fun k => memb k (fst (set_run [] o))).
Proof.
  intros o s H. destruct (built_ok _ _ H) as [Hk Hi]. destruct (clone_ok s Hk) as (s' & E & Hok & _ & Hin).
  exists s'. split; [exact E|]. intros k. rewrite exists_members by exact Hok. f_equal.
  apply memb_iff. rewrite Hin. apply Hi.
Qed.

(** additions into a set that never had a deletion *)
Definition no_del (os : list ps_op) : bool := forallb (fun o => match o with PDel _ => false | _ => true end) os.

Lemma no_del_tomb : forall os s l s' outs, prep s l -> no_tomb (ps_tab s) -> no_del os = true ->
  ps_run s os = Ok (s', outs) -> no_tomb (ps_tab s').
Proof.
  induction os as [|o os IH]; intros s l s' outs Hp Ht Hd E; simpl in *.
  - injection E as <- <-. exact Ht.
  - apply andb_true_iff in Hd. destruct Hd as [Hd1 Hd2].
    assert (Hok : (match o with PIns k => negb false || negb (memb k l) | _ => true end) = true) by (destruct o; reflexivity).
    destruct (step_prep s l o false Hp (fun _ => Ht) Hok) as (s1 & E1 & Hp1 & Ht1).
    rewrite E1 in E. cbn [bind] in E.
    destruct (ps_run s1 os) as [[s2 outs2]| | | |] eqn:E2; simpl in E; try discriminate.
    injection E as <- <-. eapply (IH s1 _ s2 outs2 Hp1); auto.
    apply Ht1. destruct o; simpl in *; auto; discriminate.
Qed.

Lemma add_answers : forall o1 o2 s1 s2, built o1 s1 -> no_del o1 = true -> built o2 s2 ->
  exists s, ps_add s1 s2 = Ok s /\
    answers s (fun k => memb k (fst (set_run [] o1)) || memb k (fst (set_run [] o2))).
Proof.
  intros o1 o2 s1 s2 H1 Hd H2. destruct (built_ok _ _ H1) as [Hk1 Hi1]. destruct (built_ok _ _ H2) as [Hk2 Hi2].
  assert (Ht : no_tomb (ps_tab s1)).
  { destruct H1 as [_ [outs E]]. destruct (init_prep 8 good_8) as [Hp Ht0].
    apply (no_del_tomb o1 ps_def [] s1 outs Hp Ht0 Hd E). }
  destruct (add_ok s1 s2 Hk1 Ht Hk2) as (s & E & Hok & Hin). exists s. split; [exact E|].
  intros k. rewrite exists_members by exact Hok. f_equal.
  unfold memb. specialize (Hin k). rewrite Hi1, Hi2 in Hin.
  destruct (in_dec Z.eq_dec k (members s)), (in_dec Z.eq_dec k (fst (set_run [] o1))), (in_dec Z.eq_dec k (fst (set_run [] o2))); simpl; tauto.
Qed.

(** The number of elements needed for the multiple-of-31 failure *)
Definition ins_range (a n : nat) : list ps_op := map (fun i => PIns (Z.of_nat i)) (seq a n).
