From Verif Require Import M_Base M_Array SpecSeq.

(** Representation relation between a buffer and the sequence it stands for. *)
Definition arep (a : arr) (l : list Z) : Prop :=
  a_num a = length l /\
  match a_data a with
  | None => l = []
  | Some d => length d = a_max a /\ a_num a <= a_max a /\ 2 <= a_max a /\
              firstn (a_num a) d = map Some l
  end.

Lemma set_cell_spec : forall l i v, i < length l ->
  exists l', set_cell l i v = Some l' /\ l' = firstn i l ++ v :: skipn (S i) l.
Proof.
  induction l as [|x l IH]; simpl; intros i v Hi; [lia|].
  destruct i as [|i]; [eexists; split; [reflexivity|]; reflexivity|].
  destruct (IH i v ltac:(lia)) as (l' & -> & ->). eexists; split; reflexivity.
Qed.

Lemma set_cell_length : forall l i v l', set_cell l i v = Some l' -> length l' = length l.
Proof.
  induction l as [|x l IH]; simpl; intros [|i] v l' H; try discriminate.
  - injection H as <-. reflexivity.
  - destruct (set_cell l i v) eqn:E; [|discriminate]. injection H as <-. simpl. f_equal. eauto.
Qed.

Lemma firstn_push : forall (d : list (option Z)) n x, n < length d ->
  firstn (n + 1) (firstn n d ++ x :: skipn (S n) d) = firstn n d ++ [x].
Proof.
  intros d n x H. rewrite firstn_app. rewrite firstn_length, Nat.min_l by lia.
  replace (n + 1 - n) with 1 by lia. rewrite firstn_all2 by (rewrite firstn_length; lia).
  reflexivity.
Qed.

Lemma push_rep : forall a l x, arep a l -> exists a', arr_push a x = Ok a' /\ arep a' (l ++ [x]).
Proof.
  intros [d n m] l x [Hn Hd]; simpl in *. unfold arr_push; simpl.
  destruct d as [d|].
  - destruct Hd as (Hl & Hnm & Hm & Hf).
    destruct (m <=? n) eqn:E.
    + apply Nat.leb_le in E. assert (Hmn : m = n) by lia. rewrite Hmn in *. clear Hmn.
      replace (length d <? n) with false by (symmetry; apply Nat.ltb_ge; lia).
      replace (n * 2 <? n) with false by (symmetry; apply Nat.ltb_ge; lia).
      cbn [bind].
      set (d2 := firstn n d ++ repeat None (n * 2 - n)).
      assert (Hlen : length d2 = n * 2).
      { unfold d2. rewrite app_length, firstn_length, repeat_length. lia. }
      assert (Hd2 : firstn n d2 = map Some l).
      { unfold d2. rewrite firstn_app, firstn_firstn, firstn_length.
        rewrite Nat.min_id. replace (n - min n (length d)) with 0 by lia.
        simpl. rewrite app_nil_r. exact Hf. }
      destruct (set_cell_spec d2 n (Some x) ltac:(lia)) as (d' & E1 & E2).
      cbv beta iota; fold d2; rewrite E1. eexists; split; [reflexivity|]. split; simpl.
      * rewrite app_length; simpl; lia.
      * apply set_cell_length in E1. rewrite E1, Hlen.
        repeat split; try lia. rewrite E2, firstn_push by lia.
        rewrite Hd2, map_app. reflexivity.
    + apply Nat.leb_gt in E. cbn [bind].
      destruct (set_cell_spec d n (Some x) ltac:(lia)) as (d' & E1 & E2).
      rewrite E1. eexists; split; [reflexivity|]. split; simpl.
      * rewrite app_length; simpl; lia.
      * apply set_cell_length in E1. rewrite E1, Hl.
        repeat split; try lia. rewrite E2, firstn_push by lia.
        rewrite Hf, map_app. reflexivity.
  - subst l. simpl in Hn. subst n. simpl. eexists; split; [reflexivity|].
    split; simpl; [reflexivity|]. repeat split; lia.
Qed.

Lemma nth_error_firstn_lt : forall A (l : list A) i n, i < n -> nth_error (firstn n l) i = nth_error l i.
Proof.
  intros A l. induction l as [|x l IH]; intros i n H.
  - rewrite firstn_nil. reflexivity.
  - destruct n as [|n]; [lia|]. destruct i as [|i]; simpl; [reflexivity|]. apply IH; lia.
Qed.

Lemma cell_rep : forall a l i z, arep a l -> nth_error l i = Some z -> arr_cell a i = Ok z.
Proof.
  intros [d n m] l i z [Hn Hd] Hz; simpl in *. unfold arr_cell; simpl.
  assert (Hi : i < length l) by (apply nth_error_Some; congruence).
  destruct d as [d|]; [|subst l; simpl in Hi; lia].
  destruct Hd as (Hl & Hnm & Hm & Hf).
  rewrite <- (nth_error_firstn_lt _ d i n) by lia. rewrite Hf.
  erewrite map_nth_error by exact Hz. reflexivity.
Qed.

Lemma mem_from_rep : forall a l x, arep a l -> forall n i, i + n = length l ->
  arr_mem_from a i n x = Ok (if in_dec Z.eq_dec x (skipn i l) then true else false).
Proof.
  intros a l x Ha. induction n as [|n IH]; intros i Hi; simpl.
  - rewrite skipn_all2 by lia. reflexivity.
  - assert (Hlt : i < length l) by lia.
    destruct (nth_error l i) as [z|] eqn:Ez; [|apply nth_error_None in Ez; lia].
    rewrite (cell_rep a l i z Ha Ez). cbn [bind].
    assert (Hs : skipn i l = z :: skipn (i + 1) l).
    { replace (i + 1) with (S i) by lia. clear - Ez. revert l Ez.
      induction i as [|i IH]; intros [|y l] Ez; simpl in *; try discriminate.
      - injection Ez as ->. reflexivity.
      - apply IH. exact Ez. }
    rewrite Hs. destruct (Z.eqb_spec z x) as [->|Hne].
    + destruct (in_dec Z.eq_dec x (x :: _)) as [|Hn]; [reflexivity|]. exfalso; apply Hn; now left.
    + rewrite IH by lia.
      destruct (in_dec Z.eq_dec x (skipn (i + 1) l)) as [H1|H1];
        destruct (in_dec Z.eq_dec x (z :: skipn (i + 1) l)) as [H2|H2]; try reflexivity.
      * exfalso; apply H2; now right.
      * exfalso. destruct H2; congruence.
Qed.

Lemma push_unique_rep : forall a l x, arep a l ->
  exists a', arr_push_unique a x = Ok a' /\ arep a' (seq_add l x).
Proof.
  intros a l x Ha. unfold arr_push_unique.
  rewrite (mem_from_rep a l x Ha) by (destruct Ha; lia). cbn [bind].
  unfold seq_add. simpl skipn. destruct (in_dec Z.eq_dec x l).
  - eauto.
  - apply push_rep; assumption.
Qed.

(** the shifting loop *)
Lemma shift_spec : forall n d i, i + n < length d ->
  exists d', arr_shift d i n = Ok d' /\ length d' = length d /\
    firstn i d' = firstn i d /\
    (forall k, i <= k < i + n -> nth_error d' k = nth_error d (k + 1)) /\
    (forall k, i + n <= k -> nth_error d' k = nth_error d k).
Proof.
  induction n as [|n IH]; intros d i H; simpl.
  - exists d. repeat split; auto. intros k Hk; lia.
  - destruct (nth_error d (i + 1)) as [c|] eqn:Ec; [|apply nth_error_None in Ec; lia].
    destruct (set_cell_spec d i c ltac:(lia)) as (d1 & E1 & E2). rewrite E1.
    pose proof (set_cell_length _ _ _ _ E1) as Hl1.
    assert (Hnth : forall k, nth_error d1 k = if k =? i then Some c else nth_error d k).
    { intros k. rewrite E2. destruct (Nat.eqb_spec k i) as [->|Hki].
      - rewrite nth_error_app2; rewrite firstn_length; [|lia].
        replace (i - min i (length d)) with 0 by lia. reflexivity.
      - destruct (Nat.lt_ge_cases k i) as [Hlt|Hge].
        + rewrite nth_error_app1 by (rewrite firstn_length; lia).
          apply nth_error_firstn_lt; lia.
        + rewrite nth_error_app2; rewrite firstn_length; [|lia].
          rewrite Nat.min_l by lia. destruct (k - i) as [|j] eqn:Ej; [lia|].
          simpl. rewrite <- (firstn_skipn (S i) d) at 2.
          rewrite nth_error_app2; rewrite firstn_length; [|lia].
          f_equal. lia. }
    destruct (IH d1 (i + 1) ltac:(lia)) as (d' & Ed' & Hlen & Hf & Hmid & Hafter).
    exists d'. split; [exact Ed'|]. split; [lia|]. split; [|split].
    + assert (Hff : firstn i d' = firstn i d1).
      { replace (firstn i d') with (firstn i (firstn (i + 1) d'))
          by (rewrite firstn_firstn; f_equal; lia).
        replace (firstn i d1) with (firstn i (firstn (i + 1) d1))
          by (rewrite firstn_firstn; f_equal; lia).
        rewrite Hf. reflexivity. }
      rewrite Hff, E2. rewrite firstn_app, firstn_firstn, firstn_length.
      replace (i - min i (length d)) with 0 by lia. simpl. rewrite app_nil_r. f_equal. lia.
    + intros k Hk. destruct (Nat.eq_dec k i) as [->|Hki].
      * assert (Hd'i : nth_error d' i = nth_error d1 i).
        { rewrite <- (nth_error_firstn_lt _ d' i (i + 1)) by lia.
          rewrite Hf. apply nth_error_firstn_lt; lia. }
        rewrite Hd'i, Hnth, Nat.eqb_refl. symmetry; exact Ec.
      * rewrite Hmid by lia. rewrite Hnth.
        destruct (Nat.eqb_spec (k + 1) i); [lia|]. reflexivity.
    + intros k Hk. rewrite Hafter by lia. rewrite Hnth.
      destruct (Nat.eqb_spec k i); [lia|]. reflexivity.
Qed.

Lemma nth_error_seq_remove : forall A (l : list A) i k,
  nth_error (seq_remove i l) k = if k <? i then nth_error l k else nth_error l (k + 1).
Proof.
  intros A l. induction l as [|x l IH]; intros i k.
  - assert (H : forall j, nth_error (@nil A) j = None) by (intros [|j]; reflexivity).
    replace (seq_remove i (@nil A)) with (@nil A) by (destruct i; reflexivity).
    rewrite !H. destruct (k <? i); reflexivity.
  - destruct i as [|i]; simpl.
    + replace (k + 1) with (S k) by lia. reflexivity.
    + destruct k as [|k]; simpl; [reflexivity|]. rewrite IH.
      replace (S k <? S i) with (k <? i) by reflexivity. reflexivity.
Qed.

Lemma seq_remove_length : forall A (l : list A) i, i < length l -> length (seq_remove i l) = length l - 1.
Proof.
  intros A l. induction l as [|x l IH]; simpl; intros i Hi; [lia|].
  destruct i as [|i]; simpl; [lia|]. rewrite IH by lia. lia.
Qed.

Lemma seq_remove_out : forall A (l : list A) i, length l <= i -> seq_remove i l = l.
Proof.
  intros A l. induction l as [|x l IH]; simpl; intros i Hi; [destruct i; reflexivity|].
  destruct i as [|i]; [lia|]. simpl; f_equal. apply IH; lia.
Qed.

Lemma nth_error_ext : forall A (l l' : list A), (forall i, nth_error l i = nth_error l' i) -> l = l'.
Proof.
  intros A l. induction l as [|x l IH]; intros [|y l'] H; auto.
  - specialize (H 0); discriminate.
  - specialize (H 0); discriminate.
  - f_equal; [specialize (H 0); simpl in H; congruence|].
    apply IH. intros i. apply (H (S i)).
Qed.

Lemma erase_rep : forall a l i, arep a l -> exists a', arr_erase a i = Ok a' /\ arep a' (seq_remove i l).
Proof.
  intros a l i Ha. pose proof Ha as [Hn Hd]. unfold arr_erase.
  destruct (Nat.leb_spec (a_num a) i) as [Hle|Hlt].
  - exists a. split; [reflexivity|]. rewrite seq_remove_out by lia. exact Ha.
  - destruct a as [d n m]; simpl in *. destruct d as [d|]; [|subst l; simpl in *; lia].
    destruct Hd as (Hl & Hnm & Hm & Hf).
    destruct (shift_spec (n - 1 - i) d i ltac:(lia)) as (d' & Ed' & Hlen & Hfi & Hmid & Hafter).
    rewrite Ed'. cbn [bind]. eexists; split; [reflexivity|].
    split; simpl; [rewrite seq_remove_length by lia; lia|].
    repeat split; try lia.
    apply nth_error_ext. intros k.
    destruct (Nat.lt_ge_cases k (n - 1)) as [Hk|Hk].
    + rewrite nth_error_firstn_lt by lia.
      assert (Hd : forall j, j < n -> nth_error d j = option_map Some (nth_error l j)).
      { intros j Hj. rewrite <- (nth_error_firstn_lt _ d j n) by lia. rewrite Hf.
        apply nth_error_map. }
      rewrite nth_error_map, nth_error_seq_remove.
      destruct (Nat.ltb_spec k i) as [Hki|Hki].
      * rewrite <- (nth_error_firstn_lt _ d' k i) by lia. rewrite Hfi.
        rewrite nth_error_firstn_lt by lia. apply Hd; lia.
      * rewrite Hmid by lia. apply Hd; lia.
    + transitivity (@None (option Z)); [|symmetry]; apply nth_error_None.
      * rewrite firstn_length; lia.
      * rewrite map_length, seq_remove_length by lia. lia.
Qed.

Lemma clear_rep : forall a, arep (arr_clear a) [].
Proof. intros a. split; simpl; auto. repeat split; lia. Qed.

Lemma clone_rep : forall a l, arep a l -> exists a', arr_clone a = Ok a' /\ arep a' l.
Proof.
  intros a l Ha. pose proof Ha as [Hn Hd]. unfold arr_clone.
  destruct (Nat.eqb_spec (a_num a) 0) as [H0|H0].
  - eexists; split; [reflexivity|]. split; simpl; [lia|].
    destruct l; [reflexivity|simpl in Hn; lia].
  - destruct a as [d n m]; simpl in *. destruct d as [d|]; [|subst l; simpl in *; lia].
    destruct Hd as (Hl & Hnm & Hm & Hf).
    replace (length d <? n) with false by (symmetry; apply Nat.ltb_ge; lia).
    replace (m <? n) with false by (symmetry; apply Nat.ltb_ge; lia).
    eexists; split; [reflexivity|]. split; simpl; [exact Hn|].
    rewrite app_length, firstn_length, repeat_length. repeat split; try lia.
    rewrite firstn_app, firstn_firstn, firstn_length, Nat.min_id.
    replace (n - min n (length d)) with 0 by lia. simpl. rewrite app_nil_r. exact Hf.
Qed.

Lemma init_rep : arep arr_init [].
Proof. split; reflexivity. Qed.

Lemma pushes_rep : forall m a l, arep a l -> exists a', ofold arr_push a m = Ok a' /\ arep a' (l ++ m).
Proof.
  induction m as [|x m IH]; intros a l Ha; simpl.
  - exists a. rewrite app_nil_r. auto.
  - destruct (push_rep a l x Ha) as (a1 & -> & H1). cbn [bind].
    destruct (IH a1 _ H1) as (a2 & -> & H2). exists a2. split; [reflexivity|].
    rewrite <- app_assoc in H2. exact H2.
Qed.

Lemma skipn_nth : forall A (l : list A) i z, nth_error l i = Some z -> skipn i l = z :: skipn (S i) l.
Proof.
  intros A l. induction l as [|x l IH]; intros [|i] z H; simpl in *; try discriminate.
  - injection H as ->. reflexivity.
  - apply IH; exact H.
Qed.

Lemma merge_from_rep : forall b m, arep b m -> forall n i a l, arep a l -> i + n = length m ->
  exists a', arr_merge_from a b i n = Ok a' /\ arep a' (fold_left seq_add (skipn i m) l).
Proof.
  intros b m Hb. induction n as [|n IH]; intros i a l Ha Hi; simpl.
  - rewrite skipn_all2 by lia. simpl. eauto.
  - destruct (nth_error m i) as [z|] eqn:Ez; [|apply nth_error_None in Ez; lia].
    rewrite (cell_rep b m i z Hb Ez). cbn [bind].
    destruct (push_unique_rep a l z Ha) as (a1 & -> & H1). cbn [bind].
    rewrite (skipn_nth _ _ _ _ Ez). simpl.
    replace (i + 1) with (S i) by lia. apply IH; [exact H1|lia].
Qed.

Lemma get_rep : forall a l i, arep a l -> arr_get a i = Ok (nth_error l i).
Proof.
  intros a l i Ha. unfold arr_get. pose proof Ha as [Hn _].
  destruct (Nat.leb_spec (a_num a) i) as [Hle|Hlt].
  - f_equal. symmetry. apply nth_error_None. lia.
  - destruct (nth_error l i) as [z|] eqn:Ez; [|apply nth_error_None in Ez; lia].
    rewrite (cell_rep a l i z Ha Ez). reflexivity.
Qed.

Lemma step_rep : forall a l o, arep a l ->
  exists a', arr_step a o = Ok (a', snd (seq_step l o)) /\ arep a' (fst (seq_step l o)).
Proof.
  intros a l o Ha. destruct o; simpl.
  - destruct (push_rep a l x Ha) as (a' & -> & H). eexists; split; [reflexivity|exact H].
  - destruct (push_unique_rep a l x Ha) as (a' & -> & H). eexists; split; [reflexivity|exact H].
  - destruct (erase_rep a l i Ha) as (a' & -> & H). eexists; split; [reflexivity|exact H].
  - eexists; split; [reflexivity|]. apply clear_rep.
  - destruct (clone_rep a l Ha) as (a' & -> & H). eexists; split; [reflexivity|exact H].
  - destruct (pushes_rep l0 arr_init [] init_rep) as (b & -> & Hb). cbn [bind].
    destruct (merge_from_rep b _ Hb (length l0) 0 a l Ha eq_refl) as (a' & E & H).
    unfold arr_merge. destruct Hb as [Hbn _]. rewrite Hbn. simpl app in *.
    rewrite E. eexists; split; [reflexivity|exact H].
  - rewrite (get_rep a l i Ha). eexists; split; [reflexivity|exact Ha].
Qed.

Lemma run_rep : forall os a l, arep a l ->
  exists a', arr_run a os = Ok (a', snd (seq_run l os)) /\ arep a' (fst (seq_run l os)).
Proof.
  induction os as [|o os IH]; intros a l Ha; simpl.
  - eauto.
  - destruct (step_rep a l o Ha) as (a1 & -> & H1). cbn [bind].
    destruct (seq_step l o) as [l1 out]; simpl in *.
    destruct (IH a1 l1 H1) as (a2 & -> & H2).
    destruct (seq_run l1 os) as [l2 outs]; simpl in *.
    eexists; split; [reflexivity|exact H2].
Qed.

Lemma dump_from_rep : forall a l, arep a l -> forall n i, i + n = length l ->
  arr_dump_from a i n = Ok (skipn i l).
Proof.
  intros a l Ha. induction n as [|n IH]; intros i Hi; simpl.
  - rewrite skipn_all2 by lia. reflexivity.
  - destruct (nth_error l i) as [z|] eqn:Ez; [|apply nth_error_None in Ez; lia].
    rewrite (cell_rep a l i z Ha Ez). cbn [bind]. rewrite IH by lia.
    rewrite (skipn_nth _ _ _ _ Ez). replace (i + 1) with (S i) by lia. reflexivity.
Qed.

Lemma arr_refines_seq : forall os,
  exists a, arr_run arr_init os = Ok (a, snd (seq_run [] os)) /\
            arr_dump a = Ok (fst (seq_run [] os)) /\
            a_num a = length (fst (seq_run [] os)).
Proof.
  intros os. destruct (run_rep os arr_init [] init_rep) as (a & E & Ha).
  exists a. split; [exact E|]. split.
  - unfold arr_dump. pose proof Ha as [Hn _]. rewrite Hn.
    rewrite (dump_from_rep a _ Ha) by lia. reflexivity.
  - apply Ha.
Qed.
