From Verif Require Import M_Base M_Log SpecLog.
From Coq Require Import Lia.
Open Scope Z_scope.

Definition seg (b : Z -> ascii) (i : Z) (k : nat) : list ascii := map (fun q => b (i + Z.of_nat q)) (seq 0 k).
Lemma seg_len b i k : length (seg b i k) = k.
Proof. unfold seg. now rewrite map_length, seq_length. Qed.
Lemma seg_S b i k : seg b i (S k) = b i :: seg b (i + 1) k.
Proof.
  unfold seg. cbn [seq map]. rewrite Z.add_0_r. f_equal. rewrite <- seq_shift, map_map.
  apply map_ext. intros q. f_equal. lia.
Qed.
Lemma seg_app b i j k : seg b i (j + k) = seg b i j ++ seg b (i + Z.of_nat j) k.
Proof.
  revert i. induction j as [|j IH]; intros i; cbn [Nat.add].
  - cbn. f_equal. lia.
  - rewrite !seg_S, IH. cbn. do 3 f_equal. lia.
Qed.
Lemma text_seg l : text l = seg (lg_buf l) 0 (Z.to_nat (lg_pos l)).
Proof. reflexivity. Qed.
Lemma seg_ext b b' i k : (forall j, i <= j < i + Z.of_nat k -> b j = b' j) -> seg b i k = seg b' i k.
Proof. intros H. unfold seg. apply map_ext_in. intros q Q. apply in_seq in Q. apply H. lia. Qed.
Lemma seg_list (b : Z -> ascii) msg : forall i, (forall q, (q < length msg)%nat -> b (i + Z.of_nat q) = nth q msg zero) -> seg b i (length msg) = msg.
Proof.
  induction msg as [|c m IH]; intros i H; cbn [length]; auto. rewrite seg_S. f_equal.
  - rewrite <- (Z.add_0_r i). apply (H 0%nat). cbn. lia.
  - apply IH. intros q Q. specialize (H (S q)). cbn in H. rewrite <- H by lia. f_equal. lia.
Qed.
Lemma text_put b pos msg : 0 <= pos -> text (mkLog (put b pos msg) (pos + zlen msg)) = text (mkLog b pos) ++ msg.
Proof.
  intros P. rewrite !text_seg. cbn. unfold zlen. rewrite Z2Nat.inj_add, Nat2Z.id by lia.
  rewrite seg_app. rewrite Z2Nat.id by lia. cbn. f_equal.
  - apply seg_ext. intros j J. unfold put. destruct (pos <=? j) eqn:A; cbn; auto. lia.
  - apply seg_list. intros q Q. unfold put, zlen.
    replace ((pos <=? pos + Z.of_nat q) && (pos + Z.of_nat q <? pos + Z.of_nat (length msg))) with true by lia.
    f_equal. lia.
Qed.
Lemma text_0 b : text (mkLog b 0) = [].
Proof. reflexivity. Qed.

Definition total (l : list (list ascii)) : Z := zlen (concat l).
Lemma text_len l : 0 <= lg_pos l -> zlen (text l) = lg_pos l.
Proof. intros H. unfold zlen. rewrite text_seg, seg_len. lia. Qed.
Lemma log_history_spec v h : forall l a b, Forall (fun m => zlen m < 200) (shown v h) ->
  0 <= lg_pos l < log_size -> text l = concat b -> (a <> [] -> log_size <= total (a ++ b)) ->
  exists l' a' b', log_history v h l = Ok l' /\ 0 <= lg_pos l' < log_size /\ text l' = concat b' /\
    a ++ b ++ shown v h = a' ++ b' /\ (a' <> [] -> log_size <= total (a' ++ b')).
Proof.
  induction h as [|[lv m] h IH]; intros l a b FA R T A.
  - exists l, a, b. cbn. rewrite app_nil_r. auto.
  - unfold log_history. cbn [ofold fst snd]. unfold print_to_log at 1.
    unfold shown in FA |- *. cbn [filter map] in FA |- *. cbn [fst] in FA |- *.
    destruct (Z.leb_spec lv v) as [LV|LV].
    + cbn [map snd] in FA. inversion FA as [|? ? M FA']; subst. replace (v <? lv) with false by lia.
      replace (200 <=? zlen m) with false by lia. unfold log_size in *. pose proof (Zle_0_nat (length m)) as ZL. fold (zlen m) in ZL.
      destruct (Z.leb_spec 100000 (lg_pos l + zlen m)) as [O|O].
      * rewrite Z.add_0_l. replace (100000 <? zlen m) with false by lia. cbn [bind].
        edestruct (IH (mkLog (put (lg_buf l) 0 m) (zlen m)) (a ++ b) [m]) as (l' & a' & b' & E & R' & T' & X & Y); auto.
        -- cbn [lg_pos]. lia.
        -- change (zlen m) with (0 + zlen m) at 1. rewrite text_put by lia. rewrite text_0. cbn. now rewrite app_nil_r.
        -- intros _. unfold total. rewrite concat_app. unfold zlen. rewrite app_length. cbn. rewrite app_nil_r.
           rewrite concat_app, app_length, <- T. pose proof (text_len l ltac:(lia)). unfold zlen in *. lia.
        -- exists l', a', b'. split; auto. split; auto. split; auto. split; auto.
           rewrite <- X. rewrite <- app_assoc. reflexivity.
      * replace (100000 <? lg_pos l + zlen m) with false by lia. cbn [bind].
        edestruct (IH (mkLog (put (lg_buf l) (lg_pos l) m) (lg_pos l + zlen m)) a (b ++ [m])) as (l' & a' & b' & E & R' & T' & X & Y); auto.
        -- cbn [lg_pos]. lia.
        -- rewrite text_put by lia. destruct l as [lb lp]. cbn [lg_buf lg_pos] in *. rewrite T, concat_app. cbn. now rewrite app_nil_r.
        -- intros N. specialize (A N). unfold total in *. rewrite !concat_app in *. cbn. rewrite app_nil_r.
           unfold zlen in *. rewrite !app_length in *. lia.
        -- exists l', a', b'. split; auto. split; auto. split; auto. split; auto.
           rewrite <- X. rewrite <- app_assoc. reflexivity.
    + replace (v <? lv) with true by lia. cbn [bind]. apply IH; auto.
Qed.
Lemma log_run v h b : Forall (fun m => zlen m < 200) (shown v h) ->
  exists l' x y, log_history v h (empty_log b) = Ok l' /\ 0 <= lg_pos l' < log_size /\
    shown v h = x ++ y /\ text l' = concat y /\ (zlen (concat (shown v h)) < log_size -> x = []).
Proof.
  intros FA. destruct (log_history_spec v h (empty_log b) [] [] FA) as (l' & x & y & A & B & C & D & E); auto.
  - cbn. unfold log_size. lia.
  - congruence.
  - cbn in D. exists l', x, y. split; auto. split; auto. split; auto. split; auto.
    intros L. destruct x; auto. rewrite D in L. unfold total in E. specialize (E ltac:(discriminate)). lia.
Qed.

(** printing *)
Lemma copy_line_spec b pos : forall n i j, 0 <= j < 1000 -> i <= pos -> (1001 <= Z.of_nat n + j) ->
  (forall k, i + Z.of_nat k <= pos -> ~ In nl (seg b i k) -> j + Z.of_nat k <= 998) ->
  exists k, copy_line n b pos i j = Ok (seg b i k, i + Z.of_nat k) /\ i + Z.of_nat k <= pos /\ (i < pos -> (0 < k)%nat).
Proof.
  induction n as [|n IH]; intros i j J IP N SH; [lia|]. cbn [copy_line].
  destruct (Z.ltb_spec i pos) as [L|L]; cbn [andb].
  - replace (j <? 1000) with true by lia. destruct (ascii_dec (b i) nl) as [E|E].
    + pose proof (SH 0%nat ltac:(lia) ltac:(cbn; auto)). replace (j + 1 <? 1000) with true by lia.
      exists 1%nat. rewrite seg_S. split; [reflexivity|]. split; lia.
    + pose proof (SH 1%nat ltac:(lia) ltac:(rewrite seg_S; cbn; intros [X|[]]; auto)).
      destruct (IH (i + 1) (j + 1)) as (k & K & K2 & K3); try lia.
      * intros k KP NI. specialize (SH (S k)). rewrite seg_S in SH. cbn [In] in SH.
        specialize (SH ltac:(lia) ltac:(intros [X|X]; auto)). lia.
      * rewrite K. cbn [bind fst snd]. exists (S k). rewrite seg_S. split; [do 2 f_equal; lia|]. split; lia.
  - replace (j <? 1000) with true by lia. exists 0%nat. split; [cbn; do 2 f_equal; lia|]. split; lia.
Qed.
Lemma print_lines_spec b pos : 0 <= pos -> (forall i k, 0 <= i -> i + Z.of_nat k <= pos -> ~ In nl (seg b i k) -> Z.of_nat k <= 998) ->
  forall n i, 0 <= i <= pos -> pos - i < Z.of_nat n ->
  exists ls, print_lines n b pos i = Ok ls /\ concat ls = seg b i (Z.to_nat (pos - i)).
Proof.
  intros PP SH. induction n as [|n IH]; intros i R L; [lia|]. cbn [print_lines].
  destruct (Z.ltb_spec i pos) as [LT|LT].
  - destruct (copy_line_spec b pos 1001 i 0) as (k & K & K2 & K3); try lia.
    { intros k KP NI. specialize (SH i k). lia || (specialize (SH ltac:(lia) KP NI); lia). }
    rewrite K. cbn [bind fst snd]. specialize (K3 LT).
    destruct (IH (i + Z.of_nat k)) as (ls & E & C); try lia. rewrite E. cbn [bind].
    exists (seg b i k :: ls). split; auto. cbn. rewrite C, <- seg_app. f_equal. lia.
  - exists []. split; auto. replace (Z.to_nat (pos - i)) with 0%nat by lia. reflexivity.
Qed.
Lemma print_log_spec v l : v <> 0 -> 0 <= lg_pos l < log_size -> short_lines (text l) ->
  exists ls, print_log v l = Ok ls /\ concat ls = text l.
Proof.
  intros V R SH. unfold print_log. replace (v =? 0) with false by lia. cbn [orb].
  destruct (Z.eqb_spec (lg_pos l) 0) as [E|E].
  - exists []. split; auto. rewrite text_seg, E. reflexivity.
  - replace (log_size <=? lg_pos l) with false by lia.
    destruct (print_lines_spec (lg_buf l) (lg_pos l) ltac:(lia)) with (n := (Z.to_nat (lg_pos l) + 1)%nat) (i := 0) as (ls & A & B); try lia.
    + intros i k I K NI. specialize (SH (seg (lg_buf l) 0 (Z.to_nat i)) (seg (lg_buf l) i k) (seg (lg_buf l) (i + Z.of_nat k) (Z.to_nat (lg_pos l - i - Z.of_nat k)))).
      unfold zlen in SH. rewrite seg_len in SH. apply SH; auto.
      rewrite text_seg. rewrite <- seg_app.
      replace i with (0 + Z.of_nat (Z.to_nat i)) at 2 by lia. rewrite <- seg_app. f_equal. lia.
    + exists ls. split; auto. rewrite B, text_seg. f_equal. lia.
Qed.

(** a history that wraps: many times "a...a" (100 characters), then "b" *)
Lemma log_prefix_fails : exists v h b l, Forall (fun m => zlen m < 200) (shown v h) /\
  log_history v h (empty_log b) = Ok l /\ forall t, concat (shown v h) <> text l ++ t.
Proof.
  set (m := repeat "a"%char 100).
  set (h := repeat (1, m) (Z.to_nat 999) ++ [(1, repeat "c"%char 99); (1, ["b"%char])]).
  assert (S : shown 1 h = repeat m (Z.to_nat 999) ++ [repeat "c"%char 99; ["b"%char]]).
  { unfold h, shown. rewrite filter_app, map_app. change (filter _ [_; _]) with [(1, repeat "c"%char 99); (1, ["b"%char])]. cbn [map snd].
    apply (f_equal (fun l => l ++ _)). generalize (Z.to_nat 999) as n. induction n as [|n IH]; auto. cbn [repeat filter fst]. change (1 <=? 1) with true. cbn [map snd]. now rewrite IH. }
  assert (F : Forall (fun m => zlen m < 200) (shown 1 h)).
  { rewrite S. apply Forall_app. split; [|repeat constructor].
    rewrite Forall_forall. intros x X. apply repeat_spec in X. subst x. reflexivity. }
  assert (W : forall n l, lg_pos l = 0 -> Z.of_nat n <= 999 -> exists l', log_history 1 (repeat (1, m) n) l = Ok l' /\ lg_pos l' = 100 * Z.of_nat n).
  { assert (W' : forall n l, lg_pos l + 100 * Z.of_nat n < 100000 -> 0 <= lg_pos l -> exists l', log_history 1 (repeat (1, m) n) l = Ok l' /\ lg_pos l' = lg_pos l + 100 * Z.of_nat n).
    { induction n as [|n IH]; intros l L P; [exists l; split; [reflexivity|lia]|].
      unfold log_history. cbn [repeat ofold fst snd]. unfold print_to_log at 1. change (1 <? 1) with false. cbn iota.
      change (zlen m) with 100. change (200 <=? 100) with false. cbn iota. unfold log_size.
      replace (100000 <=? lg_pos l + 100) with false by lia. replace (100000 <? lg_pos l + 100) with false by lia. cbn [bind].
      destruct (IH (mkLog (put (lg_buf l) (lg_pos l) m) (lg_pos l + 100))) as (l' & A & B); cbn [lg_pos]; try lia.
      exists l'. split; [exact A|]. rewrite B. cbn [lg_pos]. lia. }
    intros n l P L. destruct (W' n l) as (l' & A & B); try lia. exists l'. split; auto. lia. }
  destruct (W (Z.to_nat 999) (empty_log (fun _ => zero)) eq_refl ltac:(lia)) as (l1 & A & B).
  assert (OF : forall {S X} (f : S -> X -> outcome S) s l l', ofold f s (l ++ l') = bind (ofold f s l) (fun s' => ofold f s' l')).
  { intros S0 X f s l. revert s. induction l as [|x l IH]; intros s l'; cbn; auto. destruct (f s x); cbn; auto. }
  exists 1, h, (fun _ => zero). 
  assert (E : exists l, log_history 1 h (empty_log (fun _ => zero)) = Ok l /\ text l = ["b"%char]).
  { unfold log_history, h. rewrite OF. fold (log_history 1 (repeat (1, m) (Z.to_nat 999)) (empty_log (fun _ => zero))).
    rewrite A. cbn [bind ofold fst snd]. unfold print_to_log at 1. change (1 <? 1) with false. cbn iota.
    change (zlen (repeat "c"%char 99)) with 99. change (200 <=? 99) with false. cbn iota. unfold log_size. rewrite B, Z2Nat.id by lia.
    change (100000 <=? 100 * 999 + 99) with false. cbn iota. change (100000 <? 100 * 999 + 99) with false. cbn [bind].
    unfold print_to_log. cbn [lg_pos lg_buf]. change (1 <? 1) with false. cbn iota. change (zlen ["b"%char]) with 1. change (200 <=? 1) with false. cbn iota.
    unfold log_size. change (100000 <=? 100 * 999 + 99 + 1) with true. cbn iota. change (100000 <? 0 + 1) with false. cbn [bind].
    eexists. split; [reflexivity|]. reflexivity. }
  destruct E as (l & E & T). exists l. split; auto. split; auto. intros t X. rewrite T, S in X.
  assert (R : exists k, Z.to_nat 999 = Datatypes.S k) by (exists (Z.to_nat 998); lia). destruct R as (k & R). rewrite R in X.
  cbn in X. discriminate X.
Qed.
