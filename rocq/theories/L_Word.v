(** Lemmas on words, registers and memory. *)
From Coq Require Import ZArith List Bool Lia.
From Verif Require Import SpecWord.
Import ListNotations.
Open Scope Z_scope.

Lemma trunc_u64 w x : trunc w (u64 x) = trunc w x.
Proof.
  unfold trunc, u64. destruct w; cbn [bits].
  - apply Z.mod_mod. lia.
  - symmetry. rewrite (Z.div_mod x (2^64)) at 1 by lia.
    replace (2^64 * (x / 2^64) + x mod 2^64) with (x mod 2^64 + (2^32 * (x / 2^64)) * 2^32) by lia.
    apply Z.mod_add. lia.
Qed.
Lemma trunc_trunc w x : trunc w (trunc w x) = trunc w x.
Proof. unfold trunc. apply Z.mod_mod. destruct w; cbn; lia. Qed.
Lemma u64_u64 x : u64 (u64 x) = u64 x.
Proof. exact (trunc_u64 true x). Qed.
Lemma u64_range x : 0 <= u64 x < 2 ^ 64.
Proof. unfold u64. apply Z.mod_pos_bound. lia. Qed.
Lemma u64_small x : 0 <= x < 2 ^ 64 -> u64 x = x.
Proof. intros. unfold u64. apply Z.mod_small. lia. Qed.
Lemma trunc_range w x : 0 <= trunc w x < 2 ^ 64.
Proof.
  unfold trunc. assert (0 <= x mod 2 ^ bits w < 2 ^ bits w) by (apply Z.mod_pos_bound; destruct w; cbn; lia).
  destruct w; cbn [bits] in *; lia.
Qed.
Lemma u64_trunc w x : u64 (trunc w x) = trunc w x.
Proof. apply u64_small, trunc_range. Qed.
Lemma trunc_true x : trunc true x = u64 x.
Proof. reflexivity. Qed.

Lemma sgn_mod n x : 0 <= n -> sgn n (x mod 2 ^ n) = sgn n x.
Proof. intros. unfold sgn. rewrite Z.mod_mod by (apply Z.pow_nonzero; lia). reflexivity. Qed.
Lemma sgn_trunc w x : sgn (bits w) (trunc w x) = sgn (bits w) x.
Proof. apply sgn_mod. destruct w; cbn; lia. Qed.
Lemma sgn_u64 w x : sgn (bits w) (u64 x) = sgn (bits w) x.
Proof. rewrite <- sgn_trunc, trunc_u64, sgn_trunc. reflexivity. Qed.
Lemma sgn_small n x : 0 < n -> - 2 ^ (n - 1) <= x < 2 ^ (n - 1) -> sgn n x = x.
Proof.
  intros Hn H. unfold sgn.
  assert (P : 2 ^ n = 2 * 2 ^ (n - 1)) by (rewrite <- Z.pow_succ_r by lia; f_equal; lia).
  assert (0 < 2 ^ (n - 1)) by (apply Z.pow_pos_nonneg; lia).
  destruct (Z_lt_ge_dec x 0).
  - replace (x mod 2 ^ n) with (x + 2 ^ n).
    + destruct (Z.ltb_spec (x + 2 ^ n) (2 ^ (n - 1))); lia.
    + symmetry. rewrite <- (Z.mod_small (x + 2 ^ n) (2 ^ n)) by lia.
      rewrite <- Z.add_mod_idemp_r, Z.mod_same, Z.add_0_r by lia. reflexivity.
  - rewrite Z.mod_small by lia. destruct (Z.ltb_spec x (2 ^ (n - 1))); lia.
Qed.
Lemma sgn_range n x : 0 < n -> - 2 ^ (n - 1) <= sgn n x < 2 ^ (n - 1).
Proof.
  intros Hn. unfold sgn.
  assert (P : 2 ^ n = 2 * 2 ^ (n - 1)) by (rewrite <- Z.pow_succ_r by lia; f_equal; lia).
  assert (0 < 2 ^ (n - 1)) by (apply Z.pow_pos_nonneg; lia).
  pose proof (Z.mod_pos_bound x (2 ^ n)).
  destruct (Z.ltb_spec (x mod 2 ^ n) (2 ^ (n - 1))); lia.
Qed.
Lemma s32_small x : - 2 ^ 31 <= x < 2 ^ 31 -> s32 x = x.
Proof. intros. apply (sgn_small 32); cbn; lia. Qed.
Lemma s16_small x : - 2 ^ 15 <= x < 2 ^ 15 -> s16 x = x.
Proof. intros. apply (sgn_small 16); cbn; lia. Qed.
Lemma sgn_congr n x : 0 < n -> (sgn n x) mod 2 ^ n = x mod 2 ^ n.
Proof.
  intros Hn. unfold sgn. destruct (_ <? _).
  - apply Z.mod_mod. apply Z.pow_nonzero; lia.
  - rewrite <- (Z.mod_add _ 1) by (apply Z.pow_nonzero; lia).
    rewrite Z.mul_1_l, Z.sub_add. apply Z.mod_mod. apply Z.pow_nonzero; lia.
Qed.

(** Arithmetic only looks at the operands modulo the width. *)
Lemma alu_fn_trunc o w x y : alu_fn o w (trunc w x) (trunc w y) = alu_fn o w x y.
Proof. unfold alu_fn. rewrite !trunc_trunc. reflexivity. Qed.
Lemma alu_fn_u64_r o w x y : alu_fn o w x (u64 y) = alu_fn o w x y.
Proof. unfold alu_fn. rewrite trunc_u64. reflexivity. Qed.
Lemma alu_fn_u64_l o w x y : alu_fn o w (u64 x) y = alu_fn o w x y.
Proof. unfold alu_fn. rewrite trunc_u64. reflexivity. Qed.
Lemma u64_alu_fn o w x y : u64 (alu_fn o w x y) = alu_fn o w x y.
Proof. unfold alu_fn. apply u64_trunc. Qed.
Lemma neg_fn_u64 w x : neg_fn w (u64 x) = neg_fn w x.
Proof. unfold neg_fn. rewrite trunc_u64. reflexivity. Qed.
Lemma cmp_fn_u64 o w x y : cmp_fn o w (u64 x) (u64 y) = cmp_fn o w x y.
Proof. unfold cmp_fn. rewrite !trunc_u64, !sgn_u64. reflexivity. Qed.
Lemma cmp_fn_u64_r o w x y : cmp_fn o w x (u64 y) = cmp_fn o w x y.
Proof. unfold cmp_fn. rewrite !trunc_u64, !sgn_u64. reflexivity. Qed.

Lemma alu_fn_comm o w x y : In o [AAdd; AMul; AOr; AAnd; AXor] -> alu_fn o w x y = alu_fn o w y x.
Proof.
  intros H. unfold alu_fn. f_equal. simpl in H.
  destruct H as [<-|[<-|[<-|[<-|[<-|[]]]]]].
  - lia. - lia. - apply Z.lor_comm. - apply Z.land_comm. - apply Z.lxor_comm.
Qed.

Lemma trunc_add w x y : trunc w (trunc w x + trunc w y) = trunc w (x + y).
Proof. unfold trunc. symmetry. apply Z.add_mod. destruct w; cbn; lia. Qed.
Lemma trunc_sub w x y : trunc w (trunc w x - trunc w y) = trunc w (x - y).
Proof. unfold trunc. symmetry. apply Zminus_mod. Qed.

Lemma alu_add w x y : alu_fn AAdd w x y = trunc w (x + y).
Proof. unfold alu_fn. apply trunc_add. Qed.
Lemma alu_sub w x y : alu_fn ASub w x y = trunc w (x - y).
Proof. unfold alu_fn. apply trunc_sub. Qed.
Lemma neg_sub x : neg_fn true x = u64 (- x).
Proof.
  unfold neg_fn. pose proof (trunc_sub true 0 x) as H.
  change (trunc true 0) with 0 in H. rewrite !Z.sub_0_l in H. exact H.
Qed.
(** x - y computed as (-y) + x *)
Lemma sub_by_neg w x y : alu_fn AAdd w (neg_fn true y) x = alu_fn ASub w x y.
Proof.
  rewrite neg_sub, alu_fn_u64_l, alu_add, alu_sub. f_equal. lia.
Qed.

(** Registers *)
Lemma lset_length l k v : length (lset l k v) = length l.
Proof. revert k. induction l; intros [|k]; simpl; auto. Qed.
Lemma nth_lset l k j v : (k < length l)%nat ->
  nth j (lset l k v) 0 = if Nat.eqb j k then v else nth j l 0.
Proof.
  revert k j. induction l as [|a l IH]; intros [|k] j H; simpl in *; try lia.
  - destruct j; reflexivity.
  - destruct j; simpl; [reflexivity|]. apply IH. lia.
Qed.
Lemma lset_lset l k v w : lset (lset l k v) k w = lset l k w.
Proof. revert k. induction l; intros [|k]; simpl; f_equal; auto. Qed.
Lemma Forall_lset P l k v : Forall P l -> P v -> Forall P (lset l k v).
Proof. intros H Hv. revert k. induction H; intros [|k]; simpl; constructor; auto. Qed.

Lemma is_wreg_range r : is_wreg r = true <-> 0 <= r <= 9.
Proof. unfold is_wreg. rewrite andb_true_iff, !Z.leb_le. tauto. Qed.
Lemma is_reg_range r : is_reg r = true <-> 0 <= r <= 10.
Proof. unfold is_reg. rewrite andb_true_iff, !Z.leb_le. tauto. Qed.
Lemma wreg_reg r : is_wreg r = true -> is_reg r = true.
Proof. rewrite is_wreg_range, is_reg_range. lia. Qed.

Lemma rget_rset s r q v : st_ok s -> is_wreg r = true -> 0 <= q ->
  rget (rset s r v) q = if q =? r then u64 v else rget s q.
Proof.
  intros [L _] Hr Hq. apply is_wreg_range in Hr. unfold rget, rset. cbn [regs].
  rewrite nth_lset by (rewrite L; lia).
  destruct (Z.eqb_spec q r) as [->|N].
  - rewrite Nat.eqb_refl. reflexivity.
  - destruct (Nat.eqb_spec (Z.to_nat q) (Z.to_nat r)); [lia|reflexivity].
Qed.
Lemma rget_rset_same s r v : st_ok s -> is_wreg r = true -> rget (rset s r v) r = u64 v.
Proof. intros. rewrite rget_rset; auto. - rewrite Z.eqb_refl. reflexivity. - apply is_wreg_range in H0. lia. Qed.
Lemma rget_rset_other s r q v : st_ok s -> is_wreg r = true -> 0 <= q -> q <> r -> rget (rset s r v) q = rget s q.
Proof. intros. rewrite rget_rset; auto. destruct (Z.eqb_spec q r); congruence. Qed.
Lemma rset_rset s r v w : rset (rset s r v) r w = rset s r w.
Proof. unfold rset. cbn [regs mem ncall]. rewrite lset_lset. reflexivity. Qed.
Lemma rset_u64 s r v : rset s r (u64 v) = rset s r v.
Proof. unfold rset. rewrite u64_u64. reflexivity. Qed.
Lemma rset_congr s r v w : u64 v = u64 w -> rset s r v = rset s r w.
Proof. intros. unfold rset. rewrite H. reflexivity. Qed.
Lemma rset_ok s r v : st_ok s -> st_ok (rset s r v).
Proof.
  intros [L F]. split; unfold rset; cbn [regs].
  - rewrite lset_length. exact L.
  - apply Forall_lset; auto. apply u64_range.
Qed.
Lemma mset_ok s m : st_ok s -> st_ok (mset s m).
Proof. intros H. exact H. Qed.
Lemma lset_nth_same l k : (k < length l)%nat -> lset l k (nth k l 0) = l.
Proof. revert k. induction l; intros [|k] H; simpl in *; try lia; f_equal; auto. apply IHl. lia. Qed.
Lemma rget_range s r : st_ok s -> 0 <= rget s r < 2 ^ 64.
Proof.
  intros [L F]. unfold rget. destruct (nth_in_or_default (Z.to_nat r) (regs s) 0) as [H|H].
  - rewrite Forall_forall in F. apply F. exact H.
  - rewrite H. lia.
Qed.
Lemma rset_same s r : st_ok s -> is_wreg r = true -> rset s r (rget s r) = s.
Proof.
  intros O Hr. pose proof (rget_range s r O). unfold rset. rewrite u64_small by assumption.
  unfold rget. destruct O as [L _]. apply is_wreg_range in Hr.
  rewrite lset_nth_same by (rewrite L; lia). destruct s; reflexivity.
Qed.
Lemma u64_rget s r : st_ok s -> u64 (rget s r) = rget s r.
Proof. intros. apply u64_small, rget_range. assumption. Qed.

Lemma call_ok w id s : st_ok s -> st_ok (call_helper w id s).
Proof.
  intros [L F]. unfold call_helper. destruct (helper _ _ _ _ _) as [r m]. split; cbn [regs].
  - rewrite app_length, map_length, skipn_length, L. reflexivity.
  - apply Forall_app. split.
    + repeat constructor; apply u64_range.
    + destruct (regs s) as [|a [|b [|c [|d [|e [|f t]]]]]]; simpl in *; try constructor.
      repeat (match goal with H : Forall _ (_ :: _) |- _ => inversion H; clear H; subst end). assumption.
Qed.

(** Memory *)
Lemma load_range m a k : 0 <= load m a k < 2 ^ (8 * Z.of_nat k).
Proof.
  revert a. induction k; intros a; cbn [load].
  - cbn. lia.
  - specialize (IHk (a + 1)). pose proof (Z.mod_pos_bound (m (u64 a)) 256).
    replace (8 * Z.of_nat (S k)) with (8 + 8 * Z.of_nat k) by lia.
    rewrite Z.pow_add_r by lia. change (2 ^ 8) with 256. nia.
Qed.
Lemma load_mod m a j k : (load m a (j + k)) mod 2 ^ (8 * Z.of_nat j) = load m a j.
Proof.
  revert a. induction j; intros a.
  - cbn [load Nat.add]. cbn. apply Z.mod_1_r.
  - cbn [load Nat.add].
    replace (8 * Z.of_nat (S j)) with (8 + 8 * Z.of_nat j) by lia.
    rewrite Z.pow_add_r by lia. change (2 ^ 8) with 256.
    rewrite Z.rem_mul_r; [| lia | apply Z.pow_pos_nonneg; lia].
    rewrite (Z.mul_comm 256 (load m (a + 1) (j + k))), Z.mod_add by lia. rewrite Z.mod_mod by lia.
    rewrite Z.div_add by lia. rewrite (Z.div_small (m (u64 a) mod 256)) by (apply Z.mod_pos_bound; lia).
    rewrite Z.add_0_l, IHj. reflexivity.
Qed.
Lemma store_congr m a k v v' : v mod 2 ^ (8 * Z.of_nat k) = v' mod 2 ^ (8 * Z.of_nat k) ->
  store m a k v = store m a k v'.
Proof.
  revert m a v v'. induction k; intros m a v v' H; cbn [store]; [reflexivity|].
  replace (8 * Z.of_nat (S k)) with (8 + 8 * Z.of_nat k) in H by lia.
  rewrite Z.pow_add_r in H by lia. change (2 ^ 8) with 256 in H.
  assert (P : 0 < 2 ^ (8 * Z.of_nat k)) by (apply Z.pow_pos_nonneg; lia).
  rewrite !Z.rem_mul_r in H by lia.
  pose proof (Z.mod_pos_bound v 256). pose proof (Z.mod_pos_bound v' 256).
  assert (E : v mod 256 = v' mod 256) by lia. rewrite E. apply IHk. lia.
Qed.
Lemma store_u64 m a k v : (k <= 8)%nat -> store m a k (u64 v) = store m a k v.
Proof.
  intros H. apply store_congr. unfold u64.
  symmetry. rewrite (Z.div_mod v (2 ^ 64)) at 1 by lia.
  replace (2 ^ 64) with (2 ^ (8 * Z.of_nat k) * 2 ^ (64 - 8 * Z.of_nat k))
    by (rewrite <- Z.pow_add_r by lia; f_equal; lia).
  set (q := 2 ^ (8 * Z.of_nat k)). set (t := 2 ^ (64 - 8 * Z.of_nat k)).
  rewrite <- Z.mul_assoc, (Z.mul_comm q), Z.add_comm. apply Z.mod_add.
  unfold q. apply Z.pow_nonzero; lia.
Qed.
Lemma load8_u64 m a : u64 (load m a 8) = load m a 8.
Proof. apply u64_small. exact (load_range m a 8). Qed.
