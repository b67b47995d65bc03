(** Memory: loads and stores that stay away from a set of addresses. *)
From Coq Require Import ZArith List Bool Arith Lia.
From Verif Require Import M_Base M_Ir M_Ra SpecWord SpecFlat SpecSsa SpecIr SpecRa SpecVirt SpecSpill.
Import ListNotations.
Open Scope Z_scope.
Ltac Zify.zify_post_hook ::= Z.div_mod_to_equations.

Lemma touches_no R a k : touches R a k = false <-> forall j, (j < k)%nat -> R (u64 (a + Z.of_nat j)) = false.
Proof.
  unfold touches. split.
  - intros H j L. destruct (R (u64 (a + Z.of_nat j))) eqn:Q; [|reflexivity]. rewrite <- H. symmetry. apply existsb_exists. exists j. split; [apply in_seq; lia|exact Q].
  - intros H. destruct (existsb _ _) eqn:Q; [|reflexivity]. apply existsb_exists in Q as (j & I & Q). apply in_seq in I. rewrite H in Q by lia. discriminate Q.
Qed.
Lemma touches_S R a k : touches R a (S k) = false -> R (u64 a) = false /\ touches R (a + 1) k = false.
Proof.
  rewrite !touches_no. intros H. split; [rewrite <- (H 0%nat) by lia; do 2 f_equal; lia|]. intros j L. rewrite <- (H (S j)) by lia. do 2 f_equal. lia.
Qed.
Lemma load_agree R k : forall m m' a, agree R m m' -> touches R a k = false -> load m a k = load m' a k.
Proof.
  induction k as [|k IH]; intros m m' a A T; [reflexivity|]. cbn [load]. apply touches_S in T as (T1 & T2). rewrite (A _ T1). now rewrite (IH m m' (a + 1) A T2).
Qed.
Lemma mem_set_get m a v x : mem_set m a v x = if x =? a then v else m x.
Proof. reflexivity. Qed.
Lemma store_agree R k : forall m m' a z, agree R m m' -> agree R (store m a k z) (store m' a k z).
Proof.
  induction k as [|k IH]; intros m m' a z A; [exact A|]. cbn [store]. apply IH. intros x Hx. unfold mem_set. destruct (_ =? _); [reflexivity|exact (A x Hx)].
Qed.
Lemma store_other k : forall m a z x, (forall j, (j < k)%nat -> u64 (a + Z.of_nat j) <> x) -> store m a k z x = m x.
Proof.
  induction k as [|k IH]; intros m a z x H; [reflexivity|]. cbn [store]. rewrite IH.
  - unfold mem_set. destruct (Z.eqb_spec x (u64 a)) as [->|]; [|reflexivity]. exfalso. apply (H 0%nat); [lia|]. f_equal. lia.
  - intros j L Q. apply (H (S j)); [lia|]. rewrite <- Q. f_equal. lia.
Qed.
Lemma store_inside R k m a z m' : (forall j, (j < k)%nat -> R (u64 (a + Z.of_nat j)) = true) -> agree R m' m -> agree R m' (store m a k z).
Proof. intros H A x Hx. rewrite store_other; [exact (A x Hx)|]. intros j L Q. rewrite <- Q, (H j L) in Hx. discriminate Hx. Qed.
Lemma load_eq k : forall m m' a, (forall j, (j < k)%nat -> m (u64 (a + Z.of_nat j)) = m' (u64 (a + Z.of_nat j))) -> load m a k = load m' a k.
Proof.
  induction k as [|k IH]; intros m m' a H; [reflexivity|]. cbn [load]. rewrite (IH m m' (a + 1)).
  - pose proof (H 0%nat ltac:(lia)) as Q. replace (a + Z.of_nat 0) with a in Q by lia. now rewrite Q.
  - intros j L. replace (a + 1 + Z.of_nat j) with (a + Z.of_nat (S j)) by lia. apply H. lia.
Qed.
(** two ranges that do not meet, even around the end of the address space *)
Definition off_of (a : Z) (k : nat) (b : Z) (l : nat) : Prop := forall i j, (i < k)%nat -> (j < l)%nat -> u64 (a + Z.of_nat i) <> u64 (b + Z.of_nat j).
Lemma load_off m a k z b l : off_of a k b l -> load (store m a k z) b l = load m b l.
Proof. intros H. apply load_eq. intros j L. apply store_other. intros i Li. now apply H. Qed.
Lemma off_near a k b l : a + Z.of_nat k <= b -> b + Z.of_nat l <= a + 2 ^ 64 -> off_of a k b l.
Proof. intros H1 H2 i j Li Lj. unfold u64. intros Q. lia. Qed.
Lemma off_sym a k b l : off_of a k b l -> off_of b l a k.
Proof. intros H i j Li Lj Q. exact (H j i Lj Li (eq_sym Q)). Qed.
(** the set of one range *)
Lemma between_in lo k x : between lo (lo + Z.of_nat k) x = true <-> exists j, (j < k)%nat /\ u64 (lo + Z.of_nat j) = x.
Proof.
  unfold between. rewrite existsb_exists. replace (Z.to_nat (lo + Z.of_nat k - lo)) with k by lia. split; intros (j & A & B).
  - apply in_seq in A. apply Z.eqb_eq in B. exists j. split; [lia|exact B].
  - exists j. rewrite in_seq, Z.eqb_eq. split; [lia|exact B].
Qed.
Lemma between_off lo k a l : off_of lo k a l <-> touches (between lo (lo + Z.of_nat k)) a l = false.
Proof.
  rewrite touches_no. split.
  - intros H j L. destruct (between _ _ _) eqn:Q; [|reflexivity]. apply between_in in Q as (i & Li & Q). destruct (H i j Li L Q).
  - intros H i j Li Lj Q. specialize (H j Lj). assert (between lo (lo + Z.of_nat k) (u64 (a + Z.of_nat j)) = true) as K by (apply between_in; eauto). congruence.
Qed.
Lemma between_sub lo k hi hi' : lo <= k -> k + Z.of_nat 8 <= hi -> hi' = k + Z.of_nat 8 -> forall x, between k hi' x = true -> between lo hi x = true.
Proof.
  intros L1 L2 -> x H. apply between_in in H as (j & Lj & <-). unfold between. apply existsb_exists. exists (Z.to_nat (k - lo + Z.of_nat j)). rewrite in_seq, Z.eqb_eq. split; [lia|]. f_equal. lia.
Qed.
Lemma load_store k : (Z.of_nat k < 2 ^ 64) -> forall m a z, load (store m a k z) a k = z mod 2 ^ (8 * Z.of_nat k).
Proof.
  induction k as [|k IH]; intros B m a z; [cbn; rewrite Z.mod_1_r; reflexivity|]. cbn [load store]. rewrite IH by lia. rewrite store_other.
  - unfold mem_set. rewrite Z.eqb_refl. rewrite Z.mod_mod by lia. replace (8 * Z.of_nat (S k)) with (8 + 8 * Z.of_nat k) by lia. rewrite Z.pow_add_r by lia. change (2 ^ 8) with 256.
    rewrite Z.rem_mul_r by (try lia; apply Z.pow_pos_nonneg; lia). reflexivity.
  - intros j L. unfold u64. intros Q. lia.
Qed.
Lemma agree_sub (R R' : addrs) m m' : (forall x, R' x = true -> R x = true) -> agree R' m m' -> agree R m m'.
Proof. intros H A x Hx. apply A. destruct (R' x) eqn:Q; [|reflexivity]. apply H in Q. congruence. Qed.
Lemma touches_sub (R R' : addrs) a k : (forall x, R' x = true -> R x = true) -> touches R a k = false -> touches R' a k = false.
Proof. rewrite !touches_no. intros H T j L. specialize (T j L). destruct (R' _) eqn:Q; [|reflexivity]. apply H in Q. congruence. Qed.
Lemma hidden_sub w (R R' : addrs) : (forall x, R' x = true -> R x = true) -> hidden w R -> hidden w R'.
Proof.
  intros S H n id a m m' A. destruct (H n id a m m' (agree_sub _ _ _ _ S A)) as (H1 & H2 & H3). split; [exact H1|]. split.
  - intros x Hx. destruct (R x) eqn:Q; [|exact (H2 x Q)]. rewrite (H3 x Q). destruct (H n id a m' m') as (_ & _ & H4); [intros y _; reflexivity|]. rewrite (H4 x Q). exact (A x Hx).
  - intros x Hx. apply H3. now apply S.
Qed.
