(** Proofs about gen_bb. *)
From Coq Require Import ZArith List Bool Arith Lia Permutation Sorted.
From Verif Require Import M_Base SpecWord SpecIsa L_Word M_GenBB SpecCfg.
Import ListNotations.
Open Scope nat_scope.
Ltac Zify.zify_post_hook ::= Z.div_mod_to_equations.

Lemma nodup_snoc (l : list nat) x : NoDup l -> ~ In x l -> NoDup (l ++ [x]).
Proof.
  induction l; simpl; intros N H.
  - constructor; auto.
  - inversion N; subst. constructor.
    + rewrite in_app_iff. simpl. intuition congruence.
    + apply IHl; auto.
Qed.

Lemma skipn_S {A} (l : list A) : forall n x r, skipn n l = x :: r -> skipn (S n) l = r.
Proof.
  induction l as [|a l IH]; intros [|n] x r H; simpl in *; try congruence.
  apply (IH n x r H).
Qed.

(** ** Entrances *)
Section Scan.
Variable p : list bpf_insn.
Hypothesis Len : (Z.of_nat (length p) <= 32768)%Z.

Definition brk (q : nat) : Prop := exists i, nth_error p q = Some i /\ breakpoint i = true.

Record einv (E : nat -> nat -> Prop) (X : nat -> Prop) (es : list ent) : Prop := {
  ei_nd : NoDup (map e_pos es);
  ei_pos : forall k, In k (map e_pos es) <-> (exists q, E q k) \/ X k;
  ei_pred : forall e, In e es -> NoDup (e_preds e) /\
     forall q, In q (e_preds e) <-> E q (e_pos e) \/ (S q = e_pos e /\ q < length p /\ ~ brk q)
}.

Lemma has_pos_spec es k : has_pos es k = true <-> In k (map e_pos es).
Proof.
  unfold has_pos. rewrite existsb_exists, in_map_iff. split; intros (e & A & B).
  - apply Nat.eqb_eq in B. eauto.
  - exists e. split; auto. apply Nat.eqb_eq. auto.
Qed.

Lemma push_uniq_spec l x : NoDup l -> NoDup (push_uniq l x) /\ (forall y, In y (push_uniq l x) <-> In y l \/ y = x).
Proof.
  intros N. unfold push_uniq. destruct (existsb (Nat.eqb x) l) eqn:E.
  - apply existsb_exists in E. destruct E as (y & A & B). apply Nat.eqb_eq in B. subst y.
    split; auto. intros y. split; [tauto|]. intros [H | ->]; auto.
  - assert (Nx : ~ In x l). { intros I. rewrite <- not_true_iff_false in E. apply E.
      apply existsb_exists. exists x. split; auto. apply Nat.eqb_refl. }
    split.
    + apply nodup_snoc; auto.
    + intros y. rewrite in_app_iff. simpl. intuition congruence.
Qed.

Lemma add_pred_pos es k c : map e_pos (add_pred es k c) = map e_pos es.
Proof.
  induction es as [|e r IH]; simpl; auto. destruct (e_pos e =? k) eqn:Q; simpl.
  - apply Nat.eqb_eq in Q. congruence.
  - congruence.
Qed.

Lemma add_pred_in es k c e : NoDup (map e_pos es) -> In e (add_pred es k c) ->
  (In e es /\ e_pos e <> k) \/ (e_pos e = k /\ exists e0, In e0 es /\ e_pos e0 = k /\ e_preds e = e_preds e0 ++ [c]).
Proof.
  induction es as [|x r IH]; simpl; [tauto|]. intros N H. inversion N; subst.
  destruct (e_pos x =? k) eqn:Q.
  - apply Nat.eqb_eq in Q. destruct H as [<- | H].
    + right. simpl. split; auto. exists x. auto.
    + left. split; auto. intros Y. apply H2. rewrite Q, <- Y. apply in_map. auto.
  - apply Nat.eqb_neq in Q. destruct H as [<- | H]; [left; auto|].
    destruct (IH H3 H) as [[A B] | (A & e0 & B & C & D)]; [left; auto|].
    right. split; auto. exists e0. auto.
Qed.

Definition addE (E : nat -> nat -> Prop) c k := fun q t => E q t \/ (q = c /\ t = k).

Lemma nodup_map_snoc es e : NoDup (map e_pos es) -> ~ In (e_pos e) (map e_pos es) -> NoDup (map e_pos (es ++ [e])).
Proof. intros. rewrite map_app. apply nodup_snoc; auto. Qed.

Lemma add_entrance_ok E X es k c : einv E X es ->
  ~ E c k -> brk c -> c < length p -> k <= length p -> (forall x, E x k -> x < length p) ->
  exists es', add_entrance p es (Z.of_nat k) c = Ok es' /\ einv (addE E c k) X es'.
Proof.
  intros [N P Q] NE Bc Lc Lk _. unfold add_entrance.
  replace (Z.of_nat k <? 0)%Z with false by (symmetry; apply Z.ltb_ge; lia).
  rewrite Nat2Z.id. destruct (has_pos es k) eqn:H.
  - eexists; split; [reflexivity|]. apply has_pos_spec in H. constructor.
    + rewrite add_pred_pos. auto.
    + intros t. rewrite add_pred_pos, P. unfold addE. split.
      * intros [(q & A) | A]; eauto.
      * intros [(q & [A | [-> ->]]) | A]; eauto. apply P. auto.
    + intros e He. destruct (add_pred_in _ _ _ _ N He) as [[A B] | (A & e0 & B & C & D)].
      * destruct (Q e A) as [Q1 Q2]. split; auto. intros q. rewrite Q2. unfold addE. intuition congruence.
      * destruct (Q e0 B) as [Q1 Q2]. rewrite D. split.
        -- apply nodup_snoc; auto. rewrite Q2. rewrite C. intros [Y | (_ & _ & Y)]; auto.
        -- intros q. rewrite in_app_iff, Q2, C, A. unfold addE. simpl. intuition (subst; auto).
  - assert (Nk : ~ In k (map e_pos es)) by (rewrite <- has_pos_spec; congruence).
    assert (NEk : forall q, ~ E q k). { intros q Y. apply Nk. apply P. left. eauto. }
    assert (G : forall l, (NoDup l /\ forall q, In q l <-> q = c \/ (S q = k /\ q < length p /\ ~ brk q)) ->
        einv (addE E c k) X (es ++ [mkEnt k l])).
    { intros l [G1 G2]. constructor.
      - apply nodup_map_snoc; auto.
      - intros t. rewrite map_app, in_app_iff, P. simpl. unfold addE. split.
        + intros [[(q & A) | A] | [<- | []]]; eauto.
        + intros [(q & [A | [-> ->]]) | A]; eauto.
      - intros e He. apply in_app_iff in He. destruct He as [He | [<- | []]].
        + destruct (Q e He) as [Q1 Q2]. split; auto. intros q. rewrite Q2. unfold addE.
          assert (e_pos e <> k). { intros Y. apply Nk. rewrite <- Y. apply in_map. auto. }
          intuition congruence.
        + simpl. split; auto. intros q. rewrite G2. unfold addE. split; [intros [-> | Y]; auto | intros [[Y | [-> _]] | Y]; auto; exfalso; eapply NEk; eauto]. }
    destruct k as [|l].
    + eexists; split; [reflexivity|]. apply G. split.
      * apply push_uniq_spec. constructor.
      * intros q. destruct (push_uniq_spec [] c (NoDup_nil _)) as [_ W]. rewrite W. simpl. intuition lia.
    + destruct (nth_error p l) as [i|] eqn:Ni.
      2:{ apply nth_error_None in Ni. lia. }
      eexists; split; [reflexivity|]. apply G.
      destruct (breakpoint i) eqn:Bi.
      * destruct (push_uniq_spec [] c (NoDup_nil _)) as [W1 W2]. split; auto.
        intros q. rewrite W2. simpl. split; [intuition|]. intros [-> | (Y & _ & Y2)]; auto.
        exfalso. apply Y2. exists i. split; auto. replace q with l by lia. auto.
      * destruct (push_uniq_spec [] l (NoDup_nil _)) as [V1 V2].
        destruct (push_uniq_spec (push_uniq [] l) c V1) as [W1 W2]. split; auto.
        intros q. rewrite W2, V2. simpl. split.
        -- intros [[[] | ->] | ->]; auto. right. split; auto. split; [lia|].
           intros (i' & Y1 & Y2). congruence.
        -- intros [-> | (Y & _ & _)]; [right; auto | left; right; lia].
Qed.

Lemma init_entrance_ok E X es k : einv E X es -> brk (Nat.pred k) -> 0 < k ->
  einv E (fun t => X t \/ t = k) (init_entrance es k).
Proof.
  intros [N P Q] B Hk. unfold init_entrance. destruct (has_pos es k) eqn:H.
  - apply has_pos_spec in H. constructor; auto. intros t. rewrite P. split; [tauto|].
    intros [Y | [Y | ->]]; auto. apply P. auto.
  - assert (Nk : ~ In k (map e_pos es)) by (rewrite <- has_pos_spec; congruence). constructor.
    + apply nodup_map_snoc; auto.
    + intros t. rewrite map_app, in_app_iff, P. simpl. intuition.
    + intros e He. apply in_app_iff in He. destruct He as [He | [<- | []]]; [auto|].
      simpl. split; [constructor|]. intros q. split; [tauto|]. intros [Y | (Y & _ & Y2)].
      * apply Nk. apply P. left. eauto.
      * apply Y2. replace q with (Nat.pred k) by lia. auto.
Qed.

(** the jump edges of the instruction at [q], and the starts made by exits *)
Definition jedge (q t : nat) : Prop :=
  exists i, nth_error p q = Some i /\ jmp_cls (b_code i) = true /\
    ((ja_op (b_code i) = true \/ cond_op (b_code i) = true) /\ Z.of_nat t = (Z.of_nat q + 1 + b_off i)%Z
     \/ cond_op (b_code i) = true /\ t = S q).
Definition xstart (t : nat) : Prop :=
  t < length p /\ exists q i, t = S q /\ nth_error p q = Some i /\ jmp_cls (b_code i) = true /\ exit_op (b_code i) = true.

(** what the scan needs of the program (after the replacement of pc+0 jumps) *)
Hypothesis OkJ : forall q i, nth_error p q = Some i -> jmp_cls (b_code i) = true ->
  ((ja_op (b_code i) = true -> cls (b_code i) = 5%Z) /\
   (ja_op (b_code i) = true \/ cond_op (b_code i) = true ->
     (0 <= Z.of_nat q + 1 + b_off i <= Z.of_nat (length p))%Z) /\
   (cond_op (b_code i) = true -> b_off i <> 0%Z)).

Lemma ja_cond c : ja_op c = true -> cond_op c = false.
Proof. unfold ja_op, cond_op. rewrite Z.eqb_eq. intros ->. reflexivity. Qed.
Lemma exit_cond c : exit_op c = true -> cond_op c = false.
Proof. unfold exit_op, cond_op. rewrite Z.eqb_eq. intros ->. reflexivity. Qed.
Lemma exit_ja c : exit_op c = true -> ja_op c = false.
Proof. unfold exit_op, ja_op. rewrite Z.eqb_eq. intros ->. reflexivity. Qed.
Lemma cond_brk i : jmp_cls (b_code i) = true ->
  ja_op (b_code i) = true \/ cond_op (b_code i) = true \/ exit_op (b_code i) = true -> breakpoint i = true.
Proof.
  clear. unfold breakpoint, ja_op, cond_op, exit_op. intros ->. simpl. rewrite negb_true_iff, Z.eqb_neq.
  intros [H | [H | H]]; lia.
Qed.

Lemma raw_target_ok i n : n < length p -> raw_target i n = (Z.of_nat n + 1 + b_off i)%Z.
Proof.
  intros H. unfold raw_target, s16, sgn. change (16 - 1)%Z with 15%Z.
  change (2 ^ 16)%Z with 65536%Z. change (2 ^ 15)%Z with 32768%Z.
  rewrite Z.mod_small by lia. destruct (Z.ltb_spec (Z.of_nat n) 32768); lia.
Qed.

Lemma einv_ext E E' X X' es : einv E X es -> (forall q t, E q t <-> E' q t) -> (forall t, X t <-> X' t) -> einv E' X' es.
Proof.
  intros [N P Q] HE HX. constructor; auto.
  - intros k. rewrite P, <- HX. split; intros [(q & A) | A]; auto; left; exists q; apply HE; auto.
  - intros e He. destruct (Q e He) as [Q1 Q2]. split; auto. intros q. rewrite Q2, HE. tauto.
Qed.

Lemma scan_insn_ok es n i : nth_error p n = Some i ->
  einv (fun q t => q < n /\ jedge q t) (fun t => t <= n /\ xstart t) es ->
  exists es', scan_insn p es n i = Ok es' /\
    einv (fun q t => q < S n /\ jedge q t) (fun t => t <= S n /\ xstart t) es'.
Proof.
  intros Ni I. assert (Ln : n < length p) by (apply nth_error_Some; congruence).
  assert (XS : exit_op (b_code i) = false \/ jmp_cls (b_code i) = false \/ ~ (n + 1 < length p) ->
     forall t, (t <= n /\ xstart t) <-> (t <= S n /\ xstart t)).
  { intros Hx t. split; intros [A B]; split; auto; try lia. destruct (Nat.eq_dec t (S n)); [|lia].
    exfalso. destruct B as (B0 & q & i' & B1 & B2 & B3 & B4). assert (q = n) by lia. subst q.
    rewrite Ni in B2. injection B2 as <-. destruct Hx as [Hx | [Hx | Hx]]; try congruence; lia. }
  unfold scan_insn. destruct (jmp_cls (b_code i)) eqn:J; simpl.
  2:{ eexists; split; [reflexivity|]. eapply einv_ext; [exact I | | apply XS; auto].
      intros q t. split; intros [A B]; split; auto; try lia.
      destruct (Nat.eq_dec q n); [|lia]. subst. destruct B as (i' & B & B2 & _). congruence. }
  destruct (OkJ n i Ni J) as (O1 & O2 & O3).
  assert (NJ : forall t, ~ (n < n /\ jedge n t)) by (intros t [A _]; lia).
  destruct (ja_op (b_code i)) eqn:A.
  - rewrite (O1 eq_refl). simpl. rewrite (raw_target_ok i n Ln).
    specialize (O2 (or_introl eq_refl)).
    destruct (add_entrance_ok _ _ es (Z.to_nat (Z.of_nat n + 1 + b_off i)) n I) as (es' & R & I');
      try (auto; lia); try (intros; lia).
    { exists i. split; auto. apply cond_brk; auto. }
    rewrite Z2Nat.id in R by lia. exists es'. split; auto. eapply einv_ext; [exact I' | | apply XS].
    + intros q t. unfold addE. split.
      * intros [[B C] | [-> ->]]; split; auto; try lia. exists i. split; auto. split; auto. left. split; auto. lia.
      * intros [B C]. destruct (Nat.eq_dec q n) as [-> |]; [|left; split; auto; lia]. right. split; auto.
        destruct C as (i' & C1 & C2 & C3). rewrite Ni in C1. injection C1 as <-.
        destruct C3 as [[_ C3] | [C3 _]]; [lia|]. rewrite (ja_cond _ A) in C3. discriminate.
    + left. destruct (exit_op (b_code i)) eqn:X; auto. apply exit_ja in X. congruence.
  - destruct (cond_op (b_code i)) eqn:C.
    + rewrite (raw_target_ok i n Ln). specialize (O2 (or_intror eq_refl)).
      assert (Bn : brk n). { exists i. split; auto. apply cond_brk; auto. }
      destruct (add_entrance_ok _ _ es (Z.to_nat (Z.of_nat n + 1 + b_off i)) n I) as (es' & R & I');
        try (auto; lia); try (intros; lia).
      rewrite Z2Nat.id in R by lia. rewrite R. cbn [bind].
      destruct (add_entrance_ok _ _ es' (S n) n I') as (es2 & R2 & I2); auto; try lia.
      { unfold addE. intros [[Y _] | [_ Y]]; [lia|]. specialize (O3 eq_refl). lia. }
      { unfold addE. intros x [[Y _] | [Y _]]; lia. }
      replace (n + 1) with (S n) by lia. exists es2. split; auto. eapply einv_ext; [exact I2 | | apply XS].
      * intros q t. unfold addE. split.
        -- intros [[[B D] | [-> ->]] | [-> ->]]; split; auto; try lia; exists i; split; auto; split; auto.
           left. split; auto. lia.
        -- intros [B D]. destruct (Nat.eq_dec q n) as [-> |]; [|left; left; split; auto; lia].
           destruct D as (i' & C1 & C2 & C3). rewrite Ni in C1. injection C1 as <-.
           destruct C3 as [[_ C3] | [_ C3]]; [left; right; split; auto; lia | right; auto].
      * left. destruct (exit_op (b_code i)) eqn:X; auto. apply exit_cond in X. congruence.
    + assert (JE : forall q t, (q < n /\ jedge q t) <-> (q < S n /\ jedge q t)).
      { intros q t. split; intros [B D]; split; auto; try lia. destruct (Nat.eq_dec q n) as [-> |]; [|lia].
        exfalso. destruct D as (i' & C1 & C2 & C3). rewrite Ni in C1. injection C1 as <-.
        destruct C3 as [[[C3 | C3] _] | [C3 _]]; congruence. }
      destruct (exit_op (b_code i)) eqn:X.
      * destruct (Nat.ltb_spec (n + 1) (length p)) as [L | L].
        -- eexists; split; [reflexivity|]. replace (n + 1) with (S n) by lia.
           assert (Bn : brk n). { exists i. split; auto. apply cond_brk; auto. }
           eapply einv_ext; [apply (init_entrance_ok _ _ es (S n) I); auto; lia | exact JE |].
           intros t. split.
           ++ intros [[Y1 Y2] | ->]; split; auto. split; [lia|]. exists n, i. auto.
           ++ intros [Y1 Y2]. destruct (Nat.eq_dec t (S n)); auto. left. split; auto. lia.
        -- eexists; split; [reflexivity|]. eapply einv_ext; [exact I | exact JE | apply XS; right; right; lia].
      * eexists; split; [reflexivity|]. eapply einv_ext; [exact I | exact JE | apply XS; auto].
Qed.

Lemma scan_ok l : forall n es, skipn n p = l -> n <= length p ->
  einv (fun q t => q < n /\ jedge q t) (fun t => t <= n /\ xstart t) es ->
  exists es', scan p es n l = Ok es' /\ einv jedge xstart es'.
Proof.
  induction l as [|i r IH]; intros n es S L I.
  - assert (n = length p). { assert (length (skipn n p) = 0) by (rewrite S; auto). rewrite skipn_length in H. lia. }
    subst n. eexists; split; [reflexivity|]. eapply einv_ext; [exact I| |].
    + intros q t. split; [tauto|]. intros J. split; auto. destruct J as (i & J & _). apply nth_error_Some. congruence.
    + intros t. split; [tauto|]. intros J. split; auto. destruct J. lia.
  - assert (Ni : nth_error p n = Some i).
    { rewrite <- (firstn_skipn n p). rewrite nth_error_app2; rewrite firstn_length_le by lia; auto.
      rewrite S, Nat.sub_diag. reflexivity. }
    assert (n < length p) by (apply nth_error_Some; congruence).
    destruct (scan_insn_ok es n i Ni I) as (es1 & R & I1). simpl. rewrite R. cbn [bind].
    replace (n + 1) with (Datatypes.S n) by lia. apply IH; auto.
    eapply skipn_S; eauto.
Qed.

Lemma scan_all : exists es, scan p [] 0 p = Ok es /\ einv jedge xstart es.
Proof.
  apply (scan_ok p 0 []); auto; try lia. constructor; simpl.
  - constructor.
  - intros k. split; [tauto|]. intros [(q & Y & _) | [Y (_ & q & i & Z & _)]]; lia.
  - tauto.
Qed.
End Scan.

(** ** Sorting *)
Lemma insert_perm e l : Permutation (e :: l) (insert_ent e l).
Proof.
  induction l as [|x r IH]; simpl; auto. destruct (e_pos e <=? e_pos x); auto.
  etransitivity; [apply perm_swap|]. constructor. auto.
Qed.
Lemma sort_perm l : Permutation l (sort_ents l).
Proof. induction l; simpl; auto. etransitivity; [constructor; exact IHl | apply insert_perm]. Qed.

Definition sorted (l : list ent) : Prop := StronglySorted le (map e_pos l).
Lemma insert_sorted e l : sorted l -> sorted (insert_ent e l).
Proof.
  unfold sorted. induction l as [|x r IH]; simpl; intros S.
  - constructor; auto.
  - inversion S; subst. destruct (Nat.leb_spec (e_pos e) (e_pos x)); simpl.
    + constructor; auto. constructor; auto. eapply Forall_impl; [|exact H2]. simpl. intros; lia.
    + constructor; auto. apply Forall_forall. intros y Hy.
      assert (In y (map e_pos (e :: r))).
      { eapply Permutation_in; [|exact Hy]. apply Permutation_sym. apply Permutation_map. apply insert_perm. }
      destruct H0 as [<- | H0]; [lia|]. rewrite Forall_forall in H2. auto.
Qed.
Lemma sort_sorted l : sorted (sort_ents l).
Proof. induction l; simpl; [constructor | apply insert_sorted; auto]. Qed.

Lemma sorted_strict l : StronglySorted le l -> NoDup l -> StronglySorted lt l.
Proof.
  induction 1; intros N; [constructor|]. inversion N; subst. constructor; auto.
  rewrite Forall_forall in *. intros x Hx. specialize (H0 x Hx).
  assert (a <> x) by (intros ->; auto). lia.
Qed.

(** ** Ranges *)
Section Ranges.
Variable p : list bpf_insn.
Definition ender (j : nat) : Prop := exists i, nth_error p j = Some i /\ ends_bb i = true.

Lemma find_end_ok : forall n j, j + n <= length p -> exists k, find_end p n j = Ok k /\ j <= k <= j + n /\
  (0 < n -> j < k) /\ (forall q, j <= q < k -> ender q -> S q = k) /\ (k < j + n -> ender (k - 1) /\ j < k).
Proof.
  induction n as [|n IH]; intros j L; simpl.
  - exists j. repeat split; try lia.
  - destruct (nth_error p j) as [i|] eqn:N.
    2:{ apply nth_error_None in N. lia. }
    destruct (ends_bb i) eqn:Z.
    + exists (j + 1). repeat split; try lia.
      exists i. replace (j + 1 - 1) with j by lia. auto.
    + destruct (IH (j + 1)) as (k & A & B & C & D & F); [lia|]. exists k. repeat split; auto; try lia.
      * intros q Hq Eq. destruct (Nat.eq_dec q j) as [-> |].
        -- destruct Eq as (i' & Y1 & Y2). congruence.
        -- apply D; auto. lia.
      * apply F. lia.
Qed.

Definition range_ok (nj s k : nat) : Prop :=
  s < k <= nj /\ (forall q, s <= q < k -> ender q -> S q = k) /\ (k < nj -> ender (k - 1)).

Lemma ranges_ok : forall es, StronglySorted lt (map e_pos es) -> (forall e, In e es -> e_pos e < length p) ->
  exists rs, ranges p es = Ok rs /\ map fst rs = map e_pos es /\
    forall a s k, nth_error rs a = Some (s, k) -> range_ok (nth (S a) (map e_pos es) (length p)) s k.
Proof.
  induction es as [|e r IH]; intros S B.
  - exists []. split; [reflexivity|]. split; [reflexivity|]. intros [|a1]; discriminate.
  - inversion S; subst. destruct IH as (rs & R & M & P); auto. { intros; apply B; right; auto. }
    set (nj := match r with x :: _ => e_pos x | [] => length p end).
    assert (Hnj : e_pos e < nj <= length p).
    { unfold nj. destruct r as [|x r'].
      - specialize (B e (or_introl eq_refl)). lia.
      - simpl in H2. inversion H2; subst. specialize (B x (or_intror (or_introl eq_refl))). lia. }
    destruct (find_end_ok (nj - e_pos e) (e_pos e)) as (k & A & C & D & F & G); [lia|].
    exists ((e_pos e, k) :: rs). cbn [ranges]. fold nj. rewrite A. cbn [bind]. rewrite R. cbn [bind].
    split; [reflexivity|]. split; [simpl; congruence|].
    intros [|a] s k' N; simpl in N.
    + injection N as <- <-. assert (Q : nth 1 (map e_pos (e :: r)) (length p) = nj) by (unfold nj; destruct r; auto).
      rewrite Q. split; [lia|]. split; auto. intros Y. apply G. lia.
    + change (nth (Datatypes.S (Datatypes.S a)) (map e_pos (e :: r)) (length p)) with (nth (Datatypes.S a) (map e_pos r) (length p)).
      apply P; auto.
Qed.
End Ranges.

Lemma parent_idx_spec l pos : StronglySorted lt (map fst l) ->
  parent_idx l pos <= length l /\
  (forall a x, nth_error l a = Some x -> (a < parent_idx l pos <-> fst x <= pos)).
Proof.
  induction l as [|r l IH]; simpl; intros S.
  - split; auto. intros [|a]; discriminate.
  - inversion S; subst. destruct IH as [I1 I2]; auto. destruct (Nat.leb_spec (fst r) pos).
    + split; [lia|]. intros [|a] x N; simpl in N.
      * injection N as <-. split; intros; lia.
      * rewrite <- (I2 a x N). lia.
    + split; [lia|]. intros a x N. split; [lia|]. intros Y. exfalso. destruct a; simpl in N.
      * injection N as <-. lia.
      * rewrite Forall_forall in H2. specialize (H2 (fst x)). apply nth_error_In in N.
        apply (in_map fst) in N. specialize (H2 N). lia.
Qed.

Lemma ss_nth l : StronglySorted lt l -> forall a b x y, nth_error l a = Some x -> nth_error l b = Some y -> a < b -> x < y.
Proof.
  induction 1; intros [|a'] [|b'] x y A B L; simpl in *; try lia; try discriminate.
  - injection A as <-. rewrite Forall_forall in H0. apply H0. eapply nth_error_In; eauto.
  - eapply IHStronglySorted; eauto. lia.
Qed.

Lemma bb_parent_spec rs q a : StronglySorted lt (map fst rs) -> (exists k r, rs = (0, k) :: r) ->
  (forall b s k, nth_error rs b = Some (s, k) -> forall c s' k', b < c -> nth_error rs c = Some (s', k') -> k <= s') ->
  (bb_parent rs q = Some a <-> exists s k, nth_error rs a = Some (s, k) /\ s <= q < k).
Proof.
  intros S (k0 & r & ->) D. unfold bb_parent. simpl tl.
  assert (S' := S). simpl in S. inversion S; subst. destruct (parent_idx_spec r q H1) as [P1 P2].
  set (m := parent_idx r q) in *.
  assert (Q : forall b x, nth_error ((0, k0) :: r) b = Some x -> (b <= m <-> fst x <= q)).
  { intros [|b] x N; simpl in N.
    - injection N as <-. simpl. lia.
    - rewrite <- (P2 b x N). lia. }
  destruct (nth_error ((0, k0) :: r) m) as [[s k]|] eqn:N.
  2:{ apply nth_error_None in N. simpl in N. lia. }
  destruct (Q m (s, k) N) as [Q1 _]. specialize (Q1 (le_n _)). simpl in Q1. cbn [snd].
  destruct (Nat.leb_spec k q); split.
  - discriminate.
  - intros (s' & k' & N' & L). exfalso. destruct (Q a _ N') as [_ Q2]. simpl in Q2. specialize (Q2 (proj1 L)).
    destruct (Nat.eq_dec a m) as [-> |].
    + rewrite N in N'. injection N' as -> ->. lia.
    + assert (a < m) by lia. assert (k' <= s). { eapply D; eauto. } lia.
  - intros [= <-]. exists s, k. split; auto.
  - intros (s' & k' & N' & L). f_equal. destruct (Q a _ N') as [_ Q2]. simpl in Q2. specialize (Q2 (proj1 L)).
    destruct (Nat.eq_dec a m) as [-> |]; auto. exfalso.
    assert (a < m) by lia. assert (k' <= s). { eapply D; eauto. } lia.
Qed.

(** ** Edges *)
Lemma parents_in rs l a : In a (parents rs l) <-> exists q, In q l /\ bb_parent rs q = Some a.
Proof.
  induction l as [|q r IH]; simpl.
  - split; [tauto | intros (q & [] & _)].
  - destruct (bb_parent rs q) eqn:B; simpl; rewrite IH.
    + split.
      * intros [<- | (q' & A & C)]; eauto.
      * intros (q' & [<- | A] & C); [left; congruence | right; eauto].
    + split.
      * intros (q' & A & C); eauto.
      * intros (q' & [<- | A] & C); [congruence | eauto].
Qed.

Lemma parents_nodup rs l : NoDup l -> (forall q q' a, In q l -> In q' l -> bb_parent rs q = Some a -> bb_parent rs q' = Some a -> q = q') ->
  NoDup (parents rs l).
Proof.
  induction l as [|q r IH]; simpl; intros N H; [constructor|]. inversion N; subst.
  assert (NoDup (parents rs r)). { apply IH; auto. intros; eapply H; eauto. }
  destruct (bb_parent rs q) eqn:B; auto. constructor; auto. rewrite parents_in. intros (q' & A & C).
  apply H2. replace q with q'; auto. eapply H; eauto.
Qed.

Lemma edges_in rs es : forall n a b, In (a, b) (edges rs n es) <->
  exists e, n <= b /\ nth_error es (b - n) = Some e /\ In a (parents rs (e_preds e)).
Proof.
  induction es as [|e r IH]; intros n a b; cbn [edges].
  - split; [intros [] | intros (e & _ & N & _); destruct (b - n); discriminate].
  - rewrite in_app_iff, IH, in_map_iff. split.
    + intros [(x & [= <- <-] & I) | (e' & L & N & I)].
      * exists e. rewrite Nat.sub_diag. auto.
      * exists e'. split; [lia|]. split; auto. replace (b - n) with (S (b - (n + 1))) by lia. auto.
    + intros (e' & L & N & I). destruct (Nat.eq_dec b n) as [-> |].
      * rewrite Nat.sub_diag in N. injection N as <-. left. eauto.
      * right. exists e'. split; [lia|]. split; auto. replace (b - n) with (S (b - (n + 1))) in N by lia. auto.
Qed.

Lemma edges_nodup rs es : (forall e, In e es -> NoDup (parents rs (e_preds e))) -> forall n, NoDup (edges rs n es).
Proof.
  induction es as [|e r IH]; intros H n; cbn [edges]; [constructor|].
  assert (A : NoDup (map (fun a => (a, n)) (parents rs (e_preds e)))).
  { apply FinFun.Injective_map_NoDup; [intros x y [= ->]; auto | apply H; left; auto]. }
  assert (B : NoDup (edges rs (n + 1) r)) by (apply IH; intros; apply H; right; auto).
  revert A. generalize (parents rs (e_preds e)). intros l A.
  assert (D : forall x, In x (map (fun a => (a, n)) l) -> ~ In x (edges rs (n + 1) r)).
  { intros [a b] I J. apply in_map_iff in I. destruct I as (z & [= <- <-] & _).
    apply edges_in in J. destruct J as (? & L & _). lia. }
  revert A D. generalize (map (fun a => (a, n)) l). intros m A D. induction m; simpl in *; auto.
  inversion A; subst. constructor.
  - rewrite in_app_iff. intros [Y | Y]; [auto | eapply D; eauto].
  - apply IHm; auto.
Qed.

(** ** Building the blocks *)
Definition pb_of (ed : list (nat * nat)) n s e l :=
  mkPB s e l (map fst (filter (fun x => snd x =? n) ed)) (map snd (filter (fun x => fst x =? n) ed)).

Lemma mk_blocks_ok p ed : forall rs n, (forall s e, In (s, e) rs -> exists l, decode p (e - s) s e = Ok l) ->
  exists bs, mk_blocks p ed n rs = Ok bs /\ length bs = length rs /\
    forall a B, nth_error bs a = Some B -> exists s e l, nth_error rs a = Some (s, e) /\ decode p (e - s) s e = Ok l /\
      B = pb_of ed (n + a) s e l.
Proof.
  induction rs as [|[s e] r IH]; intros n H.
  - exists []. split; [reflexivity|]. split; [reflexivity|]. intros [|a1]; discriminate.
  - destruct (H s e (or_introl eq_refl)) as (l & Dl). destruct (IH (n + 1)) as (bs & R & L & P).
    { intros; apply H; right; auto. }
    eexists. cbn [mk_blocks]. rewrite Dl. cbn [bind]. rewrite R. cbn [bind]. split; [reflexivity|].
    split; [simpl; lia|]. intros [|a] B N; simpl in N.
    + injection N as <-. exists s, e, l. rewrite Nat.add_0_r. auto.
    + destruct (P a B N) as (s' & e' & l' & A1 & A2 & A3). exists s', e', l'. split; auto. split; auto.
      rewrite A3. f_equal. lia.
Qed.

Lemma pb_succs_in ed n b : In b (map snd (filter (fun x : nat * nat => fst x =? n) ed)) <-> In (n, b) ed.
Proof.
  rewrite in_map_iff. split.
  - intros ([x y] & <- & I). apply filter_In in I. destruct I as [I E]. apply Nat.eqb_eq in E. simpl in *. subst. auto.
  - intros I. exists (n, b). split; auto. apply filter_In. split; auto. apply Nat.eqb_refl.
Qed.
Lemma pb_preds_in ed n a : In a (map fst (filter (fun x : nat * nat => snd x =? n) ed)) <-> In (a, n) ed.
Proof.
  rewrite in_map_iff. split.
  - intros ([x y] & <- & I). apply filter_In in I. destruct I as [I E]. apply Nat.eqb_eq in E. simpl in *. subst. auto.
  - intros I. exists (a, n). split; auto. apply filter_In. split; auto. apply Nat.eqb_refl.
Qed.
Lemma pb_succs_nodup ed n : NoDup ed -> NoDup (map snd (filter (fun x : nat * nat => fst x =? n) ed)).
Proof.
  induction ed as [|[x y] r IH]; simpl; intros N; [constructor|]. inversion N; subst.
  destruct (Nat.eqb_spec x n); simpl; auto. constructor; auto. rewrite pb_succs_in. congruence.
Qed.
Lemma pb_preds_nodup ed n : NoDup ed -> NoDup (map fst (filter (fun x : nat * nat => snd x =? n) ed)).
Proof.
  induction ed as [|[x y] r IH]; simpl; intros N; [constructor|]. inversion N; subst.
  destruct (Nat.eqb_spec y n); simpl; auto. constructor; auto. rewrite pb_preds_in. congruence.
Qed.

(** ** Decoding *)
Lemma to_s64_spec a b : to_s64 a b = s64 (u32 a + 2 ^ 32 * b).
Proof.
  unfold to_s64, u32. f_equal. rewrite Z.land_ones by lia.
  rewrite Z.shiftl_mul_pow2 by lia.
  assert (Z.land (b * 2 ^ 32) (a mod 2 ^ 32) = 0)%Z.
  { apply Z.bits_inj'. intros n Hn. rewrite Z.land_spec, Z.bits_0.
    destruct (Z.ltb_spec n 32).
    - rewrite Z.mul_pow2_bits_low by lia. reflexivity.
    - rewrite Z.mod_pow2_bits_high by lia. apply andb_false_r. }
  rewrite <- Z.lxor_lor by auto. rewrite <- Z.add_nocarry_lxor by auto. lia.
Qed.

Lemma two_way_eq c : two_way c = jmp_cls c && cond_op c.
Proof. reflexivity. Qed.

Lemma fix_cases i : fix_pc0 i = i /\ (two_way (b_code i) = true -> b_off i <> 0%Z) \/
  (two_way (b_code i) = true /\ b_off i = 0%Z /\ fix_pc0 i = mkBpf 5 0 0 0 0).
Proof.
  unfold fix_pc0. rewrite <- two_way_eq. destruct (two_way (b_code i)); simpl.
  - destruct (Z.eqb_spec (b_off i) 0); auto.
  - left. split; auto. discriminate.
Qed.
Lemma fix_same i : same_insn i (fix_pc0 i).
Proof. destruct (fix_cases i) as [[A _] | A]; [left; auto | right; auto]. Qed.

Lemma at_fix p q i : nth_error (map fix_pc0 p) q = Some i <-> exists i0, at_pos p q i0 /\ i = fix_pc0 i0.
Proof.
  unfold at_pos. rewrite nth_error_map. destruct (nth_error p q); simpl; split.
  - intros [= <-]. eauto.
  - intros (i0 & [= ->] & ->). auto.
  - discriminate.
  - intros (i0 & ? & _). discriminate.
Qed.
Lemma two_way_small c : two_way c = true -> (c <> 0 /\ c <> 24 /\ c <> 5 /\ c <> 0x85 /\ c <> 0x95)%Z.
Proof. intros H. repeat split; intros ->; discriminate H. Qed.
Lemma fix_code0 i : b_code (fix_pc0 i) = 0%Z <-> b_code i = 0%Z.
Proof.
  destruct (fix_cases i) as [[-> _] | (A & _ & ->)]; [tauto|]. apply two_way_small in A. simpl. lia.
Qed.
Lemma fix_code24 i : b_code i = 24%Z -> fix_pc0 i = i.
Proof. intros H. destruct (fix_cases i) as [[A _] | (A & _ & _)]; auto. rewrite H in A. discriminate. Qed.

Section Decode.
Variable p : list bpf_insn.
Hypothesis W : wf_prog p.

Lemma decode_off : forall n s e l x, decode (map fix_pc0 p) n s e = Ok l -> In x l -> two_way (pi_code x) = true -> pi_off x <> 0%Z.
Proof.
  assert (F : forall s i, nth_error (map fix_pc0 p) s = Some i -> two_way (b_code i) = true -> b_off i <> 0%Z).
  { intros s i N T. apply at_fix in N. destruct N as (i0 & _ & ->). destruct (fix_cases i0) as [[E O] | (_ & _ & E)]; rewrite E in *; auto. discriminate T. }
  induction n as [|n IH]; intros s e l x H I T; cbn [decode] in H; [injection H as <-; destruct I|].
  destruct (e <=? s); [injection H as <-; destruct I|]. destruct (nth_error (map fix_pc0 p) s) as [i|] eqn:N; [|discriminate H]. cbv zeta in H.
  assert (K : forall q w m, (do r <- decode (map fix_pc0 p) n q e; Ok (mkPre (b_code i) (b_dst i) (b_src i) (b_off i) w (b_imm i) m s :: r)) = Ok l -> pi_off x <> 0%Z).
  { intros q w m K. destruct (decode (map fix_pc0 p) n q e) as [r| | | |] eqn:D; try discriminate K. injection K as <-. destruct I as [<-|I]; [exact (F s i N T)|exact (IH _ _ _ _ D I T)]. }
  destruct (if s + 1 <? e then _ else None) as [j|]; [destruct (b_code j =? 0)%Z|]; eapply K; exact H.
Qed.

Lemma decode_ok : forall n s e, e - s <= n -> s <= e -> e <= length p ->
  (forall i, at_pos p s i -> b_code i <> 0%Z) -> (forall i, at_pos p e i -> b_code i <> 0%Z) ->
  exists l, decode (map fix_pc0 p) n s e = Ok l /\ code_of p s e l.
Proof.
  induction n as [|n IH]; intros s e Hn Hs He Zs Ze.
  - assert (s = e) by lia. subst. exists []. split; [reflexivity | constructor].
  - cbn [decode]. destruct (Nat.leb_spec e s) as [L|L].
    + assert (s = e) by lia. subst. exists []. split; [reflexivity | constructor].
    + destruct (nth_error p s) as [i|] eqn:Ni.
      2:{ apply nth_error_None in Ni. lia. }
      assert (N' : nth_error (map fix_pc0 p) s = Some (fix_pc0 i)) by (apply at_fix; exists i; auto).
      rewrite N'. specialize (Zs i Ni) as Zi.
      (* the code of the next slot *)
      assert (One : b_code i <> 24%Z -> (forall j, at_pos p (S s) j -> b_code j <> 0%Z)).
      { intros H j Hj Zj. destruct (wf_slot p W (S s) j Hj Zj) as (q & i' & A & B & C).
        assert (q = s) by lia. subst. unfold at_pos in B. congruence. }
      destruct (Z.eq_dec (b_code i) 24) as [E24 | E24].
      * destruct (wf_wide p W s i Ni E24) as (j & Hj & Zj).
        assert (Le : s + 1 < e).
        { assert (S s < length p) by (apply nth_error_Some; unfold at_pos in Hj; congruence).
          destruct (Nat.eq_dec (S s) e); [|lia]. subst e. exfalso. apply (Ze j); auto. }
        destruct (Nat.ltb_spec (s + 1) e); [|lia].
        replace (nth_error (map fix_pc0 p) (s + 1)) with (Some (fix_pc0 j))
          by (symmetry; apply at_fix; exists j; split; auto; unfold at_pos; rewrite Nat.add_1_r; auto).
        replace (b_code (fix_pc0 j) =? 0)%Z with true by (symmetry; apply Z.eqb_eq, fix_code0; auto).
        destruct (IH (s + 2) e) as (l & Dl & Cl); auto; try lia.
        { intros k Hk Zk. destruct (wf_slot p W (s + 2) k Hk Zk) as (q & i' & A & B & C).
          assert (q = S s) by lia. subst. unfold at_pos in *. rewrite Hj in B. injection B as <-. congruence. }
        rewrite Dl. cbn [bind]. eexists. split; [reflexivity|].
        rewrite (fix_code24 i E24), E24, to_s64_spec.
        assert (Fj : b_imm (fix_pc0 j) = b_imm j).
        { destruct (fix_cases j) as [[-> _] | (A & _ & _)]; auto. rewrite Zj in A. discriminate. }
        rewrite Fj. eapply co_wide; eauto. replace (S (S s)) with (s + 2) by lia. auto.
      * destruct (IH (s + 1) e) as (l & Dl & Cl); auto; try lia.
        { rewrite Nat.add_1_r. apply One; auto. }
        assert (Res : exists l0, (do r <- decode (map fix_pc0 p) n (s + 1) e;
            Ok (mkPre (b_code (fix_pc0 i)) (b_dst (fix_pc0 i)) (b_src (fix_pc0 i)) (b_off (fix_pc0 i)) false
                 (b_imm (fix_pc0 i)) (Z.land (b_imm (fix_pc0 i)) (Z.ones 32)) s :: r)) = Ok l0 /\ code_of p s e l0).
        { rewrite Dl. cbn [bind]. eexists. split; [reflexivity|]. rewrite Z.land_ones by lia.
          eapply co_one; eauto using fix_same. rewrite <- Nat.add_1_r. auto. }
        destruct (Nat.ltb_spec (s + 1) e) as [L2|L2]; [|exact Res].
        destruct (nth_error (map fix_pc0 p) (s + 1)) as [j|] eqn:Nj; [|exact Res].
        apply at_fix in Nj. destruct Nj as (j0 & Hj0 & ->).
        destruct (Z.eqb_spec (b_code (fix_pc0 j0)) 0) as [Y|Y]; [|exact Res].
        exfalso. apply (proj1 (fix_code0 j0)) in Y. rewrite Nat.add_1_r in Hj0. apply (One E24 j0 Hj0 Y).
Qed.

Lemma code_of_le s e l : code_of p s e l -> s <= e.
Proof. induction 1; lia. Qed.
Lemma code_of_last s e l : code_of p s e l -> s < e -> exists l0 x i, l = l0 ++ [x] /\ at_pos p (pi_pos x) i /\
  s <= pi_pos x /\ b_code i <> 0%Z /\
  ((b_code i <> 24%Z /\ S (pi_pos x) = e) \/ (b_code i = 24%Z /\ S (S (pi_pos x)) = e)).
Proof.
  induction 1 as [| s e i i' l A B C D K IH | s e i j l A B C D K IH]; intros L; [lia| |].
  - destruct (Nat.eq_dec (S s) e) as [<- |].
    + inversion K; subst.
      * exists [], (mkPre (b_code i') (b_dst i') (b_src i') (b_off i') false (b_imm i') (u32 (b_imm i')) s), i.
        simpl. repeat split; auto.
      * apply code_of_le in H3. lia.
      * apply code_of_le in H3. lia.
    + destruct IH as (l0 & x & i0 & -> & I). { apply code_of_le in K. lia. }
      destruct I as (I1 & I2 & I3). exists (mkPre (b_code i') (b_dst i') (b_src i') (b_off i') false (b_imm i') (u32 (b_imm i')) s :: l0), x, i0.
      split; auto. split; auto. split; [lia|auto].
  - destruct (Nat.eq_dec (S (S s)) e) as [<- |].
    + inversion K; subst.
      * eexists [], _, i. split; [reflexivity|]. cbn [pi_pos]. repeat split; auto. congruence.
      * apply code_of_le in H3. lia.
      * apply code_of_le in H3. lia.
    + destruct IH as (l0 & x & i0 & -> & I). { apply code_of_le in K. lia. }
      destruct I as (I1 & I2 & I3). eexists (_ :: l0), x, i0.
      split; [reflexivity|]. split; auto. split; [lia|auto].
Qed.
End Decode.

(** ** Assembly *)
Section Main.
Variable p : list bpf_insn.
Hypothesis W : wf_prog p.
Hypothesis Len : (Z.of_nat (length p) <= 32768)%Z.
Hypothesis No0 : ~ jump_target p 0.
Let p' := map fix_pc0 p.

Lemma len' : length p' = length p.
Proof. apply map_length. Qed.

Definition jumpy (i : bpf_insn) : Prop := b_code i = 5%Z \/ two_way (b_code i) = true.

Lemma jmp_cls_iff c : jmp_cls c = true <-> (c mod 8 = 5 \/ c mod 8 = 6)%Z.
Proof. unfold jmp_cls, cls. rewrite orb_true_iff, !Z.eqb_eq. tauto. Qed.

Lemma wf_jump q i : at_pos p q i -> jmp_cls (b_code i) = true ->
  b_code i = 5%Z \/ b_code i = 0x85%Z \/ b_code i = 0x95%Z \/ two_way (b_code i) = true.
Proof. intros A J. apply (wf_jmp p W q i A). apply jmp_cls_iff. auto. Qed.

Lemma jumpy_at q i : at_pos p q i -> (jumpy i <-> jmp_cls (b_code i) = true /\ (ja_op (b_code i) = true \/ cond_op (b_code i) = true)).
Proof.
  intros A. unfold jumpy. rewrite two_way_eq, andb_true_iff. split.
  - intros [-> | [B C]]; auto.
  - intros [B [C | C]]; [|auto]. destruct (wf_jump q i A B) as [D | [D | [D | D]]]; auto.
    + rewrite D in C. discriminate.
    + rewrite D in C. discriminate.
    + rewrite two_way_eq, andb_true_iff in D. auto.
Qed.

Lemma next_jumpy q i t : jumpy i -> In t (next_pcs i (Z.of_nat q)) ->
  t = (Z.of_nat q + 1 + b_off i)%Z \/ (two_way (b_code i) = true /\ t = (Z.of_nat q + 1)%Z).
Proof.
  unfold next_pcs. intros J. destruct (Z.eqb_spec (b_code i) 5); simpl; [intuition|].
  destruct J as [J | J]; [congruence|]. rewrite J. simpl. intuition.
Qed.
Lemma next_target q i : jumpy i -> In (Z.of_nat q + 1 + b_off i)%Z (next_pcs i (Z.of_nat q)).
Proof.
  unfold next_pcs. intros J. destruct (Z.eqb_spec (b_code i) 5); simpl; [auto|].
  destruct J as [J | J]; [congruence|]. rewrite J. simpl. auto.
Qed.
Lemma next_fall q i : two_way (b_code i) = true -> In (Z.of_nat q + 1)%Z (next_pcs i (Z.of_nat q)).
Proof.
  unfold next_pcs. intros J. destruct (Z.eqb_spec (b_code i) 5) as [E|E].
  - rewrite E in J. discriminate.
  - rewrite J. simpl. auto.
Qed.

Lemma jedge_iff q t : jedge p' q t <-> exists i, at_pos p q i /\ jumpy i /\ In (Z.of_nat t) (next_pcs i (Z.of_nat q)).
Proof.
  unfold jedge, p'. split.
  - intros (i' & A & B & C). apply at_fix in A. destruct A as (i & A & ->). exists i. split; auto.
    destruct (fix_cases i) as [[E _] | (E1 & E2 & E3)].
    + rewrite E in *. assert (J : jumpy i). { apply (jumpy_at q i A). split; auto. tauto. }
      split; auto. destruct C as [[_ C] | [C ->]].
      * rewrite C. apply next_target; auto.
      * replace (Z.of_nat (S q)) with (Z.of_nat q + 1)%Z by lia. apply next_fall.
        rewrite two_way_eq, B, C. auto.
    + split; [right; auto|]. rewrite E3 in C. cbn in C. destruct C as [[_ C] | [C _]]; [|discriminate].
      replace (Z.of_nat t) with (Z.of_nat q + 1)%Z by lia. apply next_fall. auto.
  - intros (i & A & B & C). exists (fix_pc0 i). split; [apply at_fix; eauto|].
    assert (J := B). apply (jumpy_at q i A) in J. destruct J as [J1 J2].
    destruct (fix_cases i) as [[E _] | (E1 & E2 & E3)].
    + rewrite E. split; auto. destruct (next_jumpy _ _ _ B C) as [D | [D1 D2]]; [left; auto|].
      right. rewrite two_way_eq, andb_true_iff in D1. split; [tauto | lia].
    + rewrite E3. cbn. split; auto. left. split; auto. destruct (next_jumpy _ _ _ B C) as [D | [D1 D2]]; lia.
Qed.

Lemma jumpy_nz i : jumpy i -> b_code i <> 0%Z.
Proof. intros [-> | H]; [lia|]. apply two_way_small in H. lia. Qed.

Lemma jedge_lt q t : jedge p' q t -> t < length p /\ t <> 0 /\ q < length p.
Proof.
  rewrite jedge_iff. intros (i & A & B & C).
  destruct (wf_next p W q i _ A (jumpy_nz i B) C) as (k & i' & D & F & G).
  assert (k < length p) by (apply nth_error_Some; unfold at_pos in F; congruence).
  assert (q < length p) by (apply nth_error_Some; unfold at_pos in A; congruence).
  repeat split; try lia. intros ->. destruct (next_jumpy _ _ _ B C) as [Y | [_ Y]]; [|lia].
  apply No0. exists q, i. repeat split; auto.
Qed.

Lemma xstart_iff t : xstart p' t <-> t < length p /\ exists q i, t = S q /\ at_pos p q i /\ b_code i = 0x95%Z.
Proof.
  unfold xstart. rewrite len'. split.
  - intros (L & q & i' & -> & A & B & C). apply at_fix in A. destruct A as (i & A & ->). split; auto.
    exists q, i. split; auto. split; auto.
    destruct (fix_cases i) as [[E _] | (E1 & E2 & E3)].
    + rewrite E in *. destruct (wf_jump q i A B) as [D | [D | [D | D]]]; auto; try (rewrite D in C; discriminate).
      rewrite two_way_eq, andb_true_iff in D. rewrite (exit_cond _ C) in D. destruct D; discriminate.
    + rewrite E3 in C. discriminate.
  - intros (L & q & i & -> & A & B). split; auto. exists q, (fix_pc0 i). split; auto. split; [apply at_fix; eauto|].
    destruct (fix_cases i) as [[E _] | (E1 & E2 & E3)].
    + rewrite E, B. auto.
    + rewrite B in E1. discriminate.
Qed.

(** ends of blocks, breakpoints *)
Lemma ender_iff q : ender p' q <-> exists i, at_pos p q i /\ (jumpy i \/ b_code i = 0x95%Z).
Proof.
  unfold ender, p'. split.
  - intros (i' & A & B). apply at_fix in A. destruct A as (i & A & ->). exists i. split; auto.
    destruct (fix_cases i) as [[E _] | (E1 & E2 & E3)]; [|left; right; auto].
    rewrite E in B. unfold ends_bb in B. apply andb_true_iff in B. destruct B as [B C].
    rewrite !orb_true_iff in C. destruct C as [C | C].
    + left. apply (jumpy_at q i A). auto.
    + destruct (wf_jump q i A B) as [D | [D | [D | D]]]; auto; try (rewrite D in C; discriminate).
      left; right; auto.
  - intros (i & A & B). exists (fix_pc0 i). split; [apply at_fix; eauto|].
    destruct (fix_cases i) as [[E _] | (E1 & E2 & E3)]; [|rewrite E3; reflexivity].
    rewrite E. unfold ends_bb. destruct B as [B | ->]; [|reflexivity].
    apply (jumpy_at q i A) in B. destruct B as [-> [-> | ->]]; cbn [andb orb]; rewrite ?orb_true_r; reflexivity.
Qed.
Lemma brk_iff q : brk p' q <-> ender p' q.
Proof.
  split.
  - intros (i' & A & B). apply at_fix in A. destruct A as (i & A & ->). apply ender_iff. exists i. split; auto.
    destruct (fix_cases i) as [[E _] | (E1 & E2 & E3)]; [|left; right; auto].
    rewrite E in B. unfold breakpoint in B. apply andb_true_iff in B. destruct B as [B C].
    destruct (wf_jump q i A B) as [D | [D | [D | D]]]; auto.
    + left; left; auto.
    + rewrite D in C. discriminate.
    + left; right; auto.
  - intros (i & A & B). exists i. split; auto. unfold ends_bb in B. apply andb_true_iff in B. destruct B as [B C].
    rewrite !orb_true_iff in C. apply cond_brk; tauto.
Qed.

Lemma ender_step q i : at_pos p q i -> ~ ender p' q -> b_code i <> 0%Z ->
  next_pcs i (Z.of_nat q) = [(Z.of_nat q + (if (b_code i =? 24)%Z then 2 else 1))%Z].
Proof.
  intros A N Z. unfold next_pcs. destruct (Z.eqb_spec (b_code i) 5).
  { exfalso. apply N. apply ender_iff. exists i. split; auto. left; left; auto. }
  destruct (two_way (b_code i)) eqn:T.
  { exfalso. apply N. apply ender_iff. exists i. split; auto. left; right; auto. }
  destruct (Z.eqb_spec (b_code i) 0x95).
  { exfalso. apply N. apply ender_iff. exists i. split; auto. }
  destruct (Z.eqb_spec (b_code i) 24); auto.
Qed.

Theorem gen_bb_ok : exists bs, gen_bb p = Ok bs /\ blocks_of p bs /\ edges_of p bs.
Proof.
  assert (OkJ : forall q i, nth_error p' q = Some i -> jmp_cls (b_code i) = true ->
    ((ja_op (b_code i) = true -> cls (b_code i) = 5%Z) /\
     (ja_op (b_code i) = true \/ cond_op (b_code i) = true ->
       (0 <= Z.of_nat q + 1 + b_off i <= Z.of_nat (length p'))%Z) /\
     (cond_op (b_code i) = true -> b_off i <> 0%Z))).
  { intros q i' A J. assert (Je := A). apply at_fix in A. destruct A as (i & A & ->). split; [|split].
    - intros Y. destruct (fix_cases i) as [[E _] | (E1 & E2 & E3)]; [|rewrite E3; reflexivity].
      rewrite E in *. destruct (wf_jump q i A J) as [D | [D | [D | D]]]; try (rewrite D in *; auto; discriminate).
      rewrite two_way_eq, andb_true_iff in D. rewrite (ja_cond _ Y) in D. destruct D; discriminate.
    - intros Y. rewrite len'.
      assert (Jy : jumpy i).
      { destruct (fix_cases i) as [[E _] | (E1 & E2 & E3)]; [|right; auto]. rewrite E in *. apply (jumpy_at q i A). auto. }
      destruct (wf_next p W q i _ A (jumpy_nz i Jy) (next_target q i Jy)) as (k & i' & D & F & G).
      assert (k < length p) by (apply nth_error_Some; unfold at_pos in F; congruence).
      destruct (fix_cases i) as [[E _] | (E1 & E2 & E3)]; [rewrite E; lia | rewrite E3; cbn [b_off]; lia].
    - intros Y. destruct (fix_cases i) as [[E E'] | (E1 & E2 & E3)]; [|rewrite E3 in Y; discriminate].
      rewrite E in *. apply E'. rewrite two_way_eq, J, Y. auto. }
  destruct (scan_all p') as (es & R & [I1 I2 I3]); [rewrite len'; auto | exact OkJ |].
  set (ss := sort_ents (es ++ [mkEnt 0 []])).
  assert (Pm : Permutation (es ++ [mkEnt 0 []]) ss) by apply sort_perm.
  assert (P0 : ~ In 0 (map e_pos es)).
  { rewrite I2. intros [(q & Y) | Y].
    - apply jedge_lt in Y. lia.
    - apply xstart_iff in Y. destruct Y as (_ & q & i & Y & _). lia. }
  assert (Nd : NoDup (map e_pos ss)).
  { eapply Permutation_NoDup; [apply Permutation_map; exact Pm|]. rewrite map_app. apply nodup_snoc; auto. }
  assert (St : StronglySorted lt (map e_pos ss)) by (apply sorted_strict; auto; apply sort_sorted).
  assert (InS : forall k, In k (map e_pos ss) <-> k = 0 \/ (exists q, jedge p' q k) \/ xstart p' k).
  { intros k. rewrite <- I2. split.
    - intros Y. apply (Permutation_in (l' := map e_pos (es ++ [mkEnt 0 []]))) in Y;
        [|apply Permutation_map, Permutation_sym, Pm].
      rewrite map_app, in_app_iff in Y. simpl in Y. intuition.
    - intros Y. apply (Permutation_in (l := map e_pos (es ++ [mkEnt 0 []]))); [apply Permutation_map, Pm|].
      rewrite map_app, in_app_iff. simpl. intuition. }
  assert (Lt : forall k, In k (map e_pos ss) -> k < length p).
  { intros k Y. apply InS in Y. destruct Y as [-> | [(q & Y) | Y]].
    - assert (Np := wf_ne p W). destruct p; [congruence | simpl; lia].
    - apply jedge_lt in Y. tauto.
    - apply xstart_iff in Y. tauto. }
  assert (Bd : forall k, In k (map e_pos ss) <-> boundary p k).
  { intros k. rewrite InS. unfold boundary. split.
    - intros [-> | [(q & Y) | Y]]; auto.
      + assert (Y' := Y). apply jedge_iff in Y. destruct Y as (i & A & B & C). right.
        destruct (next_jumpy _ _ _ B C) as [D | [D1 D2]].
        * left. exists q, i. auto.
        * right. exists q, i. split; auto. split; auto. split; [lia|]. apply jedge_lt in Y'. tauto.
      + apply xstart_iff in Y. destruct Y as (L & q & i & -> & A & B). right; right. exists q, i. auto.
    - intros [-> | [(q & i & A & B & C) | (q & i & A & B & C & D)]]; auto.
      + right; left. exists q. apply jedge_iff. exists i. split; auto. split; auto. rewrite C. apply next_target; auto.
      + right. destruct B as [B | B].
        * left. exists q. apply jedge_iff. exists i. split; auto. split; [right; auto|].
          replace (Z.of_nat k) with (Z.of_nat q + 1)%Z by lia. apply next_fall; auto.
        * right. apply xstart_iff. split; auto. exists q, i. auto. }
  assert (Nz : forall k i, In k (map e_pos ss) -> at_pos p k i -> b_code i <> 0%Z).
  { intros k i Y A Z. destruct (wf_slot p W k i A Z) as (q & i0 & -> & B & C).
    apply InS in Y. destruct Y as [Y | [(q' & Y) | Y]]; [lia| |].
    - apply jedge_iff in Y. destruct Y as (i1 & D1 & D2 & D3).
      destruct (wf_next p W q' i1 _ D1 (jumpy_nz i1 D2) D3) as (k & i2 & F1 & F2 & F3).
      assert (k = S q) by lia. subst k. unfold at_pos in *. congruence.
    - apply xstart_iff in Y. destruct Y as (_ & q' & i1 & D1 & D2 & D3). assert (q' = q) by lia. subst q'.
      unfold at_pos in *. rewrite D2 in B. injection B as ->. rewrite D3 in C. discriminate. }
  assert (Hp : forall e, In e ss -> NoDup (e_preds e) /\ forall q, In q (e_preds e) <->
     jedge p' q (e_pos e) \/ (S q = e_pos e /\ q < length p /\ ~ ender p' q)).
  { intros e He. apply (Permutation_in (l' := es ++ [mkEnt 0 []])) in He; [|apply Permutation_sym, Pm].
    apply in_app_iff in He. destruct He as [He | [<- | []]].
    - destruct (I3 e He) as [J1 J2]. split; auto. intros q. rewrite J2, len', brk_iff. tauto.
    - simpl. split; [constructor|]. intros q. split; [tauto|]. intros [Y | Y]; [|lia]. apply jedge_lt in Y. lia. }
  destruct (ranges_ok p' ss) as (rs & Rr & Mr & Pr); auto.
  { intros e He. rewrite len'. apply Lt. apply in_map. auto. }
  assert (Lr : length rs = length ss) by (rewrite <- (map_length fst), Mr, map_length; auto).
  assert (Fst : forall a s k, nth_error rs a = Some (s, k) -> nth_error (map e_pos ss) a = Some s).
  { intros a s k Y. rewrite <- Mr, nth_error_map, Y. reflexivity. }
  assert (R0 : exists k r, rs = (0, k) :: r).
  { assert (I0 : In 0 (map e_pos ss)) by (apply InS; auto).
    destruct rs as [|[s k] r]; [rewrite <- Mr in I0; destruct I0|].
    assert (F0 := Fst 0 s k eq_refl). apply In_nth_error in I0. destruct I0 as (n & I0).
    destruct n; [rewrite F0 in I0; injection I0 as ->; eauto|].
    assert (s < 0) by (eapply (ss_nth _ St 0 (S n)); eauto; lia). lia. }
  assert (Nxt : forall a c s', nth_error (map e_pos ss) c = Some s' -> a < c -> nth (S a) (map e_pos ss) (length p') <= s').
  { intros a c s' N L. destruct (Nat.eq_dec (S a) c) as [<- |].
    - rewrite (nth_error_nth _ _ _ N). auto.
    - assert (S a < length (map e_pos ss)). { assert (c < length (map e_pos ss)) by (apply nth_error_Some; congruence). lia. }
      destruct (nth_error (map e_pos ss) (S a)) as [x|] eqn:Nx; [|apply nth_error_None in Nx; lia].
      rewrite (nth_error_nth _ _ _ Nx). assert (x < s') by (eapply (ss_nth _ St (S a) c); eauto; lia). lia. }
  assert (Dj : forall b s k, nth_error rs b = Some (s, k) -> forall c s' k', b < c -> nth_error rs c = Some (s', k') -> k <= s').
  { intros b s k N c s' k' L N'. destruct (Pr b s k N) as ((_ & Y) & _). etransitivity; [exact Y|].
    apply (Nxt b c s'); eauto. }
  assert (Sr : StronglySorted lt (map fst rs)) by (rewrite Mr; auto).
  assert (Par : forall q a, bb_parent rs q = Some a <-> exists s k, nth_error rs a = Some (s, k) /\ s <= q < k).
  { intros. apply bb_parent_spec; auto. }
  (* ranges *)
  assert (Rng : forall a s k, nth_error rs a = Some (s, k) -> s < k <= length p /\
     (forall i, at_pos p s i -> b_code i <> 0%Z) /\ (forall i, at_pos p k i -> b_code i <> 0%Z)).
  { intros a s k N. destruct (Pr a s k N) as ((Y1 & Y2) & Y3 & Y4).
    assert (Hs : In s (map e_pos ss)) by (eapply nth_error_In; eauto).
    assert (K : k <= length p).
    { etransitivity; [exact Y2|]. destruct (nth_error (map e_pos ss) (S a)) as [x|] eqn:Nx.
      - rewrite (nth_error_nth _ _ _ Nx). apply nth_error_In in Nx. apply Lt in Nx. lia.
      - apply nth_error_None in Nx. rewrite nth_overflow by auto. rewrite len'. auto. }
    split; [lia|]. split; [intros i; apply Nz; auto|].
    intros i Hi Z0. destruct (Nat.eq_dec k (nth (S a) (map e_pos ss) (length p'))) as [E|E].
    - destruct (nth_error (map e_pos ss) (S a)) as [x|] eqn:Nx.
      + rewrite (nth_error_nth _ _ _ Nx) in E. subst x. apply nth_error_In in Nx. apply (Nz k i Nx Hi Z0).
      + apply nth_error_None in Nx. rewrite nth_overflow in E by auto. rewrite len' in E.
        assert (k < length p) by (apply nth_error_Some; unfold at_pos in Hi; congruence). lia.
    - destruct (wf_slot p W k i Hi Z0) as (q & i0 & -> & B & C).
      assert (En : ender p' (S q - 1)) by (apply Y4; lia). replace (S q - 1) with q in En by lia.
      apply ender_iff in En. destruct En as (i1 & D1 & D2). unfold at_pos in *. rewrite B in D1. injection D1 as <-.
      destruct D2 as [[D2 | D2] | D2]; rewrite C in D2; discriminate. }
  assert (Dec : forall s e, In (s, e) rs -> exists l, decode p' (e - s) s e = Ok l /\ code_of p s e l).
  { intros s e Y. apply In_nth_error in Y. destruct Y as (a & Y). destruct (Rng a s e Y) as ((Z1 & Z2) & Z3 & Z4).
    apply decode_ok; auto; lia. }
  set (ed := edges rs 0 ss).
  destruct (mk_blocks_ok p' ed rs 0) as (bs & Rb & Lb & Pb).
  { intros s e Y. destruct (Dec s e Y) as (l & Y1 & _). eauto. }
  exists bs. split.
  { unfold gen_bb. fold p'. rewrite R. cbn [bind]. fold ss. rewrite Rr. cbn [bind]. exact Rb. }
  assert (Ed : forall a b, In (a, b) ed <-> exists e q s k, nth_error ss b = Some e /\ nth_error rs a = Some (s, k) /\
     s <= q < k /\ (jedge p' q (e_pos e) \/ (S q = e_pos e /\ q < length p /\ ~ ender p' q))).
  { intros a b. unfold ed. rewrite edges_in. rewrite Nat.sub_0_r. split.
    - intros (e & _ & N & Y). apply parents_in in Y. destruct Y as (q & Y1 & Y2).
      apply Par in Y2. destruct Y2 as (s & k & Y3 & Y4). exists e, q, s, k. repeat split; auto; try lia.
      apply Hp; auto. eapply nth_error_In; eauto.
    - intros (e & q & s & k & N & Y1 & Y2 & Y3). exists e. split; [lia|]. split; auto. apply parents_in.
      exists q. split; [apply Hp; auto; eapply nth_error_In; eauto|]. apply Par. eauto. }
  (* a predecessor position is the last one of its block *)
  assert (Last : forall a s k q t, nth_error rs a = Some (s, k) -> s <= q < k -> In t (map e_pos ss) ->
     (jedge p' q t \/ (S q = t /\ q < length p /\ ~ ender p' q)) -> S q = k).
  { intros a s k q t N Q T Y. destruct (Pr a s k N) as ((_ & Y2) & Y3 & _). destruct Y as [Y | (Y & _ & _)].
    - apply Y3; auto. apply ender_iff. apply jedge_iff in Y. destruct Y as (i & A & B & _). exists i. auto.
    - apply In_nth_error in T. destruct T as (c & T). destruct (Nat.lt_ge_cases a c) as [L|L].
      + assert (nth (S a) (map e_pos ss) (length p') <= t) by (apply (Nxt a c t); auto). lia.
      + assert (t <= s). { destruct (Nat.eq_dec c a) as [-> |]; [rewrite (Fst _ _ _ N) in T; injection T; lia|].
          assert (t < s) by (eapply (ss_nth _ St c a); eauto; lia). lia. } lia. }
  assert (Nde : NoDup ed).
  { apply edges_nodup. intros e He. destruct (Hp e He) as [H1 H2]. apply parents_nodup; auto.
    intros q q' a A1 A2 B1 B2. apply Par in B1, B2. destruct B1 as (s & k & C1 & C2), B2 as (s' & k' & C3 & C4).
    rewrite C1 in C3. injection C3 as <- <-. assert (S q = k). { apply (Last a s k q (e_pos e)); auto. apply in_map; auto. apply H2; auto. }
    assert (S q' = k). { apply (Last a s k q' (e_pos e)); auto. apply in_map; auto. apply H2; auto. } lia. }
  assert (Bl : forall a B, nth_error bs a = Some B -> exists s e l, nth_error rs a = Some (s, e) /\ code_of p s e l /\ B = pb_of ed a s e l).
  { intros a B Y. destruct (Pb a B Y) as (s & e & l & A1 & A2 & A3). exists s, e, l. split; auto.
    destruct (Dec s e) as (l' & B1 & B2). { eapply nth_error_In; eauto. }
    rewrite A2 in B1. injection B1 as <-. auto. }
  assert (Ms : map pb_start bs = map e_pos ss).
  { rewrite <- Mr. clear - Bl Lb. apply nth_ext with (d := 0) (d' := 0); [rewrite !map_length; auto|].
    intros n L. rewrite map_length in L. destruct (nth_error bs n) as [B|] eqn:N; [|apply nth_error_None in N; lia].
    destruct (Bl n B N) as (s & e & l & A1 & A2 & ->).
    transitivity s.
    - apply nth_error_nth. rewrite nth_error_map, N. reflexivity.
    - symmetry. apply nth_error_nth. rewrite nth_error_map, A1. reflexivity. }
  split.
  - constructor.
    + intros k. rewrite Ms. apply Bd.
    + rewrite Ms. auto.
    + destruct R0 as (k & r & R0). assert (nth_error bs 0 <> None).
      { apply nth_error_Some. rewrite Lb, R0. simpl. lia. }
      destruct (nth_error bs 0) as [B|] eqn:N; [|congruence]. exists B. split; auto.
      destruct (Bl 0 B N) as (s & e & l & A1 & A2 & ->). rewrite R0 in A1. injection A1 as <- <-. reflexivity.
    + intros B HB. apply In_nth_error in HB. destruct HB as (a & N).
      destruct (Bl a B N) as (s & e & l & A1 & A2 & ->). split; auto. cbn.
      destruct (Rng a s e A1) as ((L & _) & _). intros ->. inversion A2; lia.
    + intros B j i HB A J C. apply In_nth_error in HB. destruct HB as (a & N).
      destruct (Bl a B N) as (s & e & l & A1 & A2 & ->). cbn in *. destruct (Pr a s e A1) as (_ & Y & _). apply Y; auto.
      apply ender_iff. exists i. split; auto. unfold jumpy. tauto.
    + intros B k HB Hk L. apply In_nth_error in HB. destruct HB as (a & N).
      destruct (Bl a B N) as (s & e & l & A1 & A2 & ->). cbn in *. apply Bd in Hk.
      destruct (Pr a s e A1) as ((_ & Y) & _). etransitivity; [exact Y|].
      apply In_nth_error in Hk. destruct Hk as (c & Hk). apply (Nxt a c k); auto.
      destruct (Nat.lt_ge_cases a c); auto. exfalso.
      destruct (Nat.eq_dec c a) as [-> |]; [rewrite (Fst _ _ _ A1) in Hk; injection Hk; lia|].
      assert (k < s) by (eapply (ss_nth _ St c a); eauto; lia). lia.
    + intros a b A B Na Nb L. eapply (ss_nth _ St a b); [| |exact L]; rewrite <- Ms, nth_error_map; [rewrite Na|rewrite Nb]; reflexivity.
    + intros B x HB Ix. apply In_nth_error in HB. destruct HB as (a & N). destruct (Pb a B N) as (s & e & l & A1 & A2 & ->). exact (decode_off p _ _ _ _ x A2 Ix).
  - assert (Suc : forall a A b, nth_error bs a = Some A -> (In b (pb_succs A) <-> In (a, b) ed)).
    { intros a A b N. destruct (Bl a A N) as (s & e & l & A1 & A2 & ->). apply pb_succs_in. }
    assert (Pre : forall a A b, nth_error bs a = Some A -> (In b (pb_preds A) <-> In (b, a) ed)).
    { intros a A b N. destruct (Bl a A N) as (s & e & l & A1 & A2 & ->). apply pb_preds_in. }
    assert (Lst : forall a s k l q i, nth_error rs a = Some (s, k) -> code_of p s k l ->
        (exists l0 x, l = l0 ++ [x] /\ pi_pos x = q) -> at_pos p q i ->
        s <= q /\ b_code i <> 0%Z /\ ((b_code i <> 24%Z /\ S q = k) \/ (b_code i = 24%Z /\ S (S q) = k))).
    { intros a s k l q i N Cl (l0 & x & -> & <-) A.
      destruct (code_of_last p s k _ Cl) as (l1 & x' & i' & E & B1 & B2 & B3 & B4). { apply (Rng a s k N). }
      apply app_inj_tail in E. destruct E as [<- <-]. unfold at_pos in *. rewrite A in B1. injection B1 as <-.
      auto. }
    assert (Cflow : forall a s k l q i t, nth_error rs a = Some (s, k) -> code_of p s k l ->
        (exists l0 x, l = l0 ++ [x] /\ pi_pos x = q) -> at_pos p q i -> In t (map e_pos ss) ->
        ((exists q', s <= q' < k /\ (jedge p' q' t \/ (S q' = t /\ q' < length p /\ ~ ender p' q'))) <->
         In (Z.of_nat t) (next_pcs i (Z.of_nat q)))).
    { intros a s k l q i t N Cl Hl A T. destruct (Lst a s k l q i N Cl Hl A) as (L1 & L2 & L3).
      destruct (Rng a s k N) as ((K1 & K2) & _).
      assert (Wd : b_code i = 24%Z -> ~ ender p' q /\ ~ ender p' (S q)).
      { intros E. split; intros Y; apply ender_iff in Y; destruct Y as (i1 & D1 & D2).
        - unfold at_pos in *. rewrite A in D1. injection D1 as <-. destruct D2 as [[D2 | D2] | D2]; rewrite E in D2; discriminate.
        - destruct (wf_wide p W q i A E) as (j & F1 & F2). unfold at_pos in *. rewrite F1 in D1. injection D1 as <-.
          destruct D2 as [[D2 | D2] | D2]; rewrite F2 in D2; discriminate. }
      split.
      - intros (q' & Q & Y). assert (Sq : S q' = k) by (eapply Last; eauto).
        destruct L3 as [[L3 L4] | [L3 L4]].
        + assert (q' = q) by lia. subst q'. destruct Y as [Y | (Y1 & Y2 & Y3)].
          * apply jedge_iff in Y. destruct Y as (i1 & D1 & D2 & D3). unfold at_pos in *. rewrite A in D1. injection D1 as <-. auto.
          * rewrite (ender_step q i A Y3 L2). destruct (Z.eqb_spec (b_code i) 24); [congruence|]. left. lia.
        + assert (q' = S q) by lia. subst q'. destruct (Wd L3) as [W1 W2]. destruct Y as [Y | (Y1 & Y2 & Y3)].
          * exfalso. apply W2. apply ender_iff. apply jedge_iff in Y. destruct Y as (i1 & D1 & D2 & _). eauto.
          * rewrite (ender_step q i A W1 L2). rewrite L3. left. change (24 =? 24)%Z with true. cbv iota. lia.
      - intros Y. destruct L3 as [[L3 L4] | [L3 L4]].
        + exists q. split; [lia|].
          assert (Jd : jumpy i \/ ~ jumpy i).
          { unfold jumpy. destruct (Z.eq_dec (b_code i) 5); auto. destruct (two_way (b_code i)); auto.
            right. intros [? | ?]; congruence. }
          destruct Jd as [J | J].
          * left. apply jedge_iff. eauto.
          * right. unfold next_pcs in Y. destruct (Z.eqb_spec (b_code i) 5); [exfalso; apply J; left; auto|].
            destruct (two_way (b_code i)) eqn:Tw; [exfalso; apply J; right; auto|].
            destruct (Z.eqb_spec (b_code i) 0x95); [destruct Y|].
            destruct (Z.eqb_spec (b_code i) 24); [congruence|]. destruct Y as [Y | []]. split; [lia|]. split; [lia|].
            intros En. apply ender_iff in En. destruct En as (i1 & D1 & D2). unfold at_pos in *. rewrite A in D1. injection D1 as <-.
            destruct D2; auto.
        + exists (S q). split; [lia|]. right. destruct (Wd L3) as [W1 W2].
          rewrite (ender_step q i A W1 L2) in Y. rewrite L3 in Y. change (24 =? 24)%Z with true in Y. cbv iota in Y.
          destruct Y as [Y | []]. split; [lia|]. split; [lia | auto]. }
    constructor.
    + intros a b A B q i Na Nb Hl Hi. rewrite (Suc a A b Na), Ed.
      destruct (Bl a A Na) as (s & k & l & A1 & A2 & ->). destruct (Bl b B Nb) as (s' & k' & l' & B1 & B2 & ->).
      cbn [pb_start pb_of]. assert (Fb := Fst b s' k' B1).
      assert (Tb : In s' (map e_pos ss)) by (eapply nth_error_In; eauto).
      rewrite nth_error_map in Fb. destruct (nth_error ss b) as [e|] eqn:Ne; [|discriminate]. injection Fb as Fb.
      rewrite <- (Cflow a s k l q i s' A1 A2 Hl Hi Tb). split.
      * intros (e' & q' & s0 & k0 & C1 & C2 & C3 & C4). injection C1 as <-. rewrite A1 in C2. injection C2 as <- <-.
        rewrite Fb in C4. eauto.
      * intros (q' & C3 & C4). exists e, q', s, k. rewrite Fb. auto.
    + intros a b A B Na Nb. rewrite (Suc a A b Na), (Pre b B a Nb). tauto.
    + intros A HA. apply In_nth_error in HA. destruct HA as (a & N). destruct (Bl a A N) as (s & e & l & A1 & A2 & ->).
      split; [apply pb_succs_nodup | apply pb_preds_nodup]; auto.
    + intros A c HA Y. apply In_nth_error in HA. destruct HA as (a & N). rewrite Lb.
      destruct Y as [Y | Y].
      * rewrite (Suc a A c N), Ed in Y. destruct Y as (e & q & s & k & Y & _). rewrite Lr. apply nth_error_Some. congruence.
      * rewrite (Pre a A c N), Ed in Y. destruct Y as (e & q & s & k & _ & Y & _). apply nth_error_Some. congruence.
    + intros A q i t HA Hl Hi Ht. apply In_nth_error in HA. destruct HA as (a & N).
      destruct (Bl a A N) as (s & k & l & A1 & A2 & ->). destruct (Lst a s k l q i A1 A2 Hl Hi) as (L1 & L2 & L3).
      destruct (wf_next p W q i t Hi L2 Ht) as (k1 & i1 & -> & D1 & D2).
      assert (Hk : In k1 (map pb_start bs)).
      { rewrite Ms. destruct (Rng a s k A1) as ((K1 & K2) & _).
        assert (Le : q < k) by lia.
        assert (Dc : jedge p' q k1 \/ k1 = k).
        { unfold next_pcs in Ht. destruct (Z.eqb_spec (b_code i) 5) as [E|E].
          - left. apply jedge_iff. exists i. split; auto. split; [left; auto|]. unfold next_pcs. rewrite E. auto.
          - destruct (two_way (b_code i)) eqn:Tw.
            + left. apply jedge_iff. exists i. split; auto. split; [right; auto|]. unfold next_pcs.
              apply Z.eqb_neq in E. rewrite E, Tw. auto.
            + destruct (Z.eqb_spec (b_code i) 0x95); [destruct Ht|].
              right. destruct L3 as [[L3 L4] | [L3 L4]].
              * destruct (Z.eqb_spec (b_code i) 24); [congruence|]. destruct Ht as [Ht | []]. lia.
              * rewrite L3 in Ht. destruct Ht as [Ht | []]. lia. }
        destruct Dc as [Dc | ->]; [apply InS; eauto|].
        assert (Kl : k < length p) by (apply nth_error_Some; unfold at_pos in D1; congruence).
        destruct (Pr a s k A1) as ((_ & Y2) & _ & Y4).
        destruct (Nat.eq_dec k (nth (S a) (map e_pos ss) (length p'))) as [E|E].
        - destruct (nth_error (map e_pos ss) (S a)) as [x|] eqn:Nx.
          + rewrite (nth_error_nth _ _ _ Nx) in E. subst x. eapply nth_error_In; eauto.
          + apply nth_error_None in Nx. rewrite nth_overflow in E by auto. rewrite len' in E. lia.
        - apply InS. assert (En : ender p' (k - 1)) by (apply Y4; lia).
          apply ender_iff in En. destruct En as (i0 & E1 & [E2 | E2]).
          + destruct L3 as [[L3 L4] | [L3 L4]].
            * replace (k - 1) with q in E1 by lia. unfold at_pos in *. rewrite Hi in E1. injection E1 as <-.
              right; left. exists q. apply jedge_iff. exists i. auto.
            * destruct (wf_wide p W q i Hi L3) as (j & F1 & F2). replace (k - 1) with (S q) in E1 by lia.
              unfold at_pos in *. rewrite F1 in E1. injection E1 as <-. apply jumpy_nz in E2. congruence.
          + right; right. apply xstart_iff. split; auto. exists (k - 1), i0. split; [lia|]. auto. }
      apply in_map_iff in Hk. destruct Hk as (B & E & HB). exists B. split; [auto | congruence].
Qed.
End Main.
