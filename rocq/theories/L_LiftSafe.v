(** Safety and structure of lifted functions: the lifter makes no invalid access, and what it builds
    is well linked, with every use registered exactly once. *)
From Coq Require Import ZArith List Bool Arith Lia.
From Verif Require Import M_Base M_Ir M_Edit SpecWord SpecIsa M_GenBB M_Lift SpecIr L_Edit L_Lift L_LiftRead.
Import ListNotations.
Open Scope nat_scope.

(** [c]: the program respects the limits of the tables *)
Definition holds {A} (c : Prop) (o : outcome A) (Q : A -> Prop) : Prop :=
  match o with Ok a => Q a | Err | NoFuel => True | UB | Crit => ~ c end.
Lemma holds_bind {A B} c (o : outcome A) (f : A -> outcome B) (P : A -> Prop) Q :
  holds c o P -> (forall a, P a -> holds c (f a) Q) -> holds c (bind o f) Q.
Proof. destruct o; cbn; auto. Qed.
Lemma holds_imp {A} c (o : outcome A) (P Q : A -> Prop) : holds c o P -> (forall a, P a -> Q a) -> holds c o Q.
Proof. destruct o; cbn; auto. Qed.
Lemma holds_ofold {S A} c (f : S -> A -> outcome S) (J : S -> Prop) l : forall s, J s ->
  (forall s a, In a l -> J s -> holds c (f s a) J) -> holds c (ofold f s l) J.
Proof.
  induction l as [|a l IH]; intros s H K; cbn [ofold]; [exact H|].
  eapply holds_bind; [apply K; [now left | exact H]|]. intros s1 H1. apply IH; [exact H1|]. intros; apply K; [now right | assumption].
Qed.

Definition touch (i : nat) (us : list value) (j : nat) (y : insn) : insn :=
  if existsb (is_use_of j) us then set_users (push_unique (i_users y) i) y else y.

Lemma push_unique_idem l x : push_unique (push_unique l x) x = push_unique l x.
Proof.
  unfold push_unique. destruct (existsb (Nat.eqb x) l) eqn:E; [now rewrite E|].
  rewrite existsb_app, E. cbn. now rewrite Nat.eqb_refl.
Qed.

Lemma touch_users i us j y u : In u (i_users (touch i us j y)) <-> In u (i_users y) \/ (u = i /\ existsb (is_use_of j) us = true).
Proof. unfold touch. destruct (existsb (is_use_of j) us); [cbn; rewrite push_unique_in; intuition congruence | intuition congruence]. Qed.
Lemma touch_nodup i us j y : NoDup (i_users y) -> NoDup (i_users (touch i us j y)).
Proof. unfold touch. destruct (existsb (is_use_of j) us); [cbn; apply push_unique_nodup | auto]. Qed.
Lemma touch_same i us j y : exists l, touch i us j y = set_users l y.
Proof. unfold touch. destruct (existsb _ us); eauto. exists (i_users y). now destruct y. Qed.

Definition valid (f : func) (v : value) : Prop :=
  match v_data v with VInsn d => 1 <= d < f_ni f | _ => True end.

Section Safe.
Variable bs : list pblock.

Record finv (f : func) : Prop := {
  fi_ni : 7 <= f_ni f;
  fi_entry : f_entry f = 1;
  fi_all : f_all f = seq 1 (length bs);
  fi_nb : f_nb f = S (length bs);
  fi_live : forall i, f_insn f i <> None <-> 1 <= i < f_ni f;
  fi_base : forall i, 1 <= i < 7 -> exists l, f_insn f i = option_map (set_users l) (init_insns i);
  fi_blk : forall b, match blk bs b with
                     | Some pb => exists l, f_block f b = Some (mkBlock l (map S (pb_preds pb)) (map S (pb_succs pb)) 0%Z)
                     | None => f_block f b = None end;
  fi_link : linked_ok f;
  fi_has : forall i x, 7 <= i -> f_insn f i = Some x -> In i (insns_of f (i_parent x));
  fi_once : forall b, NoDup (insns_of f b);
  fi_ge : forall b i, In i (insns_of f b) -> 7 <= i;
  fi_users : forall u d, In u (users_of f d) <-> uses f u d > 0;
  fi_unodup : forall d, NoDup (users_of f d);
  fi_phi : forall i x, f_insn f i = Some x -> i_op x = PHI -> i_vals x = [] }.

Lemma fi_some f i : finv f -> 1 <= i < f_ni f -> exists x, f_insn f i = Some x.
Proof. intros F H. apply (fi_live f F) in H. destruct (f_insn f i); [eauto | congruence]. Qed.
Lemma fi_none f i : finv f -> f_ni f <= i -> f_insn f i = None.
Proof. intros F H. destruct (f_insn f i) eqn:E; [|reflexivity]. assert (1 <= i < f_ni f) by (apply (fi_live f F); congruence). lia. Qed.

(** registering the operands *)
Lemma use_fold i us : forall g, (forall v d, In v us -> v_data v = VInsn d -> f_insn g d <> None) ->
  exists g', ofold (fun g v => use_val g i v) g us = Ok g' /\ f_block g' = f_block g /\ f_ni g' = f_ni g /\ f_nb g' = f_nb g /\ f_all g' = f_all g /\ f_entry g' = f_entry g /\ forall j, f_insn g' j = option_map (touch i us j) (f_insn g j).
Proof.
  induction us as [|v us IH]; intros g H; cbn [ofold].
  - exists g. repeat split. intros j. unfold touch; cbn. now destruct (f_insn g j).
  - destruct (v_data v) as [ | | |d| |] eqn:Ev.
    4:{ destruct (f_insn g d) as [x|] eqn:Ed; [|exfalso; eapply H; eauto; now left].
      unfold use_val at 1. rewrite Ev. unfold get_insn. rewrite Ed. cbn [bind].
      destruct (IH (put_insn g d (set_users (push_unique (i_users x) i) x))) as (g' & -> & Q1 & Q2 & Q3 & Q4 & Q5 & Q6).
      { intros v' d' Hv Hd. cbn. unfold upd. destruct (d' =? d); [discriminate|]. eapply H; eauto. now right. }
      exists g'. repeat split; auto. intros j. rewrite Q6. cbn [put_insn with_insn f_insn]. unfold upd, touch. cbn [existsb].
      assert (Eq : is_use_of j v = (d =? j)) by (unfold is_use_of; now rewrite Ev). rewrite Eq.
      destruct (Nat.eqb_spec j d) as [->|N].
      - rewrite Ed, Nat.eqb_refl. cbn [orb option_map].
        destruct (existsb (is_use_of d) us); cbn; [|reflexivity]. now rewrite push_unique_idem.
      - destruct (Nat.eqb_spec d j); [congruence|]. reflexivity. }
    all: unfold use_val at 1; rewrite Ev; cbn [bind];
      (destruct (IH g) as (g' & -> & Q1 & Q2 & Q3 & Q4 & Q5 & Q6); [intros; eapply H; eauto; now right|]);
      exists g'; repeat split; auto; intros j; rewrite Q6; unfold touch; cbn [existsb]; assert (Eq : is_use_of j v = false) by (unfold is_use_of; now rewrite Ev); rewrite Eq; reflexivity.
Qed.

Lemma uses_touch f f' i us u d : f_insn f' u = option_map (touch i us u) (f_insn f u) -> uses f' u d = uses f u d.
Proof.
  intros E. unfold uses. rewrite E. destruct (f_insn f u) as [y|]; [|reflexivity]. cbn.
  destruct (touch_same i us u y) as [l ->]. reflexivity.
Qed.
Lemma valid_use f us d : (forall v, In v us -> valid f v) -> existsb (is_use_of d) us = true -> 1 <= d < f_ni f.
Proof.
  intros H E. apply existsb_exists in E as (v & Hv & E). specialize (H v Hv). unfold is_use_of in E. unfold valid in H.
  destruct (v_data v); try discriminate. apply Nat.eqb_eq in E. now subst.
Qed.

(** a new instruction *)
Lemma add_finv f b l l' x us f' : finv f -> f_block f b <> None -> insns_of f b = l ->
  (l' = f_ni f :: l \/ l' = l ++ [f_ni f]) -> i_parent x = b -> i_users x = [] -> (forall v, In v us -> valid f v) ->
  (forall d, existsb (is_use_of d) us = true <-> length (filter (is_use_of d) (operand_values x)) > 0) ->
  f_block f' = upd (f_block f) b (option_map (set_insns l') (f_block f b)) ->
  f_ni f' = S (f_ni f) -> f_nb f' = f_nb f -> f_all f' = f_all f -> f_entry f' = f_entry f ->
  f_insn f' (f_ni f) = Some x -> (forall j, j <> f_ni f -> f_insn f' j = option_map (touch (f_ni f) us j) (f_insn f j)) -> (i_op x = PHI -> i_vals x = []) -> finv f'.
Proof.
  intros F Hb Hl Hl' Hp Hu Hv Ho Qb Qn Q1 Q2 Q3 Qi Qj Hph. set (i := f_ni f) in *.
  assert (Ni : f_insn f i = None) by (apply (fi_none f i F); unfold i; lia).
  assert (NI : forall c, ~ In i (insns_of f c)).
  { intros c H. destruct (fi_link f F c i H) as (y & E & _). congruence. }
  assert (Il : forall j, In j l' <-> j = i \/ In j l).
  { intros j. destruct Hl' as [->| ->]; [cbn; intuition congruence|]. rewrite in_app_iff. cbn. intuition congruence. }
  assert (Ins : forall c, insns_of f' c = if c =? b then l' else insns_of f c).
  { intros c. unfold insns_of. rewrite Qb. unfold upd. destruct (Nat.eqb_spec c b); [|reflexivity].
    destruct (f_block f b); [reflexivity | congruence]. }
  assert (Pre : forall j y, j <> i -> f_insn f' j = Some y -> exists y0 l0, f_insn f j = Some y0 /\ y = set_users l0 y0).
  { intros j y N E. rewrite Qj in E by exact N. destruct (f_insn f j) as [y0|]; [|discriminate]. cbn in E.
    destruct (touch_same i us j y0) as [l0 E0]. exists y0, l0. split; [reflexivity | congruence]. }
  assert (Eu : forall d u, In u (users_of f' d) <-> In u (users_of f d) \/ (u = i /\ existsb (is_use_of d) us = true)).
  { intros d u. unfold users_of. destruct (Nat.eq_dec d i) as [->|N].
    - rewrite Qi, Hu, Ni. cbn. split; [tauto|]. intros [[]|[_ E]]. apply (valid_use f us i Hv) in E. unfold i in E. lia.
    - rewrite Qj by exact N. destruct (f_insn f d) as [y|] eqn:Ed; cbn; [apply touch_users|].
      split; [tauto|]. intros [[]|[_ E]]. apply (valid_use f us d Hv) in E. apply (fi_live f F) in E. congruence. }
  assert (Uu : forall u d, u <> i -> uses f' u d = uses f u d) by (intros; eapply uses_touch, Qj; assumption).
  assert (Ui : forall d, uses f i d = 0) by (intros; unfold uses; now rewrite Ni).
  constructor; try congruence.
  - rewrite Qn. pose proof (fi_ni f F). lia.
  - rewrite Q3. apply (fi_entry f F).
  - rewrite Q2. apply (fi_all f F).
  - rewrite Q1. apply (fi_nb f F).
  - intros j. rewrite Qn. destruct (Nat.eq_dec j i) as [->|N].
    + rewrite Qi. pose proof (fi_ni f F). unfold i in *. split; [lia | discriminate].
    + rewrite Qj by exact N. pose proof (fi_live f F j) as L. destruct (f_insn f j); cbn.
      * destruct L as [L _]. unfold i in *. split; [intros _; specialize (L ltac:(discriminate)); lia | discriminate].
      * split; [congruence|]. intros H. assert (1 <= j < f_ni f) by (unfold i in *; lia). apply L in H0. congruence.
  - intros j Hj. destruct (fi_base f F j Hj) as [l0 E0]. rewrite Qj by (pose proof (fi_ni f F); unfold i; lia).
    rewrite E0. destruct (init_insns j) as [y|]; cbn; [|exists []; reflexivity].
    destruct (touch_same i us j (set_users l0 y)) as [l1 ->]. exists l1. reflexivity.
  - intros c. pose proof (fi_blk f F c) as K. rewrite Qb. unfold upd. destruct (Nat.eqb_spec c b) as [->|]; [|exact K].
    destruct (blk bs b); [|congruence]. destruct K as [l0 ->]. cbn. eexists; reflexivity.
  - intros c j. rewrite Ins. intros H. destruct (Nat.eqb_spec c b) as [->|].
    + apply Il in H as [->|H]; [eauto|]. rewrite <- Hl in H. destruct (fi_link f F b j H) as (y & E & P).
      rewrite Qj, E by (intros ->; eapply NI; eauto). cbn. destruct (touch_same i us j y) as [l0 ->]. eexists; split; [reflexivity | exact P].
    + destruct (fi_link f F c j H) as (y & E & P).
      rewrite Qj, E by (intros ->; eapply NI; eauto). cbn. destruct (touch_same i us j y) as [l0 ->]. eexists; split; [reflexivity | exact P].
  - intros j y Hj E. rewrite Ins. destruct (Nat.eq_dec j i) as [->|N].
    + assert (y = x) by congruence. subst y. rewrite Hp, Nat.eqb_refl. apply Il. now left.
    + destruct (Pre j y N E) as (y0 & l0 & E0 & ->). cbn. pose proof (fi_has f F j y0 Hj E0) as K.
      destruct (Nat.eqb_spec (i_parent y0) b) as [Eb|]; [|exact K]. apply Il. right. rewrite <- Hl, <- Eb. exact K.
  - intros c. rewrite Ins. destruct (Nat.eqb_spec c b) as [->|]; [|apply (fi_once f F)].
    pose proof (fi_once f F b) as N. rewrite Hl in N. specialize (NI b). rewrite Hl in NI. destruct Hl' as [->| ->].
    + constructor; assumption.
    + apply NoDup_rev in N. rewrite <- (rev_involutive (l ++ [i])). apply NoDup_rev.
      rewrite rev_app_distr; simpl. constructor; auto. rewrite <- in_rev; auto.
  - intros c j. rewrite Ins. destruct (Nat.eqb_spec c b) as [->|]; [|apply (fi_ge f F)].
    intros H. apply Il in H as [->|H]; [apply (fi_ni f F)|]. apply (fi_ge f F b). now rewrite Hl.
  - intros u d. rewrite Eu. destruct (Nat.eq_dec u i) as [->|N].
    + assert (Ud : uses f' i d = length (filter (is_use_of d) (operand_values x))) by (unfold uses; now rewrite Qi).
      rewrite Ud, <- Ho. pose proof (fi_users f F i d) as K. rewrite Ui in K. split; [|tauto].
      intros [H|[_ H]]; [apply K in H; lia | exact H].
    + rewrite Uu by exact N. rewrite (fi_users f F). intuition congruence.
  - intros d. unfold users_of. destruct (Nat.eq_dec d i) as [->|N].
    + rewrite Qi, Hu. constructor.
    + rewrite Qj by exact N. pose proof (fi_unodup f F d) as K. unfold users_of in K. destruct (f_insn f d); [|constructor].
      cbn. now apply touch_nodup.
  - intros j y E O. destruct (Nat.eq_dec j i) as [->|N]; [assert (y = x) by congruence; subst y; auto|].
    destruct (Pre j y N E) as (y0 & l0 & E0 & ->). exact (fi_phi f F j y0 E0 O).
Qed.

(** a new operand of a phi *)
Lemma phi_finv f i x v b f' : finv f -> f_insn f i = Some x -> i_op x = PHI -> valid f v -> 7 <= i ->
  f_block f' = f_block f -> f_ni f' = f_ni f -> f_nb f' = f_nb f -> f_all f' = f_all f -> f_entry f' = f_entry f ->
  (forall j, f_insn f' j = if j =? i then Some (set_phi (i_phi x ++ [(v, b)]) (touch i [v] i x))
                           else option_map (touch i [v] j) (f_insn f j)) -> finv f'.
Proof.
  intros F Hi Hop Hv H7 Qb Qn Q1 Q2 Q3 Qj.
  assert (Eu : forall d, exists y, users_of f' d = match f_insn f d with Some y => i_users (touch i [v] d y) | None => [] end /\ y = 0).
  { intros d. exists 0. split; [|reflexivity]. unfold users_of. rewrite Qj. destruct (Nat.eqb_spec d i) as [->|].
    - rewrite Hi. reflexivity.
    - destruct (f_insn f d); reflexivity. }
  assert (Ins : forall c, insns_of f' c = insns_of f c) by (intros c; unfold insns_of; now rewrite Qb).
  assert (Pre : forall j y, f_insn f' j = Some y -> exists y0, f_insn f j = Some y0 /\ i_parent y = i_parent y0).
  { intros j y E. rewrite Qj in E. destruct (Nat.eqb_spec j i) as [->|].
    - exists x. split; [exact Hi|]. injection E as <-. cbn. destruct (touch_same i [v] i x) as [l0 ->]. reflexivity.
    - destruct (f_insn f j) as [y0|]; [|discriminate]. exists y0. split; [reflexivity|]. injection E as <-.
      destruct (touch_same i [v] j y0) as [l0 ->]. reflexivity. }
  assert (Post : forall j y, f_insn f j = Some y -> exists y0, f_insn f' j = Some y0 /\ i_parent y0 = i_parent y).
  { intros j y E. rewrite Qj. destruct (Nat.eqb_spec j i) as [->|].
    - eexists; split; [reflexivity|]. assert (y = x) by congruence. subst. cbn. destruct (touch_same i [v] i x) as [l0 ->]. reflexivity.
    - rewrite E. cbn. eexists; split; [reflexivity|]. destruct (touch_same i [v] j y) as [l0 ->]. reflexivity. }
  assert (Us : forall u d, uses f' u d = uses f u d + (if (u =? i) && is_use_of d v then 1 else 0)).
  { intros u d. destruct (Nat.eqb_spec u i) as [->|N].
    - unfold uses. rewrite Qj, Nat.eqb_refl, Hi. destruct (touch_same i [v] i x) as [l0 ->].
      unfold operand_values. cbn [set_phi set_users i_op i_vals i_phi]. rewrite Hop, map_app, !filter_app, !app_length. cbn.
      destruct (is_use_of d v); cbn; lia.
    - cbn. rewrite Nat.add_0_r. eapply uses_touch. rewrite Qj. apply Nat.eqb_neq in N. rewrite N. reflexivity. }
  constructor; try congruence.
  - rewrite Qn. apply (fi_ni f F).
  - rewrite Q3. apply (fi_entry f F).
  - rewrite Q2. apply (fi_all f F).
  - rewrite Q1. apply (fi_nb f F).
  - intros j. rewrite Qn, <- (fi_live f F), Qj. destruct (Nat.eqb_spec j i) as [->|].
    + rewrite Hi. split; discriminate.
    + destruct (f_insn f j); cbn; split; congruence.
  - intros j Hj. destruct (fi_base f F j Hj) as [l0 E0]. rewrite Qj. destruct (Nat.eqb_spec j i) as [->|]; [lia|].
    rewrite E0. destruct (init_insns j) as [y|]; cbn; [|exists []; reflexivity].
    destruct (touch_same i [v] j (set_users l0 y)) as [l1 ->]. exists l1. reflexivity.
  - rewrite Qb. apply (fi_blk f F).
  - intros c j. rewrite Ins. intros H. destruct (fi_link f F c j H) as (y & E & P).
    destruct (Post j y E) as (y0 & E0 & P0). exists y0. split; congruence.
  - intros j y Hj E. rewrite Ins. destruct (Pre j y E) as (y0 & E0 & ->). apply (fi_has f F); assumption.
  - intros c. rewrite Ins. apply (fi_once f F).
  - intros c j. rewrite Ins. apply (fi_ge f F).
  - intros u d. destruct (Eu d) as (_ & E & _). rewrite E, Us. pose proof (fi_users f F u d) as K. unfold users_of in K.
    destruct (f_insn f d) as [y|] eqn:Ed.
    + rewrite touch_users. cbn. rewrite orb_false_r. rewrite K.
      destruct (Nat.eqb_spec u i); cbn; [|intuition lia]. destruct (is_use_of d v); intuition (try lia; congruence).
    + split; [intros []|]. intros H. destruct ((u =? i) && is_use_of d v) eqn:B.
      * apply andb_prop in B as [_ B]. unfold is_use_of in B. unfold valid in Hv. destruct (v_data v); try discriminate.
        apply Nat.eqb_eq in B. subst. apply (fi_live f F) in Hv. congruence.
      * assert (uses f u d > 0) by lia. apply K in H0. destruct H0.
  - intros d. destruct (Eu d) as (_ & E & _). rewrite E. pose proof (fi_unodup f F d) as K. unfold users_of in K.
    destruct (f_insn f d); [|constructor]. now apply touch_nodup.
  - intros j y E O. rewrite Qj in E. destruct (Nat.eqb_spec j i) as [->|].
    + injection E as <-. destruct (touch_same i [v] i x) as [l0 ->]. exact (fi_phi f F i x Hi Hop).
    + destruct (f_insn f j) as [y0|] eqn:E0; [|discriminate]. injection E as <-. destruct (touch_same i [v] j y0) as [l0 K]. rewrite K in *. exact (fi_phi f F j y0 E0 O).
Qed.

(** ** States *)
Definition isphi (s : lst) (b i : nat) : Prop :=
  7 <= i /\ exists x, f_insn (l_f s) i = Some x /\ i_op x = PHI /\ i_parent x = b.
Record sinv (s : lst) : Prop := {
  si_f : finv (l_f s);
  si_def : forall r b v, l_def s r b = Some v -> valid (l_f s) v;
  si_inc : forall r b i, l_inc s b r = Some i -> isphi s b i }.
Record le (s s' : lst) : Prop := {
  le_ni : f_ni (l_f s) <= f_ni (l_f s');
  le_phi : forall b i, isphi s b i -> isphi s' b i }.
Lemma le_refl s : le s s. Proof. constructor; auto. Qed.
Lemma le_trans s1 s2 s3 : le s1 s2 -> le s2 s3 -> le s1 s3.
Proof. intros [A B] [A' B']. constructor; [lia | auto]. Qed.
Lemma valid_le s s' v : le s s' -> valid (l_f s) v -> valid (l_f s') v.
Proof. intros [H _]. unfold valid. destruct (v_data v); auto. lia. Qed.
Lemma valid_const f c : valid f (val_const32 c). Proof. exact I. Qed.

Lemma blk_some s b pb : sinv s -> blk bs b = Some pb ->
  exists l, f_block (l_f s) b = Some (mkBlock l (map S (pb_preds pb)) (map S (pb_succs pb)) 0%Z).
Proof. intros H B. pose proof (fi_blk _ (si_f s H) b) as K. now rewrite B in K. Qed.
Lemma isphi_blk s b i : sinv s -> isphi s b i -> blk bs b <> None.
Proof.
  intros H (H7 & x & E & _ & P). pose proof (fi_has _ (si_f s H) i x H7 E) as K. rewrite P in K.
  unfold insns_of in K. pose proof (fi_blk _ (si_f s H) b) as Q. destruct (blk bs b); [discriminate|]. rewrite Q in K. destruct K.
Qed.

Section Wp.
Variable C : Prop.

Lemma write_safe s r b v : sinv s -> valid (l_f s) v -> (C -> (0 <= r <= 10)%Z) ->
  holds C (write_var s r b v) (fun s' => sinv s' /\ le s s').
Proof.
  intros H V R. unfold write_var. destruct ((0 <=? r)%Z && (r <=? 10)%Z) eqn:E; cbn.
  - split; [|constructor; auto]. constructor; cbn.
    + apply (si_f s H).
    + intros r' b' v'. destruct ((r' =? r)%Z && (b' =? b)); [congruence | apply (si_def s H)].
    + intros r' b' i Hi. exact (si_inc s H r' b' i Hi).
  - intros c. apply R in c. apply andb_false_iff in E as [E|E]; apply Z.leb_gt in E; lia.
Qed.

Lemma sinv_with s f : sinv s -> finv f -> f_ni (l_f s) <= f_ni f -> (forall b i, isphi s b i -> isphi (with_f f s) b i) ->
  sinv (with_f f s) /\ le s (with_f f s).
Proof.
  intros H F N P. assert (L : le s (with_f f s)) by (constructor; auto).
  split; [|exact L]. constructor; cbn.
  - exact F.
  - intros r b v E. apply (valid_le s (with_f f s) v L), (si_def s H r b v E).
  - intros r b i E. apply P, (si_inc s H r b i E).
Qed.

Lemma new_phi_safe s b : sinv s -> blk bs b <> None ->
  holds C (new_phi s b) (fun r => sinv (fst r) /\ le s (fst r) /\ isphi (fst r) b (snd r)).
Proof.
  intros H B. destruct (blk bs b) as [pb|] eqn:E; [|congruence]. destruct (blk_some s b pb H E) as [l Q].
  unfold new_phi, get_block. rewrite Q. cbn [bind holds].
  match goal with |- context [with_f ?g s] => set (f' := g) end.
  assert (F : finv f').
  { eapply (add_finv (l_f s) b l (f_ni (l_f s) :: l) (set_op PHI (insn0 b)) []); try reflexivity; auto.
    - apply (si_f s H).
    - congruence.
    - unfold insns_of. now rewrite Q.
    - intros v [].
    - intros d. cbn. split; [discriminate | lia].
    - cbn. now rewrite Q.
    - cbn. unfold upd. now rewrite Nat.eqb_refl.
    - intros j Hj. cbn. unfold upd. apply Nat.eqb_neq in Hj. rewrite Hj. unfold touch. cbn. now destruct (f_insn (l_f s) j). }
  destruct (sinv_with s f' H F) as [X Y]; [cbn; lia| |].
  - intros c i (H7 & x & Ex & O & P). split; [exact H7|]. exists x. cbn. unfold upd.
    destruct (Nat.eqb_spec i (f_ni (l_f s))) as [->|]; [|auto]. rewrite (fi_none _ _ (si_f s H)) in Ex by lia. discriminate.
  - split; [exact X|]. split; [exact Y|]. split; [apply (fi_ni _ (si_f s H))|]. cbn. unfold upd. rewrite Nat.eqb_refl.
    eexists. repeat split.
Qed.

Lemma emit_safe s b x us : sinv s -> blk bs b <> None -> i_parent x = b -> i_users x = [] -> i_op x <> PHI ->
  (forall v, In v us -> valid (l_f s) v) ->
  (forall d, existsb (is_use_of d) us = true <-> length (filter (is_use_of d) (operand_values x)) > 0) ->
  holds C (emit s b x us) (fun r => sinv (fst r) /\ le s (fst r) /\ valid (l_f (fst r)) (val_insn (snd r))).
Proof.
  intros H B Hp Hu Np Hv Ho. destruct (blk bs b) as [pb|] eqn:E; [|congruence]. destruct (blk_some s b pb H E) as [l Q].
  pose proof (si_f s H) as F0. unfold emit, get_block. rewrite Q. cbn [bind].
  match goal with |- context [ofold _ ?g us] => set (g1 := g) end.
  destruct (use_fold (f_ni (l_f s)) us g1) as (g2 & -> & Q1 & Q2 & Q3 & Q4 & Q5 & Q6).
  { intros v d Iv Ed. specialize (Hv v Iv). unfold valid in Hv. rewrite Ed in Hv. cbn. unfold upd.
    destruct (d =? f_ni (l_f s)); [discriminate|]. now apply (fi_live _ F0). }
  cbn [bind holds fst snd].
  assert (Nt : existsb (is_use_of (f_ni (l_f s))) us = false).
  { destruct (existsb (is_use_of (f_ni (l_f s))) us) eqn:K; [|reflexivity]. apply (valid_use (l_f s) us _ Hv) in K. lia. }
  assert (F : finv g2).
  { eapply (add_finv (l_f s) b l (l ++ [f_ni (l_f s)]) x us); eauto.
    - congruence.
    - unfold insns_of. now rewrite Q.
    - rewrite Q1. cbn. now rewrite Q.
    - rewrite Q6. cbn. unfold upd. rewrite Nat.eqb_refl. cbn. unfold touch. now rewrite Nt.
    - intros j Hj. rewrite Q6. cbn. unfold upd. apply Nat.eqb_neq in Hj. now rewrite Hj.
    - intros K. contradiction. }
  destruct (sinv_with s g2 H F) as [X Y]; [rewrite Q2; cbn; lia| |].
  - intros c i (H7 & y & Ex & O & P). split; [exact H7|]. cbn. rewrite Q6. cbn. unfold upd.
    destruct (Nat.eqb_spec i (f_ni (l_f s))) as [->|]; [rewrite (fi_none _ _ F0) in Ex by lia; discriminate|].
    rewrite Ex. cbn. destruct (touch_same (f_ni (l_f s)) us i y) as [l0 ->]. eexists. repeat split; auto.
  - split; [exact X|]. split; [exact Y|]. unfold valid. cbn. rewrite Q2. cbn. pose proof (fi_ni _ F0). lia.
Qed.

Lemma phi_push_safe s i v b c : sinv s -> isphi s c i -> valid (l_f s) v ->
  holds C (do g1 <- use_val (l_f s) i v; do g2 <- push_phi g1 i v b; Ok (with_f g2 s)) (fun s' => sinv s' /\ le s s').
Proof.
  intros H (H7 & x & Ex & O & P) V. pose proof (si_f s H) as F0.
  destruct (use_fold i [v] (l_f s)) as (g2 & E & Q1 & Q2 & Q3 & Q4 & Q5 & Q6).
  { intros v' d [<-|[]] Ed. unfold valid in V. rewrite Ed in V. now apply (fi_live _ F0). }
  cbn [ofold] in E. destruct (use_val (l_f s) i v) as [g| | | |]; try discriminate. cbn [bind] in E. injection E as ->.
  cbn [bind]. unfold push_phi, get_insn. rewrite Q6, Ex. cbn [option_map bind holds].
  match goal with |- context [with_f ?g s] => set (f' := g) end.
  assert (Jf : forall j, f_insn f' j = if j =? i then Some (set_phi (i_phi x ++ [(v, b)]) (touch i [v] i x))
                           else option_map (touch i [v] j) (f_insn (l_f s) j)).
  { intros j. cbn. unfold upd. destruct (Nat.eqb_spec j i) as [->|]; [|apply Q6].
    destruct (touch_same i [v] i x) as [l0 ->]. reflexivity. }
  assert (F : finv f').
  { eapply (phi_finv (l_f s) i x v b); eauto. }
  apply sinv_with; auto; [cbn; lia|].
  intros c' j (J7 & y & Ey & Oy & Py). split; [exact J7|]. change (l_f (with_f f' s)) with f'. rewrite Jf. destruct (Nat.eqb_spec j i) as [->|].
  - assert (y = x) by congruence. subst y. destruct (touch_same i [v] i x) as [l0 ->]. eexists. repeat split; auto.
  - rewrite Ey. cbn. destruct (touch_same i [v] j y) as [l0 ->]. eexists. repeat split; auto.
Qed.

Definition rd_safe (rd : lst -> Z -> nat -> outcome (lst * value)) : Prop := forall s reg b,
  sinv s -> blk bs b <> None -> (C -> (0 <= reg <= 10)%Z) ->
  holds C (rd s reg b) (fun r => sinv (fst r) /\ le s (fst r) /\ valid (l_f (fst r)) (snd r)).

Hypothesis Hpred : forall b pb p, blk bs b = Some pb -> In p (pb_preds pb) -> blk bs (S p) <> None.
Hypothesis Hsucc : forall b pb q, blk bs b = Some pb -> In q (pb_succs pb) -> blk bs (S q) <> None.

Lemma phi_ops_safe rd reg i c ps s : rd_safe rd -> (C -> (0 <= reg <= 10)%Z) ->
  (forall p, In p ps -> blk bs p <> None) -> sinv s -> isphi s c i ->
  holds C (phi_ops rd reg i ps s) (fun s' => sinv s' /\ le s s').
Proof.
  intros Rd Rg Hp H Ph. unfold phi_ops.
  eapply (holds_ofold C _ (fun s' => sinv s' /\ le s s')); [auto using le_refl|].
  intros s1 p Ip [H1 L1]. eapply holds_bind; [apply Rd; auto|]. intros [s2 v] (H2 & L2 & V). cbn [fst snd] in *.
  eapply holds_imp; [eapply phi_push_safe; eauto; apply (le_phi _ _ L2), (le_phi _ _ L1), Ph|].
  cbn. intros s3 [H3 L3]. split; [exact H3|]. eauto using le_trans.
Qed.
Lemma add_phi_safe rd reg i c s : rd_safe rd -> (C -> (0 <= reg <= 10)%Z) -> sinv s -> isphi s c i ->
  holds C (add_phi_operands rd reg i s) (fun s' => sinv s' /\ le s s').
Proof.
  intros Rd Rg H Ph. pose proof (isphi_blk s c i H Ph) as B. destruct Ph as (H7 & x & Ex & O & P).
  unfold add_phi_operands, get_insn. rewrite Ex. cbn [bind]. rewrite O. cbn [iop_eqb iop_eq_dec].
  change (negb (iop_eqb PHI PHI)) with false. cbv iota.
  destruct (blk bs c) as [pb|] eqn:Eb; [|congruence]. destruct (blk_some s c pb H Eb) as [l Q].
  rewrite P. unfold get_block. rewrite Q. cbn [bind b_preds].
  eapply phi_ops_safe; eauto.
  - intros p Hp. apply in_map_iff in Hp as (q & <- & Hq). eauto.
  - split; [exact H7|]. eauto.
Qed.

Lemma base_valid s i : sinv s -> 1 <= i < 7 -> valid (l_f s) (val_insn i).
Proof. intros H L. unfold valid. cbn. pose proof (fi_ni _ (si_f s H)). lia. Qed.

Lemma read_safe n : rd_safe (read_var n).
Proof.
  induction n as [|n IH]; intros s reg b H B R; [exact I|]. cbn [read_var].
  destruct (Z.eqb_spec reg 10) as [->|N10]; [cbn; split; [exact H|]; split; [apply le_refl|]; apply base_valid; [exact H | unfold sp_id; lia]|].
  destruct (negb _) eqn:E.
  { cbn. intros c. apply R in c. apply negb_true_iff, andb_false_iff in E as [E|E]; apply Z.leb_gt in E; lia. }
  apply negb_false_iff, andb_prop in E as [E1 E2]. apply Z.leb_le in E1, E2.
  assert (Rg : C -> (0 <= reg <= 10)%Z) by lia.
  destruct (l_def s reg b) as [v|] eqn:D.
  { cbn. split; [exact H|]. split; [apply le_refl|]. eapply (si_def s H); eauto. }
  destruct (b =? 1).
  { destruct ((0 <? reg)%Z && (reg <=? 5)%Z) eqn:A; cbn.
    - apply andb_prop in A as [A1 A2]. apply Z.ltb_lt in A1. apply Z.leb_le in A2.
      split; [exact H|]; split; [apply le_refl|]; apply base_valid; [exact H | unfold arg_id; lia].
    - split; [|split]; [|constructor; auto|exact I]. destruct H as [F D' I']. constructor; auto. }
  destruct (l_seal s b) eqn:Sl; cbn [negb].
  2:{ eapply holds_bind; [apply new_phi_safe; auto|]. intros [s1 i] (H1 & L1 & Ph). cbn [fst snd] in *.
    assert (H2 : sinv (set_inc s1 b reg i)).
    { constructor; cbn; [apply (si_f s1 H1) | apply (si_def s1 H1)|].
      intros r' b' i'. destruct ((b' =? b) && (r' =? reg)%Z) eqn:K; [|apply (si_inc s1 H1)].
      intros [= <-]. apply andb_prop in K as [K _]. apply Nat.eqb_eq in K. subst. exact Ph. }
    assert (V : valid (l_f s1) (val_insn i)).
    { destruct Ph as (H7 & x & Ex & _). unfold valid. cbn. apply (fi_live _ (si_f s1 H1)). congruence. }
    eapply holds_bind; [apply write_safe; [exact H2 | exact V | exact Rg]|].
    intros s2 [H3 L3]. cbn. assert (L2 : le s1 s2) by (destruct L3; constructor; auto).
    split; [exact H3|]. split; [eauto using le_trans|]. exact (valid_le _ _ _ L2 V). }
  destruct (blk bs b) as [pb|] eqn:Eb; [|congruence]. destruct (blk_some s b pb H Eb) as [l Q].
  unfold get_block. rewrite Q. cbn [bind b_preds].
  assert (Many : holds C
     (do r <- new_phi s b; (let '(s1, i) := r in do s2 <- write_var s1 reg b (val_insn i);
       do s3 <- add_phi_operands (read_var n) reg i s2; do s4 <- write_var s3 reg b (val_insn i); Ok (s4, val_insn i)))
     (fun r => sinv (fst r) /\ le s (fst r) /\ valid (l_f (fst r)) (snd r))).
  { eapply holds_bind; [apply new_phi_safe; [exact H | congruence]|]. intros [s1 i] (H1 & L1 & Ph). cbn [fst snd] in *.
    assert (V : valid (l_f s1) (val_insn i)).
    { destruct Ph as (H7 & x & Ex & _). unfold valid. cbn. apply (fi_live _ (si_f s1 H1)). congruence. }
    eapply holds_bind; [apply write_safe; [exact H1 | exact V | exact Rg]|]. intros s2 [H2 L2].
    eapply holds_bind; [apply (add_phi_safe (read_var n) reg i b s2 IH Rg H2 (le_phi _ _ L2 _ _ Ph))|]. intros s3 [H3 L3].
    pose proof (valid_le _ _ _ L3 (valid_le _ _ _ L2 V)) as V3.
    eapply holds_bind; [apply write_safe; [exact H3 | exact V3 | exact Rg]|]. intros s4 [H4 L4]. cbn.
    split; [exact H4|]. split; [eauto using le_trans|]. exact (valid_le _ _ _ L4 V3). }
  destruct (pb_preds pb) as [|p [|p2 ps]] eqn:Ep; cbn [map]; [exact Many| |exact Many].
  eapply holds_bind; [apply IH; [exact H | eapply Hpred; [exact Eb | rewrite Ep; now left] | exact Rg]|].
  intros [s1 v] (H1 & L1 & V). cbn [fst snd] in *.
  eapply holds_bind; [apply write_safe; [exact H1 | exact V | exact Rg]|]. intros s2 [H2 L2]. cbn.
  split; [exact H2|]. split; [eauto using le_trans|]. exact (valid_le _ _ _ L2 V).
Qed.

Lemma seal_safe n s b : sinv s -> blk bs b <> None -> holds C (seal_block n s b) (fun s' => sinv s' /\ le s s').
Proof.
  intros H B. unfold seal_block. eapply holds_bind.
  - eapply (holds_ofold C _ (fun s' => sinv s' /\ le s s')); [auto using le_refl|].
    intros s1 r Ir [H1 L1]. destruct (l_inc s1 b r) as [i|] eqn:E; [|cbn; auto].
    eapply holds_imp; [eapply (add_phi_safe (read_var n) r i b s1 (read_safe n)); auto|].
    + intros _. unfold all_regs in Ir. cbn in Ir. lia.
    + apply (si_inc s1 H1 r b i E).
    + cbn. intros s2 [H2 L2]. split; [exact H2 | eauto using le_trans].
  - cbn. intros s1 [H1 L1]. split; [|constructor; apply L1]. constructor; cbn; [apply (si_f s1 H1) | apply (si_def s1 H1)|].
    intros r' b' i Hi. exact (si_inc s1 H1 r' b' i Hi).
Qed.

(** ** Instructions *)
Record piok (i : pre_insn) : Prop := {
  po_dst : (0 <= pi_dst i <= 10)%Z;
  po_src : (0 <= pi_src i <= 10)%Z;
  po_ecall : jmp_cls (pi_code i) = true -> opn (pi_code i) = 8%Z -> pi_src i = 6%Z -> (pi_dst i <= 5)%Z;
  po_ja : jmp_cls (pi_code i) = true -> opn (pi_code i) = 0%Z \/ cond_of (opn (pi_code i)) <> None ->
    In (Z.of_nat (pi_pos i) + pi_off i + 1)%Z (map (fun b => Z.of_nat (pb_start b)) bs);
  po_next : jmp_cls (pi_code i) = true -> cond_of (opn (pi_code i)) <> None ->
    In (Z.of_nat (pi_pos i) + 1)%Z (map (fun b => Z.of_nat (pb_start b)) bs) }.

Lemma src_safe n s b i : sinv s -> blk bs b <> None -> (C -> piok i) ->
  holds C (get_src n s b i) (fun r => sinv (fst r) /\ le s (fst r) /\ valid (l_f (fst r)) (snd r)).
Proof.
  intros H B P. unfold get_src. destruct (src_x (pi_code i)).
  - apply read_safe; auto. intros c. apply (po_src i (P c)).
  - cbn. split; [exact H|]. split; [apply le_refl | exact I].
Qed.
Lemma emit_write_safe s b x us r : sinv s -> blk bs b <> None -> i_parent x = b -> i_users x = [] -> i_op x <> PHI ->
  (forall v, In v us -> valid (l_f s) v) ->
  (forall d, existsb (is_use_of d) us = true <-> length (filter (is_use_of d) (operand_values x)) > 0) ->
  (C -> (0 <= r <= 10)%Z) ->
  holds C (do q <- emit s b x us; write_var (fst q) r b (val_insn (snd q))) (fun s' => sinv s' /\ le s s').
Proof.
  intros H B Hp Hu Np Hv Ho R. eapply holds_bind; [apply emit_safe; eauto|]. intros [s1 i] (H1 & L1 & V). cbn [fst snd] in *.
  eapply holds_imp; [apply write_safe; eauto|]. cbn. intros s2 [H2 L2]. split; [exact H2 | eauto using le_trans].
Qed.
Lemma emit_only_safe s b x us : sinv s -> blk bs b <> None -> i_parent x = b -> i_users x = [] -> i_op x <> PHI ->
  (forall v, In v us -> valid (l_f s) v) ->
  (forall d, existsb (is_use_of d) us = true <-> length (filter (is_use_of d) (operand_values x)) > 0) ->
  holds C (do q <- emit s b x us; Ok (fst q)) (fun s' => sinv s' /\ le s s').
Proof.
  intros H B Hp Hu Np Hv Ho. eapply holds_bind; [apply emit_safe; eauto|]. intros [s1 i] (H1 & L1 & V). cbn in *. auto.
Qed.
Lemma uses_list us l : us = l -> forall d, existsb (is_use_of d) us = true <-> length (filter (is_use_of d) l) > 0.
Proof.
  intros -> d. induction l as [|v l IH]; cbn; [split; [discriminate | lia]|].
  destruct (is_use_of d v); cbn; [split; [lia | auto] | exact IH].
Qed.
Definition noext (o : iop) : Prop := o <> PHI /\ o <> LOADRAW /\ o <> STORERAW.
Lemma opv_plain x us : noext (i_op x) -> i_vals x = us -> operand_values x = us.
Proof. intros (A & B & D) <-. unfold operand_values. destruct (i_op x); try congruence; apply app_nil_r. Qed.
Lemma bin_noext c o : bin_of c = Some o -> noext o.
Proof.
  unfold bin_of, noext. intros H.
  repeat match type of H with (if ?b then _ else _) = _ => destruct b end; inversion H; repeat split; discriminate.
Qed.
Lemma cond_noext c o : cond_of c = Some o -> noext o.
Proof.
  unfold cond_of, noext. intros H.
  repeat match type of H with (if ?b then _ else _) = _ => destruct b end; inversion H; repeat split; discriminate.
Qed.

Lemma bin_safe n s b i o a : sinv s -> blk bs b <> None -> (C -> piok i) -> noext o ->
  holds C (alu_write_bin n s b i o a) (fun s' => sinv s' /\ le s s').
Proof.
  intros H B P No. unfold alu_write_bin.
  eapply holds_bind; [apply read_safe; auto; intros c; apply (po_dst i (P c))|]. intros [s1 v1] (H1 & L1 & V1). cbn [fst snd] in *.
  eapply holds_bind; [apply src_safe; eauto|]. intros [s2 v2] (H2 & L2 & V2). cbn [fst snd] in *.
  eapply holds_imp; [apply emit_write_safe; auto; try (cbn; discriminate); try exact (proj1 No)|].
  - intros v [<-|[<-|[]]]; eauto using valid_le.
  - apply uses_list. symmetry. apply opv_plain; auto.
  - intros c. apply (po_dst i (P c)).
  - cbn. intros s3 [H3 L3]. split; [exact H3 | eauto using le_trans].
Qed.
Lemma un_safe n s b i o a u : sinv s -> blk bs b <> None -> (C -> piok i) -> noext o ->
  holds C (alu_write_un n s b i o a u) (fun s' => sinv s' /\ le s s').
Proof.
  intros H B P No. unfold alu_write_un.
  eapply holds_bind; [apply read_safe; auto; intros c; apply (po_dst i (P c))|]. intros [s1 v1] (H1 & L1 & V1). cbn [fst snd] in *.
  eapply holds_imp; [apply emit_write_safe; auto; try (cbn; discriminate); try exact (proj1 No)|].
  - intros v [<-|[]]; eauto using valid_le.
  - apply uses_list. symmetry. apply opv_plain; auto.
  - intros c. apply (po_dst i (P c)).
  - cbn. intros s3 [H3 L3]. split; [exact H3 | eauto using le_trans].
Qed.
Lemma alu_safe n s b i : sinv s -> blk bs b <> None -> (C -> piok i) ->
  holds C (lift_alu n s b i) (fun s' => sinv s' /\ le s s').
Proof.
  intros H B P. unfold lift_alu. eapply holds_bind.
  2:{ intros s1 H1. destruct (pi_off i =? 0)%Z; [exact H1 | exact I]. }
  destruct (bin_of (opn (pi_code i))) as [o|] eqn:Eo; [apply bin_safe; eauto using bin_noext|].
  destruct (opn (pi_code i) =? 11)%Z.
  { eapply holds_bind; [apply src_safe; eauto|]. intros [s1 v] (H1 & L1 & V). cbn [fst snd] in *.
    eapply holds_imp; [apply write_safe; eauto; intros c; apply (po_dst i (P c))|].
    cbn. intros s3 [H3 L3]. split; [exact H3 | eauto using le_trans]. }
  destruct (opn (pi_code i) =? 13)%Z.
  { destruct (cls (pi_code i) =? 4)%Z; [|exact I]. apply un_safe; auto.
    destruct (src_x (pi_code i)); repeat split; discriminate. }
  destruct (opn (pi_code i) =? 8)%Z; [|exact I]. destruct (src_x (pi_code i)); [exact I|].
  apply un_safe; auto. repeat split; discriminate.
Qed.
Lemma ldx_safe n s b i : sinv s -> blk bs b <> None -> (C -> piok i) ->
  holds C (lift_ldx n s b i) (fun s' => sinv s' /\ le s s').
Proof.
  intros H B P. unfold lift_ldx.
  eapply holds_bind; [apply read_safe; auto; intros c; apply (po_src i (P c))|]. intros [s1 v1] (H1 & L1 & V1). cbn [fst snd] in *.
  eapply holds_imp; [apply emit_write_safe; auto; try (cbn; discriminate)|].
  - intros v [<-|[]]; auto.
  - apply uses_list. reflexivity.
  - intros c. apply (po_dst i (P c)).
  - cbn. intros s3 [H3 L3]. split; [exact H3 | eauto using le_trans].
Qed.
Lemma st_safe n s b i x : sinv s -> blk bs b <> None -> (C -> piok i) ->
  holds C (lift_st n s b i x) (fun s' => sinv s' /\ le s s').
Proof.
  intros H B P. unfold lift_st.
  eapply holds_bind; [apply read_safe; auto; intros c; apply (po_dst i (P c))|]. intros [s1 v1] (H1 & L1 & V1). cbn [fst snd] in *.
  eapply (holds_bind C _ _ (fun r => sinv (fst r) /\ le s1 (fst r) /\ valid (l_f (fst r)) (snd r))).
  { destruct x.
    - apply read_safe; auto. intros c; apply (po_src i (P c)).
    - cbn. split; [exact H1|]. split; [apply le_refl | exact I]. }
  intros [s2 v2] (H2 & L2 & V2). cbn [fst snd] in *.
  eapply holds_imp; [apply emit_only_safe; auto; try (cbn; discriminate)|].
  - intros v [<-|[<-|[]]]; eauto using valid_le.
  - intros d. rewrite (uses_list _ _ eq_refl). cbn. destruct (is_use_of d v1), (is_use_of d v2); cbn; lia.
  - cbn. intros s3 [H3 L3]. split; [exact H3 | eauto using le_trans].
Qed.
Lemma args_safe n b k : forall j s, sinv s -> blk bs b <> None -> (C -> j + k <= 5) ->
  holds C (read_args n s b j k) (fun r => sinv (fst r) /\ le s (fst r) /\ forall v, In v (snd r) -> valid (l_f (fst r)) v).
Proof.
  induction k as [|k IH]; intros j s H B L; cbn [read_args].
  - cbn. split; [exact H|]. split; [apply le_refl | intros v []].
  - eapply holds_bind; [apply read_safe; auto; intros c; specialize (L c); lia|]. intros [s1 v1] (H1 & L1 & V1). cbn [fst snd] in *.
    destruct (Nat.ltb_spec j 5); [|cbn; intros c; specialize (L c); lia].
    eapply holds_bind; [apply IH; auto; intros c; specialize (L c); lia|]. intros [s2 l] (H2 & L2 & V2). cbn [fst snd] in *.
    cbn. split; [exact H2|]. split; [eauto using le_trans|]. intros v [<-|Hv]; eauto using valid_le.
Qed.
Lemma call_emit_safe n s b k o u : sinv s -> blk bs b <> None -> (C -> k <= 5) -> noext o ->
  holds C (do r1 <- read_args n s b 0 k; do r <- emit (fst r1) b (set_u u (set_vals (snd r1) (set_op o (insn0 b)))) (snd r1);
           write_var (fst r) 0 b (val_insn (snd r))) (fun s' => sinv s' /\ le s s').
Proof.
  intros H B L No. eapply holds_bind; [apply args_safe; auto|]. intros [s1 l] (H1 & L1 & V1). cbn [fst snd] in *.
  eapply holds_imp; [apply emit_write_safe; auto; try (cbn; discriminate); try exact (proj1 No)|].
  - apply uses_list. symmetry. apply opv_plain; auto.
  - lia.
  - cbn. intros s3 [H3 L3]. split; [exact H3 | eauto using le_trans].
Qed.
Lemma call_safe n s b i : sinv s -> blk bs b <> None -> (C -> piok i) -> jmp_cls (pi_code i) = true -> opn (pi_code i) = 8%Z ->
  holds C (lift_call n s b i) (fun s' => sinv s' /\ le s s').
Proof.
  intros H B P Jc O8. unfold lift_call. destruct (_ || _); [exact I|]. destruct (pi_imm i <? 0)%Z; [exact I|].
  destruct (Z.eqb_spec (pi_src i) 6) as [E6|_].
  { apply call_emit_safe; auto; [|repeat split; discriminate]. intros c. pose proof (po_ecall i (P c) Jc O8 E6). lia. }
  destruct (nth_error helper_args (Z.to_nat (pi_imm i))) as [a|]; [|exact I].
  eapply (holds_bind C _ _ (fun _ => True)).
  { destruct (a <? 0)%Z; [destruct (pi_imm i =? 6)%Z|]; exact I. }
  intros k _. destruct (Nat.ltb_spec 5 k); [exact I|]. apply call_emit_safe; auto. repeat split; discriminate.
Qed.
Lemma bb_at_safe l : forall k pos, (C -> In pos (map (fun b => Z.of_nat (pb_start b)) l)) -> holds C (bb_at l k pos) (fun _ => True).
Proof.
  induction l as [|x l IH]; intros k pos Hi; cbn [bb_at]; [exact Hi|].
  destruct (Z.eqb_spec (Z.of_nat (pb_start x)) pos); [exact I|]. apply IH. intros c. destruct (Hi c); [congruence | assumption].
Qed.
Lemma jmp_safe n s b i : sinv s -> blk bs b <> None -> (C -> piok i) -> jmp_cls (pi_code i) = true ->
  holds C (lift_jmp n bs s b i) (fun s' => sinv s' /\ le s s').
Proof.
  intros H B P Jc. unfold lift_jmp. destruct (Z.eqb_spec (opn (pi_code i)) 0) as [O0|_].
  { eapply holds_bind; [apply bb_at_safe; intros c; apply (po_ja i (P c)); auto|]. intros t _.
    apply emit_only_safe; auto; try (cbn; discriminate); [intros v [] |]. intros d. cbn. split; [discriminate | lia]. }
  destruct (Z.eqb_spec (opn (pi_code i)) 9) as [O9|_].
  { eapply holds_bind; [apply read_safe; auto; lia|]. intros [s1 v1] (H1 & L1 & V1). cbn [fst snd] in *.
    eapply holds_imp; [apply emit_only_safe; auto; try (cbn; discriminate)|].
    - intros v [<-|[]]; auto.
    - apply uses_list. reflexivity.
    - cbn. intros s3 [H3 L3]. split; [exact H3 | eauto using le_trans]. }
  destruct (cond_of (opn (pi_code i))) as [o|] eqn:Eo.
  { unfold lift_cond.
    eapply holds_bind; [apply read_safe; auto; intros c; apply (po_dst i (P c))|]. intros [s1 v1] (H1 & L1 & V1). cbn [fst snd] in *.
    eapply holds_bind; [apply src_safe; eauto|]. intros [s2 v2] (H2 & L2 & V2). cbn [fst snd] in *.
    eapply holds_bind; [apply bb_at_safe; intros c; apply (po_next i (P c)); [auto | congruence]|]. intros t1 _.
    eapply holds_bind; [apply bb_at_safe; intros c; apply (po_ja i (P c)); [auto | right; congruence]|]. intros t2 _.
    eapply holds_imp; [apply emit_only_safe; auto; try exact (proj1 (cond_noext _ _ Eo))|].
    - intros v [<-|[<-|[]]]; eauto using valid_le.
    - apply uses_list. symmetry. apply opv_plain; [eapply cond_noext; eauto | reflexivity].
    - cbn. intros s3 [H3 L3]. split; [exact H3 | eauto using le_trans]. }
  destruct (Z.eqb_spec (opn (pi_code i)) 8); [apply call_safe; auto | exact I].
Qed.
Lemma insn_safe n s b i : sinv s -> blk bs b <> None -> (C -> piok i) ->
  holds C (lift_insn n bs b s i) (fun s' => sinv s' /\ le s s').
Proof.
  intros H B P. unfold lift_insn. destruct (_ || _); [apply alu_safe; auto|].
  destruct ((cls (pi_code i) =? 0)%Z && _ && _).
  { unfold lift_imm64. destruct (pi_src i <=? 6)%Z; [|exact I]. apply emit_write_safe; auto; try (cbn; discriminate).
    - intros v [].
    - intros d. cbn. split; [discriminate | lia].
    - intros c. apply (po_dst i (P c)). }
  destruct ((cls (pi_code i) =? 1)%Z && _); [apply ldx_safe; auto|].
  destruct ((cls (pi_code i) =? 2)%Z && _); [apply st_safe; auto|].
  destruct ((cls (pi_code i) =? 3)%Z && _); [apply st_safe; auto|].
  destruct (jmp_cls (pi_code i)) eqn:J; [apply jmp_safe; auto | exact I].
Qed.

Hypothesis Hpi : C -> forall pb i, In pb bs -> In i (pb_insns pb) -> piok i.

Lemma transform_safe n : forall m s b, sinv s -> blk bs b <> None -> holds C (transform m n bs s b) sinv.
Proof.
  induction m as [|m IH]; intros s b H B; [exact I|]. cbn [transform]. destruct (l_seal s b); [exact H|].
  destruct b as [|b']; [now destruct B|]. cbn [blk] in B. cbn [pred]. destruct (nth_error bs b') as [pb|] eqn:Eb; [|congruence].
  assert (Bk : blk bs (S b') <> None) by (cbn [blk]; rewrite Eb; discriminate).
  eapply (holds_bind C _ _ sinv).
  { destruct (forallb _ _); [|exact H]. eapply holds_imp; [apply seal_safe; [exact H | exact Bk]|]. cbn. tauto. }
  intros s1 H1. destruct (l_fill s1 (S b')); [exact H1|].
  eapply (holds_bind C _ _ sinv).
  { eapply (holds_ofold C _ sinv); [exact H1|]. intros s2 i Ii H2.
    eapply holds_imp; [apply insn_safe; [exact H2 | exact Bk|]|cbn; tauto].
    intros c. apply (Hpi c pb i); [eapply nth_error_In; eauto | exact Ii]. }
  intros s2 H2. eapply (holds_ofold C _ sinv).
  { destruct H2 as [F D' I']. constructor; auto. }
  intros s3 q Iq H3. eapply holds_bind; [apply IH; [exact H3 | eapply (Hsucc (S b')); [exact Eb | exact Iq]]|].
  intros t Ht. destruct (l_err t); [exact I | exact Ht].
Qed.

Lemma init_finv : finv (l_f (init_lst bs)).
Proof.
  assert (Iu : forall i x, init_insns i = Some x -> i_users x = [] /\ operand_values x = [] /\ 1 <= i < 7).
  { intros i x. unfold init_insns, sp_id. destruct (Nat.eqb_spec i 0); [discriminate|]. destruct (Nat.eqb_spec i 1).
    - intros [= <-]. repeat split; auto; lia.
    - destruct (Nat.ltb_spec i 7); [|discriminate]. intros [= <-]. repeat split; auto; lia. }
  assert (Uz : forall u d, uses (l_f (init_lst bs)) u d = 0).
  { intros u d. unfold uses. cbn [init_lst l_f f_insn]. destruct (init_insns u) as [x|] eqn:E; [|reflexivity].
    destruct (Iu u x E) as (_ & -> & _). reflexivity. }
  assert (Us : forall d, users_of (l_f (init_lst bs)) d = []).
  { intros d. unfold users_of. cbn [init_lst l_f f_insn]. destruct (init_insns d) as [x|] eqn:E; [|reflexivity]. apply (Iu d x E). }
  assert (In0 : forall b, insns_of (l_f (init_lst bs)) b = []).
  { intros b. unfold insns_of. cbn [init_lst l_f f_block]. destruct b; [reflexivity|]. destruct (nth_error bs b); reflexivity. }
  constructor; try reflexivity.
  - intros i. cbn [init_lst l_f f_insn f_ni]. split.
    + destruct (init_insns i) eqn:E; [|congruence]. intros _. apply (Iu i i0 E).
    + intros L. unfold init_insns, sp_id. destruct (Nat.eqb_spec i 0); [lia|]. destruct (Nat.eqb_spec i 1); [discriminate|].
      destruct (Nat.ltb_spec i 7); [discriminate | lia].
  - intros i L. exists []. cbn [init_lst l_f f_insn]. destruct (init_insns i) as [x|] eqn:E; [|reflexivity]. cbn.
    destruct (Iu i x E) as (Eu & _). destruct x; cbn in *. now subst.
  - intros b. cbn [init_lst l_f f_block]. destruct b; [reflexivity|]. cbn. destruct (nth_error bs b); cbn; [eexists; reflexivity | reflexivity].
  - intros b i. rewrite In0. intros [].
  - intros i x L E. exfalso. cbn [init_lst l_f f_insn] in E. apply Iu in E. lia.
  - intros b. rewrite In0. constructor.
  - intros b i. rewrite In0. intros [].
  - intros u d. rewrite Us, Uz. cbn. lia.
  - intros d. rewrite Us. constructor.
  - intros i x E O. cbn [init_lst l_f f_insn] in E. unfold init_insns in E. destruct (i =? 0); [discriminate E|]. destruct (i =? sp_id); [injection E as <-; reflexivity|]. destruct (i <? 7); [injection E as <-; reflexivity|discriminate E].
Qed.
Lemma init_sinv : sinv (init_lst bs).
Proof. constructor; [exact init_finv | discriminate | discriminate]. Qed.

Lemma lift_blocks_safe m n : bs <> [] -> holds C (lift_blocks m n bs) sinv.
Proof.
  intros N. unfold lift_blocks. eapply holds_bind; [apply transform_safe; [apply init_sinv|]|].
  - cbn. destruct bs; [congruence | discriminate].
  - intros s H. destruct (l_err s); [exact I | exact H].
Qed.
End Wp.
End Safe.
