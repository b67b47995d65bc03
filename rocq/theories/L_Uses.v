From Verif Require Import M_Base M_Ir M_Edit SpecIr L_Edit.
Open Scope nat_scope.

Notation cnt l u := (count_occ Nat.eq_dec l u).

Definition ops_of (f : func) (u : nat) : list value :=
  match f_insn f u with Some x => operands x | None => [] end.
Definition nref (d : nat) (l : list value) : nat := length (filter (refers d) l).

Lemma refers_is_use d v : refers d v = is_use_of d v.
Proof. unfold refers, is_use_of, val_target. now destruct (v_data v). Qed.

Lemma operands_spec x : operands x = operand_values x.
Proof.
  unfold operands, operand_values. destruct (i_op x); cbn; rewrite ?app_nil_r; reflexivity.
Qed.

Lemma uses_nref f u d : uses f u d = nref d (ops_of f u).
Proof.
  unfold uses, nref, ops_of. destruct (f_insn f u); auto.
  rewrite operands_spec. f_equal. apply filter_ext. intros; now rewrite refers_is_use.
Qed.

Lemma nref_app d l1 l2 : nref d (l1 ++ l2) = nref d l1 + nref d l2.
Proof. unfold nref. now rewrite filter_app, app_length. Qed.
Lemma nref_cons d v l : nref d (v :: l) = (if refers d v then 1 else 0) + nref d l.
Proof. unfold nref; simpl; destruct (refers d v); auto. Qed.

Lemma refers_iff d v : refers d v = true <-> val_target v = Some d.
Proof.
  unfold refers. destruct (val_target v); [|split; congruence].
  rewrite Nat.eqb_eq. split; congruence.
Qed.

Definition exact' (f : func) : Prop := forall d u, cnt (users_of f d) u = nref d (ops_of f u).
Lemma exact_iff f : uses_exact f <-> exact' f.
Proof. split; intros H d u; [rewrite <- uses_nref; apply H | rewrite uses_nref; apply H]. Qed.

(** live set *)
Definition live (f : func) (i : nat) : Prop := f_insn f i <> None.

Lemma operands_users x u : operands (set_users u x) = operands x.
Proof. reflexivity. Qed.

(** characterisation of edits which only touch users lists *)
Record users_edit (f g : func) : Prop := {
  ue_ops : forall u, ops_of g u = ops_of f u;
  ue_live : forall i, f_insn g i = None <-> f_insn f i = None;
  ue_rec : forall i, exists l, f_insn g i = option_map (set_users l) (f_insn f i);
  ue_block : forall b, f_block g b = f_block f b;
  ue_ni : f_ni g = f_ni f; ue_nb : f_nb g = f_nb f; ue_all : f_all g = f_all f;
  ue_entry : f_entry g = f_entry f }.

Lemma set_users_id x : set_users (i_users x) x = x.
Proof. now destruct x. Qed.
Lemma set_users_twice a b x : set_users a (set_users b x) = set_users a x.
Proof. reflexivity. Qed.

Lemma users_edit_refl f : users_edit f f.
Proof.
  constructor; try reflexivity; try (intros; reflexivity).
  intros i. destruct (f_insn f i) as [x|] eqn:E.
  - exists (i_users x). simpl. now rewrite set_users_id.
  - now exists [].
Qed.
Lemma users_edit_trans f g h : users_edit f g -> users_edit g h -> users_edit f h.
Proof.
  intros A B; constructor; intros.
  - rewrite (ue_ops _ _ B); apply (ue_ops _ _ A).
  - rewrite (ue_live _ _ B); apply (ue_live _ _ A).
  - destruct (ue_rec _ _ A i) as [l1 E1], (ue_rec _ _ B i) as [l2 E2].
    exists l2. rewrite E2, E1. destruct (f_insn f i); reflexivity.
  - rewrite (ue_block _ _ B); apply (ue_block _ _ A).
  - rewrite (ue_ni _ _ B); apply (ue_ni _ _ A).
  - rewrite (ue_nb _ _ B); apply (ue_nb _ _ A).
  - rewrite (ue_all _ _ B); apply (ue_all _ _ A).
  - rewrite (ue_entry _ _ B); apply (ue_entry _ _ A).
Qed.

Lemma put_users_edit f d x l : f_insn f d = Some x -> users_edit f (put_insn f d (set_users l x)).
Proof.
  intros E. constructor; try reflexivity.
  - intros u. unfold ops_of. rewrite f_insn_put. destruct (Nat.eqb_spec u d) as [->|]; auto.
    now rewrite E.
  - intros i. rewrite f_insn_put. destruct (Nat.eqb_spec i d) as [->|]; [|tauto].
    split; congruence.
  - intros i. rewrite f_insn_put. destruct (Nat.eqb_spec i d) as [->|].
    + exists l. now rewrite E.
    + destruct (f_insn f i) as [y|]; [exists (i_users y); simpl; now rewrite set_users_id|now exists []].
Qed.

Lemma users_of_put f d x l c : 
  users_of (put_insn f d (set_users l x)) c = if c =? d then l else users_of f c.
Proof. unfold users_of. rewrite f_insn_put. destruct (c =? d); reflexivity. Qed.

Lemma add_user_spec f v u f' : add_user f v u = Ok f' ->
  users_edit f f' /\
  (forall c, users_of f' c = if refers c v then users_of f c ++ [u] else users_of f c).
Proof.
  unfold add_user. destruct (val_target v) as [d|] eqn:T.
  - intros H. apply bind_ok in H as (x & Hx & H). apply get_insn_ok in Hx. injection H as <-.
    split; [now apply put_users_edit|]. intros c. rewrite users_of_put.
    unfold refers. rewrite T. rewrite (Nat.eqb_sym d c).
    destruct (Nat.eqb_spec c d) as [->|]; auto. unfold users_of; now rewrite Hx.
  - intros [= <-]. split; [apply users_edit_refl|]. intros c. unfold refers; now rewrite T.
Qed.
Lemma add_user_total f v u : (forall d, val_target v = Some d -> live f d) ->
  exists f', add_user f v u = Ok f'.
Proof.
  unfold add_user, live. destruct (val_target v) as [d|]; [|eauto]. intros H.
  specialize (H d eq_refl). unfold get_insn. destruct (f_insn f d); [simpl; eauto|congruence].
Qed.

Lemma remove_user_spec f v u f' : remove_user f v u = Ok f' ->
  users_edit f f' /\
  (forall c, users_of f' c = if refers c v then erase_first u (users_of f c) else users_of f c).
Proof.
  unfold remove_user. destruct (val_target v) as [d|] eqn:T.
  - intros H. apply bind_ok in H as (x & Hx & H). apply get_insn_ok in Hx. injection H as <-.
    split; [now apply put_users_edit|]. intros c. rewrite users_of_put.
    unfold refers. rewrite T. rewrite (Nat.eqb_sym d c).
    destruct (Nat.eqb_spec c d) as [->|]; auto. unfold users_of; now rewrite Hx.
  - intros [= <-]. split; [apply users_edit_refl|]. intros c. unfold refers; now rewrite T.
Qed.
Lemma remove_user_total f v u : (forall d, val_target v = Some d -> live f d) ->
  exists f', remove_user f v u = Ok f'.
Proof.
  unfold remove_user, live. destruct (val_target v) as [d|]; [|eauto]. intros H.
  specialize (H d eq_refl). unfold get_insn. destruct (f_insn f d); [simpl; eauto|congruence].
Qed.

Lemma cnt_app l1 l2 u : cnt (l1 ++ l2) u = cnt l1 u + cnt l2 u.
Proof. apply count_occ_app. Qed.
Lemma cnt_one w u : cnt [w] u = if w =? u then 1 else 0.
Proof. simpl. destruct (Nat.eq_dec w u), (Nat.eqb_spec w u); congruence. Qed.

Lemma add_user_n_spec n : forall f v u f', add_user_n n f v u = Ok f' ->
  users_edit f f' /\
  (forall c w, cnt (users_of f' c) w =
     cnt (users_of f c) w + (if refers c v && (u =? w) then n else 0)) /\
  (forall c, refers c v = false -> users_of f' c = users_of f c).
Proof.
  induction n as [|n IH]; intros f v u f' H; cbn [add_user_n] in H.
  - injection H as <-. split; [apply users_edit_refl|]. split; auto. intros.
    destruct (refers c v && (u =? w)); lia.
  - apply bind_ok in H as (f1 & H1 & H). apply add_user_spec in H1 as (E1 & U1).
    apply IH in H as (E2 & U2 & U3). split; [eauto using users_edit_trans|]. split.
    + intros c w. rewrite U2, U1. destruct (refers c v); simpl; [|lia].
      rewrite cnt_app, cnt_one. destruct (u =? w); lia.
    + intros c Hc. rewrite U3, U1, Hc; auto.
Qed.

(** folds of add_user over the operands of a new instruction *)
Lemma fold_add_spec u : forall l f f', ofold (fun g v => add_user g v u) f l = Ok f' ->
  users_edit f f' /\
  (forall c w, cnt (users_of f' c) w = cnt (users_of f c) w + (if u =? w then nref c l else 0)).
Proof.
  induction l as [|v l IH]; intros f f' H; cbn [ofold] in H.
  - injection H as <-. split; [apply users_edit_refl|]. intros; unfold nref; simpl.
    destruct (u =? w); lia.
  - apply bind_ok in H as (f1 & H1 & H). apply add_user_spec in H1 as (E1 & U1).
    apply IH in H as (E2 & U2). split; [eauto using users_edit_trans|].
    intros c w. rewrite U2, U1, nref_cons. destruct (refers c v); [|destruct (u =? w); lia].
    rewrite cnt_app, cnt_one. destruct (u =? w); lia.
Qed.
Lemma fold_remove_spec u : forall l f f', ofold (fun g v => remove_user g v u) f l = Ok f' ->
  users_edit f f' /\
  (forall c w, cnt (users_of f' c) w = cnt (users_of f c) w - (if u =? w then nref c l else 0)).
Proof.
  induction l as [|v l IH]; intros f f' H; cbn [ofold] in H.
  - injection H as <-. split; [apply users_edit_refl|]. intros; unfold nref; simpl.
    destruct (u =? w); lia.
  - apply bind_ok in H as (f1 & H1 & H). apply remove_user_spec in H1 as (E1 & U1).
    apply IH in H as (E2 & U2). split; [eauto using users_edit_trans|].
    intros c w. rewrite U2, U1, nref_cons. destruct (refers c v); [|destruct (u =? w); lia].
    rewrite erase_first_count. destruct (Nat.eq_dec u w), (Nat.eqb_spec u w); lia.
Qed.
Lemma fold_remove_total u : forall l f, (forall v d, In v l -> val_target v = Some d -> live f d) ->
  exists f', ofold (fun g v => remove_user g v u) f l = Ok f'.
Proof.
  induction l as [|v l IH]; intros f H; cbn [ofold]; eauto.
  destruct (remove_user_total f v u) as (f1 & E). { intros d; apply H; left; auto. }
  rewrite E. cbn [bind]. apply IH. intros v' d Hv T.
  apply remove_user_spec in E as (E & _). unfold live. rewrite (ue_live _ _ E).
  eapply H; eauto. right; auto.
Qed.

Lemma nref_pos d l : nref d l > 0 <-> exists v, In v l /\ val_target v = Some d.
Proof.
  unfold nref. split.
  - intros H. destruct (filter (refers d) l) as [|v r] eqn:E; [simpl in H; lia|].
    assert (Hv : In v (filter (refers d) l)) by (rewrite E; left; auto).
    apply filter_In in Hv as [Hv Hr]. exists v; split; auto. now apply refers_iff.
  - intros (v & Hv & Hr). apply refers_iff in Hr.
    assert (Hf : In v (filter (refers d) l)) by (apply filter_In; auto).
    destruct (filter (refers d) l); [contradiction|simpl; lia].
Qed.

(** exactness implies that operands refer to live instructions *)
Lemma exact_live f u v d : exact' f -> In v (ops_of f u) -> val_target v = Some d -> live f d.
Proof.
  intros H Hv T Hn. specialize (H d u). unfold users_of in H. rewrite Hn in H. simpl in H.
  assert (nref d (ops_of f u) > 0) by (apply nref_pos; eauto). lia.
Qed.

(** * create *)
Lemma operands_fresh_users bb k : i_users (build bb k) = [].
Proof. now destruct k. Qed.

Lemma create_insn_exact f bb k f' i : fresh_ok f -> exact' f ->
  create_insn f bb k = Ok (f', i) ->
  exact' f' /\ i = f_ni f /\ f_ni f' = S i /\ f_nb f' = f_nb f /\ f_all f' = f_all f /\
  f_entry f' = f_entry f /\
  (forall b, f_block f' b = f_block f b) /\
  (exists l, f_insn f' i = Some (set_users l (build bb k))) /\
  (forall j, j <> i -> exists l, f_insn f' j = option_map (set_users l) (f_insn f j)).
Proof.
  intros (F & _) H E. unfold create_insn in E.
  set (f1 := mkFunc _ _ _ _ _ _) in E.
  apply bind_ok in E as (f2 & E & E'). injection E' as <- <-.
  apply fold_add_spec in E as (UE & UC).
  assert (Hf : f_insn f (f_ni f) = None) by (apply F; lia).
  assert (O1 : forall u, ops_of f1 u = if u =? f_ni f then operands (build bb k) else ops_of f u).
  { intros u. unfold ops_of, f1; simpl. unfold upd. destruct (u =? f_ni f); auto. }
  assert (U1 : forall c, users_of f1 c = users_of f c).
  { intros c. unfold users_of, f1; simpl. unfold upd. destruct (Nat.eqb_spec c (f_ni f)) as [->|]; auto.
    rewrite Hf. apply operands_fresh_users. }
  assert (O0 : ops_of f (f_ni f) = []) by (unfold ops_of; now rewrite Hf).
  split.
  { intros d u. rewrite UC, U1, (ue_ops _ _ UE), O1. rewrite H.
    rewrite (Nat.eqb_sym (f_ni f) u). destruct (Nat.eqb_spec u (f_ni f)) as [->|]; [|lia].
    rewrite O0. reflexivity. }
  split; [reflexivity|]. split; [rewrite (ue_ni _ _ UE); reflexivity|].
  split; [rewrite (ue_nb _ _ UE); reflexivity|]. split; [rewrite (ue_all _ _ UE); reflexivity|].
  split; [rewrite (ue_entry _ _ UE); reflexivity|].
  split; [intros; rewrite (ue_block _ _ UE); reflexivity|]. split.
  - destruct (ue_rec _ _ UE (f_ni f)) as [l E]. exists l. rewrite E. unfold f1; simpl.
    now rewrite upd_eq.
  - intros j Hj. destruct (ue_rec _ _ UE j) as [l E]. exists l. rewrite E. unfold f1; simpl.
    now rewrite upd_ne.
Qed.

(** block edits do not matter *)
Lemma exact_blocks f g : (forall i, f_insn g i = f_insn f i) -> exact' f -> exact' g.
Proof.
  intros H E d u. unfold users_of, ops_of. rewrite !H. apply E.
Qed.
Lemma exact_parent f g (P : nat -> bool) nb :
  (forall i, f_insn g i = if P i then option_map (set_parent nb) (f_insn f i) else f_insn f i) ->
  exact' f -> exact' g.
Proof.
  intros H E d u.
  replace (users_of g d) with (users_of f d).
  2:{ unfold users_of. rewrite H. destruct (P d); auto. now destruct (f_insn f d). }
  replace (ops_of g u) with (ops_of f u).
  2:{ unfold ops_of. rewrite H. destruct (P u); auto. now destruct (f_insn f u). }
  apply E.
Qed.

(** * slots *)
Lemma set_nth_nref d k v : forall l old, nth_error l k = Some old ->
  nref d (set_nth k v l) + (if refers d old then 1 else 0) = nref d l + (if refers d v then 1 else 0).
Proof.
  induction k as [|k IH]; destruct l as [|a l]; simpl; intros old H; try discriminate.
  - injection H as ->. rewrite !nref_cons. lia.
  - rewrite !nref_cons. specialize (IH _ _ H). lia.
Qed.
Lemma map_fst_set_nth k (v : value) (b : nat) : forall (l : list (value * nat)),
  map fst (set_nth k (v, b) l) = set_nth k v (map fst l).
Proof. induction k; destruct l; simpl; auto. now rewrite IHk. Qed.

Lemma slot_set_nref x s v old d : slot_get x s = Some old ->
  nref d (operands (slot_set x s v)) + (if refers d old then 1 else 0)
  = nref d (operands x) + (if refers d v then 1 else 0).
Proof.
  destruct s as [k|k|]; simpl; intros H.
  - unfold operands; simpl. rewrite !nref_app. apply set_nth_nref with (v := v) (d := d) in H. lia.
  - destruct (iop_eqb (i_op x) PHI) eqn:P; [|discriminate].
    destruct (nth_error (i_phi x) k) as [[w b]|] eqn:E; [|discriminate]. injection H as ->.
    unfold operands; simpl. rewrite P, !nref_app, map_fst_set_nth.
    assert (nth_error (map fst (i_phi x)) k = Some old) by (rewrite nth_error_map, E; reflexivity).
    apply set_nth_nref with (v := v) (d := d) in H. lia.
  - unfold operands; simpl. destruct (iop_eqb (i_op x) LOADRAW || iop_eqb (i_op x) STORERAW);
      [|discriminate]. injection H as <-. rewrite !nref_app, !nref_cons. unfold nref at 3 6; simpl. lia.
Qed.
Lemma slot_get_users x s l : slot_get (set_users l x) s = slot_get x s.
Proof. now destruct s. Qed.
Lemma slot_set_users x s v : i_users (slot_set x s v) = i_users x.
Proof. destruct s; simpl; auto. destruct (nth_error (i_phi x) k) as [[? ?]|]; auto. Qed.
Lemma slot_get_in x s v : slot_get x s = Some v -> In v (operands x).
Proof.
  destruct s as [k|k|]; simpl; intros H; unfold operands; rewrite !in_app_iff.
  - left; eapply nth_error_In; eauto.
  - destruct (iop_eqb (i_op x) PHI); [|discriminate]. right; left.
    destruct (nth_error (i_phi x) k) eqn:E; [|discriminate]. injection H as <-.
    apply in_map. eapply nth_error_In; eauto.
  - destruct (iop_eqb (i_op x) LOADRAW || iop_eqb (i_op x) STORERAW); [|discriminate].
    injection H as <-. right; right; left; auto.
Qed.

Lemma change_value_exact f u s new f' : exact' f -> change_value f u s new = Ok f' -> exact' f'.
Proof.
  intros H E. unfold change_value in E.
  apply bind_ok in E as (x & Hx & E). apply get_insn_ok in Hx.
  destruct (slot_get x s) as [old|] eqn:G; [|discriminate].
  apply bind_ok in E as (f1 & E1 & E). apply remove_user_spec in E1 as (UE1 & U1).
  apply bind_ok in E as (x1 & Hx1 & E). apply get_insn_ok in Hx1.
  apply add_user_spec in E as (UE2 & U2).
  destruct (ue_rec _ _ UE1 u) as [l R]. rewrite Hx, Hx1 in R. simpl in R. injection R as ->.
  intros d w. rewrite (ue_ops _ _ UE2), U2.
  set (f2 := put_insn f1 u _) in *.
  assert (V2 : users_of f2 d = users_of f1 d).
  { unfold users_of, f2. rewrite f_insn_put. destruct (Nat.eqb_spec d u) as [->|]; auto.
    rewrite Hx1, slot_set_users. reflexivity. }
  assert (O2 : ops_of f2 w = if w =? u then operands (slot_set (set_users l x) s new) else ops_of f w).
  { unfold ops_of at 1, f2. rewrite f_insn_put. destruct (w =? u); auto.
    fold (ops_of f1 w). apply (ue_ops _ _ UE1). }
  rewrite O2.
  assert (C : cnt (if refers d new then users_of f2 d ++ [u] else users_of f2 d) w
    = cnt (users_of f2 d) w + (if refers d new && (u =? w) then 1 else 0)).
  { destruct (refers d new); simpl; [|lia]. rewrite cnt_app, cnt_one. destruct (u =? w); lia. }
  rewrite C, V2, U1.
  assert (C2 : cnt (if refers d old then erase_first u (users_of f d) else users_of f d) w
    = cnt (users_of f d) w - (if refers d old && (u =? w) then 1 else 0)).
  { destruct (refers d old); simpl; [|lia]. rewrite erase_first_count.
    destruct (Nat.eq_dec u w), (Nat.eqb_spec u w); lia. }
  rewrite C2, H. rewrite (Nat.eqb_sym u w). destruct (Nat.eqb_spec w u) as [->|].
  - assert (G' : slot_get (set_users l x) s = Some old) by now rewrite slot_get_users.
    pose proof (slot_set_nref _ _ new _ d G') as Q. rewrite operands_users in Q.
    assert (Z : ops_of f u = operands x) by (unfold ops_of; now rewrite Hx). rewrite Z.
    assert (refers d old = true -> nref d (operands x) > 0).
    { intros Hr. apply nref_pos. exists old. split; [eapply slot_get_in; eauto|]. now apply refers_iff. }
    destruct (refers d old) eqn:Ro, (refers d new) eqn:Rn; simpl in *; try lia; specialize (H0 eq_refl); lia.
  - rewrite !andb_false_r. lia.
Qed.

(** * replace *)
Lemma nref_subst d d' rep l : d' <> d -> 
  nref d' (map (subst_val d rep) l) = nref d' l + (if refers d' rep then nref d l else 0).
Proof.
  intros Hne. induction l as [|v l IH]; simpl.
  - unfold nref; simpl. destruct (refers d' rep); lia.
  - rewrite !nref_cons, IH. unfold subst_val. unfold refers at 1 3 5.
    destruct (val_target v) as [t|] eqn:T.
    + destruct (Nat.eqb_spec t d) as [->|].
      * fold (refers d' rep). destruct (Nat.eqb_spec d d'); [congruence|].
        destruct (refers d' rep); lia.
      * rewrite T. destruct (refers d' rep); lia.
    + rewrite T. destruct (refers d' rep); lia.
Qed.
Lemma nref_subst_self d rep l : refers d rep = false -> nref d (map (subst_val d rep) l) = 0.
Proof.
  intros Hr. induction l as [|v l IH]; simpl; auto. rewrite nref_cons, IH.
  unfold subst_val. destruct (val_target v) as [t|] eqn:T.
  - destruct (Nat.eqb_spec t d) as [->|]; [rewrite Hr; auto|].
    unfold refers; rewrite T. destruct (Nat.eqb_spec t d); [congruence|reflexivity].
  - unfold refers; now rewrite T.
Qed.
Lemma operands_subst d rep x : operands (subst_insn d rep x) = map (subst_val d rep) (operands x).
Proof.
  unfold operands. rewrite !map_app. unfold subst_insn.
  destruct (i_op x) eqn:E; cbn; rewrite E; cbn; rewrite ?app_nil_r; auto.
  now rewrite !map_map.
Qed.
Lemma subst_insn_users d rep x : i_users (subst_insn d rep x) = i_users x.
Proof. unfold subst_insn. destruct (i_op x); reflexivity. Qed.

(** what an instruction looks like after operand rewriting: everything else is kept *)
Definition others_kept (x y : insn) : Prop :=
  i_op y = i_op x /\ i_vrt y = i_vrt x /\ i_alu y = i_alu x /\ i_bb1 y = i_bb1 x /\
  i_bb2 y = i_bb2 x /\ i_u y = i_u x /\ i_ity y = i_ity x /\ i_imm64 y = i_imm64 x /\
  i_parent y = i_parent x /\ map snd (i_phi y) = map snd (i_phi x) /\
  a_off (i_addr y) = a_off (i_addr x) /\ a_ot (i_addr y) = a_ot (i_addr x).

Lemma replace_in_user_spec d rep f u g : replace_in_user d rep f u = Ok g ->
  refers d rep = false ->
  (forall w, ops_of g w = if w =? u then map (subst_val d rep) (ops_of f w) else ops_of f w) /\
  (forall i, f_insn g i = None <-> f_insn f i = None) /\
  (forall c w, cnt (users_of g c) w = cnt (users_of f c) w +
     (if refers c rep && (u =? w) then nref d (ops_of f u) else 0)) /\
  users_of g d = users_of f d /\
  (forall b, f_block g b = f_block f b) /\ f_ni g = f_ni f /\ f_nb g = f_nb f.
Proof.
  intros E Hr. unfold replace_in_user in E.
  apply bind_ok in E as (x & Hx & E). apply get_insn_ok in Hx.
  apply add_user_n_spec in E as (UE & UC & UN).
  set (f1 := put_insn f u _) in *.
  assert (O : ops_of f u = operands x) by (unfold ops_of; now rewrite Hx).
  assert (U1 : forall c, users_of f1 c = users_of f c).
  { intros c. unfold users_of, f1. rewrite f_insn_put. destruct (Nat.eqb_spec c u) as [->|]; auto.
    now rewrite Hx, subst_insn_users. }
  split; [|split; [|split; [|split]]].
  - intros w. rewrite (ue_ops _ _ UE). unfold ops_of, f1. rewrite f_insn_put.
    destruct (Nat.eqb_spec w u) as [->|]; auto. now rewrite operands_subst, Hx.
  - intros i. rewrite (ue_live _ _ UE). unfold f1. rewrite f_insn_put.
    destruct (Nat.eqb_spec i u) as [Hi|]; [|tauto]. subst i. rewrite Hx. split; intros; discriminate.
  - intros c w. rewrite UC, U1, O. reflexivity.
  - rewrite UN by auto. apply U1.
  - split; [intros; rewrite (ue_block _ _ UE); reflexivity|].
    rewrite (ue_ni _ _ UE), (ue_nb _ _ UE); auto.
Qed.

Lemma replace_loop d rep : refers d rep = false -> forall l f f',
  ofold (replace_in_user d rep) f l = Ok f' ->
  (forall c u, c <> d -> cnt (users_of f c) u = nref c (ops_of f u)) ->
  users_of f d = [] ->
  (forall u, nref d (ops_of f u) > 0 -> In u l) ->
  exact' f' /\ users_of f' d = [] /\ (forall i, f_insn f' i = None <-> f_insn f i = None) /\
  (forall b, f_block f' b = f_block f b) /\ f_ni f' = f_ni f /\ f_nb f' = f_nb f /\
  (forall w, ops_of f' w = map (subst_val d rep) (ops_of f w)).
Proof.
  intros Hr. induction l as [|u l IH]; intros f f' E H1 H2 H3; cbn [ofold] in E.
  - injection E as <-.
    assert (Z : forall w, nref d (ops_of f w) = 0).
    { intros w. destruct (nref d (ops_of f w)) eqn:Q; auto. exfalso; apply (H3 w); lia. }
    split.
    { intros c w. destruct (Nat.eq_dec c d) as [->|]; auto. rewrite H2, Z. reflexivity. }
    repeat split; auto.
    intros w. specialize (Z w). clear -Z. induction (ops_of f w) as [|v l IH]; simpl; auto.
    rewrite nref_cons in Z. rewrite <- IH by lia. f_equal.
    unfold subst_val. unfold refers in Z. destruct (val_target v); auto. destruct (n =? d); auto; lia.
  - apply bind_ok in E as (g & Eg & E).
    apply replace_in_user_spec in Eg as (O & L & UC & Ud & B & N1 & N2); auto.
    apply IH in E.
    + destruct E as (X & Y & Z & W & V1 & V2 & V3).
      split; [exact X|]. split; [exact Y|]. split; [intros; rewrite Z; apply L|].
      split; [intros; now rewrite W|]. split; [congruence|]. split; [congruence|].
      intros w. rewrite V3, O. destruct (w =? u); auto. rewrite map_map. apply map_ext.
      intros v. unfold subst_val. destruct (val_target v) as [t|] eqn:T.
      * destruct (t =? d) eqn:Td; [|now rewrite T, Td].
        unfold refers in Hr. destruct (val_target rep) as [t'|]; auto. now rewrite Hr.
      * now rewrite T.
    + intros c w Hc. rewrite UC, H1 by auto. rewrite O.
      rewrite (Nat.eqb_sym u w). destruct (Nat.eqb_spec w u) as [->|].
      * rewrite nref_subst by auto. destruct (refers c rep); simpl; lia.
      * rewrite andb_false_r. lia.
    + now rewrite Ud.
    + intros w Hw. rewrite O in Hw. destruct (Nat.eqb_spec w u) as [e|].
      * rewrite nref_subst_self in Hw by auto. lia.
      * destruct (H3 w Hw); [congruence|auto].
Qed.

Lemma count_in l u : In u l <-> cnt l u > 0.
Proof. apply count_occ_In. Qed.

Lemma replace_all_exact f d rep f' : refers d rep = false -> exact' f ->
  replace_all f d rep = Ok f' ->
  exact' f' /\ users_of f' d = [] /\ (forall i, f_insn f' i = None <-> f_insn f i = None) /\
  (forall b, f_block f' b = f_block f b) /\ f_ni f' = f_ni f /\ f_nb f' = f_nb f /\
  (forall w, ops_of f' w = map (subst_val d rep) (ops_of f w)).
Proof.
  intros Hr H E. unfold replace_all in E. apply bind_ok in E as (x & Hx & E).
  apply get_insn_ok in Hx.
  pose proof (put_users_edit f d x [] Hx) as UE.
  apply replace_loop in E; auto.
  - destruct E as (A & B & C & D & E1 & E2 & E3). split; [exact A|]. split; [exact B|].
    split; [intros; rewrite C; apply (ue_live _ _ UE)|]. split; [intros; rewrite D; apply (ue_block _ _ UE)|].
    split; [rewrite E1; reflexivity|]. split; [rewrite E2; reflexivity|].
    intros w. rewrite E3, (ue_ops _ _ UE). reflexivity.
  - intros c u Hc. rewrite (ue_ops _ _ UE), users_of_put. destruct (Nat.eqb_spec c d); [congruence|].
    apply H.
  - rewrite users_of_put, Nat.eqb_refl. reflexivity.
  - intros u. rewrite (ue_ops _ _ UE), <- H. unfold users_of. rewrite Hx. apply count_in.
Qed.

Lemma replace_except_loop d rep ex : refers d rep = false -> forall l f f',
  ofold (fun g u =>
           if u =? ex
           then do y <- get_insn g d; Ok (put_insn g d (set_users (i_users y ++ [u]) y))
           else replace_in_user d rep g u) f l = Ok f' ->
  (forall c u, c <> d -> cnt (users_of f c) u = nref c (ops_of f u)) ->
  (forall u, u <> ex -> cnt (users_of f d) u = 0) ->
  cnt (users_of f d) ex + cnt l ex = nref d (ops_of f ex) ->
  (forall u, u <> ex -> nref d (ops_of f u) > 0 -> In u l) ->
  exact' f' /\ (forall i, f_insn f' i = None <-> f_insn f i = None) /\
  (forall b, f_block f' b = f_block f b) /\ f_ni f' = f_ni f /\ f_nb f' = f_nb f /\
  (forall w, ops_of f' w = if w =? ex then ops_of f w else map (subst_val d rep) (ops_of f w)).
Proof.
  intros Hr. induction l as [|u l IH]; intros f f' E H1 H2 H3 H4; cbn [ofold] in E.
  - injection E as <-.
    assert (Z : forall w, w <> ex -> nref d (ops_of f w) = 0).
    { intros w Hw. destruct (nref d (ops_of f w)) eqn:Q; auto. exfalso; apply (H4 w); auto; lia. }
    split.
    { intros c w. destruct (Nat.eq_dec c d) as [->|]; auto.
      destruct (Nat.eq_dec w ex) as [->|]; [simpl in H3; lia|]. rewrite H2, Z; auto. }
    repeat split; auto.
    intros w. destruct (Nat.eqb_spec w ex) as [->|Hw]; auto.
    specialize (Z w Hw). clear -Z. induction (ops_of f w) as [|v l IH]; simpl; auto.
    rewrite nref_cons in Z. rewrite <- IH by lia. f_equal.
    unfold subst_val. unfold refers in Z. destruct (val_target v); auto. destruct (n =? d); auto; lia.
  - apply bind_ok in E as (g & Eg & E).
    destruct (Nat.eqb_spec u ex) as [->|Hu].
    + apply bind_ok in Eg as (y & Hy & Eg). apply get_insn_ok in Hy. injection Eg as <-.
      pose proof (put_users_edit f d y (i_users y ++ [ex]) Hy) as UE.
      assert (Uy : users_of f d = i_users y) by (unfold users_of; now rewrite Hy).
      apply IH in E.
      * destruct E as (A & B & C & D1 & D2 & D3). split; [exact A|].
        split; [intros; rewrite B; apply (ue_live _ _ UE)|].
        split; [intros; rewrite C; apply (ue_block _ _ UE)|].
        split; [rewrite D1; reflexivity|]. split; [rewrite D2; reflexivity|].
        intros w. rewrite D3, (ue_ops _ _ UE). reflexivity.
      * intros c w Hc. rewrite (ue_ops _ _ UE), users_of_put.
        destruct (Nat.eqb_spec c d); [congruence|]. apply H1; auto.
      * intros w Hw. rewrite users_of_put, Nat.eqb_refl, cnt_app, cnt_one, <- Uy, H2 by auto.
        destruct (Nat.eqb_spec ex w); [congruence|reflexivity].
      * rewrite (ue_ops _ _ UE), users_of_put, Nat.eqb_refl, cnt_app, cnt_one, <- Uy, Nat.eqb_refl.
        rewrite <- H3. cbn [count_occ]. destruct (Nat.eq_dec ex ex); [lia|congruence].
      * intros w Hw. rewrite (ue_ops _ _ UE). intros Hk. destruct (H4 w Hw Hk); [congruence|auto].
    + apply replace_in_user_spec in Eg as (O & L & UC & Ud & B & N1 & N2); auto.
      assert (Oex : ops_of g ex = ops_of f ex).
      { rewrite O. destruct (Nat.eqb_spec ex u); [congruence|auto]. }
      apply IH in E.
      * destruct E as (X & Z & W & V1 & V2 & V3).
        split; [exact X|]. split; [intros; rewrite Z; apply L|].
        split; [intros; now rewrite W|]. split; [congruence|]. split; [congruence|].
        intros w. rewrite V3, O. destruct (Nat.eqb_spec w ex) as [->|].
        { destruct (Nat.eqb_spec ex u); [congruence|auto]. }
        destruct (w =? u); auto. rewrite map_map. apply map_ext.
        intros v. unfold subst_val. destruct (val_target v) as [t|] eqn:T.
        -- destruct (t =? d) eqn:Td; [|now rewrite T, Td].
           unfold refers in Hr. destruct (val_target rep) as [t'|]; auto. now rewrite Hr.
        -- now rewrite T.
      * intros c w Hc. rewrite UC, H1 by auto. rewrite O.
        rewrite (Nat.eqb_sym u w). destruct (Nat.eqb_spec w u) as [->|].
        -- rewrite nref_subst by auto. destruct (refers c rep); simpl; lia.
        -- rewrite andb_false_r. lia.
      * intros w Hw. rewrite Ud. auto.
      * rewrite Ud, Oex. cbn [count_occ] in H3. destruct (Nat.eq_dec u ex); [congruence|exact H3].
      * intros w Hw Hk. rewrite O in Hk. destruct (Nat.eqb_spec w u) as [e|].
        -- rewrite nref_subst_self in Hk by auto. lia.
        -- destruct (H4 w Hw Hk); [congruence|auto].
Qed.

Lemma replace_all_except_exact f d rep ex f' : refers d rep = false -> exact' f ->
  replace_all_except f d rep ex = Ok f' ->
  exact' f' /\ (forall i, f_insn f' i = None <-> f_insn f i = None) /\
  (forall b, f_block f' b = f_block f b) /\ f_ni f' = f_ni f /\ f_nb f' = f_nb f /\
  (forall w, ops_of f' w = if w =? ex then ops_of f w else map (subst_val d rep) (ops_of f w)).
Proof.
  intros Hr H E. unfold replace_all_except in E. apply bind_ok in E as (x & Hx & E).
  apply get_insn_ok in Hx.
  pose proof (put_users_edit f d x [] Hx) as UE.
  assert (Ux : users_of f d = i_users x) by (unfold users_of; now rewrite Hx).
  apply replace_except_loop in E; auto.
  - destruct E as (A & C & D & E1 & E2 & E3). split; [exact A|].
    split; [intros; rewrite C; apply (ue_live _ _ UE)|]. split; [intros; rewrite D; apply (ue_block _ _ UE)|].
    split; [rewrite E1; reflexivity|]. split; [rewrite E2; reflexivity|].
    intros w. rewrite E3, (ue_ops _ _ UE). reflexivity.
  - intros c u Hc. rewrite (ue_ops _ _ UE), users_of_put. destruct (Nat.eqb_spec c d); [congruence|].
    apply H.
  - intros u _. rewrite users_of_put, Nat.eqb_refl. reflexivity.
  - rewrite (ue_ops _ _ UE), users_of_put, Nat.eqb_refl, <- H, Ux. reflexivity.
  - intros u _. rewrite (ue_ops _ _ UE), <- H, Ux. apply count_in.
Qed.

(** * erase *)
Lemma erase_insn_spec f i x :
  exact' f -> f_insn f i = Some x -> f_block f (i_parent x) <> None ->
  (erase_insn f i = Err /\ exists u, u <> i /\ nref i (ops_of f u) > 0) \/
  ((forall u, u <> i -> nref i (ops_of f u) = 0) /\
   exists f', erase_insn f i = Ok f' /\ exact' f' /\ f_insn f' i = None /\
     (forall j, j <> i -> exists l, f_insn f' j = option_map (set_users l) (f_insn f j)) /\
     (forall c, insns_of f' c = if c =? i_parent x then erase_first i (insns_of f c) else insns_of f c) /\
     (forall c, succs_of f' c = succs_of f c) /\ (forall c, preds_of f' c = preds_of f c) /\
     (forall c, f_block f' c = None <-> f_block f c = None) /\
     f_ni f' = f_ni f /\ f_nb f' = f_nb f).
Proof.
  intros H Hx Hb. unfold erase_insn. rewrite (proj2 (get_insn_ok _ _ _) Hx). cbn [bind].
  assert (Ux : users_of f i = i_users x) by (unfold users_of; now rewrite Hx).
  assert (Ox : ops_of f i = operands x) by (unfold ops_of; now rewrite Hx).
  destruct (existsb (fun u => negb (u =? i)) (i_users x)) eqn:EX.
  - left. split; auto. apply existsb_exists in EX as (u & Hu & Hn).
    exists u. split. { intros ->. now rewrite Nat.eqb_refl in Hn. }
    rewrite <- H, Ux. now apply count_in.
  - right.
    assert (Only : forall u, In u (i_users x) -> u = i).
    { intros u Hu. destruct (Nat.eq_dec u i); auto. exfalso.
      assert (existsb (fun u => negb (u =? i)) (i_users x) = true); [|congruence].
      apply existsb_exists. exists u. split; auto. now destruct (Nat.eqb_spec u i). }
    assert (None_else : forall u, u <> i -> nref i (ops_of f u) = 0).
    { intros u Hu. rewrite <- H, Ux. apply count_occ_not_In. intros Hi; apply Hu; auto. }
    split; [exact None_else|].
    destruct (fold_remove_total i (operands x) f) as (f1 & E1).
    { intros v d Hv T. eapply exact_live; eauto. now rewrite Ox. }
    rewrite E1. cbn [bind]. apply fold_remove_spec in E1 as (UE & UC).
    destruct (ue_rec _ _ UE i) as [l Rx]. rewrite Hx in Rx. simpl in Rx.
    unfold unlink. rewrite (proj2 (get_insn_ok _ _ _) Rx). cbn [bind].
    replace (i_parent (set_users l x)) with (i_parent x) by reflexivity.
    destruct (f_block f (i_parent x)) as [b|] eqn:Eb; [|congruence].
    assert (Eb1 : f_block f1 (i_parent x) = Some b) by (rewrite (ue_block _ _ UE); auto).
    rewrite (proj2 (get_block_ok _ _ _) Eb1). cbn [bind].
    eexists; split; [reflexivity|].
    set (f' := with_insn _ _).
    assert (I' : forall j, f_insn f' j = if j =? i then None else f_insn f1 j) by reflexivity.
    assert (B' : forall c, f_block f' c = if c =? i_parent x
        then Some (set_insns (erase_first i (b_insns b)) b) else f_block f1 c) by reflexivity.
    split.
    { intros d u.
      assert (Uf : users_of f' d = if d =? i then [] else users_of f1 d).
      { unfold users_of. rewrite I'. destruct (d =? i); auto. }
      assert (Of : ops_of f' u = if u =? i then [] else ops_of f u).
      { unfold ops_of at 1. rewrite I'. destruct (u =? i); auto. apply (ue_ops _ _ UE). }
      rewrite Uf, Of.
      destruct (Nat.eqb_spec d i) as [->|Hd].
      - simpl. destruct (Nat.eqb_spec u i); auto. rewrite None_else; auto.
      - rewrite UC, H. rewrite (Nat.eqb_sym i u). destruct (Nat.eqb_spec u i) as [->|Hu].
        + rewrite Ox. unfold nref at 3; simpl. lia.
        + lia. }
    split; [rewrite I', Nat.eqb_refl; reflexivity|].
    split.
    { intros j Hj. destruct (ue_rec _ _ UE j) as [l' R]. exists l'. rewrite I', <- R.
      destruct (Nat.eqb_spec j i); congruence. }
    split.
    { intros c. unfold insns_of. rewrite B', (ue_block _ _ UE).
      destruct (Nat.eqb_spec c (i_parent x)) as [->|]; [rewrite Eb|]; reflexivity. }
    split.
    { intros c. unfold succs_of. rewrite B', (ue_block _ _ UE).
      destruct (Nat.eqb_spec c (i_parent x)) as [->|]; [rewrite Eb|]; reflexivity. }
    split.
    { intros c. unfold preds_of. rewrite B', (ue_block _ _ UE).
      destruct (Nat.eqb_spec c (i_parent x)) as [->|]; [rewrite Eb|]; reflexivity. }
    split.
    { intros c. rewrite B', (ue_block _ _ UE).
      destruct (Nat.eqb_spec c (i_parent x)) as [->|]; [rewrite Eb; split; congruence|tauto]. }
    split; [rewrite <- (ue_ni _ _ UE)|rewrite <- (ue_nb _ _ UE)]; reflexivity.
Qed.

(** * phi_add_operand, add_call_arg *)
Lemma phi_add_exact f i bb v f' x : f_insn f i = Some x -> i_op x = PHI -> exact' f ->
  phi_add_operand f i bb v = Ok f' -> exact' f'.
Proof.
  intros Hx Hop H E. unfold phi_add_operand in E. rewrite (proj2 (get_insn_ok _ _ _) Hx) in E.
  cbn [bind] in E. apply add_user_spec in E as (UE & U).
  set (f1 := put_insn f i _) in *.
  intros d u. rewrite U, (ue_ops _ _ UE).
  assert (U1 : users_of f1 d = users_of f d).
  { unfold users_of, f1. rewrite f_insn_put. destruct (Nat.eqb_spec d i) as [->|]; auto. now rewrite Hx. }
  assert (O1 : nref d (ops_of f1 u) =
     nref d (ops_of f u) + if (u =? i) && refers d v then 1 else 0).
  { unfold ops_of, f1. rewrite f_insn_put. destruct (Nat.eqb_spec u i) as [->|]; simpl; [|lia].
    rewrite Hx. unfold operands; simpl. rewrite Hop. cbn. rewrite !app_nil_r, map_app, !nref_app.
    simpl. rewrite nref_cons. unfold nref at 3; simpl. destruct (refers d v); lia. }
  rewrite O1, <- H, U1. destruct (refers d v); [|rewrite andb_false_r; lia].
  rewrite cnt_app, cnt_one, andb_true_r, (Nat.eqb_sym i u). reflexivity.
Qed.
Lemma add_arg_exact f i v f' : exact' f -> add_call_arg f i v = Ok f' -> exact' f'.
Proof.
  intros H E. unfold add_call_arg in E. apply bind_ok in E as (x & Hx & E). apply get_insn_ok in Hx.
  destruct (5 <=? length (i_vals x)); [discriminate|].
  apply add_user_spec in E as (UE & U).
  set (f1 := put_insn f i _) in *.
  intros d u. rewrite U, (ue_ops _ _ UE).
  assert (U1 : users_of f1 d = users_of f d).
  { unfold users_of, f1. rewrite f_insn_put. destruct (Nat.eqb_spec d i) as [->|]; auto. now rewrite Hx. }
  assert (O1 : nref d (ops_of f1 u) =
     nref d (ops_of f u) + if (u =? i) && refers d v then 1 else 0).
  { unfold ops_of, f1. rewrite f_insn_put. destruct (Nat.eqb_spec u i) as [->|]; simpl; [|lia].
    rewrite Hx. unfold operands; simpl. rewrite !nref_app, nref_cons. unfold nref at 2; simpl.
    destruct (refers d v); lia. }
  rewrite O1, <- H, U1. destruct (refers d v); [|rewrite andb_false_r; lia].
  rewrite cnt_app, cnt_one, andb_true_r, (Nat.eqb_sym i u). reflexivity.
Qed.
