(** Removal of trivial phis. *)
From Coq Require Import Lia.
From Verif Require Import SpecWord SpecIsa SpecFlat SpecSsa SpecIr SpecEdit SpecPass SpecStrict.
From Verif Require Import M_Base M_Ir M_Edit M_Ra M_Pass L_Edit L_Uses L_Sim L_PassDce L_PassCompact.
Open Scope nat_scope.

(** ** Rewriting operands *)
Lemma put_for_subst p e v : put_for p e v = subst_val p e v.
Proof. unfold put_for, subst_val, is_use_of, val_target. destruct (v_data v); reflexivity. Qed.
Lemma put_for_insn_subst p e x : put_for_insn p e x = subst_insn p e x.
Proof.
  unfold put_for_insn, subst_insn.
  assert (M : map (put_for p e) (i_vals x) = map (subst_val p e) (i_vals x)) by (apply map_ext, put_for_subst). rewrite M.
  destruct (i_op x); try reflexivity.
  - cbn. f_equal. now rewrite put_for_subst.
  - cbn. f_equal. now rewrite put_for_subst.
  - cbn. f_equal. apply map_ext. intros q. now rewrite put_for_subst.
Qed.
Lemma subst_val_id d rep v : refers d v = false -> subst_val d rep v = v.
Proof. unfold refers, subst_val. destruct (val_target v); [|reflexivity]. now intros ->. Qed.
Lemma subst_val_twice d rep v : refers d rep = false -> subst_val d rep (subst_val d rep v) = subst_val d rep v.
Proof.
  intros R. destruct (refers d v) eqn:Q; [|now rewrite !subst_val_id by (rewrite ?subst_val_id; assumption)].
  assert (subst_val d rep v = rep) as ->; [|now apply subst_val_id]. unfold refers in Q. unfold subst_val. destruct (val_target v); [now rewrite Q|discriminate Q].
Qed.
Lemma nref_zero d l : nref d l = 0 -> forall v, In v l -> refers d v = false.
Proof.
  induction l as [|a l IH]; intros Z v []; rewrite nref_cons in Z.
  - subst a. destruct (refers d v); [lia|reflexivity].
  - apply IH; [lia|assumption].
Qed.
Lemma map_id_in {A} (h : A -> A) l : (forall a, In a l -> h a = a) -> map h l = l.
Proof. induction l as [|a l IH]; intros K; [reflexivity|]. cbn. rewrite (K a (or_introl eq_refl)), IH; [reflexivity|]. intros z Z. apply K. now right. Qed.
Lemma subst_insn_id d rep x : nref d (operands x) = 0 -> subst_insn d rep x = x.
Proof.
  intros Z. pose proof (nref_zero _ _ Z) as K. unfold operands in K.
  assert (V : map (subst_val d rep) (i_vals x) = i_vals x) by (apply map_id_in; intros a A; apply subst_val_id, K, in_or_app; now left).
  unfold subst_insn. rewrite V. destruct x as [op vals vt ad al b1 b2 ph u it im pa us]. cbn in *. destruct op; cbn in *; try reflexivity.
  - f_equal. rewrite subst_val_id by (apply K, in_or_app; right; now left). now destruct ad.
  - f_equal. rewrite subst_val_id by (apply K, in_or_app; right; now left). now destruct ad.
  - replace (map _ ph) with ph; [reflexivity|]. symmetry. apply map_id_in. intros [v q] I. cbn. rewrite subst_val_id; [reflexivity|].
    apply K, in_or_app. right. rewrite app_nil_r. apply in_map_iff. now exists (v, q).
Qed.
Lemma subst_insn_twice d rep x : refers d rep = false -> subst_insn d rep (subst_insn d rep x) = subst_insn d rep x.
Proof. intros R. apply subst_insn_id. rewrite operands_subst. now apply nref_subst_self. Qed.
Lemma subst_insn_set_users d rep l x : subst_insn d rep (set_users l x) = set_users l (subst_insn d rep x).
Proof. unfold subst_insn. cbn. destruct (i_op x); reflexivity. Qed.
Lemma subst_insn_parent d rep x : i_parent (subst_insn d rep x) = i_parent x.
Proof. unfold subst_insn. destruct (i_op x); reflexivity. Qed.

(** ** The loop over the users *)
Definition counted (f : func) (c u : nat) : Prop :=
  (0 < nref c (ops_of f u) -> In u (users_of f c)) /\ cnt (users_of f c) u <= nref c (ops_of f u).
Lemma users_counted f : users_ok f <-> forall c u, counted f c u.
Proof.
  split; intros K; [intros c u|intros u c]; [specialize (K u c)|specialize (K c u)]; unfold counted in *; rewrite uses_nref in *; exact K.
Qed.
Lemma replace_one d rep f u g x : f_insn f u = Some x -> replace_in_user d rep f u = Ok g -> refers d rep = false ->
  (forall j, j <> u -> upto (f_insn f j) (f_insn g j)) /\ exists l, f_insn g u = Some (set_users l (subst_insn d rep x)).
Proof.
  intros Hx E R. unfold replace_in_user in E. rewrite (proj2 (get_insn_ok _ _ _) Hx) in E. cbn [bind] in E.
  apply add_user_n_spec in E as (UE & _ & _). split.
  - intros j N. pose proof (upto_rec _ _ j UE) as K. rewrite f_insn_put in K. apply Nat.eqb_neq in N. now rewrite N in K.
  - destruct (ue_rec _ _ UE u) as [l K]. rewrite f_insn_put, Nat.eqb_refl in K. exists l. exact K.
Qed.
(** the record of [u] afterwards, [l] being the users still to be visited *)
Lemma replace_loop_ok d rep ex : refers d rep = false -> forall l f f',
  ofold (fun g u =>
           if u =? ex
           then do y <- get_insn g d; Ok (put_insn g d (set_users (i_users y ++ [u]) y))
           else replace_in_user d rep g u) f l = Ok f' ->
  (forall c u, c <> d -> counted f c u) ->
  (forall u, u <> ex -> cnt (users_of f d) u = 0) ->
  cnt (users_of f d) ex + cnt l ex <= nref d (ops_of f ex) ->
  (0 < nref d (ops_of f ex) -> In ex (users_of f d) \/ In ex l) ->
  (forall u, u <> ex -> nref d (ops_of f u) > 0 -> In u l) ->
  users_ok f' /\ (forall b, f_block f' b = f_block f b) /\ f_entry f' = f_entry f /\
  (forall u, u <> ex -> exists k, f_insn f' u = option_map (fun x => set_users k (subst_insn d rep x)) (f_insn f u)) /\
  upto (f_insn f ex) (f_insn f' ex).
Proof.
  intros Hr. induction l as [|u l IH]; intros f f' E H1 H2 H3 H3' H4; cbn [ofold] in E.
  - injection E as <-.
    assert (Z : forall w, w <> ex -> nref d (ops_of f w) = 0).
    { intros w Hw. destruct (nref d (ops_of f w)) eqn:Q; auto. exfalso; apply (H4 w); auto; lia. }
    split; [|split; [reflexivity|split; [reflexivity|split]]].
    + apply users_counted. intros c w. destruct (Nat.eq_dec c d) as [->|N]; [|now apply H1]. split.
      * destruct (Nat.eq_dec w ex) as [->|Nw]; [intros P; destruct (H3' P) as [?|[]]; assumption|]. rewrite (Z w Nw). lia.
      * destruct (Nat.eq_dec w ex) as [->|Nw]; [cbn in H3; lia|]. rewrite (H2 w Nw). lia.
    + intros w Nw. exists (users_of f w). unfold users_of. specialize (Z w Nw). unfold ops_of in Z. destruct (f_insn f w) as [x|]; [|reflexivity]. cbn.
      rewrite subst_insn_id by exact Z. now destruct x.
    + unfold upto. destruct (f_insn f ex) as [x|]; [|exact I]. exists (i_users x). now destruct x.
  - apply bind_ok in E as (g & Eg & E). destruct (u =? ex) eqn:Qu.
    + apply Nat.eqb_eq in Qu. subst u. apply bind_ok in Eg as (y & Hy & Eg). apply get_insn_ok in Hy. injection Eg as <-.
      pose proof (put_users_edit f d y (i_users y ++ [ex]) Hy) as UE.
      assert (Uy : users_of f d = i_users y) by (unfold users_of; now rewrite Hy).
      apply IH in E.
      * destruct E as (A & B & B2 & C & D). split; [exact A|]. split; [intros; rewrite B; apply (ue_block _ _ UE)|].
        split; [rewrite B2; apply (ue_entry _ _ UE)|]. split.
        -- intros w Nw. destruct (C w Nw) as (k & ->). destruct (ue_rec _ _ UE w) as (k' & ->). exists k. destruct (f_insn f w); [|reflexivity]. cbn.
           now rewrite subst_insn_set_users.
        -- eapply upto_trans; [apply (upto_rec _ _ ex UE)|exact D].
      * intros c w Hc. unfold counted. rewrite (ue_ops _ _ UE), users_of_put. destruct (Nat.eqb_spec c d); [congruence|]. now apply H1.
      * intros w Hw. rewrite users_of_put, Nat.eqb_refl, cnt_app, cnt_one, <- Uy, H2 by auto.
        destruct (Nat.eqb_spec ex w); [congruence|reflexivity].
      * rewrite (ue_ops _ _ UE), users_of_put, Nat.eqb_refl, cnt_app, cnt_one, <- Uy, Nat.eqb_refl.
        cbn [count_occ] in H3. destruct (Nat.eq_dec ex ex); [lia|congruence].
      * intros _. left. rewrite users_of_put, Nat.eqb_refl. apply in_or_app. right. now left.
      * intros w Hw. rewrite (ue_ops _ _ UE). intros Hk. destruct (H4 w Hw Hk); [congruence|auto].
    + apply Nat.eqb_neq in Qu. pose proof Eg as Eg0. apply replace_in_user_spec in Eg as (O & L & UC & Ud & B & N1 & N2); auto.
      assert (exists x, f_insn f u = Some x) as (x & Hx).
      { unfold replace_in_user in Eg0. apply bind_ok in Eg0 as (x & Hx & _). apply get_insn_ok in Hx. eauto. }
      destruct (replace_one d rep f u g x Hx Eg0 Hr) as (RO & k0 & RU).
      assert (Oex : ops_of g ex = ops_of f ex) by (rewrite O; destruct (Nat.eqb_spec ex u); [congruence|auto]).
      assert (EN : f_entry g = f_entry f).
      { unfold replace_in_user in Eg0. apply bind_ok in Eg0 as (x0 & _ & Eg0). apply add_user_n_spec in Eg0 as (UE & _ & _). apply (ue_entry _ _ UE). }
      apply IH in E.
      * destruct E as (X & W & W2 & V & V2). split; [exact X|]. split; [intros; now rewrite W|]. split; [congruence|]. split.
        -- intros w Nw. destruct (V w Nw) as (k & ->). exists k. destruct (Nat.eq_dec w u) as [->|Nu].
           ++ rewrite RU, Hx. cbn. rewrite subst_insn_set_users. cbn. now rewrite subst_insn_twice.
           ++ pose proof (RO w Nu) as K. unfold upto in K. destruct (f_insn f w), (f_insn g w); try destruct K; try reflexivity. subst. cbn.
              now rewrite subst_insn_set_users.
        -- eapply upto_trans; [apply RO; congruence|exact V2].
      * intros c w Hc. unfold counted. rewrite (count_occ_In Nat.eq_dec), UC, O. destruct (H1 c w Hc) as [K1 K2]. rewrite (count_occ_In Nat.eq_dec) in K1.
        rewrite (Nat.eqb_sym u w). destruct (Nat.eqb_spec w u) as [->|].
        -- rewrite nref_subst by auto. destruct (refers c rep); cbn; lia.
        -- rewrite andb_false_r. lia.
      * intros w Hw. rewrite Ud. auto.
      * rewrite Ud, Oex. cbn [count_occ] in H3. destruct (Nat.eq_dec u ex); [congruence|exact H3].
      * rewrite Oex, Ud. intros P. destruct (H3' P) as [?|[?|?]]; [now left|congruence|now right].
      * intros w Hw Hk. rewrite O in Hk. destruct (Nat.eqb_spec w u) as [e|].
        -- rewrite nref_subst_self in Hk by auto. lia.
        -- destruct (H4 w Hw Hk); [congruence|auto].
Qed.
Lemma add_user_n_total n : forall f v u, (forall d, val_target v = Some d -> f_insn f d <> None) -> exists g, add_user_n n f v u = Ok g.
Proof.
  induction n as [|n IH]; intros f v u L; cbn [add_user_n]; [eauto|]. unfold add_user at 1. destruct (val_target v) as [d|] eqn:T.
  - unfold get_insn. destruct (f_insn f d) as [x|] eqn:X; [|destruct (L d eq_refl X)]. cbn [bind]. apply IH. intros e Q. rewrite T in Q. injection Q as <-.
    rewrite f_insn_put, Nat.eqb_refl. discriminate.
  - cbn [bind]. apply IH. intros e Q. congruence.
Qed.
Lemma replace_loop_total d rep ex l : forall f, f_insn f d <> None -> (forall u, In u l -> f_insn f u <> None) ->
  (forall c, val_target rep = Some c -> f_insn f c <> None) -> exists f',
  ofold (fun g u =>
           if u =? ex
           then do y <- get_insn g d; Ok (put_insn g d (set_users (i_users y ++ [u]) y))
           else replace_in_user d rep g u) f l = Ok f'.
Proof.
  induction l as [|u l IH]; intros f D L R; cbn [ofold]; [eauto|]. destruct (u =? ex).
  - destruct (f_insn f d) as [y|] eqn:Y; [|congruence]. rewrite (proj2 (get_insn_ok _ _ _) Y). cbn [bind].
    assert (LV : forall j, f_insn f j <> None -> f_insn (put_insn f d (set_users (i_users y ++ [u]) y)) j <> None).
    { intros j K. rewrite f_insn_put. destruct (j =? d); [discriminate|exact K]. }
    apply IH; [apply LV; congruence|intros j J; apply LV, L; now right|intros c C; apply LV, R, C].
  - destruct (f_insn f u) as [x|] eqn:X; [|destruct (L u (or_introl eq_refl) X)]. unfold replace_in_user at 1. rewrite (proj2 (get_insn_ok _ _ _) X). cbn [bind].
    assert (LV : forall j, f_insn f j <> None -> f_insn (put_insn f u (subst_insn d rep x)) j <> None).
    { intros j K. rewrite f_insn_put. destruct (j =? u); [discriminate|exact K]. }
    destruct (add_user_n_total (length (filter (refers d) (operands x))) (put_insn f u (subst_insn d rep x)) rep u) as (g & E).
    { intros c C. apply LV, R, C. }
    rewrite E. cbn [bind]. apply add_user_n_spec in E as (UE & _ & _).
    assert (LG : forall j, f_insn f j <> None -> f_insn g j <> None) by (intros j K Q; apply (ue_live _ _ UE) in Q; exact (LV j K Q)).
    apply IH; [apply LG, D|intros j J; apply LG, L; now right|intros c C; apply LG, R, C].
Qed.

(** ** One phi *)
Lemma refers_use d v : refers d v = is_use_of d v.
Proof. unfold refers, is_use_of, val_target. destruct (v_data v); reflexivity. Qed.
Lemma linked_parent f b i x : linked_ok f -> In i (insns_of f b) -> f_insn f i = Some x -> i_parent x = b.
Proof. intros L I E. destruct (L b i I) as (y & Hy & P). congruence. Qed.
Lemma replaced_ok f p x e f1 : tidy f -> f_insn f p = Some x -> In p (insns_of f (i_parent x)) -> v_data e <> VInsn p ->
  replace_all_except f p e p = Ok f1 ->
  tidy f1 /\ (forall b, f_block f1 b = f_block f b) /\ f_entry f1 = f_entry f /\
  (forall u, u <> p -> exists k, f_insn f1 u = option_map (fun x => set_users k (subst_insn p e x)) (f_insn f u)) /\
  upto (f_insn f p) (f_insn f1 p).
Proof.
  intros T Hx Hin Ne E. assert (Hr : refers p e = false).
  { rewrite refers_use. unfold is_use_of. destruct (v_data e) eqn:D; try reflexivity. apply Nat.eqb_neq. congruence. }
  unfold replace_all_except in E. rewrite (proj2 (get_insn_ok _ _ _) Hx) in E. cbn [bind] in E.
  pose proof (put_users_edit f p x [] Hx) as UE. pose proof (proj1 (users_counted f) (td_users _ T)) as C.
  assert (Ux : users_of f p = i_users x) by (unfold users_of; now rewrite Hx).
  apply replace_loop_ok in E; [|exact Hr| | | | |].
  - destruct E as (A & B & B2 & K & P). 
    assert (K' : forall u, u <> p -> exists k, f_insn f1 u = option_map (fun x => set_users k (subst_insn p e x)) (f_insn f u)).
    { intros u N. destruct (K u N) as (k & ->). exists k. rewrite f_insn_put. apply Nat.eqb_neq in N. now rewrite N. }
    assert (P' : upto (f_insn f p) (f_insn f1 p)) by (eapply upto_trans; [apply (upto_rec _ _ p UE)|exact P]).
    assert (BL : forall b, f_block f1 b = f_block f b) by exact B.
    assert (LV : forall j y, f_insn f j = Some y -> exists y', f_insn f1 j = Some y' /\ i_parent y' = i_parent y).
    { intros j y Hy. destruct (Nat.eq_dec j p) as [->|N].
      - unfold upto in P'. rewrite Hy in P'. destruct (f_insn f1 p) as [z|]; [|destruct P']. destruct P' as (k & ->). eexists. split; reflexivity.
      - destruct (K' j N) as (k & Q). rewrite Hy in Q. eexists. split; [exact Q|]. cbn. apply subst_insn_parent. }
    split; [|split; [exact BL|split; [exact B2|split; [exact K'|exact P']]]]. constructor.
    + exact A.
    + intros b j I. assert (I' : In j (insns_of f b)) by (unfold insns_of in *; now rewrite BL in I).
      destruct (td_linked _ T b j I') as (y & Hy & Pa). destruct (LV j y Hy) as (y' & Hy' & Pa'). exists y'. split; [exact Hy'|congruence].
    + intros b. unfold insns_of. rewrite BL. apply (td_once _ T).
    + intros u d U. assert (exists y, f_insn f u = Some y /\ In u (insns_of f (i_parent y))) as (y & Hy & I).
      { destruct (Nat.eq_dec u p) as [->|N]; [eauto|]. destruct (K' u N) as (k & Q). unfold uses in U. rewrite Q in U.
        destruct (f_insn f u) as [y|] eqn:Hy; [|cbn in U; lia]. cbn in U. exists y. split; [reflexivity|].
        destruct (nref p (operands y)) as [|m] eqn:Z.
        - assert (U' : 0 < uses f u d).
          { unfold uses. rewrite Hy. rewrite subst_insn_id in U by exact Z. exact U. }
          destruct (td_placed _ T u d U') as (y' & Hy' & I). congruence.
        - assert (U' : 0 < uses f u p) by (rewrite uses_nref; unfold ops_of; rewrite Hy; lia).
          destruct (td_placed _ T u p U') as (y' & Hy' & I). congruence. }
      destruct (LV u y Hy) as (y' & Hy' & Pa). exists y'. split; [exact Hy'|]. rewrite Pa. unfold insns_of. rewrite BL. exact I.
  - intros c u Hc. unfold counted. rewrite (ue_ops _ _ UE), users_of_put. destruct (Nat.eqb_spec c p); [congruence|]. apply C.
  - intros u _. rewrite users_of_put, Nat.eqb_refl. reflexivity.
  - rewrite (ue_ops _ _ UE), users_of_put, Nat.eqb_refl. cbn. rewrite <- Ux. apply C.
  - rewrite (ue_ops _ _ UE). intros Q. right. rewrite <- Ux. now apply C.
  - intros u _. rewrite (ue_ops _ _ UE). intros Q. rewrite <- Ux. now apply C.
Qed.
Lemma replaced_total f p x e : tidy f -> f_insn f p = Some x -> (forall c, v_data e = VInsn c -> f_insn f c <> None) ->
  exists f1, replace_all_except f p e p = Ok f1.
Proof.
  intros T Hx L. unfold replace_all_except. rewrite (proj2 (get_insn_ok _ _ _) Hx). cbn [bind].
  assert (LV : forall j, f_insn f j <> None -> f_insn (put_insn f p (set_users [] x)) j <> None).
  { intros j K. rewrite f_insn_put. destruct (j =? p); [discriminate|exact K]. }
  apply replace_loop_total.
  - rewrite f_insn_put, Nat.eqb_refl. discriminate.
  - intros u U. apply LV. assert (P : 0 < uses f u p) by (apply (ok_users f u p (td_users _ T)); unfold users_of; now rewrite Hx).
    destruct (td_placed _ T u p P) as (y & Hy & _). congruence.
  - intros c C. apply LV, L. unfold val_target in C. destruct (v_data e); congruence.
Qed.
Lemma replaced_count f p e ex f1 : replace_all_except f p e ex = Ok f1 -> f_ni f1 = f_ni f /\ f_nb f1 = f_nb f /\ f_all f1 = f_all f.
Proof.
  intros E. unfold replace_all_except in E. apply bind_ok in E as (x & _ & E).
  change (f_ni f) with (f_ni (put_insn f p (set_users [] x))). change (f_nb f) with (f_nb (put_insn f p (set_users [] x))). change (f_all f) with (f_all (put_insn f p (set_users [] x))).
  revert E. generalize (put_insn f p (set_users [] x)). generalize (i_users x). induction l as [|u l IH]; intros g E; cbn [ofold] in E; [injection E as <-; auto|].
  apply bind_ok in E as (g1 & E1 & E). destruct (IH _ E) as (A & B & C). rewrite A, B, C. clear - E1. destruct (u =? ex).
  - apply bind_ok in E1 as (y & _ & E1). injection E1 as <-. repeat split.
  - unfold replace_in_user in E1. apply bind_ok in E1 as (y & _ & E1). apply add_user_n_spec in E1 as (UE & _ & _).
    split; [apply (ue_ni _ _ UE)|]. split; [apply (ue_nb _ _ UE)|apply (ue_all _ _ UE)].
Qed.
Lemma phi_step_ok f p x e : tidy f -> f_insn f p = Some x -> i_op x = PHI -> In p (insns_of f (i_parent x)) -> only_value p x e ->
  exists f1 g, replace_all_except f p e p = Ok f1 /\ erase_insn f1 p = Ok g /\ tidy g /\ phi_gone p e f g.
Proof.
  intros T Hx O Hin ((q & Q) & Ne & _). 
  destruct (replaced_total f p x e T Hx) as (f1 & E1).
  { intros c D. assert (U : 0 < uses f p c).
    { unfold uses. rewrite Hx. unfold operand_values. rewrite O. assert (I : In e (i_vals x ++ map fst (i_phi x))).
      { apply in_or_app. right. apply in_map_iff. now exists (e, q). }
      apply in_split in I as (l1 & l2 & ->). rewrite filter_app. cbn [filter]. unfold is_use_of at 2. rewrite D, Nat.eqb_refl. rewrite app_length. cbn. lia. }
    destruct (target_live f p c T U) as (z & ->). discriminate. }
  destruct (replaced_ok f p x e f1 T Hx Hin Ne E1) as (T1 & B1 & En & K & P).
  unfold upto in P. rewrite Hx in P. destruct (f_insn f1 p) as [x1|] eqn:H1; [|destruct P]. destruct P as (k & ->).
  assert (I1 : In p (insns_of f1 (i_parent (set_users k x)))) by (unfold insns_of; rewrite B1; exact Hin).
  assert (Hr : refers p e = false).
  { rewrite refers_use. unfold is_use_of. destruct (v_data e) eqn:D; try reflexivity. apply Nat.eqb_neq. congruence. }
  destruct (erase_tidy f1 p _ T1 H1 I1) as [[_ (u & Nu & Pu)]|(_ & g & E2 & T2 & W & _)].
  - exfalso. destruct (K u Nu) as (k' & Hk). unfold uses in Pu. rewrite Hk in Pu. destruct (f_insn f u) as [y|]; [|cbn in Pu; lia]. cbn [option_map] in Pu.
    rewrite <- operands_spec, operands_users, operands_subst in Pu.
    assert (Z : nref p (map (subst_val p e) (operands y)) = 0) by now apply nref_subst_self. unfold nref in Z.
    rewrite (filter_ext (is_use_of p) (refers p)) in Pu by (intros; now rewrite refers_use). lia.
  - exists f1, g. split; [exact E1|]. split; [exact E2|]. split; [exact T2|]. constructor.
    + apply (wo_rm _ _ _ W). now left.
    + intros j N. destruct (wo_keep _ _ _ W j) as (k1 & ->); [intros [?|[]]; congruence|]. destruct (K j N) as (k2 & ->). exists k1.
      destruct (f_insn f j); [|reflexivity]. cbn. now rewrite put_for_insn_subst.
    + intros b. rewrite (wo_insns _ _ _ W). unfold insns_of. rewrite B1. apply filter_ext. intros a. now rewrite rm_one.
    + intros b. rewrite (wo_succs _ _ _ W). unfold succs_of. now rewrite B1.
    + intros b. rewrite (wo_preds _ _ _ W). unfold preds_of. now rewrite B1.
    + intros b. rewrite (wo_blocks _ _ _ W), B1. reflexivity.
    + rewrite (wo_entry _ _ _ W). exact En.
    + destruct (replaced_count _ _ _ _ _ E1) as (<- & <- & <-). destruct (wo_count _ _ _ W) as (-> & ->). repeat split. apply (wo_all _ _ _ W).
Qed.
Lemma same_value_spec p l : forall same,
  (forall s, same = Some s -> v_data s <> VInsn p) ->
  match same_value p l same with
  | None => forall d, (forall s, same = Some s -> v_data s = VInsn d) -> ~ forall v, In v l -> v_data v = VInsn p \/ v_data v = VInsn d
  | Some None => same = None /\ forall v, In v l -> v_data v = VInsn p
  | Some (Some e) => v_data e <> VInsn p /\ (same = Some e \/ (same = None /\ In e l)) /\
      forall v, In v l -> v_data v = VInsn p \/ v = e \/ exists d, v_data v = VInsn d /\ v_data e = VInsn d
  end.
Proof.
  induction l as [|v l IH]; intros same NS; cbn [same_value].
  - destruct same as [s|]; [|split; [reflexivity|intros v []]]. split; [now apply NS|]. split; [now left|intros v []].
  - destruct (match v_data v with VInsn d => _ | _ => false end) eqn:AG.
    + assert (HV : v_data v = VInsn p \/ exists s d, same = Some s /\ v_data s = VInsn d /\ v_data v = VInsn d).
      { destruct (v_data v) as [| | |d| |] eqn:D; try discriminate AG. apply orb_true_iff in AG as [AG|AG].
        - destruct same as [s|]; [|discriminate AG]. destruct (v_data s) eqn:Ds; try discriminate AG. apply Nat.eqb_eq in AG. subst. right. eauto.
        - apply Nat.eqb_eq in AG. subst. now left. }
      specialize (IH same NS). destruct (same_value p l same) as [[e|]|].
      * destruct IH as (A & B & C). split; [exact A|]. split; [destruct B as [->|[-> B]]; [now left|right; split; [reflexivity|now right]]|].
        intros w [<-|W]; [|now apply C]. destruct HV as [HV|(s & d & -> & D1 & D2)]; [now left|]. destruct B as [B|[B _]]; [|discriminate B].
        injection B as <-. right. right. eauto.
      * destruct IH as (-> & C). split; [reflexivity|]. intros w [<-|W]; [|now apply C]. destruct HV as [HV|(s & d & K & _)]; [assumption|discriminate K].
      * intros d A C. apply (IH d A). intros w W. apply C. now right.
    + assert (NP : v_data v <> VInsn p). { intros D. rewrite D in AG. rewrite Nat.eqb_refl, orb_true_r in AG. discriminate AG. }
      destruct same as [s|].
      * intros d A C. specialize (A s eq_refl). destruct (C v (or_introl eq_refl)) as [K|K]; [contradiction|].
        rewrite K, A, Nat.eqb_refl in AG. discriminate AG.
      * assert (NV : forall s, Some v = Some s -> v_data s <> VInsn p) by (intros s K; injection K as <-; exact NP).
        specialize (IH (Some v) NV). destruct (same_value p l (Some v)) as [[e|]|].
        -- destruct IH as (A & B & C). destruct B as [B|[B _]]; [|discriminate B]. injection B as <-. split; [exact A|].
           split; [right; split; [reflexivity|now left]|]. intros w [<-|W]; [right; now left|now apply C].
        -- destruct IH as [K _]. discriminate K.
        -- intros d _ C. apply (IH d).
           ++ intros s K. injection K as <-. destruct (C v (or_introl eq_refl)); [contradiction|assumption].
           ++ intros w W. apply C. now right.
Qed.
Lemma map_app_inv {A C} (h : A -> C) l : forall l1 l2, map h l = l1 ++ l2 -> exists k1 k2, l = k1 ++ k2 /\ map h k1 = l1 /\ map h k2 = l2.
Proof.
  induction l as [|a l IH]; intros l1 l2 E.
  - cbn in E. symmetry in E. apply app_eq_nil in E as [-> ->]. exists [], []. auto.
  - destruct l1 as [|c l1]; [exists [], (a :: l); auto|]. cbn in E. injection E as <- E. destruct (IH _ _ E) as (k1 & k2 & -> & <- & <-). exists (a :: k1), k2. auto.
Qed.
Lemma same_value_other p s l : v_data s <> VInsn p -> same_value p l (Some s) = None ->
  exists l1 w l2, l = l1 ++ w :: l2 /\ v_data w <> VInsn p /\ forall d, v_data s = VInsn d -> v_data w <> VInsn d.
Proof.
  intros NS. induction l as [|v l IH]; intros E; cbn [same_value] in E; [discriminate E|].
  destruct (match v_data v with VInsn d => _ | _ => false end) eqn:AG.
  - destruct (IH E) as (l1 & w & l2 & -> & H). exists (v :: l1), w, l2. auto.
  - exists [], v, l. split; [reflexivity|]. split.
    + intros D. rewrite D in AG. rewrite Nat.eqb_refl, orb_true_r in AG. discriminate AG.
    + intros d D1 D2. rewrite D1, D2, Nat.eqb_refl in AG. discriminate AG.
Qed.
Lemma same_value_two p l : same_value p l None = None ->
  exists l1 v l2 w l3, l = l1 ++ v :: l2 ++ w :: l3 /\ v_data v <> VInsn p /\ v_data w <> VInsn p /\
    forall d, v_data v = VInsn d -> v_data w <> VInsn d.
Proof.
  induction l as [|v l IH]; intros E; cbn [same_value] in E; [discriminate E|].
  destruct (match v_data v with VInsn d => _ | _ => false end) eqn:AG.
  - destruct (IH E) as (l1 & v' & l2 & w & l3 & -> & H). exists (v :: l1), v', l2, w, l3. auto.
  - assert (NP : v_data v <> VInsn p). { intros D. rewrite D in AG. rewrite Nat.eqb_refl, orb_true_r in AG. discriminate AG. }
    destruct (same_value_other p v l NP E) as (l1 & w & l2 & -> & NW & D). exists [], v, l1, w, l2. auto.
Qed.
Lemma try_phi_cases f p x : tidy f -> f_insn f p = Some x -> i_op x = PHI -> In p (insns_of f (i_parent x)) ->
  (try_phi f p = Err /\ forall v q, In (v, q) (i_phi x) -> v_data v = VInsn p) \/
  (try_phi f p = Ok (f, false) /\ two_values p x) \/
  (exists e g, try_phi f p = Ok (g, true) /\ only_value p x e /\ tidy g /\ phi_gone p e f g).
Proof.
  intros T Hx O Hin. unfold try_phi. rewrite (proj2 (get_insn_ok _ _ _) Hx). cbn [bind].
  pose proof (same_value_spec p (map fst (i_phi x)) None) as SV. destruct (same_value p (map fst (i_phi x)) None) as [[e|]|] eqn:SVE.
  - right. right. destruct SV as (A & B & C); [discriminate|]. destruct B as [B|[_ B]]; [discriminate B|].
    assert (OV : only_value p x e).
    { split; [|split; [exact A|]].
      - apply in_map_iff in B as ([v q] & <- & I). now exists q.
      - intros v q I. apply C. apply in_map_iff. now exists (v, q). }
    destruct (phi_step_ok f p x e T Hx O Hin OV) as (f1 & g & E1 & E2 & T2 & G). exists e, g. rewrite E1. cbn [bind]. rewrite E2. cbn [bind]. auto.
  - left. destruct SV as (_ & C); [discriminate|]. split; [reflexivity|]. intros v q I. apply C. apply in_map_iff. now exists (v, q).
  - right. left. split; [reflexivity|]. clear SV.
    assert (TV : exists l1 v l2 w l3, map fst (i_phi x) = l1 ++ v :: l2 ++ w :: l3 /\ v_data v <> VInsn p /\ v_data w <> VInsn p /\
      forall d, v_data v = VInsn d -> v_data w <> VInsn d) by (apply same_value_two; assumption).
    destruct TV as (l1 & v & l2 & w & l3 & E & NV & NW & D).
    destruct (map_app_inv _ _ _ _ E) as (p1 & p2 & E1 & <- & E2). destruct p2 as [|[v' a] p2]; [discriminate E2|]. cbn in E2. injection E2 as -> E2.
    destruct (map_app_inv _ _ _ _ E2) as (p3 & p4 & -> & <- & E4). destruct p4 as [|[w' b] p4]; [discriminate E4|]. cbn in E4. injection E4 as -> E4.
    exists p1, v, a, p3, w, b, p4. auto.
Qed.
