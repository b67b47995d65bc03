(** Erasing instructions, dead code elimination, removal of unused variables. *)
From Verif Require Import SpecWord SpecIsa SpecFlat SpecSsa SpecIr SpecEdit SpecPass.
From Verif Require Import M_Base M_Ir M_Edit M_Ra M_Pass L_Edit L_Uses L_Sim.
Open Scope nat_scope.

Lemma rm_one i j : existsb (Nat.eqb j) [i] = (j =? i).
Proof. cbn. now rewrite orb_false_r. Qed.
Lemma erase_first_filter i l : NoDup l -> erase_first i l = filter (fun j => negb (j =? i)) l.
Proof.
  induction 1 as [|a l N D IH]; [reflexivity|]. cbn. destruct (Nat.eqb_spec a i) as [->|E]; cbn.
  - clear IH. induction l as [|b l IH]; [reflexivity|]. cbn. destruct (Nat.eqb_spec b i) as [->|E]; [destruct N; now left|].
    cbn. f_equal. apply IH; [intros K; apply N; now right|now inversion D].
  - f_equal. exact IH.
Qed.

Lemma without_refl f : without [] f f.
Proof.
  constructor; try reflexivity; try tauto.
  - intros j [].
  - intros j _. destruct (f_insn f j) as [x|] eqn:E; [exists (i_users x)|exists []]; cbn; [now rewrite set_users_id|reflexivity].
  - intros b. cbn. induction (insns_of f b) as [|a l IH]; [reflexivity|]. cbn. now rewrite <- IH.
  - intros j [].
Qed.
Lemma without_trans r1 r2 f g h : without r1 f g -> without r2 g h -> without (r1 ++ r2) f h.
Proof.
  intros A B. constructor; intros.
  - destruct (in_dec Nat.eq_dec j r2) as [I|N]; [apply (wo_rm _ _ _ B), I|].
    destruct (wo_keep _ _ _ B j N) as [l ->]. apply in_app_or in H as [I|I]; [|tauto].
    now rewrite (wo_rm _ _ _ A j I).
  - assert (~ In j r1 /\ ~ In j r2) as [N1 N2] by (split; intros K; apply H, in_or_app; tauto).
    destruct (wo_keep _ _ _ A j N1) as [l E1], (wo_keep _ _ _ B j N2) as [l2 E2]. exists l2. rewrite E2, E1.
    destruct (f_insn f j); reflexivity.
  - rewrite (wo_insns _ _ _ B), (wo_insns _ _ _ A). induction (insns_of f b) as [|a l IH]; [reflexivity|]. cbn.
    rewrite existsb_app. destruct (existsb (Nat.eqb a) r1); cbn; [exact IH|].
    destruct (existsb (Nat.eqb a) r2); cbn; [exact IH|f_equal; exact IH].
  - now rewrite (wo_succs _ _ _ B), (wo_succs _ _ _ A).
  - now rewrite (wo_preds _ _ _ B), (wo_preds _ _ _ A).
  - now rewrite (wo_blocks _ _ _ B), (wo_blocks _ _ _ A).
  - now rewrite (wo_entry _ _ _ B), (wo_entry _ _ _ A).
  - now rewrite (wo_all _ _ _ B), (wo_all _ _ _ A).
  - destruct (wo_count _ _ _ A) as [<- <-]. apply (wo_count _ _ _ B).
  - apply in_app_or in H as [I|I]; [apply (wo_placed _ _ _ A), I|]. destruct (wo_placed _ _ _ B j I) as (b & J). exists b.
    rewrite (wo_insns _ _ _ A) in J. now apply filter_In in J.
Qed.

Lemma count_in_pos l u : In u l -> count_occ Nat.eq_dec l u > 0.
Proof. apply (count_occ_In Nat.eq_dec). Qed.
Lemma ok_users f u d : users_ok f -> In u (users_of f d) <-> 0 < uses f u d.
Proof.
  intros K. destruct (K u d) as [A B]. split; [|exact A]. intros I. apply count_in_pos in I. lia.
Qed.
Lemma uses_live f u d : users_ok f -> 0 < uses f u d -> f_insn f d <> None.
Proof. intros K H. apply (ok_users f u d K) in H. unfold users_of in H. intros E. rewrite E in H. destruct H. Qed.
Lemma in_place_of f b i : linked_ok f -> In i (insns_of f b) -> exists x, f_insn f i = Some x /\ i_parent x = b.
Proof. intros L. apply L. Qed.

(** * Erasing one instruction *)
Lemma erase_tidy f i x : tidy f -> f_insn f i = Some x -> In i (insns_of f (i_parent x)) ->
  (erase_insn f i = Err /\ exists u, u <> i /\ 0 < uses f u i) \/
  ((forall u, u <> i -> uses f u i = 0) /\
   exists g, erase_insn f i = Ok g /\ tidy g /\ without [i] f g /\ forall d u, u <> i -> In u (users_of g d) <-> In u (users_of f d) /\ d <> i).
Proof.
  intros T Hx Hin. pose proof (td_users _ T) as K.
  assert (Hb : f_block f (i_parent x) <> None) by (intros Hb; unfold insns_of in Hin; rewrite Hb in Hin; exact Hin).
  unfold erase_insn. rewrite (proj2 (get_insn_ok _ _ _) Hx). cbn [bind].
  assert (Ux : users_of f i = i_users x) by (unfold users_of; now rewrite Hx).
  assert (Ox : ops_of f i = operands x) by (unfold ops_of; now rewrite Hx).
  destruct (existsb (fun u => negb (u =? i)) (i_users x)) eqn:EX.
  - left. split; auto. apply existsb_exists in EX as (u & Hu & Hn).
    exists u. split. { intros ->. now rewrite Nat.eqb_refl in Hn. }
    apply (ok_users f u i K). now rewrite Ux.
  - right.
    assert (Only : forall u, In u (i_users x) -> u = i).
    { intros u Hu. destruct (Nat.eq_dec u i); auto. exfalso.
      assert (existsb (fun u => negb (u =? i)) (i_users x) = true); [|congruence].
      apply existsb_exists. exists u. split; auto. now destruct (Nat.eqb_spec u i). }
    assert (None_else : forall u, u <> i -> uses f u i = 0).
    { intros u Hu. destruct (uses f u i) eqn:E; [reflexivity|]. exfalso. apply Hu, Only. rewrite <- Ux.
      apply (ok_users f u i K). lia. }
    split; [exact None_else|].
    destruct (fold_remove_total i (operands x) f) as (f1 & E1).
    { intros v d Hv VT. apply (uses_live f i d K). rewrite uses_nref, Ox. unfold nref.
      assert (In v (filter (refers d) (operands x))) as I by (apply filter_In; split; [exact Hv|now apply refers_iff]).
      destruct (filter (refers d) (operands x)); [destruct I|cbn; lia]. }
    rewrite E1. cbn [bind]. apply fold_remove_spec in E1 as (UE & UC).
    destruct (ue_rec _ _ UE i) as [l Rx]. rewrite Hx in Rx. simpl in Rx.
    unfold unlink. rewrite (proj2 (get_insn_ok _ _ _) Rx). cbn [bind].
    replace (i_parent (set_users l x)) with (i_parent x) by reflexivity.
    destruct (f_block f (i_parent x)) as [b|] eqn:Eb; [|congruence].
    assert (Eb1 : f_block f1 (i_parent x) = Some b) by (rewrite (ue_block _ _ UE); auto).
    rewrite (proj2 (get_block_ok _ _ _) Eb1). cbn [bind].
    eexists; split; [reflexivity|].
    set (f' := with_insn _ _).
    assert (I' : forall j, f_insn f' j = if j =? i then None else f_insn f1 j) by reflexivity.
    assert (B' : forall c, f_block f' c = if c =? i_parent x
        then Some (set_insns (erase_first i (b_insns b)) b) else f_block f1 c) by reflexivity.
    assert (W : without [i] f f').
    { constructor.
      - intros j [<-|[]]. now rewrite I', Nat.eqb_refl.
      - intros j N. destruct (ue_rec _ _ UE j) as [l' R]. exists l'. rewrite I', <- R.
        destruct (Nat.eqb_spec j i); [subst; destruct N; now left|reflexivity].
      - intros c. rewrite (filter_ext _ (fun j => negb (j =? i))) by (intros; now rewrite rm_one).
        rewrite <- erase_first_filter by apply (td_once _ T).
        unfold insns_of. rewrite B', (ue_block _ _ UE). destruct (Nat.eqb_spec c (i_parent x)) as [->|N]; [now rewrite Eb|].
        rewrite erase_first_notin; [reflexivity|]. intros H. destruct (td_linked _ T c i H) as (y & Hy & P). congruence.
      - intros c. unfold succs_of. rewrite B', (ue_block _ _ UE).
        destruct (Nat.eqb_spec c (i_parent x)) as [->|]; [rewrite Eb|]; reflexivity.
      - intros c. unfold preds_of. rewrite B', (ue_block _ _ UE).
        destruct (Nat.eqb_spec c (i_parent x)) as [->|]; [rewrite Eb|]; reflexivity.
      - intros c. rewrite B', (ue_block _ _ UE).
        destruct (Nat.eqb_spec c (i_parent x)) as [->|]; [rewrite Eb; split; congruence|tauto].
      - exact (ue_entry _ _ UE).
      - exact (ue_all _ _ UE).
      - split; [exact (ue_ni _ _ UE)|exact (ue_nb _ _ UE)].
      - intros j [<-|[]]. eauto. }
    assert (Uf : forall d, users_of f' d = if d =? i then [] else users_of f1 d).
    { intros d. unfold users_of. rewrite I'. destruct (d =? i); auto. }
    assert (Of : forall u, ops_of f' u = if u =? i then [] else ops_of f u).
    { intros u. unfold ops_of at 1. rewrite I'. destruct (u =? i); auto. apply (ue_ops _ _ UE). }
    assert (Us : forall u d, uses f' u d = if u =? i then 0 else uses f u d).
    { intros u d. rewrite !uses_nref, Of. destruct (u =? i); reflexivity. }
    assert (CU : forall d u, u <> i -> cnt (users_of f' d) u = if d =? i then 0 else cnt (users_of f d) u).
    { intros d u N. rewrite Uf. destruct (d =? i); [reflexivity|]. rewrite UC. apply not_eq_sym, Nat.eqb_neq in N. rewrite N. lia. }
    assert (CI : forall d, cnt (users_of f' d) i = 0).
    { intros d. rewrite Uf. destruct (d =? i); [reflexivity|]. rewrite UC, Nat.eqb_refl. pose proof (proj2 (K i d)) as L.
      rewrite uses_nref, Ox in L. unfold cnt in *. lia. }
    split; [constructor|split; [exact W|]].
    + intros u d. split.
      * intros P. rewrite Us in P. destruct (Nat.eqb_spec u i) as [->|N]; [lia|].
        assert (d <> i) by (intros ->; rewrite None_else in P by exact N; lia).
        apply (count_occ_In Nat.eq_dec). change (cnt (users_of f' d) u > 0). rewrite CU by exact N.
        apply Nat.eqb_neq in H. rewrite H. apply count_in_pos, (proj1 (K u d)), P.
      * rewrite Us. change (cnt (users_of f' d) u <= (if u =? i then 0 else uses f u d)).
        destruct (Nat.eqb_spec u i) as [->|N]; [rewrite CI; lia|]. rewrite CU by exact N.
        destruct (d =? i); [lia|]. apply (K u d).
    + intros c j H. rewrite (wo_insns _ _ _ W) in H. apply filter_In in H as [H N]. rewrite rm_one in N.
      destruct (td_linked _ T c j H) as (y & Hy & P). destruct (Nat.eqb_spec j i) as [->|NE]; [discriminate|].
      destruct (ue_rec _ _ UE j) as [l' R]. rewrite I'. apply Nat.eqb_neq in NE. rewrite NE, R, Hy. eexists. split; [reflexivity|exact P].
    + intros c. rewrite (wo_insns _ _ _ W). apply NoDup_filter, (td_once _ T).
    + intros u d P. rewrite Us in P. destruct (Nat.eqb_spec u i) as [->|N]; [lia|].
      destruct (td_placed _ T u d P) as (y & Hy & Py). destruct (ue_rec _ _ UE u) as [l' R]. rewrite I'.
      pose proof N as N'. apply Nat.eqb_neq in N'. rewrite N', R, Hy. eexists. split; [reflexivity|]. cbn.
      rewrite (wo_insns _ _ _ W). apply filter_In. split; [exact Py|]. rewrite rm_one. now rewrite N'.
    + intros d u N. rewrite !(count_occ_In Nat.eq_dec). change (cnt (users_of f' d) u > 0 <-> cnt (users_of f d) u > 0 /\ d <> i).
      rewrite CU by exact N. destruct (Nat.eqb_spec d i); lia.
Qed.

(** * Leaving out instructions *)
Lemma without_blk rm f g : without rm f g -> forall b, match f_block f b, f_block g b with
  | Some x, Some y => b_insns y = filter (fun j => negb (existsb (Nat.eqb j) rm)) (b_insns x) /\ b_succs y = b_succs x
  | None, None => True
  | _, _ => False
  end.
Proof.
  intros W b. pose proof (wo_blocks _ _ _ W b) as [A B]. pose proof (wo_insns _ _ _ W b) as I. pose proof (wo_succs _ _ _ W b) as S.
  unfold insns_of, succs_of in *. destruct (f_block f b), (f_block g b); auto; [discriminate (A eq_refl)|discriminate (B eq_refl)].
Qed.
Lemma without_ins rm f g : without rm f g -> forall j, existsb (Nat.eqb j) rm = false -> upto (f_insn f j) (f_insn g j).
Proof.
  intros W j N. destruct (wo_keep _ _ _ W j) as [l E].
  - intros I. assert (existsb (Nat.eqb j) rm = true); [|congruence]. apply existsb_exists. exists j. split; [exact I|apply Nat.eqb_refl].
  - unfold upto. rewrite E. destruct (f_insn f j); cbn; eauto.
Qed.
Lemma without_uses rm f g u d : without rm f g -> ~ In u rm -> uses g u d = uses f u d.
Proof.
  intros W N. unfold uses. destruct (wo_keep _ _ _ W u N) as [l ->]. destruct (f_insn f u); reflexivity.
Qed.

Lemma erase_pure f i x g : tidy f -> f_insn f i = Some x -> In i (insns_of f (i_parent x)) -> pure_op (i_op x) ->
  erase_insn f i = Ok g -> preserves f g.
Proof.
  intros T Hx Hin P E. destruct (erase_tidy f i x T Hx Hin) as [[E' _]|(NU & g' & E' & _ & W & _)]; [congruence|].
  assert (g' = g) by congruence. subst g'.
  apply (drop_preserves f g (fun j => existsb (Nat.eqb j) [i]) (fun _ => false)).
  - exact (without_blk _ _ _ W).
  - exact (without_ins _ _ _ W).
  - intros j y R Hy. rewrite rm_one in R. apply Nat.eqb_eq in R. subst j. left. congruence.
  - intros u y d R Hy D. rewrite rm_one in R, D. apply Nat.eqb_eq in D. apply Nat.eqb_neq in R. subst d. apply NU, R.
  - reflexivity.
Qed.

Lemma pure_of_nonvoid o : is_void_op o = false -> o <> CALL -> o <> ECALL -> pure_op o.
Proof. intros A B C I. cbn in I. repeat (destruct I as [<-|I]; [try discriminate A; congruence|]). destruct I. Qed.

(** * Dead code elimination *)
Definition removable (x : insn) : Prop := is_void_op (i_op x) = false /\ i_op x <> CALL /\ i_users x = [].
(** what holds of the function so far compared with the one at the start *)
Record dced (f g : func) (rm : list nat) : Prop := {
  dc_tidy : tidy g;
  dc_wo : without rm f g;
  dc_rm : forall j, In j rm -> exists x, f_insn f j = Some x /\ is_void_op (i_op x) = false /\ i_op x <> CALL }.

Lemma dced_refl f : tidy f -> dced f f [].
Proof. intros T. constructor; [exact T|apply without_refl|intros j []]. Qed.
Lemma without_back rm f g j y : without rm f g -> f_insn g j = Some y -> ~ In j rm /\ exists x l, f_insn f j = Some x /\ y = set_users l x.
Proof.
  intros W E. assert (N : ~ In j rm) by (intros I; rewrite (wo_rm _ _ _ W j I) in E; discriminate).
  split; [exact N|]. destruct (wo_keep _ _ _ W j N) as [l R]. rewrite R in E. destruct (f_insn f j) as [x|]; [|discriminate].
  injection E as <-. eauto.
Qed.
Lemma dced_trans f g h r1 r2 : dced f g r1 -> dced g h r2 -> dced f h (r1 ++ r2).
Proof.
  intros A B. constructor; [apply (dc_tidy _ _ _ B)|eapply without_trans; [apply (dc_wo _ _ _ A)|apply (dc_wo _ _ _ B)]|].
  intros j I. destruct (in_dec Nat.eq_dec j r1) as [I1|N1]; [apply (dc_rm _ _ _ A), I1|].
  apply in_app_or in I as [I|I]; [tauto|]. destruct (dc_rm _ _ _ B j I) as (y & Hy & V).
  destruct (without_back _ _ _ _ _ (dc_wo _ _ _ A) Hy) as (_ & x & l & Hx & ->). eauto.
Qed.

Lemma no_ecall_without rm f g reach : without rm f g -> no_ecall f reach -> no_ecall g reach.
Proof.
  intros W N b i x B I E. rewrite (wo_insns _ _ _ W) in I. apply filter_In in I as [I _].
  destruct (without_back _ _ _ _ _ W E) as (_ & y & l & Hy & ->). exact (N b i y B I Hy).
Qed.

Lemma filter_len {A} (P : A -> bool) l : length (filter P l) <= length l.
Proof. induction l as [|a l IH]; cbn; [lia|]. destruct (P a); cbn; lia. Qed.
Lemma size_cons f b r : size_of f (b :: r) = length (insns_of f b) + size_of f r.
Proof. reflexivity. Qed.
Lemma size_app f r1 r2 : size_of f (r1 ++ r2) = size_of f r1 + size_of f r2.
Proof. unfold size_of. now rewrite map_app, list_sum_app. Qed.
Lemma dce_insn_step f c b i reach : tidy f -> In b reach -> In i (insns_of f b) ->
  exists g c' rm, dce_insn (f, c) i = Ok (g, c') /\ dced f g rm /\ (forall j, In j rm -> j = i) /\
    (c' = false -> c = false /\ g = f /\ forall x, f_insn f i = Some x -> ~ removable x) /\
    (c' = true -> c = true \/ size_of g reach < size_of f reach) /\ size_of g reach <= size_of f reach /\
    (no_ecall f reach -> preserves f g).
Proof.
  intros T B I. destruct (td_linked _ T b i I) as (x & Hx & P). unfold dce_insn. cbn [fst snd].
  rewrite (proj2 (get_insn_ok _ _ _) Hx). cbn [bind].
  assert (NO : forall s, (~ removable x) -> exists g c' rm, @Ok (func * bool) (f, s) = Ok (g, c') /\ dced f g rm /\ (forall j, In j rm -> j = i) /\
    (c' = false -> s = false /\ g = f /\ forall x, f_insn f i = Some x -> ~ removable x) /\
    (c' = true -> s = true \/ size_of g reach < size_of f reach) /\ size_of g reach <= size_of f reach /\ (no_ecall f reach -> preserves f g)).
  { intros s N. exists f, s, []. split; [reflexivity|]. split; [apply dced_refl, T|]. split; [intros j []|]. split; [|split; [auto|split; [lia|intros _; apply preserves_refl]]].
    intros ->. split; [reflexivity|]. split; [reflexivity|]. intros y Hy. rewrite Hx in Hy. injection Hy as <-. exact N. }
  destruct (is_void_op (i_op x)) eqn:V; cbn [orb]. { apply NO. intros (K & _). congruence. }
  destruct (iop_eqb (i_op x) CALL) eqn:C.
  { apply NO. intros (_ & K & _). apply K. unfold iop_eqb in C. destruct (iop_eq_dec (i_op x) CALL); [assumption|discriminate]. }
  destruct (i_users x) as [|u us] eqn:U. 2: { apply NO. intros (_ & _ & K). congruence. }
  assert (In i (insns_of f (i_parent x))) as Hin by now rewrite P.
  assert (NC : i_op x <> CALL) by (intros K; rewrite K in C; discriminate).
  destruct (erase_tidy f i x T Hx Hin) as [(E & u & _ & K)|(NU & g & E & T' & W & _)].
  { exfalso. apply (ok_users f u i (td_users _ T)) in K. unfold users_of in K. rewrite Hx, U in K. destruct K. }
  rewrite E. cbn [bind]. exists g, true, [i]. split; [reflexivity|].
  assert (SZ : forall r, size_of g r <= size_of f r).
  { induction r as [|a r IH]; [apply le_n|]. rewrite !size_cons, (wo_insns _ _ _ W a).
    assert (forall l, length (filter (fun j => negb (existsb (Nat.eqb j) [i])) l) <= length l).
    { intros l. apply filter_len. }
    specialize (H (insns_of f a)). lia. }
  split; [|split; [intros j [<-|[]]; reflexivity|split; [discriminate|split; [|split; [apply SZ|]]]]].
  - constructor; [exact T'|exact W|]. intros j [<-|[]]. eauto.
  - intros _. right. apply in_split in B as (r1 & r2 & ->).
    rewrite !size_app, !size_cons. pose proof (SZ r1). pose proof (SZ r2).
    assert (length (insns_of g b) < length (insns_of f b)).
    { rewrite (wo_insns _ _ _ W b), (filter_ext _ (fun j => negb (j =? i))) by (intros; now rewrite rm_one).
      rewrite <- erase_first_filter by apply (td_once _ T). apply in_split in I as (l1 & l2 & I).
      pose proof (td_once _ T b) as ND. rewrite I in *. rewrite erase_first_app_r; [rewrite !app_length; cbn; lia|].
      apply NoDup_remove_2 in ND. intros K. apply ND, in_or_app. now left. }
    lia.
  - intros NE. apply (erase_pure f i x g T Hx Hin); [|exact E]. apply pure_of_nonvoid; try assumption. exact (NE b i x B I Hx).
Qed.

(** a block, then all blocks *)
Lemma dce_insns b reach : In b reach -> forall l f c, tidy f -> NoDup l -> incl l (insns_of f b) ->
  exists g c' rm, ofold dce_insn (f, c) l = Ok (g, c') /\ dced f g rm /\
    (c' = false -> c = false /\ g = f /\ forall i x, In i l -> f_insn f i = Some x -> ~ removable x) /\
    (c' = true -> c = true \/ size_of g reach < size_of f reach) /\ size_of g reach <= size_of f reach /\
    (no_ecall f reach -> preserves f g).
Proof.
  intros B. induction l as [|i l IH]; intros f c T N K.
  - exists f, c, []. split; [reflexivity|]. split; [apply dced_refl, T|]. split; [|split; [auto|split; [lia|intros _; apply preserves_refl]]].
    intros ->. repeat split. intros i x [].
  - destruct (dce_insn_step f c b i reach T B (K i (or_introl eq_refl))) as (g & c1 & r1 & E1 & D1 & O1 & F1 & T1 & S1 & P1).
    cbn [ofold]. rewrite E1. cbn [bind]. inversion N as [|? ? NI NL]; subst.
    assert (K' : incl l (insns_of g b)).
    { intros j J. rewrite (wo_insns _ _ _ (dc_wo _ _ _ D1)). apply filter_In. split; [apply K; now right|].
      apply negb_true_iff, not_true_iff_false. intros X. apply existsb_exists in X as (z & Z & Q). apply Nat.eqb_eq in Q. subst z.
      apply O1 in Z. congruence. }
    destruct (IH g c1 (dc_tidy _ _ _ D1) NL K') as (h & c2 & r2 & E2 & D2 & F2 & T2 & S2 & P2).
    exists h, c2, (r1 ++ r2). split; [exact E2|]. split; [eapply dced_trans; eassumption|]. split; [|split; [|split; [lia|]]].
    + intros Q. destruct (F2 Q) as (Q1 & -> & R2). destruct (F1 Q1) as (Q0 & -> & R1). repeat split; [exact Q0|].
      intros j x [<-|J] Hx; [apply R1, Hx|eapply R2; eassumption].
    + intros Q. destruct (T2 Q) as [Q1|L]; [destruct (T1 Q1) as [Q0|L]|]; [left; exact Q0|right; lia|right; lia].
    + intros NE. eapply preserves_trans; [apply P1, NE|apply P2]. eapply no_ecall_without; [apply (dc_wo _ _ _ D1)|exact NE].
Qed.
Lemma dce_blocks reach l : forall f c, tidy f -> incl l reach -> (forall b, In b l -> f_block f b <> None) ->
  exists g c' rm, ofold (fun s b => do k <- get_block (fst s) b; ofold dce_insn s (b_insns k)) (f, c) l = Ok (g, c') /\ dced f g rm /\
    (c' = false -> c = false /\ g = f /\ forall b i x, In b l -> In i (insns_of f b) -> f_insn f i = Some x -> ~ removable x) /\
    (c' = true -> c = true \/ size_of g reach < size_of f reach) /\ size_of g reach <= size_of f reach /\
    (no_ecall f reach -> preserves f g).
Proof.
  induction l as [|b l IH]; intros f c T K X.
  - exists f, c, []. split; [reflexivity|]. split; [apply dced_refl, T|]. split; [|split; [auto|split; [lia|intros _; apply preserves_refl]]].
    intros ->. repeat split. intros b i x [].
  - cbn [ofold fst]. destruct (f_block f b) as [k|] eqn:Hb; [|destruct (X b (or_introl eq_refl) Hb)].
    unfold get_block at 1. rewrite Hb. cbn [bind].
    assert (IB : b_insns k = insns_of f b) by (unfold insns_of; now rewrite Hb). rewrite IB.
    destruct (dce_insns b reach (K b (or_introl eq_refl)) (insns_of f b) f c T (td_once _ T b) (fun z h => h))
      as (g & c1 & r1 & E1 & D1 & F1 & T1 & S1 & P1).
    rewrite E1. cbn [bind].
    destruct (IH g c1 (dc_tidy _ _ _ D1) (fun z h => K z (or_intror h))) as (h & c2 & r2 & E2 & D2 & F2 & T2 & S2 & P2).
    { intros z Z Q. apply (wo_blocks _ _ _ (dc_wo _ _ _ D1)) in Q. exact (X z (or_intror Z) Q). }
    exists h, c2, (r1 ++ r2). split; [exact E2|]. split; [eapply dced_trans; eassumption|]. split; [|split; [|split; [lia|]]].
    + intros Q. destruct (F2 Q) as (Q1 & -> & R2). destruct (F1 Q1) as (Q0 & -> & R1). repeat split; [exact Q0|].
      intros z j x [<-|J] Hj Hx; [eapply R1; eassumption|eapply R2; eassumption].
    + intros Q. destruct (T2 Q) as [Q1|L]; [destruct (T1 Q1) as [Q0|L]|]; [left; exact Q0|right; lia|right; lia].
    + intros NE. eapply preserves_trans; [apply P1, NE|apply P2]. eapply no_ecall_without; [apply (dc_wo _ _ _ D1)|exact NE].
Qed.
Lemma dce_ok fuel : forall reach f, tidy f -> (forall b, In b reach -> f_block f b <> None) -> size_of f reach < fuel ->
  exists g rm, dce fuel reach f = Ok g /\ dced f g rm /\
    (forall b i x, In b reach -> In i (insns_of g b) -> f_insn g i = Some x -> ~ removable x) /\
    (no_ecall f reach -> preserves f g).
Proof.
  induction fuel as [|n IH]; intros reach f T X L; [lia|]. cbn [dce]. unfold dce_round.
  destruct (dce_blocks reach reach f false T (fun z h => h) X) as (g & c & rm & E & D & F & C & S & P).
  rewrite E. cbn [bind fst snd]. destruct c.
  - destruct (C eq_refl) as [Q|Q]; [discriminate Q|].
    destruct (IH reach g (dc_tidy _ _ _ D)) as (h & r2 & E2 & D2 & F2 & P2); [|lia|].
    { intros z Z K. apply (wo_blocks _ _ _ (dc_wo _ _ _ D)) in K. exact (X z Z K). }
    exists h, (rm ++ r2). split; [exact E2|]. split; [eapply dced_trans; eassumption|]. split; [exact F2|].
    intros NE. eapply preserves_trans; [apply P, NE|apply P2]. eapply no_ecall_without; [apply (dc_wo _ _ _ D)|exact NE].
  - destruct (F eq_refl) as (_ & -> & R). exists f, rm. split; [reflexivity|]. split; [exact D|]. split; [exact R|exact P].
Qed.
