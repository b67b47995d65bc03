(** Removal of variables that are never read. *)
From Verif Require Import SpecWord SpecIsa SpecFlat SpecSsa SpecIr SpecEdit SpecPass.
From Verif Require Import M_Base M_Ir M_Edit M_Ra M_Pass L_Edit L_Uses L_Sim L_PassDce.
Open Scope nat_scope.

Lemma without_in rm f g b j : without rm f g -> In j (insns_of g b) <-> In j (insns_of f b) /\ ~ In j rm.
Proof.
  intros W. rewrite (wo_insns _ _ _ W), filter_In, negb_true_iff, <- not_true_iff_false. split; intros [A B]; (split; [exact A|]); intros K; apply B.
  - apply existsb_exists. exists j. split; [exact K|apply Nat.eqb_refl].
  - apply existsb_exists in K as (z & Z & E). apply Nat.eqb_eq in E. now subst z.
Qed.
Lemma cells_without rm f g : without rm f g -> cells_ok f -> cells_ok g.
Proof.
  intros W C u x a y Hx Hy O P. destruct (without_back _ _ _ _ _ W Hx) as (N & x0 & l & Hx0 & ->).
  destruct (without_back _ _ _ _ _ W Hy) as (_ & y0 & l2 & Hy0 & ->).
  rewrite (without_uses _ _ _ u a W N) in P. exact (C u x0 a y0 Hx0 Hy0 O P).
Qed.
Lemma never_without rm f g a : without rm f g -> never_loaded f a -> never_loaded g a.
Proof.
  intros W C u x Hx O. destruct (without_back _ _ _ _ _ W Hx) as (N & x0 & l & Hx0 & ->).
  rewrite (without_uses _ _ _ u a W N). exact (C u x0 Hx0 O).
Qed.
Lemma any_load_spec f l b : any_load f l = Ok b -> (b = false -> forall u x, In u l -> f_insn f u = Some x -> i_op x <> LOAD) /\
  (b = true -> exists u x, In u l /\ f_insn f u = Some x /\ i_op x = LOAD).
Proof.
  revert b. induction l as [|u l IH]; intros b E; cbn [any_load] in E.
  - injection E as <-. split; [intros _ u x []|discriminate].
  - apply bind_ok in E as (x & Hx & E). apply get_insn_ok in Hx. destruct (iop_eqb (i_op x) LOAD) eqn:O.
    + injection E as <-. split; [discriminate|]. intros _. exists u, x. split; [now left|]. split; [exact Hx|].
      unfold iop_eqb in O. destruct (iop_eq_dec (i_op x) LOAD); [assumption|discriminate].
    + destruct (IH b E) as [A B]. split.
      * intros Q v y [<-|I] Hy; [|eapply A; eassumption]. rewrite Hx in Hy. injection Hy as <-. intros K. rewrite K in O. discriminate.
      * intros Q. destruct (B Q) as (v & y & I & R). exists v, y. split; [now right|exact R].
Qed.
Lemma any_load_total f l : (forall u, In u l -> f_insn f u <> None) -> exists b, any_load f l = Ok b.
Proof.
  induction l as [|u l IH]; intros K; [eexists; reflexivity|]. cbn [any_load]. unfold get_insn.
  destruct (f_insn f u) as [x|] eqn:E; [|destruct (K u (or_introl eq_refl) E)]. cbn [bind].
  destruct (iop_eqb (i_op x) LOAD); [eauto|]. apply IH. intros v V. apply K. now right.
Qed.

(** the instructions removed with a variable *)

Lemma erase_store f a y u g : tidy f -> cells_ok f -> f_insn f a = Some y -> i_op y = ALLOC -> never_loaded f a ->
  In u (users_of f a) -> erase_insn f u = Ok g ->
  u <> a /\ store_to f a u /\ tidy g /\ without [u] f g /\ preserves f g.
Proof.
  intros T C Hy O NL U E. apply (ok_users f u a (td_users _ T)) in U. destruct (td_placed _ T u a U) as (x & Hx & Hin).
  destruct (C u x a y Hx Hy O U) as [(OL & _)|(OS & v & w & V & NW)]. { rewrite (NL u x Hx OL) in U. lia. }
  assert (DV : v_data v = VInsn a).
  { unfold uses in U. rewrite Hx in U. unfold operand_values in U. rewrite OS, V, app_nil_r in U. cbn [filter] in U. rewrite NW in U.
    unfold is_use_of in U. destruct (v_data v) as [c|c|c|d|c|]; cbn in U; try lia. destruct (d =? a) eqn:Q; [apply Nat.eqb_eq in Q; congruence|cbn in U; lia]. }
  assert (u <> a) by (intros ->; congruence).
  destruct (erase_tidy f u x T Hx Hin) as [[E' _]|(NU & g' & E' & T' & W & _)]; [congruence|].
  assert (g' = g) by congruence. subst g'.
  split; [exact H|]. split; [exists x, v, w; auto|]. split; [exact T'|]. split; [exact W|].
  apply (drop_preserves f g (fun j => existsb (Nat.eqb j) [u]) (fun c => c =? a)).
  - exact (without_blk _ _ _ W).
  - exact (without_ins _ _ _ W).
  - intros j z R Hz. rewrite rm_one in R. apply Nat.eqb_eq in R. subst j. rewrite Hx in Hz. injection Hz as <-.
    right. split; [exact OS|]. intros t r c Q D. rewrite V in Q. injection Q as <- _. rewrite DV in D. injection D as <-. apply Nat.eqb_refl.
  - intros j z d R Hz D. rewrite rm_one in R, D. apply Nat.eqb_eq in D. apply Nat.eqb_neq in R. subst d. apply NU, R.
  - intros j z t r c _ Hz OZ VZ D. apply Nat.eqb_neq. intros ->. pose proof (NL j z Hz OZ) as K. unfold uses in K. rewrite Hz in K.
    unfold operand_values in K. rewrite OZ, VZ in K. cbn [filter app] in K. unfold is_use_of in K at 1. rewrite D, Nat.eqb_refl in K. discriminate K.
Qed.

Lemma erase_users_ok a n : forall f k g y, tidy f -> cells_ok f -> f_insn f a = Some y -> i_op y = ALLOC -> never_loaded f a ->
  erase_users n f a k = Ok g ->
  exists rm, tidy g /\ without rm f g /\ preserves f g /\ ~ In a rm /\ forall j, In j rm -> store_to f a j.
Proof.
  induction n as [|n IH]; intros f k g y T C Hy O NL E; cbn [erase_users] in E; apply bind_ok in E as (x & Hx & E);
    apply get_insn_ok in Hx; (destruct (nth_error (i_users x) k) as [u|] eqn:U; [|injection E as <-; exists [];
      split; [exact T|]; split; [apply without_refl|]; split; [apply preserves_refl|]; split; [intros []|intros j []]]).
  - discriminate E.
  - apply bind_ok in E as (h & EU & E). apply nth_error_In in U.
    assert (In u (users_of f a)) as IU by (unfold users_of; now rewrite Hx).
    destruct (erase_store f a y u h T C Hy O NL IU EU) as (NE & ST & T1 & W1 & P1).
    assert (NA : ~ In a [u]) by (intros [K|[]]; congruence).
    destruct (wo_keep _ _ _ W1 a NA) as [l Ha]. rewrite Hy in Ha. cbn in Ha.
    destruct (IH h (S k) g _ T1 (cells_without _ _ _ W1 C) Ha O (never_without _ _ _ a W1 NL) E) as (rm & T2 & W2 & P2 & N2 & S2).
    exists (u :: rm). split; [exact T2|]. split; [exact (without_trans _ _ _ _ _ W1 W2)|].
    split; [eapply preserves_trans; eassumption|]. split. { intros [K|K]; [congruence|tauto]. }
    intros j [<-|J]; [exact ST|]. destruct (S2 j J) as (z & v & w & Hz & R).
    destruct (without_back _ _ _ _ _ W1 Hz) as (_ & z0 & l0 & Hz0 & ->). exists z0, v, w. auto.
Qed.

(** what goes away together with variable [a] *)

Record alloc_ok (f g : func) (rm : list nat) : Prop := {
  ao_tidy : tidy g; ao_cells : cells_ok g; ao_wo : without rm f g; ao_pres : preserves f g;
  ao_gone : forall j, In j rm -> gone f j }.
Lemma alloc_refl f : tidy f -> cells_ok f -> alloc_ok f f [].
Proof. intros T C. constructor; auto; [apply without_refl|apply preserves_refl|intros j []]. Qed.

(** loads are never removed, so a variable keeps being read *)
Lemma never_back rm f g a : without rm f g -> (forall j, In j rm -> gone f j) -> never_loaded g a -> never_loaded f a.
Proof.
  intros W G N u x Hx O. assert (NR : ~ In u rm).
  { intros I. destruct (G u I) as (b & y & Hb & OB & _ & [->|(z & v & w & Hz & OZ & _)]); congruence. }
  destruct (wo_keep _ _ _ W u NR) as [l E]. rewrite Hx in E. rewrite <- (without_uses _ _ _ u a W NR). exact (N u _ E O).
Qed.
Lemma alloc_trans f g h r1 r2 : alloc_ok f g r1 -> alloc_ok g h r2 -> alloc_ok f h (r1 ++ r2).
Proof.
  intros A B. constructor; [apply (ao_tidy _ _ _ B)|apply (ao_cells _ _ _ B)| | |].
  - eapply without_trans; [apply (ao_wo _ _ _ A)|apply (ao_wo _ _ _ B)].
  - eapply preserves_trans; [apply (ao_pres _ _ _ A)|apply (ao_pres _ _ _ B)].
  - intros j I. apply in_app_or in I as [I|I]; [apply (ao_gone _ _ _ A), I|].
    destruct (ao_gone _ _ _ B j I) as (a & y & Ha & O & N & K). pose proof (ao_wo _ _ _ A) as W.
    destruct (without_back _ _ _ _ _ W Ha) as (_ & y0 & l & Hy & ->). exists a, y0. split; [exact Hy|]. split; [exact O|].
    split; [exact (never_back _ _ _ a W (ao_gone _ _ _ A) N)|]. destruct K as [->|(z & v & w & Hz & R)]; [now left|right].
    destruct (without_back _ _ _ _ _ W Hz) as (_ & z0 & l0 & Hz0 & ->). exists z0, v, w. auto.
Qed.

Lemma unused_alloc_ok f a y g : tidy f -> cells_ok f -> f_insn f a = Some y -> i_op y = ALLOC -> In a (insns_of f (i_parent y)) ->
  unused_alloc f a = Ok g -> exists rm, alloc_ok f g rm /\ forall j, In j rm -> j = a \/ store_to f a j.
Proof.
  intros T C Hy O Hin E. unfold unused_alloc in E. rewrite (proj2 (get_insn_ok _ _ _) Hy) in E. cbn [bind] in E.
  apply bind_ok in E as (b & L & E). destruct b.
  { injection E as <-. exists []. split; [apply alloc_refl; assumption|intros j []]. }
  apply bind_ok in E as (h & EU & E).
  assert (NL : never_loaded f a).
  { intros u x Hx OX. destruct (uses f u a) eqn:Q; [reflexivity|]. exfalso.
    assert (In u (users_of f a)) as I by (apply (ok_users f u a (td_users _ T)); lia). unfold users_of in I. rewrite Hy in I.
    exact (proj1 (any_load_spec _ _ _ L) eq_refl u x I Hx OX). }
  destruct (erase_users_ok a _ f 0 h y T C Hy O NL EU) as (rm & T1 & W1 & P1 & N1 & S1).
  destruct (wo_keep _ _ _ W1 a N1) as [l Ha]. rewrite Hy in Ha. cbn in Ha.
  assert (Hin1 : In a (insns_of h (i_parent (set_users l y)))) by (apply (without_in _ _ _ _ _ W1); split; assumption).
  destruct (erase_tidy h a _ T1 Ha Hin1) as [[E' _]|(_ & g' & E' & T2 & W2 & _)]; [congruence|].
  assert (g' = g) by congruence. subst g'.
  assert (P2 : preserves h g). { apply (erase_pure h a _ g T1 Ha Hin1); [|exact E]. cbn. rewrite O. intros I; cbn in I; intuition discriminate. }
  exists (rm ++ [a]). split.
  - pose proof (without_trans _ _ _ _ _ W1 W2) as W.
    constructor; [exact T2|exact (cells_without _ _ _ W C)|exact W|eapply preserves_trans; eassumption|].
    intros j I. exists a, y. split; [exact Hy|]. split; [exact O|]. split; [exact NL|]. apply in_app_or in I as [I|[<-|[]]]; [right; apply S1, I|now left].
  - intros j I. apply in_app_or in I as [I|[<-|[]]]; [right; apply S1, I|now left].
Qed.

(** ** All variables of the function *)
Lemma insns_in_spec f reach : forall l, insns_in f reach = Ok l -> l = flat_map (insns_of f) reach.
Proof.
  induction reach as [|b r IH]; intros l E; cbn [insns_in] in E; [injection E as <-; reflexivity|].
  apply bind_ok in E as (k & Hk & E). apply bind_ok in E as (t & Ht & E). injection E as <-. rewrite (IH t Ht).
  apply get_block_ok in Hk. cbn. unfold insns_of at 2. now rewrite Hk.
Qed.
Lemma insns_in_total f reach : (forall b, In b reach -> f_block f b <> None) -> insns_in f reach = Ok (flat_map (insns_of f) reach).
Proof.
  induction reach as [|b r IH]; intros X; [reflexivity|]. cbn [insns_in flat_map]. unfold get_block, insns_of at 1.
  destruct (f_block f b) as [k|] eqn:Hk; [|destruct (X b (or_introl eq_refl) Hk)]. cbn [bind].
  rewrite IH by (intros z Z; apply X; now right). reflexivity.
Qed.
Lemma collect_spec P f reach l : collect P f reach = Ok l ->
  forall i, In i l <-> exists x, In i (flat_map (insns_of f) reach) /\ f_insn f i = Some x /\ P x = true.
Proof.
  intros E. unfold collect in E. apply bind_ok in E as (m & Em & E). apply insns_in_spec in Em. subst m.
  assert (K : forall r acc l, ofold (fun acc i => do x <- get_insn f i; Ok (if P x then acc ++ [i] else acc)) acc r = Ok l ->
    forall i, In i l <-> In i acc \/ exists x, In i r /\ f_insn f i = Some x /\ P x = true).
  { clear. induction r as [|b r IH]; intros acc l E i; cbn [ofold] in E.
    { injection E as <-. split; [auto|]. intros [K|(x & [] & _)]. exact K. }
    apply bind_ok in E as (a & Ea & E). apply bind_ok in Ea as (x & Hx & Ea). apply get_insn_ok in Hx. injection Ea as <-.
    rewrite (IH _ _ E i). destruct (P x) eqn:PX.
    - rewrite in_app_iff. cbn. split.
      + intros [[K|[<-|[]]]|(y & K & R)]; [now left|right; exists x; auto|right; exists y; auto].
      + intros [K|(y & [<-|K] & R)]; [auto|auto|right; exists y; auto].
    - split.
      + intros [K|(y & K & R)]; [now left|right; exists y; cbn; auto].
      + intros [K|(y & [<-|K] & Hy & PY)]; [auto| |right; exists y; auto]. exfalso. congruence. }
  intros i. rewrite (K _ _ _ E i). split; [intros [[]|R]; exact R|auto].
Qed.
Lemma collect_total P f reach : linked_ok f -> (forall b, In b reach -> f_block f b <> None) -> exists l, collect P f reach = Ok l.
Proof.
  intros L H. unfold collect. rewrite (insns_in_total _ _ H). cbn [bind].
  assert (X : forall i, In i (flat_map (insns_of f) reach) -> f_insn f i <> None).
  { intros i I. apply in_flat_map in I as (b & _ & I). destruct (L b i I) as (x & -> & _). discriminate. }
  assert (K : forall r acc, (forall i, In i r -> f_insn f i <> None) ->
    exists l, ofold (fun acc i => do x <- get_insn f i; Ok (if P x then acc ++ [i] else acc)) acc r = Ok l).
  { clear. induction r as [|i r IH]; intros acc X; cbn [ofold]; [eauto|]. unfold get_insn at 1.
    destruct (f_insn f i) as [x|] eqn:E; [|destruct (X i (or_introl eq_refl) E)]. cbn [bind]. apply IH. intros z Z. apply X. now right. }
  exact (K _ _ X).
Qed.

Lemma unused_allocs_ok l : forall f g, tidy f -> cells_ok f ->
  (forall a y, In a l -> f_insn f a = Some y -> i_op y = ALLOC /\ In a (insns_of f (i_parent y))) ->
  ofold unused_alloc f l = Ok g -> exists rm, alloc_ok f g rm.
Proof.
  induction l as [|a l IH]; intros f g T C X E; cbn [ofold] in E.
  - injection E as <-. exists []. apply alloc_refl; assumption.
  - apply bind_ok in E as (h & E1 & E). destruct (f_insn f a) as [y|] eqn:Hy.
    2: { unfold unused_alloc, get_insn in E1. rewrite Hy in E1. discriminate E1. }
    destruct (X a y (or_introl eq_refl) Hy) as [O Hin].
    destruct (unused_alloc_ok f a y h T C Hy O Hin E1) as (r1 & A1 & _).
    destruct (IH h g (ao_tidy _ _ _ A1) (ao_cells _ _ _ A1)) as (r2 & A2); [|exact E|exists (r1 ++ r2); eapply alloc_trans; eassumption].
    intros c z I Hz. destruct (without_back _ _ _ _ _ (ao_wo _ _ _ A1) Hz) as (N & z0 & l0 & Hz0 & ->).
    destruct (X c z0 (or_intror I) Hz0) as [OZ IZ]. split; [exact OZ|]. apply (without_in _ _ _ _ _ (ao_wo _ _ _ A1)). auto.
Qed.
Lemma remove_unused_ok reach f g : tidy f -> cells_ok f -> remove_unused_alloc reach f = Ok g -> exists rm, alloc_ok f g rm.
Proof.
  intros T C E. unfold remove_unused_alloc in E. apply bind_ok in E as (l & El & E).
  apply (unused_allocs_ok l f g T C); [|exact E]. intros a y I Hy. apply (proj1 (collect_spec _ _ _ _ El a)) in I as (x & I & Hx & P).
  rewrite Hy in Hx. injection Hx as <-. split. { unfold iop_eqb in P. destruct (iop_eq_dec (i_op y) ALLOC); [assumption|discriminate]. }
  apply in_flat_map in I as (b & _ & I). destruct (td_linked _ T b a I) as (z & Hz & <-). congruence.
Qed.

(** ** When the removal succeeds *)
Lemma without_uses_le rm f g u d : without rm f g -> 0 < uses g u d -> 0 < uses f u d.
Proof.
  intros W P. destruct (in_dec Nat.eq_dec u rm) as [I|N]; [|now rewrite <- (without_uses _ _ _ u d W N)].
  unfold uses in P. rewrite (wo_rm _ _ _ W u I) in P. lia.
Qed.
Lemma one_store_without rm f g a : without rm f g -> one_store f a -> one_store g a.
Proof. intros W O u u' A B. apply O; eapply without_uses_le; eassumption. Qed.
Lemma stores_unused_without rm f g : without rm f g -> stores_unused f -> stores_unused g.
Proof.
  intros W O u x v Hx S. destruct (without_back _ _ _ _ _ W Hx) as (_ & x0 & l & Hx0 & ->).
  destruct (uses g v u) eqn:E; [reflexivity|]. assert (0 < uses f v u) by (eapply without_uses_le; [exact W|lia]).
  rewrite (O u x0 v Hx0 S) in H. lia.
Qed.
Lemma unused_alloc_total f a y : tidy f -> cells_ok f -> stores_unused f -> f_insn f a = Some y -> i_op y = ALLOC ->
  In a (insns_of f (i_parent y)) -> (never_loaded f a -> one_store f a) -> exists g, unused_alloc f a = Ok g.
Proof.
  intros T C SU Hy O Hin ONE. unfold unused_alloc. rewrite (proj2 (get_insn_ok _ _ _) Hy). cbn [bind].
  assert (UA : users_of f a = i_users y) by (unfold users_of; now rewrite Hy). pose proof (td_users _ T) as K.
  destruct (any_load_total f (i_users y)) as (b & L).
  { intros u U. rewrite <- UA in U. apply (ok_users f u a K) in U. unfold uses in U. intros E. rewrite E in U. lia. }
  rewrite L. cbn [bind]. destruct b; [eauto|].
  assert (NL : never_loaded f a).
  { intros u x Hx OX. destruct (uses f u a) eqn:Q; [reflexivity|]. exfalso.
    assert (In u (users_of f a)) as I by (apply (ok_users f u a K); lia). rewrite UA in I.
    exact (proj1 (any_load_spec _ _ _ L) eq_refl u x I Hx OX). }
  assert (FIN : forall h rm, tidy h -> without rm f h -> ~ In a rm -> (forall u, 0 < uses h u a -> u = a) -> exists g, erase_insn h a = Ok g).
  { intros h rm T1 W1 N1 U1. destruct (wo_keep _ _ _ W1 a N1) as [l Ha]. rewrite Hy in Ha. cbn in Ha.
    assert (Hin1 : In a (insns_of h (i_parent (set_users l y)))) by (apply (without_in _ _ _ _ _ W1); split; assumption).
    destruct (erase_tidy h a _ T1 Ha Hin1) as [(_ & u & NU & PU)|(_ & g & E & _)]; [|eauto]. destruct (NU (U1 u PU)). }
  destruct (i_users y) as [|u us] eqn:U.
  - cbn [length erase_users]. unfold get_insn at 1. rewrite Hy. cbn [bind]. rewrite U. cbn [nth_error]. cbn [bind].
    apply (FIN f []); [exact T|apply without_refl|intros []|]. intros u P. apply (ok_users f u a K) in P. rewrite UA in P. destruct P.
  - assert (IU : In u (users_of f a)) by (rewrite UA; now left). pose proof (proj1 (ok_users f u a K) IU) as PU.
    destruct (td_placed _ T u a PU) as (x & Hx & Hux).
    destruct (C u x a y Hx Hy O PU) as [(OL & _)|(OS & v & w & V & NW)]. { rewrite (NL u x Hx OL) in PU. lia. }
    assert (US : us = []).
    { destruct us as [|u2 us]; [reflexivity|]. exfalso.
      assert (u2 = u). { apply (ONE NL); [|exact PU]. apply (ok_users f u2 a K). rewrite UA. right; now left. }
      subst u2. pose proof (proj2 (K u a)) as Q. rewrite UA in Q. cbn in Q. destruct (Nat.eq_dec u u); [|congruence].
      unfold uses in Q. rewrite Hx in Q. unfold operand_values in Q. rewrite OS, V, app_nil_r in Q. cbn [filter] in Q. rewrite NW in Q.
      destruct (is_use_of a v); cbn in Q; lia. }
    subst us. destruct (erase_tidy f u x T Hx Hux) as [(_ & z & _ & PZ)|(_ & h & E & T1 & W1 & UH)].
    { rewrite (SU u x z Hx OS) in PZ. lia. }
    cbn [length erase_users]. unfold get_insn at 1. rewrite Hy. cbn [bind]. rewrite U. cbn [nth_error]. rewrite E. cbn [bind].
    assert (NA : u <> a) by (intros ->; congruence).
    assert (W0 : ~ In a [u]) by (intros [?|[]]; congruence).
    destruct (wo_keep _ _ _ W1 a W0) as [l Ha]. rewrite Hy in Ha. cbn in Ha.
    assert (NUS : forall z, 0 < uses h z a -> False).
    { intros z P. assert (z = u) by (apply (ONE NL); [eapply without_uses_le; eassumption|exact PU]). subst z.
      unfold uses in P. rewrite (wo_rm _ _ _ W1 u (or_introl eq_refl)) in P. lia. }
    assert (LN : l = []).
    { assert (users_of h a = l) as UL by (unfold users_of; now rewrite Ha). destruct l as [|z l]; [reflexivity|]. exfalso.
      apply (NUS z). apply (ok_users h z a (td_users _ T1)). rewrite UL. now left. }
    unfold get_insn at 1. rewrite Ha. cbn [bind i_users set_users]. rewrite LN. cbn [nth_error bind].
    apply (FIN h [u]); auto. intros z P. destruct (NUS z P).
Qed.
Lemma unused_allocs_total l : forall f, tidy f -> cells_ok f -> stores_unused f -> NoDup l ->
  (forall a, In a l -> exists y, f_insn f a = Some y /\ i_op y = ALLOC /\ In a (insns_of f (i_parent y))) ->
  (forall a, In a l -> never_loaded f a -> one_store f a) -> exists g, ofold unused_alloc f l = Ok g.
Proof.
  induction l as [|a l IH]; intros f T C SU ND X ONE; cbn [ofold]; [eauto|].
  destruct (X a (or_introl eq_refl)) as (y & Hy & O & Hin).
  destruct (unused_alloc_total f a y T C SU Hy O Hin (ONE a (or_introl eq_refl))) as (h & E). rewrite E. cbn [bind].
  destruct (unused_alloc_ok f a y h T C Hy O Hin E) as (rm & A & RM). pose proof (ao_wo _ _ _ A) as W.
  inversion ND as [|? ? NA NL]; subst.
  assert (KEEP : forall c z, In c l -> f_insn f c = Some z -> i_op z = ALLOC -> ~ In c rm).
  { intros c z I Hz OZ R. destruct (RM c R) as [->|(s & v & w & Hs & OS & _)]; [tauto|congruence]. }
  apply IH; try assumption.
  - exact (ao_tidy _ _ _ A).
  - exact (ao_cells _ _ _ A).
  - exact (stores_unused_without _ _ _ W SU).
  - intros c I. destruct (X c (or_intror I)) as (z & Hz & OZ & Hc). pose proof (KEEP c z I Hz OZ) as N.
    destruct (wo_keep _ _ _ W c N) as [k Hk]. rewrite Hz in Hk. eexists. split; [exact Hk|]. split; [exact OZ|].
    apply (without_in _ _ _ _ _ W). auto.
  - intros c I N. apply (one_store_without _ _ _ c W), (ONE c (or_intror I)). exact (never_back _ _ _ c W (ao_gone _ _ _ A) N).
Qed.
Lemma flat_nodup f reach : tidy f -> NoDup reach -> NoDup (flat_map (insns_of f) reach).
Proof.
  intros T. induction 1 as [|b r N D IH]; [constructor|]. cbn.
  assert (K : forall i, In i (insns_of f b) -> ~ In i (flat_map (insns_of f) r)).
  { intros i I J. apply in_flat_map in J as (c & C & J). destruct (td_linked _ T b i I) as (x & Hx & P), (td_linked _ T c i J) as (y & Hy & Q). congruence. }
  pose proof (td_once _ T b) as ND. induction (insns_of f b) as [|i l L]; [exact IH|]. cbn. inversion ND; subst. constructor.
  - rewrite in_app_iff. intros [J|J]; [tauto|]. exact (K i (or_introl eq_refl) J).
  - apply L; [|assumption]. intros j J. apply K. now right.
Qed.
Lemma collect_nodup P f reach l : collect P f reach = Ok l -> NoDup (flat_map (insns_of f) reach) -> NoDup l.
Proof.
  intros E. unfold collect in E. apply bind_ok in E as (m & Em & E). apply insns_in_spec in Em. subst m. intros ND.
  assert (K : forall r acc l, ofold (fun acc i => do x <- get_insn f i; Ok (if P x then acc ++ [i] else acc)) acc r = Ok l ->
    NoDup (acc ++ r) -> NoDup l).
  { clear. induction r as [|b r IH]; intros acc l E N; cbn [ofold] in E. { injection E as <-. now rewrite app_nil_r in N. }
    apply bind_ok in E as (a & Ea & E). apply bind_ok in Ea as (x & Hx & Ea). injection Ea as <-.
    apply (IH _ _ E). destruct (P x); [now rewrite <- app_assoc|]. apply (NoDup_remove_1 _ _ _ N). }
  exact (K _ _ _ E ND).
Qed.
Lemma remove_unused_total reach f : tidy f -> cells_ok f -> stores_unused f -> NoDup reach -> (forall b, In b reach -> f_block f b <> None) ->
  (forall a, never_loaded f a -> (exists y, f_insn f a = Some y /\ i_op y = ALLOC) -> one_store f a) ->
  exists g, remove_unused_alloc reach f = Ok g.
Proof.
  intros T C SU ND X ONE. unfold remove_unused_alloc. destruct (collect_total (fun x => iop_eqb (i_op x) ALLOC) f reach (td_linked _ T) X) as (l & E).
  rewrite E. cbn [bind]. pose proof (collect_spec _ _ _ _ E) as SP.
  assert (Q : forall a, In a l -> exists y, f_insn f a = Some y /\ i_op y = ALLOC /\ In a (insns_of f (i_parent y))).
  { intros a I. apply SP in I as (x & I & Hx & P). exists x. split; [exact Hx|]. split.
    - unfold iop_eqb in P. destruct (iop_eq_dec (i_op x) ALLOC); [assumption|discriminate].
    - apply in_flat_map in I as (b & _ & I). destruct (td_linked _ T b a I) as (z & Hz & <-). congruence. }
  apply unused_allocs_total; try assumption.
  - eapply collect_nodup; [exact E|]. apply flat_nodup; assumption.
  - intros a I N. apply ONE; [exact N|]. destruct (Q a I) as (y & Hy & O & _). eauto.
Qed.
