(** The instruction counter: all cycles are counted, all executions end. *)
From Coq Require Import ZArith List Bool Arith Lia.
From Verif Require Import M_Base M_Ir M_Edit M_Pass SpecWord SpecFlat SpecSsa SpecIr SpecEdit SpecPass SpecStrict SpecInstr
  L_Word L_Edit L_Uses L_Hist L_Ctor L_PassThrow L_Ins L_Div L_Count.
Import ListNotations.
Open Scope nat_scope.

Record cinv (f0 g : func) (cell : nat) (limit : value * Z) (done : list nat) : Prop := {
  ci_cfg : cfg_ok g;
  ci_entry : f_entry g = f_entry f0;
  ci_live : forall i, f_insn f0 i <> None -> opt_like f0 g i;
  ci_dom : forall c, f_block f0 c <> None -> f_block g c <> None;
  ci_done : forall c, In c done -> f_block f0 c <> None /\
    exists body tail ld ad st j eb, insns_of f0 c = body ++ tail /\ (tail = [] \/ exists i, tail = [i] /\ is_terminator f0 i) /\
      insns_of g c = body ++ [ld; ad; st; j] /\ check g cell limit ld ad st j eb /\ f_insn f0 ad = None /\ f_block f0 eb = None;
  ci_rest : forall c, f_block f0 c <> None -> ~ In c done -> insns_of g c = insns_of f0 c;
  ci_preds : forall c, f_block f0 c <> None -> length (preds_of g c) = length (preds_of f0 c);
  ci_new : forall c, f_block f0 c = None -> f_block g c <> None -> (exists x, In x done /\ preds_of g c = [x]) /\
    forall i, In i (insns_of g c) -> is_terminator g i;
  ci_from : forall c q, f_block f0 c <> None -> In q (preds_of g c) -> In q (preds_of f0 c) \/
    (f_block f0 q = None /\ exists x, In x done /\ preds_of g q = [x] /\ In x (preds_of f0 c));
  ci_woven : forall c, In c done -> wov f0 g cell limit c;
  ci_succs : forall c, f_block f0 c <> None -> ~ In c done -> succs_of g c = succs_of f0 c }.

Lemma cinv_start f0 cell limit : cfg_ok f0 -> cinv f0 f0 cell limit [].
Proof.
  intros C. constructor; auto; try tauto.
  - intros i L. destruct (f_insn f0 i) as [x|] eqn:X; [|congruence]. exists (i_users x), (i_parent x). rewrite X. destruct x; reflexivity.
  - intros c [].
  - intros c [].
Qed.

Lemma like_insn f g i x : opt_like f g i -> f_insn f i = Some x -> exists y, f_insn g i = Some y /\ i_op y = i_op x /\ i_vals y = i_vals x /\ i_alu y = i_alu x /\ i_vrt y = i_vrt x /\ i_bb1 y = i_bb1 x /\ i_bb2 y = i_bb2 x.
Proof. intros L X. destruct (like_some _ _ _ _ L X) as (u & q & Y). eexists. split; [exact Y|]. cbn. auto 10. Qed.

Lemma check_like f g cell limit ld ad st j eb : (forall i, f_insn f i <> None -> opt_like f g i) -> insns_of g eb = insns_of f eb ->
  check f cell limit ld ad st j eb -> check g cell limit ld ad st j eb.
Proof.
  intros LK E [(x1 & X1 & A1) (x2 & X2 & A2) (x3 & X3 & A3) (x4 & X4 & A4) (t & x5 & A5 & X5 & A6)].
  assert (K : forall i x, f_insn f i = Some x -> exists y, f_insn g i = Some y /\ i_op y = i_op x /\ i_vals y = i_vals x /\ i_alu y = i_alu x /\ i_vrt y = i_vrt x /\ i_bb1 y = i_bb1 x /\ i_bb2 y = i_bb2 x).
  { intros i x X. apply (like_insn f g); auto. apply LK. congruence. }
  destruct (K _ _ X1) as (y1 & Y1 & B1). destruct (K _ _ X2) as (y2 & Y2 & B2). destruct (K _ _ X3) as (y3 & Y3 & B3).
  destruct (K _ _ X4) as (y4 & Y4 & B4). destruct (K _ _ X5) as (y5 & Y5 & B5).
  constructor.
  - exists y1. intuition congruence.
  - exists y2. intuition congruence.
  - exists y3. intuition congruence.
  - exists y4. intuition congruence.
  - exists t, y5. rewrite E. intuition congruence.
Qed.

Lemma cinv_step f0 g h cell limit done bb : cfg_ok f0 -> cinv f0 g cell limit done -> f_block f0 bb <> None -> ~ In bb done ->
  cstep g h cell limit bb -> cinv f0 h cell limit (bb :: done).
Proof.
  intros C0 I B N S.
  assert (LV : forall i, f_insn f0 i <> None -> f_insn g i <> None) by (intros i L; eapply opt_like_live; [apply (ci_live _ _ _ _ _ I i L)|exact L]).
  assert (PN : forall q x, f_block f0 q = None -> In x done -> preds_of g q = [x] -> preds_of h q = [x]).
  { intros q x Q X P. assert (GQ : f_block g q <> None) by (intros Z; unfold preds_of in P; rewrite Z in P; discriminate).
    assert (LE := cs_preds _ _ _ _ _ S q GQ). rewrite P in LE. destruct (preds_of h q) as [|y [|? ?]] eqn:E; try discriminate. f_equal.
    destruct (cs_from _ _ _ _ _ S q y GQ) as [F|(_ & _ & F)]; [rewrite E; now left| |]; rewrite P in F; destruct F as [F|[]]; auto. subst x. contradiction. }
  constructor.
  - apply S.
  - rewrite (cs_entry _ _ _ _ _ S). apply I.
  - intros i L. eapply like_trans; [apply (ci_live _ _ _ _ _ I i L)|]. apply (cs_live _ _ _ _ _ S). auto.
  - intros c K. apply (cs_dom _ _ _ _ _ S). apply I. exact K.
  - intros c [<-|K].
    + split; auto. destruct (cs_block _ _ _ _ _ S) as (body & tail & ld & ad & st & j & eb & E1 & E2 & E3 & E4 & E5 & E6).
      rewrite (ci_rest _ _ _ _ _ I bb B N) in E1. exists body, tail, ld, ad, st, j, eb. split; auto. split.
      { destruct E2 as [->|(i & -> & T)]; auto. right. exists i. split; auto.
        assert (IN : In i (insns_of f0 bb)) by (rewrite E1; apply in_or_app; right; now left).
        destruct (cf_linked _ C0 bb i IN) as (x & X & _). apply (like_term f0 g i); auto. apply I. congruence. }
      split; auto. split; auto. split.
      * destruct (f_insn f0 ad) eqn:Z; auto. exfalso. apply (LV ad); congruence.
      * destruct (f_block f0 eb) eqn:Z; auto. exfalso. apply (ci_dom _ _ _ _ _ I eb); congruence.
    + destruct (ci_done _ _ _ _ _ I c K) as (BC & body & tail & ld & ad & st & j & eb & E1 & E2 & E3 & E4 & E5 & E6). split; auto.
      exists body, tail, ld, ad, st, j, eb. split; auto. split; auto. split.
      { rewrite (cs_other _ _ _ _ _ S); auto; [intros ->; contradiction|apply I; exact BC]. }
      split; auto. eapply check_like; [apply (cs_live _ _ _ _ _ S)| |exact E4].
      apply (cs_other _ _ _ _ _ S); [intros ->; contradiction|]. destruct (ck_eb _ _ _ _ _ _ _ _ E4) as (t & x & T & _).
      apply (in_block g eb t). rewrite T. now left.
  - intros c K1 K2. rewrite (cs_other _ _ _ _ _ S); [apply I; auto; intros Q; apply K2; now right|intros ->; apply K2; now left|apply I; exact K1].
  - intros c K. rewrite (cs_preds _ _ _ _ _ S); apply I; exact K.
  - intros c K1 K2. destruct (f_block g c) eqn:GC.
    + assert (GN : f_block g c <> None) by congruence. destruct (ci_new _ _ _ _ _ I c K1 GN) as ((x & X & P) & T).
      assert (CB : c <> bb) by (intros ->; contradiction). split.
      * exists x. split; [now right|]. apply PN; auto.
      * rewrite (cs_other _ _ _ _ _ S); auto. intros i IN. apply (like_term g h i); auto. apply (cs_live _ _ _ _ _ S).
        destruct (T i IN) as (y & Y & _). congruence.
    + destruct (cs_new _ _ _ _ _ S c GC K2) as (P & T). split; auto. exists bb. split; [now left|exact P].
  - intros c q K IN. destruct (cs_from _ _ _ _ _ S c q) as [F|(F1 & F2 & F3)]; [apply I; exact K|exact IN| |].
    + destruct (ci_from _ _ _ _ _ I c q K F) as [G|(G1 & x & G2 & G3 & G4)]; auto. right. split; auto. exists x. split; [now right|]. split; auto.
    + right. split. { destruct (f_block f0 q) eqn:Z; auto. exfalso. apply (ci_dom _ _ _ _ _ I q); congruence. }
      exists bb. split; [now left|]. split; auto. destruct (ci_from _ _ _ _ _ I c bb K F3) as [G|(G1 & _)]; [auto|contradiction].
  - assert (TB : forall b i, In i (insns_of f0 b) -> is_terminator g i -> is_terminator f0 i).
    { intros b i IN T. destruct (cf_linked _ C0 b i IN) as (x & X & _). apply (like_term f0 g i); auto. apply I. congruence. }
    assert (NB : forall b, f_block g b = None -> f_block f0 b = None) by (intros b Z; destruct (f_block f0 b) eqn:Q; auto; exfalso; apply (ci_dom _ _ _ _ _ I b); congruence).
    assert (NI : forall i, f_insn g i = None -> f_insn f0 i = None) by (intros i Z; destruct (f_insn f0 i) eqn:Q; auto; exfalso; apply (LV i); congruence).
    intros c [<-|K].
    + destruct (cs_woven _ _ _ _ _ S) as (body & tail & ld & ad & st & j & eb & nb & xj & E1 & E2 & E3 & E4 & E5 & E6 & E7 & E8 & E9 & E10 & E11).
      rewrite (ci_rest _ _ _ _ _ I bb B N) in E1. rewrite (ci_succs _ _ _ _ _ I bb B N) in E11.
      exists body, tail, ld, ad, st, j, eb, nb, xj. do 9 (split; auto). split.
      { intros i IN T. apply (E10 i IN). apply (like_term f0 g i); auto. apply I. destruct T as (x & X & _). congruence. }
      destruct E11 as [E11|(i & F1 & F2 & F3 & F4 & F5 & F6)]; [now left|]. right. exists i. split; auto. split; [apply (TB bb); auto; rewrite E1, F1; apply in_or_app; right; now left|]. auto 6.
    + assert (CN : c <> bb) by (intros ->; contradiction). destruct (ci_done _ _ _ _ _ I c K) as (BC & _).
      destruct (ci_woven _ _ _ _ _ I c K) as (body & tail & ld & ad & st & j & eb & nb & xj & E1 & E2 & E3 & E4 & E5 & E6 & E7 & E8 & E9 & E10 & E11).
      assert (XJ : f_insn g j <> None) by congruence. destruct (like_insn g h j xj (cs_live _ _ _ _ _ S j XJ) E4) as (yj & YJ & _ & _ & _ & _ & Y1 & _).
      exists body, tail, ld, ad, st, j, eb, nb, yj. split; auto. split; [rewrite (cs_other _ _ _ _ _ S); auto; apply I; exact BC|].
      split; [eapply check_like; [apply (cs_live _ _ _ _ _ S)| |exact E3]; apply (cs_other _ _ _ _ _ S); [intros ->; contradiction|exact E8]|].
      split; [exact YJ|]. split; [congruence|]. split; auto. split; auto. split; [apply (cs_dom _ _ _ _ _ S); exact E8|]. split; auto. split; auto.
      destruct E11 as [E11|(i & F1 & F2 & F3 & F4 & F5 & F6)]; [now left|]. right. exists i. split; auto. split; auto. split; auto. split; [apply (cs_dom _ _ _ _ _ S); exact F4|].
      assert (NX : nb <> bb) by (intros ->; contradiction). split; [rewrite (cs_other _ _ _ _ _ S); auto|rewrite (cs_succs _ _ _ _ _ S); auto].
  - intros c K1 K2. rewrite (cs_succs _ _ _ _ _ S); [apply I; auto; intros Q; apply K2; now right|intros ->; apply K2; now left|apply I; exact K1].
Qed.

(** * Cycles *)
Lemma rpath_tail f a l : rpath f (a ++ l) -> l <> [] -> rpath f l.
Proof.
  induction a as [|x a IH]; intros H N; auto. apply IH; auto. cbn in H. inversion H as [Z|b l' c R G Z]; auto.
  destruct a; cbn in *; [congruence|discriminate].
Qed.
Lemma rpath_last f l : rpath f l -> forall x, (exists a, l = a ++ [x]) -> x = f_entry f.
Proof.
  induction 1 as [|b l c R IH G]; intros x (a & E).
  - destruct a as [|y a]; cbn in E; [congruence|]. destruct a; discriminate.
  - destruct a as [|y a]; cbn in E; [discriminate|]. injection E as _ E. apply IH. eauto.
Qed.
Lemma no_cycle g (done : list nat) :
  (forall q, ~ goes g q (f_entry g)) ->
  (forall c l z r, rpath g (c :: l) -> ~ In c done -> ~ In z done -> ~ In r done -> goes g z c -> goes g r z -> forall q, goes g q c -> q = z) ->
  forall l3 x l2, rpath g (x :: l2 ++ x :: l3) -> (forall c, In c (x :: l2) -> ~ In c done) -> False.
Proof.
  intros HE HU. induction l3 as [|y l3 IH]; intros x l2 R U.
  - assert (E : x = f_entry g) by (apply (rpath_last g _ R); exists (x :: l2); reflexivity).
    destruct l2 as [|z l2]; cbn in R; inversion R; subst; eapply HE; eauto.
  - assert (RX : rpath g (x :: y :: l3)). { apply (rpath_tail g (x :: l2)); [exact R|discriminate]. }
    assert (GY : goes g y x) by (inversion RX; auto).
    destruct l2 as [|z l2].
    + cbn in R. assert (G : goes g x x) by (inversion R; auto).
      assert (E : y = x). { eapply (HU x _ x x R); eauto; apply U; now left. }
      subst y. apply (IH x []); auto.
    + cbn in R. assert (G : goes g z x) by (inversion R; auto).
      assert (GR : exists r, In r (x :: z :: l2) /\ goes g r z).
      { assert (R' : rpath g (z :: l2 ++ x :: y :: l3)) by (inversion R; auto). destruct l2 as [|r l2]; cbn in R'; inversion R'; subst; eauto.
        - exists x. split; [now left|auto].
        - exists r. split; [right; right; now left|auto]. }
      destruct GR as (r & IR & GR).
      assert (E : y = z). { eapply (HU x _ z r R); eauto; apply U; cbn; auto. }
      subst y. apply (IH z (l2 ++ [x])).
      * rewrite <- app_assoc. cbn. inversion R; auto.
      * intros c IC. apply U. cbn in IC. destruct IC as [<-|IC]; [right; now left|]. apply in_app_or in IC as [IC|[<-|[]]]; [right; right; auto|now left].
Qed.

(** * Counting *)
Lemma dup_split (l : list nat) : NoDup l \/ exists x l1 l2 l3, l = l1 ++ x :: l2 ++ x :: l3.
Proof.
  induction l as [|a l IH]; [left; constructor|]. destruct IH as [N|(x & l1 & l2 & l3 & ->)].
  - destruct (in_dec Nat.eq_dec a l) as [Y|Y]; [right|left; constructor; auto]. apply in_split in Y as (l2 & l3 & ->). exists a, [], l2, l3. reflexivity.
  - right. exists x, (a :: l1), l2, l3. reflexivity.
Qed.
Definition countd (done l : list nat) : nat := length (filter (fun c => existsb (Nat.eqb c) done) l).
Lemma existsb_in c l : existsb (Nat.eqb c) l = true <-> In c l.
Proof.
  rewrite existsb_exists. split; [intros (y & Y & Q); apply Nat.eqb_eq in Q; congruence|]. intros Y. exists c. split; auto. apply Nat.eqb_refl.
Qed.
Lemma countd_cons done c l : countd done (c :: l) = (if existsb (Nat.eqb c) done then 1 else 0) + countd done l.
Proof. unfold countd. cbn. destruct (existsb _ _); reflexivity. Qed.
Lemma first_checked (done l : list nat) : (forall c, In c l -> ~ In c done) \/ exists w c l', l = w ++ c :: l' /\ (forall x, In x w -> ~ In x done) /\ In c done.
Proof.
  induction l as [|a l IH]; [left; intros c []|]. destruct (in_dec Nat.eq_dec a done) as [I|I].
  - right. exists [], a, l. split; [reflexivity|]. split; [intros x []|exact I].
  - destruct IH as [IH|(w & c & l' & -> & A & B)].
    + left. intros c [<-|K]; auto.
    + right. exists (a :: w), c, l'. split; [reflexivity|]. split; [intros x [<-|K]; auto|exact B].
Qed.
Lemma countd_app done a b : countd done (a ++ b) = countd done a + countd done b.
Proof. unfold countd. rewrite filter_app, app_length. reflexivity. Qed.
Lemma countd_none done w : (forall x, In x w -> ~ In x done) -> countd done w = 0.
Proof.
  induction w as [|a w IH]; intros H; auto. rewrite countd_cons. rewrite IH by (intros x K; apply H; now right).
  destruct (existsb (Nat.eqb a) done) eqn:E; auto. exfalso. apply existsb_in in E. apply (H a); auto. now left.
Qed.
Lemma windows (done : list nat) M : forall n (l : list nat), length l <= n -> (forall a w b, l = a ++ w ++ b -> (forall c, In c w -> ~ In c done) -> length w <= M) ->
  length l <= countd done l + (countd done l + 1) * M.
Proof.
  induction n as [|n IH]; intros l Ln H.
  - destruct l; [cbn; lia|cbn in Ln; lia].
  - destruct (first_checked done l) as [U|(w & c & l' & -> & U & D)].
    + assert (K := H [] l [] ltac:(rewrite app_nil_r; reflexivity) U). lia.
    + assert (K := H [] w (c :: l') eq_refl U).
      rewrite app_length in *. cbn in Ln |- *. assert (L' : length l' <= n) by lia.
      assert (K' := IH l' L'). rewrite countd_app, countd_none, countd_cons by auto. rewrite (proj2 (existsb_in c done) D).
      assert (K'' : length l' <= countd done l' + (countd done l' + 1) * M).
      { apply K'. intros a w' b E. apply (H (w ++ c :: a) w' b). rewrite E, <- !app_assoc. reflexivity. }
      nia.
Qed.

(** * Variables *)
Definition not_to (cell : nat) (g : func) (i : nat) : Prop :=
  forall x t v, f_insn g i = Some x -> i_op x = STORE -> i_vals x = [t; v] -> v_data t <> VInsn cell.
Definition out_state (q : sres) : sst := match q with SNext s | SJmp _ s | SRet _ s | SThrow s => s end.
Lemma sexec_var cell w bi g i x s q : not_to cell g i -> f_insn g i = Some x -> sexec w bi g i x s = Some q -> s_var (out_state q) cell = s_var s cell.
Proof.
  intros N X E. unfold sexec, obind in E.
  assert (K : i_op x <> STORE \/ i_op x = STORE) by (destruct (iop_eq_dec (i_op x) STORE); auto).
  destruct K as [K|K].
  - destruct (i_op x); try congruence; cbn [alu_op_of cmp_op_of] in E; revert E;
    repeat match goal with |- match ?e with _ => _ end = _ -> _ => destruct e end; intros E; try discriminate E; injection E as <-; reflexivity.
  - rewrite K in E. destruct (i_vals x) as [|t [|v [|? ?]]] eqn:V; try discriminate.
    assert (ND := N x t v X K V). destruct (v_data t); try discriminate.
    destruct (f_insn g i0); try discriminate. destruct (iop_eqb _ _); try discriminate. destruct (vr_bytes _); try discriminate. destruct (seval _ _ _); try discriminate.
    injection E as <-. cbn. unfold eupd. destruct (Nat.eqb_spec cell i0); congruence.
Qed.
Lemma sbody_var cell w bi g : forall l s q, (forall i, In i l -> not_to cell g i) -> sbody w bi g s l = Some q -> s_var (out_state q) cell = s_var s cell.
Proof.
  induction l as [|i l IH]; intros s q H E; cbn in E; unfold obind in E; [injection E as <-; reflexivity|].
  destruct (f_insn g i) as [x|] eqn:X; [|discriminate]. destruct (sexec w bi g i x s) as [t|] eqn:EX; [|discriminate].
  assert (K := sexec_var cell w bi g i x s t (H i (or_introl eq_refl)) X EX).
  destruct t as [s1|b s1|z s1|s1]; [|injection E as <-; exact K..].
  cbn in K. rewrite <- K. apply IH; auto. intros k IK. apply H. now right.
Qed.
Lemma sphis_var cell bi g prev s0 : forall l s rest s1, sphis bi g prev s0 s l = Some (rest, s1) -> s_var s1 cell = s_var s cell.
Proof.
  induction l as [|i l IH]; intros s rest s1 E; cbn in E; unfold obind in E; [injection E as <- <-; reflexivity|].
  destruct (f_insn g i) as [x|]; [|discriminate]. destruct (iop_eqb _ _); [|injection E as <- <-; reflexivity].
  destruct (incoming _ _); [|discriminate]. destruct (seval _ _ _); [|discriminate]. apply IH in E. exact E.
Qed.
Lemma sblock_var cell w bi g prev b s q : (forall i, In i (insns_of g b) -> not_to cell g i) -> sblock w bi g prev b s = Some q -> s_var (out_state q) cell = s_var s cell.
Proof.
  intros H E. unfold sblock, obind in E. unfold insns_of in H. destruct (f_block g b) as [k|]; [|discriminate].
  destruct (sphis bi g prev s s (b_insns k)) as [[l s1]|] eqn:P; [|discriminate].
  destruct (sbody w bi g s1 l) as [t|] eqn:SB; [|discriminate].
  assert (K1 := sphis_var cell _ _ _ _ _ _ _ _ P). assert (K2 : s_var (out_state t) cell = s_var s1 cell).
  { eapply sbody_var; [|exact SB]. intros i I. apply H. destruct (sphis_split _ _ _ _ _ _ _ _ P) as (ps & -> & _). apply in_or_app; auto. }
  rewrite K1 in K2. destruct t; [destruct (b_succs k); [discriminate|]|..]; injection E as <-; exact K2.
Qed.
(** the end of a counted block *)
Lemma check_run w bi g cell inc cnt limit ld ad st j eb y s s1 q xj v : (forall e, seval bi e inc = Some (u64 cnt)) -> check g cell (inc, limit) ld ad st j eb -> f_insn g cell = Some y -> i_op y = ALLOC -> i_vrt y = VR_32 ->
  s_var s cell = Some v -> (0 <= v <= limit)%Z -> (0 <= cnt)%Z -> (limit + cnt < 2 ^ 32)%Z ->
  sbody w bi g s [ld; ad; st] = Some (SNext s1) -> f_insn g j = Some xj -> sexec w bi g j xj s1 = Some q ->
  s_var s1 cell = Some (v + cnt)%Z /\
  q = SJmp (if limit <? v + cnt then eb else i_bb1 xj)%Z s1.
Proof.
  intros HI [(x1 & X1 & O1 & V1) (x2 & X2 & O2 & V2 & W2) (x3 & X3 & O3 & V3) (x4 & X4 & O4 & V4 & W4 & B4) _] Y OY RY SV R1 R2 R3 SB XJ EJ.
  rewrite X4 in XJ. injection XJ as ->. cbn [fst snd] in V2, V4.
  cbn [sbody] in SB. unfold obind in SB. rewrite X1 in SB. unfold sexec at 1 in SB. rewrite O1, V1 in SB. cbn [val_insn v_data] in SB. rewrite SV in SB. cbn [obind] in SB.
  rewrite X2 in SB. unfold sexec at 1 in SB. rewrite O2, V2, W2 in SB. cbn [alu_op_of cmp_op_of width_of obind] in SB. unfold seval at 1 in SB. cbn [val_insn v_data] in SB.
  unfold sres_ at 1 in SB. cbn [s_env] in SB. unfold eupd at 1 in SB. rewrite Nat.eqb_refl in SB. cbn [obind] in SB.
  rewrite HI in SB. cbn [obind] in SB.
  rewrite X3 in SB. unfold sexec at 1 in SB. rewrite O3, V3 in SB. cbn [val_insn v_data] in SB. rewrite Y in SB. cbn [obind] in SB. rewrite OY, RY in SB.
  unfold iop_eqb in SB. destruct (iop_eq_dec ALLOC ALLOC) as [_|NA]; [|congruence]. cbn [vr_bytes obind] in SB.
  unfold seval at 1 in SB. cbn [v_data val_insn] in SB. unfold sres_ at 1 in SB. cbn [s_env] in SB. unfold eupd at 1 in SB. rewrite Nat.eqb_refl in SB. cbn [obind] in SB.
  injection SB as SB.
  rename cnt into c.
  change (2 ^ 32)%Z with 4294967296%Z in R3.
  assert (Ec : u64 c = c) by (apply u64_small; change (2 ^ 64)%Z with 18446744073709551616%Z; lia).
  assert (Ev : u64 v = v) by (apply u64_small; change (2 ^ 64)%Z with 18446744073709551616%Z; lia).
  assert (Es : u64 (v + c) = (v + c)%Z) by (apply u64_small; change (2 ^ 64)%Z with 18446744073709551616%Z; lia).
  assert (T64 : forall z, (0 <= z < 2 ^ 33)%Z -> trunc true z = z).
  { intros z Z. unfold trunc, bits. apply Z.mod_small. change (2 ^ 64)%Z with 18446744073709551616%Z. change (2 ^ 33)%Z with 8589934592%Z in Z. lia. }
  change (2 ^ 33)%Z with 8589934592%Z in T64.
  assert (EA : alu_fn AAdd true (u64 v) (u64 c) = (v + c)%Z).
  { unfold alu_fn. rewrite Ev, Ec, (T64 v), (T64 c) by lia. apply T64. lia. }
  assert (V' : s_var s1 cell = Some (v + c)%Z).
  { rewrite <- SB. cbn [s_var]. unfold eupd. rewrite Nat.eqb_refl. f_equal. rewrite EA, Es. apply Z.mod_small. cbn. lia. }
  split; [exact V'|].
  unfold sexec in EJ. rewrite O4, V4, W4 in EJ. cbn [alu_op_of cmp_op_of width_of obind] in EJ. unfold seval at 1 in EJ. cbn [val_insn v_data] in EJ.
  assert (EE : s_env s1 ad = Some (v + c)%Z).
  { rewrite <- SB. cbn [s_env]. unfold sres_. cbn [s_env]. unfold eupd at 1. rewrite Nat.eqb_refl. f_equal. rewrite EA. exact Es. }
  rewrite EE in EJ. cbn [obind] in EJ. unfold seval in EJ. cbn [val_const32 v_data] in EJ. unfold const_val in EJ. cbn [v_bi val_const32 obind] in EJ.
  assert (El : u64 limit = limit) by (apply u64_small; change (2 ^ 64)%Z with 18446744073709551616%Z; lia).
  injection EJ as <-. f_equal. unfold cmp_fn. rewrite El, (T64 (v + c)%Z), (T64 limit) by lia. rewrite B4. reflexivity.
Qed.

(** * The counter variable *)
Record counter_at (f : func) (cell st0 : nat) (rest : list nat) : Prop := {
  ca_cell : exists y, f_insn f cell = Some y /\ i_op y = ALLOC /\ i_vrt y = VR_32;
  ca_st0 : exists x, f_insn f st0 = Some x /\ i_op x = STORE /\ i_vals x = [val_insn cell; val_const32 0];
  ca_entry : insns_of f (f_entry f) = cell :: st0 :: rest;
  ca_other : forall i, i <> st0 -> f_insn f i <> None -> not_to cell f i }.
Lemma not_to_like cell f g i : opt_like f g i -> not_to cell f i -> not_to cell g i.
Proof. intros L N y t v Y O V. destruct (like_back _ _ _ _ L Y) as (x & u & q & X & ->). cbn in O, V. exact (N x t v X O V). Qed.
Lemma init_run cell st0 w bi g l s q y x : f_insn g cell = Some y -> i_op y = ALLOC -> i_vrt y = VR_32 ->
  f_insn g st0 = Some x -> i_op x = STORE -> i_vals x = [val_insn cell; val_const32 0] ->
  (forall i, In i l -> not_to cell g i) -> sbody w bi g s (cell :: st0 :: l) = Some q -> s_var (out_state q) cell = Some 0%Z.
Proof.
  intros Y OY RY X OX VX N E. cbn [sbody] in E. unfold obind in E. rewrite Y in E. unfold sexec at 1 in E. rewrite OY in E. cbn [obind] in E.
  rewrite X in E. unfold sexec at 1 in E. rewrite OX, VX in E. cbn [val_insn v_data obind] in E. rewrite Y in E. cbn [obind] in E. rewrite OY, RY in E.
  unfold iop_eqb in E. destruct (iop_eq_dec ALLOC ALLOC) as [_|NA]; [|congruence]. cbn [vr_bytes obind] in E.
  unfold seval at 1 in E. cbn [val_const32 v_data] in E. unfold const_val in E. cbn [v_bi obind] in E.
  apply (sbody_var cell) in E; [|exact N]. rewrite E. cbn [s_var]. unfold eupd. rewrite Nat.eqb_refl. reflexivity.
Qed.
Lemma phis_prefix g : forall ps body l rest, ps ++ rest = body ++ l -> (forall i, In i ps -> is_phi g i) -> (forall i, In i l -> ~ is_phi g i) ->
  exists b2, rest = b2 ++ l /\ forall i, In i b2 -> In i body.
Proof.
  induction ps as [|p ps IH]; intros body l rest E H N; cbn in E.
  - exists body. auto.
  - destruct body as [|b body]; cbn in E.
    + destruct l as [|x l]; [discriminate|]. injection E as -> E. exfalso. apply (N x); [now left|apply H; now left].
    + injection E as -> E. destruct (IH body l rest E) as (b2 & -> & K); [intros i I; apply H; now right|exact N|]. exists b2. split; auto. intros i I. right. auto.
Qed.

Section run.
Variables (w : world) (bi : bconst -> Z) (f0 g : func) (cell st0 : nat) (rest : list nat) (inc : value) (cnt limit : Z) (done : list nat).
Hypothesis C0 : cfg_ok f0.
Hypothesis I : cinv f0 g cell (inc, limit) done.
Hypothesis HI : forall e, seval bi e inc = Some (u64 cnt).
Hypothesis CA : counter_at f0 cell st0 rest.
Hypothesis NE : preds_of f0 (f_entry f0) = [].
Hypothesis CNT : (1 <= cnt)%Z.
Hypothesis LIM : (0 <= limit)%Z.
Hypothesis FIT : (limit + cnt < 2 ^ 32)%Z.

Lemma run_no_entry q : ~ goes g q (f_entry g).
Proof.
  intros G. apply (cf_goes _ (ci_cfg _ _ _ _ _ I)) in G. apply (proj1 (cf_mirror _ (ci_cfg _ _ _ _ _ I))) in G. rewrite (ci_entry _ _ _ _ _ I) in G.
  assert (L := ci_preds _ _ _ _ _ I (f_entry f0) (cf_entry _ C0)). rewrite NE in L. destruct (preds_of g (f_entry f0)); [exact G|discriminate].
Qed.
Lemma run_st0_at b : In st0 (insns_of f0 b) -> b = f_entry f0.
Proof.
  intros H. destruct (cf_linked _ C0 b st0 H) as (x & X & P). assert (H2 : In st0 (insns_of f0 (f_entry f0))) by (rewrite (ca_entry _ _ _ _ CA); right; now left).
  destruct (cf_linked _ C0 _ st0 H2) as (x2 & X2 & P2). congruence.
Qed.
Lemma run_old_insn b i : In i (insns_of f0 b) -> f_insn f0 i <> None.
Proof. intros H. destruct (cf_linked _ C0 b i H) as (x & X & _). congruence. Qed.
Lemma run_not_to b i : In i (insns_of f0 b) -> i <> st0 -> not_to cell g i.
Proof. intros H N. apply (not_to_like cell f0 g i); [apply I; eapply run_old_insn; eauto|apply CA; auto; eapply run_old_insn; eauto]. Qed.
Lemma run_cell : exists y, f_insn g cell = Some y /\ i_op y = ALLOC /\ i_vrt y = VR_32.
Proof.
  destruct (ca_cell _ _ _ _ CA) as (y & Y & O & R). assert (L : opt_like f0 g cell) by (apply I; congruence).
  destruct (like_insn _ _ _ _ L Y) as (z & Z & A1 & A2 & A3 & A4 & _). exists z. intuition congruence.
Qed.
Lemma run_st0 : exists x, f_insn g st0 = Some x /\ i_op x = STORE /\ i_vals x = [val_insn cell; val_const32 0].
Proof.
  destruct (ca_st0 _ _ _ _ CA) as (y & Y & O & R). assert (L : opt_like f0 g st0) by (apply I; congruence).
  destruct (like_insn _ _ _ _ L Y) as (z & Z & A1 & A2 & _). exists z. intuition congruence.
Qed.
Lemma run_rest_ne i : In i rest -> i <> st0.
Proof.
  intros H ->. assert (D := cf_once _ C0 (f_entry f0)). rewrite (ca_entry _ _ _ _ CA) in D. inversion D as [|? ? _ D2]; subst. inversion D2; contradiction.
Qed.
Lemma check_quiet ld ad st j eb : check g cell (inc, limit) ld ad st j eb -> (forall i, In i [ld; ad; st; j] -> ~ is_phi g i) /\
  (forall i, In i [ld; ad; st] -> ~ is_terminator g i) /\ is_terminator g j.
Proof.
  intros [(x1 & X1 & O1 & _) (x2 & X2 & O2 & _) (x3 & X3 & O3 & _) (x4 & X4 & O4 & _) _]. split; [|split].
  - intros i H (y & Y & P). cbn in H. destruct H as [<-|[<-|[<-|[<-|[]]]]]; congruence.
  - intros i H (y & Y & P). cbn in H. destruct H as [<-|[<-|[<-|[]]]].
    + rewrite X1 in Y. injection Y as <-. rewrite O1 in P. cbn in P. intuition discriminate.
    + rewrite X2 in Y. injection Y as <-. rewrite O2 in P. cbn in P. intuition discriminate.
    + rewrite X3 in Y. injection Y as <-. rewrite O3 in P. cbn in P. intuition discriminate.
  - exists x4. split; auto. rewrite O4. cbn. auto 10.
Qed.
(** one counted block: the value [v] before the check is advanced *)
Lemma counted_block b prev s b' s' v : In b done ->
  (b <> f_entry f0 -> s_var s cell = Some v) -> (b = f_entry f0 -> v = 0%Z) -> (0 <= v <= limit)%Z ->
  sblock w bi g prev b s = Some (SJmp b' s') ->
  s_var s' cell = Some (v + cnt)%Z /\ ((v + cnt <= limit)%Z \/ exists t x, insns_of g b' = [t] /\ f_insn g t = Some x /\ i_op x = THROW).
Proof.
  intros D SV SE R E. destruct (ci_done _ _ _ _ _ I b D) as (B & body & tail & ld & ad & st & j & eb & E1 & E2 & E3 & CK & _ & _).
  destruct (check_quiet _ _ _ _ _ CK) as (NP & NT & TJ). destruct run_cell as (y & Y & OY & RY). destruct run_st0 as (x0 & X0 & O0 & V0).
  assert (E3' : insns_of g b = (body ++ [ld; ad; st]) ++ [j]) by (rewrite E3, <- app_assoc; reflexivity).
  assert (NTB : forall i, In i (body ++ [ld; ad; st]) -> ~ is_terminator g i).
  { intros i IN T. apply in_split in IN as (l1 & l2 & Q). rewrite Q, <- app_assoc in E3'. cbn in E3'.
    assert (Z := cf_ends _ (ci_cfg _ _ _ _ _ I) b l1 i _ E3' T). destruct l2; discriminate. }
  assert (NPJ : ~ is_phi g j) by (apply NP; cbn; auto).
  destruct (sblock_last w bi g prev b s _ j _ E3' NPJ NTB TJ E) as (rs & s1 & s2 & xj & PH & SB & (ps & PS & PP) & XJ & EJ).
  assert (V1 := sphis_var cell _ _ _ _ _ _ _ _ PH).
  destruct (phis_prefix g ps body [ld; ad; st] rs (eq_sym PS) PP) as (b2 & -> & SUB).
  { intros i H. apply NP. cbn in *. tauto. }
  destruct (sbody_app _ _ _ _ _ _ _ SB) as [(s3 & SB1 & SB2)|(_ & Z)]; [|exfalso; eapply Z; reflexivity].
  assert (V3 : s_var s3 cell = Some v).
  { destruct (Nat.eq_dec b (f_entry f0)) as [Q|Q].
    - subst b. rewrite (SE eq_refl). rewrite (ca_entry _ _ _ _ CA) in E1.
      assert (BE : exists body', body = cell :: st0 :: body').
      { destruct body as [|a [|a2 body]]; cbn in E1.
        - destruct E2 as [->|(i & -> & _)]; discriminate.
        - destruct E2 as [->|(i & -> & T)]; [discriminate|]. injection E1 as -> -> RN.
          destruct T as (z & Z & T). destruct (ca_st0 _ _ _ _ CA) as (z2 & Z2 & O2 & _). rewrite Z2 in Z. injection Z as <-. rewrite O2 in T. cbn in T. intuition discriminate.
        - injection E1 as -> -> _. eauto. }
      destruct BE as (body' & ->). injection E1 as E1.
      destruct ps as [|p ps].
      + cbn in PS. change (cell :: st0 :: body' ++ [ld; ad; st]) with ((cell :: st0 :: body') ++ [ld; ad; st]) in PS.
        apply app_inv_tail in PS. subst b2.
        apply (init_run cell st0 w bi g body' s1 (SNext s3) y x0 Y OY RY X0 O0 V0) in SB1; [exact SB1|].
        intros i H. apply (run_not_to (f_entry f0)); [rewrite (ca_entry _ _ _ _ CA), E1; right; right; apply in_or_app; now left|].
        apply run_rest_ne. rewrite E1. apply in_or_app. now left.
      + cbn in PS. injection PS as <- _. destruct (PP cell (or_introl eq_refl)) as (z & Z & T). congruence.
    - apply (sbody_var cell) in SB1; [cbn in SB1; rewrite SB1, V1; auto|]. intros i H. apply SUB in H.
      assert (IB : In i (insns_of f0 b)) by (rewrite E1; apply in_or_app; now left). apply (run_not_to b); auto.
      intros ->. apply Q. apply run_st0_at. exact IB. }
  assert (CN : (0 <= cnt)%Z) by lia.
  destruct (check_run w bi g cell inc cnt limit ld ad st j eb y s3 s2 _ xj v HI CK Y OY RY V3 R CN FIT SB2 XJ EJ) as (W1 & W2).
  injection W2 as -> ->. split; [exact W1|]. destruct (limit <? v + cnt)%Z eqn:LT; [right|left; apply Z.ltb_ge; exact LT].
  destruct (ck_eb _ _ _ _ _ _ _ _ CK) as (t & x & T & X & O & _). eauto.
Qed.
(** one block without check *)
Lemma other_block b prev s b' s' v : ~ In b done -> f_block g b <> None ->
  (b <> f_entry f0 -> s_var s cell = Some v) -> (b = f_entry f0 -> v = 0%Z) ->
  sblock w bi g prev b s = Some (SJmp b' s') -> s_var s' cell = Some v.
Proof.
  intros D BG SV SE E. destruct (Nat.eq_dec b (f_entry f0)) as [Q|Q].
  - subst b. rewrite (SE eq_refl). assert (R := ci_rest _ _ _ _ _ I _ (cf_entry _ C0) D). rewrite (ca_entry _ _ _ _ CA) in R.
    destruct run_cell as (y & Y & OY & RY). destruct run_st0 as (x0 & X0 & O0 & V0).
    unfold sblock, obind in E. unfold insns_of in R. destruct (f_block g (f_entry f0)) as [k|]; [|discriminate]. rewrite R in E.
    cbn [sphis] in E. unfold obind in E. rewrite Y, OY in E. unfold iop_eqb in E. destruct (iop_eq_dec ALLOC PHI) as [Z|_]; [discriminate|].
    destruct (sbody w bi g s (cell :: st0 :: rest)) as [t|] eqn:SB; [|discriminate].
    apply (init_run cell st0 w bi g rest s t y x0 Y OY RY X0 O0 V0) in SB.
    + destruct t; [destruct (b_succs k); [discriminate|]| | |]; try discriminate; injection E as <- <-; exact SB.
    + intros i H. apply (run_not_to (f_entry f0)); [rewrite (ca_entry _ _ _ _ CA); right; now right|apply run_rest_ne; exact H].
  - rewrite <- (SV Q). apply (sblock_var cell w bi g prev b s (SJmp b' s')); [|exact E]. intros i H.
    destruct (f_block f0 b) eqn:B0.
    + rewrite (ci_rest _ _ _ _ _ I b) in H by congruence. apply (run_not_to b); auto. intros ->. apply Q. apply run_st0_at. exact H.
    + destruct (ci_new _ _ _ _ _ I b B0 BG) as (_ & T). destruct (T i H) as (z & Z & IN). intros z2 t v2 Z2 O. rewrite Z2 in Z. injection Z as <-. rewrite O in IN. cbn in IN. intuition discriminate.
Qed.

Lemma sblock_goes prev b s b' s' : sblock w bi g prev b s = Some (SJmp b' s') -> goes g b b'.
Proof. apply block_goes. Qed.
Lemma goes_block b b' : goes g b b' -> f_block g b <> None /\ f_block g b' <> None.
Proof.
  intros G. apply (cf_goes _ (ci_cfg _ _ _ _ _ I)) in G. split.
  - intros Z. unfold succs_of in G. rewrite Z in G. exact G.
  - apply (proj1 (cf_mirror _ (ci_cfg _ _ _ _ _ I))) in G. intros Z. unfold preds_of in G. rewrite Z in G. exact G.
Qed.

Lemma run_count s0 : forall n prev b s, srun w bi g n 0 (f_entry g) s0 = Some (OAt prev b s) ->
  exists l, rpath g (b :: l) /\ length l = n /\
    ((n = 0 /\ l = [] /\ b = f_entry f0) \/
     (b <> f_entry f0 /\ s_var s cell = Some (Z.of_nat (countd done l) * cnt)%Z /\
      ((Z.of_nat (countd done l) * cnt <= limit)%Z \/
       (Z.of_nat (countd done l) * cnt <= limit + cnt)%Z /\ exists t x, insns_of g b = [t] /\ f_insn g t = Some x /\ i_op x = THROW))).
Proof.
  induction n as [|n IH]; intros prev b s H.
  - cbn in H. injection H as <- <- <-. exists []. split; [constructor|]. split; auto. left. split; auto. split; auto. apply I.
  - destruct (srun_last _ _ _ _ _ _ _ _ _ _ H) as (q & t & R & SBK). destruct (IH _ _ _ R) as (l & RP & LE & ST).
    assert (G := sblock_goes _ _ _ _ _ SBK). destruct (goes_block _ _ G) as (B1 & B2).
    exists (prev :: l). split; [constructor; auto|]. split; [cbn; congruence|]. right.
    assert (BN : b <> f_entry f0). { intros ->. apply (run_no_entry prev). rewrite (ci_entry _ _ _ _ _ I). exact G. }
    split; auto.
    set (v := (Z.of_nat (countd done l) * cnt)%Z) in *.
    assert (K : (prev <> f_entry f0 -> s_var t cell = Some v) /\ (prev = f_entry f0 -> v = 0%Z) /\ (0 <= v <= limit)%Z).
    { destruct ST as [(-> & -> & ->)|(N1 & S1 & [L1|(_ & tt & x & T1 & T2 & T3)])].
      - subst v. cbn. split; [congruence|]. split; auto. lia.
      - split; auto. split; [congruence|]. subst v. lia.
      - exfalso. unfold sblock, obind in SBK. unfold insns_of in T1. destruct (f_block g prev) as [k|]; [|discriminate]. rewrite T1 in SBK.
        cbn [sphis] in SBK. unfold obind in SBK. rewrite T2, T3 in SBK. unfold iop_eqb in SBK. destruct (iop_eq_dec THROW PHI) as [Z|_]; [discriminate|].
        cbn [sbody] in SBK. unfold obind in SBK. rewrite T2 in SBK. unfold sexec in SBK. rewrite T3 in SBK. destruct (i_vals x) as [|? [|? [|? ?]]]; cbn in SBK; discriminate SBK. }
    destruct K as (K1 & K2 & K3). destruct (in_dec Nat.eq_dec prev done) as [D|D].
    + destruct (counted_block prev q t b s v D K1 K2 K3 SBK) as (W1 & W2). rewrite countd_cons, (proj2 (existsb_in prev done) D).
      assert (EQ : (Z.of_nat (1 + countd done l) * cnt = v + cnt)%Z) by (subst v; lia). rewrite EQ. split; auto.
      destruct W2 as [W2|W2]; [now left|right]. split; [lia|exact W2].
    + rewrite countd_cons. destruct (existsb (Nat.eqb prev) done) eqn:Z; [apply existsb_in in Z; contradiction|]. cbn [Nat.add]. fold v.
      split; [eapply (other_block prev q t b s v); eauto|]. left. lia.
Qed.
Lemma run_bound s0 n prev b s : srun w bi g n 0 (f_entry g) s0 = Some (OAt prev b s) ->
  exists l, rpath g (b :: l) /\ length l = n /\ (Z.of_nat (countd done l) <= limit + 1)%Z.
Proof.
  intros H. destruct (run_count _ _ _ _ _ H) as (l & A & B & ST). exists l. split; auto. split; auto.
  destruct ST as [(-> & -> & _)|(_ & _ & [L|(L & _)])]; [cbn; lia| |]; nia.
Qed.
End run.

(** * Paths *)
Section paths.
Variables (f0 g : func) (cell : nat) (limit : value * Z) (done reach : list nat).
Hypothesis C0 : cfg_ok f0.
Hypothesis I : cinv f0 g cell limit done.
Hypothesis NE : preds_of f0 (f_entry f0) = [].
Hypothesis RE : In (f_entry f0) reach.
Hypothesis RN : forall b c, In b reach -> In c (succs_of f0 b) -> In c reach.
Hypothesis HM : forall c, In c reach -> In c done \/ length (preds_of f0 c) <= 1 \/ forall q, In q (preds_of f0 c) -> In q done.

Lemma pred_orig c q : In q (preds_of f0 c) -> f_block f0 q <> None.
Proof. intros H Z. apply (proj1 (cf_mirror _ C0)) in H. unfold succs_of in H. rewrite Z in H. exact H. Qed.
Lemma goes_pred q c : goes g q c -> In q (preds_of g c) /\ f_block g c <> None.
Proof.
  intros G. apply (cf_goes _ (ci_cfg _ _ _ _ _ I)) in G. apply (proj1 (cf_mirror _ (ci_cfg _ _ _ _ _ I))) in G. split; auto.
  intros Z. unfold preds_of in G. rewrite Z in G. exact G.
Qed.
Lemma path_reach : forall n l c, length l <= n -> rpath g (c :: l) -> f_block f0 c <> None -> In c reach.
Proof.
  induction n as [|n IH]; intros l c Ln R B.
  - destruct l; [|cbn in Ln; lia]. inversion R; subst. rewrite (ci_entry _ _ _ _ _ I). exact RE.
  - inversion R as [Z|b l' c' R' G Z]; subst; [rewrite (ci_entry _ _ _ _ _ I); exact RE|].
    destruct (goes_pred _ _ G) as (P & BG). destruct (ci_from _ _ _ _ _ I c b B P) as [F|(F1 & x & F2 & F3 & F4)].
    + eapply RN; [|apply (proj1 (cf_mirror _ C0)); exact F]. apply (IH l' b); auto; [cbn in Ln; lia|eapply pred_orig; eauto].
    + inversion R' as [Z|b2 l2 c2 R2 G2 Z]; subst.
      * rewrite (ci_entry _ _ _ _ _ I) in F1. exfalso. apply (cf_entry _ C0). exact F1.
      * destruct (goes_pred _ _ G2) as (P2 & _). rewrite F3 in P2. destruct P2 as [<-|[]].
        eapply RN; [|apply (proj1 (cf_mirror _ C0)); exact F4]. apply (IH l2 x); auto; [cbn in Ln; lia|]. eapply pred_orig; eauto.
Qed.
Lemma one_way c l z r : rpath g (c :: l) -> ~ In c done -> ~ In z done -> ~ In r done -> goes g z c -> goes g r z -> forall q, goes g q c -> q = z.
Proof.
  intros R Nc Nz Nr Gz Gr q Gq. destruct (goes_pred _ _ Gz) as (Pz & BG). destruct (goes_pred _ _ Gq) as (Pq & _). destruct (goes_pred _ _ Gr) as (Pr & _).
  destruct (f_block f0 c) eqn:B.
  - assert (B' : f_block f0 c <> None) by congruence.
    assert (Z0 : In z (preds_of f0 c)).
    { destruct (ci_from _ _ _ _ _ I c z B' Pz) as [F|(F1 & x & F2 & F3 & F4)]; auto. rewrite F3 in Pr. destruct Pr as [<-|[]]. contradiction. }
    assert (L := ci_preds _ _ _ _ _ I c B').
    destruct (HM c) as [H|[H|H]]; [eapply path_reach; eauto|contradiction| |exfalso; apply Nz; auto].
    rewrite <- L in H. destruct (preds_of g c) as [|y [|? ?]]; [destruct Pz| |cbn in H; lia]. destruct Pz as [<-|[]], Pq as [<-|[]]. reflexivity.
  - destruct (ci_new _ _ _ _ _ I c B BG) as ((x & X & P) & _). rewrite P in Pz. destruct Pz as [<-|[]]. contradiction.
Qed.
Lemma paths_no_entry q : ~ goes g q (f_entry g).
Proof.
  intros G. destruct (goes_pred _ _ G) as (P & _). rewrite (ci_entry _ _ _ _ _ I) in P.
  assert (L := ci_preds _ _ _ _ _ I (f_entry f0) (cf_entry _ C0)). rewrite NE in L. destruct (preds_of g (f_entry f0)); [exact P|discriminate].
Qed.
Lemma counted_cycle x l2 l3 : rpath g (x :: l2 ++ x :: l3) -> exists c, In c (x :: l2) /\ In c done.
Proof.
  intros R. destruct (first_checked done (x :: l2)) as [U|(w & c & l' & E & _ & D)].
  - exfalso. exact (no_cycle g done paths_no_entry one_way l3 x l2 R U).
  - exists c. split; auto. rewrite E. apply in_or_app. right. now left.
Qed.
Lemma done_check c : In c done -> has_check g cell limit c.
Proof.
  intros D. destruct (ci_done _ _ _ _ _ I c D) as (_ & body & tail & ld & ad & st & j & eb & _ & _ & E & CK & _). exists body, ld, ad, st, j, eb. auto.
Qed.
Lemma path_blocks l : rpath g l -> forall c, In c l -> f_block g c <> None.
Proof.
  induction 1 as [|b l c R IH G]; intros x [<-|H].
  - apply (cf_entry _ (ci_cfg _ _ _ _ _ I)).
  - destruct H.
  - apply (goes_pred _ _ G).
  - apply IH. exact H.
Qed.
Lemma bound_of_cycles b l : (forall x l2 l3, rpath g (x :: l2 ++ x :: l3) -> (forall c, In c (x :: l2) -> ~ In c done) -> False) ->
  rpath g (b :: l) -> length l <= countd done l + (countd done l + 1) * f_nb g.
Proof.
  intros CY R. apply (windows done (f_nb g) (length l)); auto. intros a w r E U.
  assert (ND : NoDup w).
  { destruct (dup_split w) as [Y|(x & l1 & l2 & l3 & Q)]; auto. exfalso. subst w. rewrite E in R.
    assert (R2 : rpath g (x :: l2 ++ x :: (l3 ++ r))).
    { apply (rpath_tail g (b :: a ++ l1)); [|discriminate]. cbn. repeat (rewrite <- app_assoc in R; cbn in R). rewrite <- !app_assoc. cbn. exact R. }
    apply (CY _ _ _ R2). intros c H. apply U. apply in_or_app. right. cbn in H |- *. destruct H as [<-|H]; [now left|right]. apply in_or_app. now left. }
  assert (IN : incl w (seq 0 (f_nb g))).
  { intros c H. apply in_seq. assert (B : f_block g c <> None) by (apply (path_blocks _ R); right; rewrite E; apply in_or_app; right; apply in_or_app; now left).
    split; [lia|]. destruct (Nat.lt_ge_cases c (f_nb g)) as [Q|Q]; [lia|]. exfalso. apply B. apply (proj2 (cf_fresh _ (ci_cfg _ _ _ _ _ I))). exact Q. }
  assert (L := NoDup_incl_length ND IN). rewrite seq_length in L. exact L.
Qed.
Lemma path_bound b l : rpath g (b :: l) -> length l <= countd done l + (countd done l + 1) * f_nb g.
Proof. apply bound_of_cycles. intros x l2 l3. apply (no_cycle g done paths_no_entry one_way). Qed.
End paths.

(** * The pass *)
Record same_graph (f g : func) : Prop := {
  sg_insn : forall i, f_insn g i = f_insn f i;
  sg_ni : f_ni g = f_ni f; sg_nb : f_nb g = f_nb f; sg_entry : f_entry g = f_entry f;
  sg_dom : forall c, f_block g c = None <-> f_block f c = None;
  sg_insns : forall c, insns_of g c = insns_of f c;
  sg_preds : forall c, preds_of g c = preds_of f c;
  sg_succs : forall c, succs_of g c = succs_of f c }.
Lemma same_refl f : same_graph f f.
Proof. constructor; auto; tauto. Qed.
Lemma same_trans f g h : same_graph f g -> same_graph g h -> same_graph f h.
Proof.
  intros A B. destruct A, B. constructor; try congruence; intros; try congruence. rewrite sg_dom1. apply sg_dom0.
Qed.
Lemma same_term f g i : same_graph f g -> is_terminator g i -> is_terminator f i.
Proof. intros A (x & X & T). exists x. rewrite <- (sg_insn _ _ A). auto. Qed.
Lemma same_cfg f g : same_graph f g -> cfg_ok f -> cfg_ok g.
Proof.
  intros A C. constructor.
  - destruct (cf_mirror _ C) as (M1 & M2 & M3). split; [|split].
    + intros a b. rewrite (sg_succs _ _ A), (sg_preds _ _ A). apply M1.
    + intros a. rewrite (sg_succs _ _ A). apply M2.
    + intros a. rewrite (sg_preds _ _ A). apply M3.
  - destruct (cf_fresh _ C) as (F1 & F2). split; intros i H.
    + rewrite (sg_insn _ _ A). apply F1. rewrite <- (sg_ni _ _ A). exact H.
    + apply (sg_dom _ _ A). apply F2. rewrite <- (sg_nb _ _ A). exact H.
  - intros b i H. rewrite (sg_insns _ _ A) in H. rewrite (sg_insn _ _ A). apply (cf_linked _ C b i H).
  - intros b. rewrite (sg_insns _ _ A). apply C.
  - intros b c G. rewrite (sg_succs _ _ A). apply (cf_goes _ C). destruct G as [i x H X O|i x k H X O|i x k H X O|c l H].
    + rewrite (sg_insns _ _ A) in H. rewrite (sg_insn _ _ A) in X. econstructor 1; eauto.
    + rewrite (sg_insns _ _ A) in H. rewrite (sg_insn _ _ A) in X. econstructor 2; eauto.
    + rewrite (sg_insns _ _ A) in H. rewrite (sg_insn _ _ A) in X. econstructor 3; eauto.
    + rewrite (sg_succs _ _ A) in H. econstructor 4; eauto.
  - intros b l1 i l2 E T. rewrite (sg_insns _ _ A) in E. eapply (cf_ends _ C); eauto. eapply same_term; eauto.
  - rewrite (sg_entry _ _ A). intros Z. apply (sg_dom _ _ A) in Z. apply (cf_entry _ C). exact Z.
Qed.
Lemma same_counter f g cell st0 rest : same_graph f g -> counter_at f cell st0 rest -> counter_at g cell st0 rest.
Proof.
  intros A [H1 H2 H3 H4]. constructor.
  - rewrite (sg_insn _ _ A). exact H1.
  - rewrite (sg_insn _ _ A). exact H2.
  - rewrite (sg_entry _ _ A), (sg_insns _ _ A). exact H3.
  - intros i N L. rewrite (sg_insn _ _ A) in L. intros x t v X O V. rewrite (sg_insn _ _ A) in X. exact (H4 i N L x t v X O V).
Qed.

Lemma make_counter_ok f f0 cell : cfg_ok f -> operands_live f -> make_counter f = Ok (f0, cell) ->
  exists st0, counter_at f0 cell st0 (insns_of f (f_entry f)) /\ cfg_ok f0 /\ f_entry f0 = f_entry f /\
    (forall c, f_block f0 c = None <-> f_block f c = None) /\ (forall c, preds_of f0 c = preds_of f c) /\ (forall c, succs_of f0 c = succs_of f c).
Proof.
  intros C OL E. unfold make_counter in E. apply bind_ok in E as ((f1 & a) & E1 & E). cbn [fst snd] in E.
  apply bind_ok in E as ((f2 & st) & E2 & E). cbn [fst snd] in E. injection E as -> ->.
  assert (G1 := grown_bb _ _ _ _ _ _ (cf_entry _ C) E1 (or_intror eq_refl)). cbn match in G1.
  assert (T1 : insns_of f (f_entry f) = [] -> forall j, In j (@nil nat) -> ~ is_terminator f j) by (intros _ j []).
  assert (Q1 : quiet_op (i_op (build 0 (K_alloc VR_32)))) by (split; [discriminate|cbn; intuition discriminate]).
  assert (C1 : cfg_ok f1). { exact (grown_cfg f f1 cell (f_entry f) _ [] (insns_of f (f_entry f)) C (cf_entry _ C) eq_refl G1 Q1 T1). }
  destruct (gr_new _ _ _ _ _ _ G1) as (u1 & X1).
  assert (I1 := gr_insns _ _ _ _ _ _ G1 (f_entry f)). rewrite Nat.eqb_refl in I1.
  assert (B1 : f_block f1 (f_entry f) <> None) by (intros Z; apply (gr_dom _ _ _ _ _ _ G1) in Z; apply (cf_entry _ C); exact Z).
  assert (G2 : grown f1 f0 st (f_entry f) (K_store cell (val_const32 0)) (cell :: st :: insns_of f (f_entry f))).
  { refine (grown_at f1 cell _ _ P_BACK f0 st [] (insns_of f (f_entry f)) (cf_fresh _ C1) X1 _ _ _ _ _ _ E2); cbn; auto; discriminate. }
  assert (Q2 : quiet_op (i_op (build 0 (K_store cell (val_const32 0))))) by (split; [discriminate|cbn; intuition discriminate]).
  assert (C2 : cfg_ok f0).
  { apply (grown_cfg f1 f0 st (f_entry f) (K_store cell (val_const32 0)) [cell] (insns_of f (f_entry f)) C1 B1); auto.
    intros _ j [<-|[]] (x & X & T). rewrite X1 in X. injection X as <-. cbn in T. intuition discriminate. }
  assert (NE : cell <> st). { rewrite (gr_id _ _ _ _ _ _ G2), (gr_ni _ _ _ _ _ _ G1). lia. }
  exists st. split; [|split; [exact C2|split; [|split; [|split]]]].
  - constructor.
    + destruct (gr_old _ _ _ _ _ _ G2 cell NE) as (u & U). rewrite X1 in U. cbn in U. eexists. split; [exact U|]. split; reflexivity.
    + destruct (gr_new _ _ _ _ _ _ G2) as (u & U). eexists. split; [exact U|]. split; reflexivity.
    + rewrite (gr_entry _ _ _ _ _ _ G2), (gr_entry _ _ _ _ _ _ G1), (gr_insns _ _ _ _ _ _ G2), Nat.eqb_refl. reflexivity.
    + intros i N L x t v X O V ZT. destruct (Nat.eq_dec i cell) as [Q|Q].
      * subst i. destruct (gr_old _ _ _ _ _ _ G2 cell NE) as (u & U). rewrite X1 in U. cbn in U. rewrite U in X. injection X as <-. discriminate O.
      * destruct (gr_old _ _ _ _ _ _ G2 i N) as (u & U). destruct (gr_old _ _ _ _ _ _ G1 i Q) as (u' & U'). rewrite X in U. rewrite U' in U.
        destruct (f_insn f i) as [x0|] eqn:X0; [|discriminate]. cbn in U. injection U as ->. cbn in O, V.
        apply (OL i x0 t cell X0); auto.
        -- unfold operand_values. cbn in O. rewrite O. rewrite V. apply in_or_app. left. now left.
        -- apply (proj1 (cf_fresh _ C)). rewrite (gr_id _ _ _ _ _ _ G1). lia.
  - rewrite (gr_entry _ _ _ _ _ _ G2). apply (gr_entry _ _ _ _ _ _ G1).
  - intros c. rewrite (gr_dom _ _ _ _ _ _ G2). apply (gr_dom _ _ _ _ _ _ G1).
  - intros c. rewrite (gr_preds _ _ _ _ _ _ G2). apply (gr_preds _ _ _ _ _ _ G1).
  - intros c. rewrite (gr_succs _ _ _ _ _ _ G2). apply (gr_succs _ _ _ _ _ _ G1).
Qed.

(** ** fast mode *)
Lemma fast_fold f0 cell limit : cfg_ok f0 -> forall l g h done, cinv f0 g cell (by_size limit) done -> NoDup l -> (forall c, In c l -> ~ In c done) ->
  ofold (fun g bb => do b <- get_block g bb; if length (b_preds b) <=? 1 then Ok g else add_counter limit cell g bb) g l = Ok h ->
  (forall c, In c l -> f_block f0 c <> None) ->
  exists done', cinv f0 h cell (by_size limit) done' /\ (forall c, In c done -> In c done') /\
    (forall c, In c l -> In c done' \/ length (preds_of f0 c) <= 1) /\
    (forall c, In c done' -> In c done \/ In c l /\ 1 < length (preds_of f0 c)).
Proof.
  intros C0. induction l as [|b l IH]; intros g h done I ND NI E EX.
  - cbn in E. injection E as <-. exists done. split; auto. split; auto. split; [intros c []|auto].
  - cbn [ofold] in E. apply bind_ok in E as (g1 & E1 & E2). apply bind_ok in E1 as (k & K & E1). apply get_block_ok in K.
    inversion ND as [|? ? NB ND']; subst.
    assert (BB : f_block f0 b <> None) by (apply EX; now left).
    assert (L := ci_preds _ _ _ _ _ I b BB). unfold preds_of at 1 in L. rewrite K in L.
    destruct (length (b_preds k) <=? 1) eqn:Q.
    + injection E1 as <-. apply Nat.leb_le in Q.
      destruct (IH g h done I ND') as (d & A1 & A2 & A3 & A4); auto; [intros c H; apply NI; now right|intros c H; apply EX; now right|].
      exists d. split; auto. split; auto. split.
      * intros c [<-|H]; auto. right. lia.
      * intros c H. destruct (A4 c H) as [W|(W1 & W2)]; auto. right. split; auto. now right.
    + apply Nat.leb_gt in Q. assert (NBD : ~ In b done) by (apply NI; now left).
      assert (S := add_counter_ok _ _ _ _ _ (ci_cfg _ _ _ _ _ I) E1).
      assert (I1 := cinv_step _ _ _ _ _ _ _ C0 I BB NBD S).
      destruct (IH g1 h (b :: done) I1 ND') as (d & A1 & A2 & A3 & A4); auto.
      * intros c H [<-|W]; [contradiction|]. apply (NI c); auto. now right.
      * intros c H. apply EX. now right.
      * exists d. split; auto. split; [intros c H; apply A2; now right|]. split.
        -- intros c [<-|H]; auto. left. apply A2. now left.
        -- intros c H. destruct (A4 c H) as [[<-|W]|(W1 & W2)]; auto; right; split; auto; [now left|lia|now right].
Qed.
(** ** accurate mode *)
Record minv (f0 fm : func) (marks : list nat) : Prop := {
  mi_same : same_graph f0 fm;
  mi_flag : forall b k, f_block fm b = Some k -> (Z.testbit (b_flag k) 0 = true <-> In b marks);
  mi_once : NoDup marks;
  mi_dom : forall b, In b marks -> f_block f0 b <> None }.
Lemma mark_pred_ok f0 s p s' : minv f0 (fst s) (snd s) -> mark_pred s p = Ok s' ->
  minv f0 (fst s') (snd s') /\ In p (snd s') /\ (forall c, In c (snd s) -> In c (snd s')) /\ forall c, In c (snd s') -> In c (snd s) \/ c = p.
Proof.
  intros M E. destruct s as [fm ms]. cbn [fst snd] in *. unfold mark_pred in E. cbn [fst snd] in E. apply bind_ok in E as (k & K & E). apply get_block_ok in K.
  assert (F := mi_flag _ _ _ M p k K).
  destruct (Z.testbit (b_flag k) 0) eqn:T.
  - injection E as <-. cbn [fst snd]. split; auto. split; [tauto|]. split; auto.
  - injection E as <-. cbn [fst snd].
    assert (NP : ~ In p ms) by (intros Z; apply F in Z; discriminate).
    split; [|split; [apply in_or_app; right; now left|split; [intros c H; apply in_or_app; now left|intros c H; apply in_app_or in H as [H|[<-|[]]]; auto]]].
    constructor.
    + apply (same_trans f0 fm); [apply M|]. constructor; auto; intros c; unfold insns_of, preds_of, succs_of, put_block, with_block, upd; cbn [f_block]; (destruct (c =? p) eqn:Q; [apply Nat.eqb_eq in Q; subst c; rewrite K; cbn; auto; split; discriminate|tauto || reflexivity]).
    + intros b k' H. unfold put_block, with_block, upd in H. cbn [f_block] in H. destruct (b =? p) eqn:Q; [apply Nat.eqb_eq in Q|apply Nat.eqb_neq in Q].
      * subst b. injection H as <-. cbn [b_flag]. rewrite Z.lor_spec. rewrite T. cbn. split; auto. intros _. apply in_or_app. right. now left.
      * rewrite (mi_flag _ _ _ M b k' H). split; [intros Z; apply in_or_app; now left|intros Z; apply in_app_or in Z as [Z|[Z|[]]]; auto; congruence].
    + assert (N := mi_once _ _ _ M). clear - N NP. induction ms as [|a ms IH]; cbn; [constructor; [tauto|constructor]|].
      inversion N; subst. constructor; [|apply IH; auto; intros Z; apply NP; now right].
      intros Z. apply in_app_or in Z as [Z|[Z|[]]]; [contradiction|]. subst. apply NP. now left.
    + intros b H. apply in_app_or in H as [H|[<-|[]]]; [apply M; exact H|]. intros Z. apply (sg_dom _ _ (mi_same _ _ _ M)) in Z. congruence.
Qed.
Lemma mark_preds_ok f0 : forall l s s', minv f0 (fst s) (snd s) -> ofold mark_pred s l = Ok s' ->
  minv f0 (fst s') (snd s') /\ (forall c, In c l -> In c (snd s')) /\ (forall c, In c (snd s) -> In c (snd s')).
Proof.
  induction l as [|p l IH]; intros s s' M E; cbn [ofold] in E.
  - injection E as <-. split; auto. split; [intros c []|auto].
  - apply bind_ok in E as (s1 & E1 & E2). destruct (mark_pred_ok _ _ _ _ M E1) as (M1 & A1 & A2 & _). destruct (IH _ _ M1 E2) as (M2 & B1 & B2).
    split; auto. split; auto. intros c [<-|H]; auto.
Qed.
Lemma mark_blocks_ok f0 : forall l s s', minv f0 (fst s) (snd s) -> ofold mark_block s l = Ok s' ->
  minv f0 (fst s') (snd s') /\ (forall c, In c (snd s) -> In c (snd s')) /\
  (forall c, In c l -> length (preds_of f0 c) <= 1 \/ forall q, In q (preds_of f0 c) -> In q (snd s')).
Proof.
  induction l as [|b l IH]; intros s s' M E; cbn [ofold] in E.
  - injection E as <-. split; auto. split; auto. intros c [].
  - apply bind_ok in E as (s1 & E1 & E2).
    assert (K : minv f0 (fst s1) (snd s1) /\ (forall c, In c (snd s) -> In c (snd s1)) /\ (length (preds_of f0 b) <= 1 \/ forall q, In q (preds_of f0 b) -> In q (snd s1))).
    { unfold mark_block in E1. apply bind_ok in E1 as (k & K & E1). apply get_block_ok in K.
      assert (P : b_preds k = preds_of f0 b). { rewrite <- (sg_preds _ _ (mi_same _ _ _ M)). unfold preds_of. rewrite K. reflexivity. }
      rewrite P in E1. destruct (_ <=? 1) eqn:Q in E1.
      - injection E1 as <-. apply Nat.leb_le in Q. split; auto. split; auto. left. lia.
      - destruct (mark_preds_ok _ _ _ _ M E1) as (A1 & A2 & A3). auto. }
    destruct K as (M1 & K1 & K2). destruct (IH _ _ M1 E2) as (M2 & A1 & A2). split; auto. split; auto.
    intros c [<-|H]; auto. destruct K2 as [K2|K2]; auto.
Qed.
Lemma acc_fold f0 cell limit : cfg_ok f0 -> forall l g h done, cinv f0 g cell (by_size limit) done -> NoDup l -> (forall c, In c l -> ~ In c done /\ f_block f0 c <> None) ->
  ofold (add_counter limit cell) g l = Ok h -> exists done', cinv f0 h cell (by_size limit) done' /\ (forall c, In c done' <-> In c done \/ In c l).
Proof.
  intros C0. induction l as [|b l IH]; intros g h done I ND NI E.
  - cbn in E. injection E as <-. exists done. split; auto. cbn. tauto.
  - cbn [ofold] in E. apply bind_ok in E as (g1 & E1 & E2). inversion ND as [|? ? NB ND']; subst.
    destruct (NI b (or_introl eq_refl)) as (N1 & N2).
    assert (I1 := cinv_step _ _ _ _ _ _ _ C0 I N2 N1 (add_counter_ok _ _ _ _ _ (ci_cfg _ _ _ _ _ I) E1)).
    destruct (IH g1 h (b :: done) I1 ND') as (d & A1 & A2); auto.
    + intros c H. destruct (NI c (or_intror H)) as (W1 & W2). split; auto. intros [<-|Z]; contradiction.
    + exists d. split; auto. intros c. rewrite A2. cbn. tauto.
Qed.

(** ** results *)
Record counted (f g : func) (cell : nat) (limit : value * Z) (reach done : list nat) (f0 : func) (st0 : nat) (rest : list nat) : Prop := {
  cd_cfg : cfg_ok f0; cd_inv : cinv f0 g cell limit done; cd_cell : counter_at f0 cell st0 rest; cd_entry : f_entry f0 = f_entry f;
  cd_preds : forall c, preds_of f0 c = preds_of f c; cd_succs : forall c, succs_of f0 c = succs_of f c;
  cd_merge : forall c, In c reach -> In c done \/ length (preds_of f0 c) <= 1 \/ forall q, In q (preds_of f0 c) -> In q done }.
Lemma fast_counted limit reach f g : cfg_ok f -> operands_live f -> explored f reach -> counter_fast limit reach f = Ok g ->
  exists cell done f0 st0 rest, counted f g cell (by_size limit) reach done f0 st0 rest.
Proof.
  intros C OL [X1 XB X2 X3] E. unfold counter_fast in E. apply bind_ok in E as ((f0 & cell) & E1 & E). cbn [fst snd] in E.
  destruct (make_counter_ok _ _ _ C OL E1) as (st0 & CA & C0 & EN & DM & PR & SU).
  assert (EX : forall c, In c reach -> f_block f0 c <> None). { intros c H Z. apply DM in Z. apply (XB c H). exact Z. }
  destruct (fast_fold f0 cell limit C0 reach f0 g [] (cinv_start _ _ _ C0) X1) as (d & A1 & A2 & A3 & A4); auto.
  exists cell, d, f0, st0, (insns_of f (f_entry f)). constructor; auto. intros c H. destruct (A3 c H); auto.
Qed.
Definition flags_of (f : func) (b : nat) : option Z := option_map b_flag (f_block f b).
Lemma put_flags f b k k0 : f_block f b = Some k0 -> b_flag k = b_flag k0 -> forall c, flags_of (put_block f b k) c = flags_of f c.
Proof.
  intros K E c. unfold flags_of, put_block, with_block, upd. cbn [f_block]. destruct (c =? b) eqn:Q; auto. apply Nat.eqb_eq in Q. subst c. rewrite K. cbn. congruence.
Qed.
Lemma insert_bb_flags f n b p g : insert_at_bb f n b p = Ok g -> forall c, flags_of g c = flags_of f c.
Proof. unfold insert_at_bb. intros E. apply bind_ok in E as (k & K & E). apply get_block_ok in K. injection E as <-. apply (put_flags _ _ _ k); auto. Qed.
Lemma insert_flags f n i p g : insert_at f n i p = Ok g -> forall c, flags_of g c = flags_of f c.
Proof.
  unfold insert_at. intros E. apply bind_ok in E as (x & X & E). apply bind_ok in E as (y & Y & E). destruct (_ && _); [eapply insert_bb_flags; eauto|].
  apply bind_ok in E as (k & K & E). apply get_block_ok in K. destruct p; try discriminate; apply bind_ok in E as (l & L & E); injection E as <-; apply (put_flags _ _ _ k); auto.
Qed.
Lemma make_counter_flags f f0 cell : make_counter f = Ok (f0, cell) -> forall c, flags_of f0 c = flags_of f c.
Proof.
  intros E c. unfold make_counter in E. apply bind_ok in E as ((f1 & a) & E1 & E). cbn [fst snd] in E.
  apply bind_ok in E as ((f2 & st) & E2 & E). cbn [fst snd] in E. injection E as -> ->.
  unfold create_at_bb in E1. apply bind_ok in E1 as ((g1 & i1) & R1 & E1). apply bind_ok in E1 as (g2 & I1 & E1). injection E1 as -> ->.
  unfold create_at in E2. apply bind_ok in E2 as (x & X & E2). apply bind_ok in E2 as ((g3 & i3) & R3 & E2). apply bind_ok in E2 as (g4 & I2 & E2). injection E2 as -> ->.
  cbn [fst snd] in *. rewrite (insert_flags _ _ _ _ _ I2). apply create_raw in R1 as (_ & _ & _ & _ & _ & R1 & _). apply create_raw in R3 as (_ & _ & _ & _ & _ & R3 & _).
  unfold flags_of at 1. rewrite R3. fold (flags_of f1 c). rewrite (insert_bb_flags _ _ _ _ _ I1). unfold flags_of. rewrite R1. reflexivity.
Qed.
Lemma accurate_counted limit reach f g : cfg_ok f -> operands_live f -> explored f reach -> unmarked f -> counter_accurate limit reach f = Ok g ->
  exists cell done f0 st0 rest, counted f g cell (by_size limit) reach done f0 st0 rest.
Proof.
  intros C OL [X1 XB X2 X3] UM E. unfold counter_accurate in E. apply bind_ok in E as ((f0 & cell) & E1 & E). cbn [fst snd] in E.
  apply bind_ok in E as ((fm & ms) & E2 & E). cbn [fst snd] in E.
  destruct (make_counter_ok _ _ _ C OL E1) as (st0 & CA & C0 & EN & DM & PR & SU).
  assert (M0 : minv f0 (fst (f0, @nil nat)) (snd (f0, @nil nat))).
  { cbn. constructor; [apply same_refl| |constructor|intros b []]. intros b k K. split; [|intros []].
    intros T. exfalso. assert (F := make_counter_flags _ _ _ E1 b). unfold flags_of in F. rewrite K in F. cbn in F.
    destruct (f_block f b) as [k0|] eqn:K0; [|discriminate]. cbn in F. injection F as F. rewrite F, (UM b k0 K0) in T. discriminate. }
  destruct (mark_blocks_ok f0 reach _ _ M0 E2) as (M & _ & MM). cbn [fst snd] in M, MM.
  assert (Cm := same_cfg _ _ (mi_same _ _ _ M) C0).
  destruct (acc_fold fm cell limit Cm ms fm g [] (cinv_start _ _ _ Cm) (mi_once _ _ _ M)) as (d & A1 & A2); auto.
  { intros c H. split; [intros []|]. intros Z. apply (sg_dom _ _ (mi_same _ _ _ M)) in Z. apply (mi_dom _ _ _ M c H). exact Z. }
  exists cell, d, fm, st0, (insns_of f (f_entry f)). constructor; auto.
  - eapply same_counter; [apply M|exact CA].
  - rewrite (sg_entry _ _ (mi_same _ _ _ M)). exact EN.
  - intros c. rewrite (sg_preds _ _ (mi_same _ _ _ M)). apply PR.
  - intros c. rewrite (sg_succs _ _ (mi_same _ _ _ M)). apply SU.
  - intros c H. right. rewrite (sg_preds _ _ (mi_same _ _ _ M)). destruct (MM c H) as [K|K]; [now left|right]. intros q Q. apply A2. right. auto.
Qed.

Lemma counted_cycles f g cell limit reach done f0 st0 rest : counted f g cell limit reach done f0 st0 rest -> explored f reach -> entry_apart f ->
  forall x l2 l3, rpath g (x :: l2 ++ x :: l3) -> exists c, In c (x :: l2) /\ has_check g cell limit c.
Proof.
  intros D [_ _ XE XN] EA x l2 l3 R.
  destruct (counted_cycle f0 g cell limit done reach) with (x := x) (l2 := l2) (l3 := l3) as (c & A & B); auto; try apply D.
  - rewrite (cd_preds _ _ _ _ _ _ _ _ _ D), (cd_entry _ _ _ _ _ _ _ _ _ D). exact EA.
  - rewrite (cd_entry _ _ _ _ _ _ _ _ _ D). exact XE.
  - intros b c H. rewrite (cd_succs _ _ _ _ _ _ _ _ _ D). apply XN. exact H.
  - exists c. split; auto. eapply done_check; [apply (cd_inv _ _ _ _ _ _ _ _ _ D)|exact B].
Qed.
Lemma counted_ends f g cell inc cnt limit reach done f0 st0 rest bi : (forall e, seval bi e inc = Some (u64 cnt)) -> counted f g cell (inc, limit) reach done f0 st0 rest -> explored f reach -> entry_apart f ->
  (1 <= cnt)%Z -> (0 <= limit)%Z -> (limit + cnt < 2 ^ 32)%Z ->
  ends_within bi g (Z.to_nat limit + 1 + (Z.to_nat limit + 2) * f_nb g).
Proof.
  intros HI D [_ _ XE XN] EA H1 H2 H3 w s0 n prev b s R.
  assert (NE : preds_of f0 (f_entry f0) = []) by (rewrite (cd_preds _ _ _ _ _ _ _ _ _ D), (cd_entry _ _ _ _ _ _ _ _ _ D); exact EA).
  destruct (run_bound w bi f0 g cell st0 rest inc cnt limit done (cd_cfg _ _ _ _ _ _ _ _ _ D) (cd_inv _ _ _ _ _ _ _ _ _ D) HI (cd_cell _ _ _ _ _ _ _ _ _ D) NE H1 H2 H3 s0 n prev b s R)
    as (l & RP & LE & K).
  assert (B : length l <= countd done l + (countd done l + 1) * f_nb g).
  { apply (path_bound f0 g cell (inc, limit) done reach) with (b := b); auto; try apply D.
    - rewrite (cd_entry _ _ _ _ _ _ _ _ _ D). exact XE.
    - intros b' c H. rewrite (cd_succs _ _ _ _ _ _ _ _ _ D). apply XN. exact H. }
  assert (K2 : countd done l <= Z.to_nat limit + 1) by lia. nia.
Qed.
