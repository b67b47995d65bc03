(** The code that bpf_ir_printk_insns writes. *)
From Coq Require Import ZArith List Bool Arith Lia.
From Verif Require Import M_Base M_Ir M_Edit SpecIr SpecEdit SpecCtor SpecPass SpecInstr L_Edit L_Uses L_Hist L_Ctor L_Ins SpecRelease L_Release L_ReleaseOut L_SpillNew M_Opts M_Printk SpecPrintk.
Import ListNotations.
Open Scope list_scope.
Open Scope nat_scope.

Lemma grown_ext f g i b k l : fresh_ok f -> grown f g i b k l -> ext f g b l.
Proof.
  intros F G. assert (FI : f_insn f i = None) by (rewrite (gr_id _ _ _ _ _ _ G); apply F; lia). constructor.
  - split.
    + intros j J. rewrite (gr_ni _ _ _ _ _ _ G) in J. destruct (gr_old _ _ _ _ _ _ G j) as (u & Q); [lia|]. rewrite Q.
      rewrite (proj1 F); [reflexivity|]. pose proof (gr_id _ _ _ _ _ _ G). lia.
    + intros c J. apply (gr_dom _ _ _ _ _ _ G). apply F. rewrite (gr_nb _ _ _ _ _ _ G) in J. exact J.
  - apply (gr_insns _ _ _ _ _ _ G).
  - intros j J. apply (gr_old _ _ _ _ _ _ G). congruence.
  - apply (gr_succs _ _ _ _ _ _ G).
  - apply (gr_preds _ _ _ _ _ _ G).
  - apply (gr_dom _ _ _ _ _ _ G).
  - apply (gr_entry _ _ _ _ _ _ G).
Qed.
(** behind the phis *)
Lemma phi_ext f a x b k p : fresh_ok f -> f_insn f a = Some x -> i_op x = PHI -> i_parent x = b -> f_block f b <> None -> (forall j, In j (insns_of f b) -> f_insn f j <> None) ->
  i_op (build b k) <> PHI -> ctor_ok k -> (forall d, names k d -> exists y, f_insn f d = Some y) ->
  exists g i l r, create_at f a k p = Ok (g, i) /\ placed f P_FRONT_AFTER_PHI (insns_of f b) l r /\ ext f g b (l ++ i :: r) /\
    f_insn f i = None /\ exists u, f_insn g i = Some (set_users u (build b k)).
Proof.
  intros F X O PB B LV NP OK NM. subst b.
  assert (E : exists g i, create_at f a k p = Ok (g, i)).
  { unfold create_at. rewrite (proj2 (get_insn_ok _ _ _) X). cbn [bind]. destruct (create_insn_total f (i_parent x) k OK NM) as (f1 & i & C).
    rewrite C. cbn [bind fst snd]. apply create_raw in C as (C1 & C2 & C3 & C4 & C5 & C6 & (u & C7) & C8).
    assert (NA : a <> i). { intros ->. rewrite (proj1 F) in X; [discriminate|lia]. }
    destruct (C8 a NA) as (v & XA). rewrite X in XA. cbn in XA.
    unfold insert_at. rewrite (proj2 (get_insn_ok _ _ _) XA), (proj2 (get_insn_ok _ _ _) C7). cbn [bind].
    replace (iop_eqb (i_op (set_users v x)) PHI) with true by (cbn; rewrite O; reflexivity).
    replace (iop_eqb (i_op (set_users u (build (i_parent x) k))) PHI) with false by (cbn; symmetry; destruct (i_op (build (i_parent x) k)); try reflexivity; congruence).
    cbn [andb negb]. unfold insert_at_bb, get_block. cbn [i_parent set_users]. replace (i_parent (set_users v x)) with (i_parent x) by reflexivity. rewrite C6.
    destruct (f_block f (i_parent x)); [|congruence]. cbn [bind]. eauto. }
  destruct E as (g & i & E). destruct (new_at_phi f a x k p g i F X O NP LV B E) as ((l & r & P & G) & _).
  exists g, i, l, r. split; auto. split; auto. split; [exact (grown_ext _ _ _ _ _ _ F G)|]. split; [rewrite (gr_id _ _ _ _ _ _ G); apply F; lia|apply (gr_new _ _ _ _ _ _ G)].
Qed.
Lemma printk_rest f t b pos msg l r f1 a u1 : create_at f t (K_allocarray VR_64 1) pos = Ok (f1, a) -> ext f f1 b (l ++ a :: r) -> f_insn f a = None ->
  f_insn f1 a = Some (set_users u1 (build b (K_allocarray VR_64 1))) -> f_block f b <> None -> (forall i, In i l -> f_insn f i <> None) ->
  exists g ms, printk_insns f t pos msg = Ok g /\ ext f g b (l ++ ms ++ r) /\ prints g ms /\ (forall d, In d ms -> f_insn f d = None) /\ NoDup ms /\
    (forall d, In d ms -> exists y, f_insn g d = Some y /\ i_parent y = b).
Proof.
  intros C1 E1 F1 X1 BB LV. unfold printk_insns. rewrite C1. cbn [bind fst snd].
  assert (NL : forall i, f_insn f i = None -> ~ In i l) by (intros i I J; apply (LV i J I)).
  assert (BL : forall h l', ext f h b l' -> f_block h b <> None) by (intros h l' E K; apply (ex_dom _ _ _ _ E) in K; now apply BB).
  assert (IN1 : insns_of f1 b = l ++ a :: r) by (rewrite (ex_insns _ _ _ _ E1), Nat.eqb_refl; reflexivity).
  destruct (create_ext f1 a _ b (K_storeraw VR_8 (addr_val (val_insn a) 4) (val_const32 0)) P_BACK l r (ex_fresh _ _ _ _ E1) X1 eq_refl (BL _ _ E1) IN1 (NL _ F1))
    as (f2 & s1 & C2 & E2 & F2 & u2 & X2); [discriminate|auto|exact I|intros z [Z|Z]; cbn in Z; [injection Z as <-; eauto|discriminate]|discriminate|].
  rewrite C2. cbn [bind fst snd]. pose proof (ext_trans _ _ _ _ _ _ E1 E2) as E12. pose proof (gone _ _ _ _ _ E1 F2) as G2.
  destruct (keep1 _ _ _ _ _ _ E2 X1) as (v2 & Y2).
  assert (NA : s1 <> a) by congruence.
  assert (IN2 : insns_of f2 b = (l ++ [a]) ++ s1 :: r) by (rewrite (ex_insns _ _ _ _ E2), Nat.eqb_refl, <- app_assoc; reflexivity).
  destruct (create_ext f2 s1 _ b (K_storeraw VR_32 (addr_val (val_insn a) 0) (val_const32 1953069157)) P_BACK (l ++ [a]) r (ex_fresh _ _ _ _ E2) X2 eq_refl (BL _ _ E12) IN2)
    as (f3 & s2 & C3 & E3 & F3 & u3 & X3);
    [rewrite in_app_iff; cbn; intros [K|[K|[]]]; [now apply (NL s1)|congruence]|discriminate|auto|exact I|intros z [Z|Z]; cbn in Z; [injection Z as <-; eauto|discriminate]|discriminate|].
  rewrite C3. cbn [bind fst snd]. pose proof (ext_trans _ _ _ _ _ _ E12 E3) as E13. pose proof (gone _ _ _ _ _ E12 F3) as G3.
  destruct (keep1 _ _ _ _ _ _ E3 Y2) as (v3 & Y3). destruct (keep1 _ _ _ _ _ _ E3 X2) as (w3 & Z3).
  assert (IN3 : insns_of f3 b = (l ++ [a; s1]) ++ s2 :: r) by (rewrite (ex_insns _ _ _ _ E3), Nat.eqb_refl, <- !app_assoc; reflexivity).
  destruct (create_ext f3 s2 _ b (K_getelemptr a (val_const32 0)) P_BACK (l ++ [a; s1]) r (ex_fresh _ _ _ _ E3) X3 eq_refl (BL _ _ E13) IN3)
    as (f4 & p & C4 & E4 & F4 & u4 & X4);
    [rewrite in_app_iff; cbn; intros [K|[K|[K|[]]]]; [now apply (NL s2)|congruence|congruence]|discriminate|auto|exact I|intros z [Z|Z]; cbn in Z; [subst z; eauto|discriminate]|discriminate|].
  rewrite C4. cbn [bind fst snd]. pose proof (ext_trans _ _ _ _ _ _ E13 E4) as E14. pose proof (gone _ _ _ _ _ E13 F4) as G4.
  destruct (keep1 _ _ _ _ _ _ E4 Y3) as (v4 & Y4). destruct (keep1 _ _ _ _ _ _ E4 Z3) as (w4 & Z4). destruct (keep1 _ _ _ _ _ _ E4 X3) as (q4 & Q4).
  assert (IN4 : insns_of f4 b = (l ++ [a; s1; s2]) ++ p :: r) by (rewrite (ex_insns _ _ _ _ E4), Nat.eqb_refl, <- !app_assoc; reflexivity).
  destruct (create_ext f4 p _ b (K_call 6) P_BACK (l ++ [a; s1; s2]) r (ex_fresh _ _ _ _ E4) X4 eq_refl (BL _ _ E14) IN4)
    as (f5 & c & C5 & E5 & F5 & u5 & X5);
    [rewrite in_app_iff; cbn; intros [K|[K|[K|[K|[]]]]]; [now apply (NL p)|congruence|congruence|congruence]|discriminate|auto|exact I|intros z []|discriminate|].
  rewrite C5. cbn [bind fst snd]. pose proof (gone _ _ _ _ _ E14 F5) as G5. destruct (keep1 _ _ _ _ _ _ E5 X4) as (r5 & R5).
  destruct (arg_ext f4 f5 b _ c _ (val_insn p) E5 F5 X5) as (f6 & u6 & C6 & E6 & X6 & _); [cbn; lia|intros z [= <-]; congruence|].
  rewrite C6. cbn [bind].
  destruct (arg_ext f4 f6 b _ c _ (val_const32 5) E6 F5 X6) as (f7 & u7 & C7 & E7 & X7 & _); [cbn; lia|intros z [=]|].
  exists f7, [a; s1; s2; p; c]. split; auto. pose proof (ext_trans _ _ _ _ _ _ E14 E7) as E17.
  destruct (keep1 _ _ _ _ _ _ E7 Y4) as (a1 & K1). destruct (keep1 _ _ _ _ _ _ E7 Z4) as (a2 & K2). destruct (keep1 _ _ _ _ _ _ E7 Q4) as (a3 & K3).
  destruct (keep1 _ _ _ _ _ _ E7 X4) as (a4 & K4). split; [|split; [|split; [|split]]].
  - rewrite <- !app_assoc in E17. exact E17.
  - eexists a, s1, s2, p, c, _, _, _, _, _. split; [reflexivity|]. split; [exact K1|]. split; [exact K2|]. split; [exact K3|]. split; [exact K4|]. split; [exact X7|].
    cbn. repeat split.
  - intros d [<-|[<-|[<-|[<-|[<-|[]]]]]]; auto.
  - repeat constructor; cbn; intros K; repeat (destruct K as [K|K]; [try congruence|]); exact K.
  - intros d [<-|[<-|[<-|[<-|[<-|[]]]]]]; eexists; (split; [eassumption|reflexivity]).
Qed.
(** the blocks stay consistent *)
Lemma unchanged_term f g j : unchanged f g j -> is_terminator g j <-> is_terminator f j.
Proof.
  intros (u & E). unfold is_terminator. split; intros (x & X & O).
  - rewrite E in X. destruct (f_insn f j) as [y|] eqn:Y; [|discriminate]. injection X as <-. exists y. split; auto.
  - rewrite X in E. eexists. split; [exact E|exact O].
Qed.
Lemma spliced_cfg f g b l ms r : cfg_ok f -> f_block f b <> None -> spliced f g b l ms r -> fresh_ok g -> NoDup ms ->
  (forall d, In d ms -> exists y, f_insn g d = Some y /\ i_parent y = b) -> (forall d, In d ms -> ~ is_terminator g d) ->
  (r = [] -> forall j, In j l -> ~ is_terminator f j) -> cfg_ok g.
Proof.
  intros C B S FR ND PA NT T. destruct (sl_here _ _ _ _ _ _ S) as (L & L').
  assert (LV : forall c j, In j (insns_of f c) -> f_insn f j <> None) by (intros c j J; exact (linked_live f c j (cf_linked _ C) J)).
  assert (IN : forall c j, In j (insns_of g c) -> In j (insns_of f c) \/ (c = b /\ In j ms)).
  { intros c j J. destruct (Nat.eq_dec c b) as [->|N]; [|left; now rewrite <- (sl_else _ _ _ _ _ _ S c N)].
    rewrite L' in J. rewrite L. rewrite !in_app_iff in *. tauto. }
  constructor.
  - destruct (cf_mirror _ C) as (A & A1 & A2). split; [|split]; intros; rewrite ?(sl_succs _ _ _ _ _ _ S), ?(sl_preds _ _ _ _ _ _ S); auto.
  - exact FR.
  - intros c j J. destruct (IN c j J) as [K|(-> & K)]; [|auto].
    destruct (cf_linked _ C c j K) as (x & X & P). destruct (unchanged_some f g j x (sl_old _ _ _ _ _ _ S j (LV c j K)) X) as (u & U). exists (set_users u x). split; auto.
  - intros c. destruct (Nat.eq_dec c b) as [->|N]; [|rewrite (sl_else _ _ _ _ _ _ S c N); apply C].
    rewrite L'. pose proof (cf_once _ C b) as O. assert (DJ : forall j, In j ms -> ~ In j (insns_of f b)) by (intros j J K; apply (LV b j K); now apply (sl_new _ _ _ _ _ _ S)).
    rewrite L in O, DJ. clear - O ND DJ. induction l as [|a l IH]; cbn in *.
    + clear -O ND DJ. induction ms as [|m ms IM]; auto. inversion ND; subst. cbn. constructor; [rewrite in_app_iff; intros [K|K]; [auto|apply (DJ m); cbn; auto]|].
      apply IM; auto. intros j J. apply DJ. cbn; auto.
    + inversion O; subst. constructor.
      * rewrite !in_app_iff in *. intros [K|[K|K]]; [tauto| |tauto]. apply (DJ a K). auto.
      * apply IH; auto. intros j J K. apply (DJ j J). auto.
  - intros c d Gc. rewrite (sl_succs _ _ _ _ _ _ S). apply (cf_goes _ C).
    inversion Gc as [j x I X O|j x o I X O|j x o I X O|c1 k SS]; subst.
    4:{ rewrite (sl_succs _ _ _ _ _ _ S) in SS. eapply go_next; eauto. }
    all: assert (J : In j (insns_of f c)) by (destruct (IN c j I) as [K|(-> & K)]; auto; exfalso; apply (NT j K); exists x; split; auto;
      destruct (i_op x); cbn in O |- *; try discriminate; try contradiction; auto 20).
    all: destruct (sl_old _ _ _ _ _ _ S j (LV c j J)) as (u & E); rewrite E in X; destruct (f_insn f j) as [y|] eqn:Y; [|discriminate]; injection X as <-; cbn.
    + eapply go_ja; eauto.
    + eapply go_c1; eauto.
    + eapply go_c2; eauto.
  - intros c k1 j k2 E TJ. destruct (Nat.eq_dec c b) as [->|N].
    + assert (J : In j (insns_of g b)) by (rewrite E; apply in_or_app; right; now left).
      destruct (IN b j J) as [K|(_ & K)]; [|exfalso; now apply (NT j K)].
      assert (TF : is_terminator f j) by (apply (unchanged_term f g j); auto; apply (sl_old _ _ _ _ _ _ S); eauto).
      assert (NM : ~ In j ms) by (intros M; now apply (NT j M)). rewrite L in K. apply in_app_iff in K as [K|K].
      * exfalso. apply in_split in K as (m1 & m2 & ->). destruct r as [|z r]; [apply (T eq_refl j); auto; apply in_or_app; right; now left|].
        rewrite <- app_assoc in L. apply (cf_ends _ C b) in L; auto. now destruct m2.
      * apply in_split in K as (m1 & m2 & ->). assert (Z : m2 = []) by (apply (cf_ends _ C b (l ++ m1) j m2); auto; now rewrite L, <- app_assoc). subst m2.
        assert (W : NoDup (insns_of g b)).
        { rewrite L'. pose proof (cf_once _ C b) as O. assert (DJ : forall i, In i ms -> ~ In i (insns_of f b)) by (intros i I K; apply (LV b i K); now apply (sl_new _ _ _ _ _ _ S)).
          rewrite L in O, DJ. clear - O ND DJ. generalize dependent (m1 ++ [j]). intros r O DJ. induction l as [|a l IH]; cbn in *.
          - clear -O ND DJ. induction ms as [|m ms IM]; auto. inversion ND; subst. cbn. constructor; [rewrite in_app_iff; intros [K|K]; [auto|apply (DJ m); cbn; auto]|].
            apply IM; auto. intros i I. apply DJ. cbn; auto.
          - inversion O; subst. constructor.
            + rewrite !in_app_iff in *. intros [K|[K|K]]; [tauto| |tauto]. apply (DJ a K). auto.
            + apply IH; auto. intros i I K. apply (DJ i I). auto. }
        rewrite L' in E. destruct k2 as [|k0 k2]; auto. exfalso. rewrite L', !app_assoc in W. rewrite !app_assoc in E.
        destruct (exists_last (l := k0 :: k2)) as (y & w & Q); [discriminate|]. rewrite Q, app_comm_cons, app_assoc in E. apply app_inj_tail in E as (E & <-).
        rewrite E in W. apply NoDup_remove_2 in W. apply W. rewrite app_nil_r. apply in_or_app. right. now left.
    + rewrite (sl_else _ _ _ _ _ _ S c N) in E. eapply (cf_ends _ C c); eauto. apply (unchanged_term f g j); auto. apply (sl_old _ _ _ _ _ _ S). apply (LV c). rewrite E. apply in_or_app. right. now left.
  - rewrite (sl_entry _ _ _ _ _ _ S). intros Z. apply (sl_blocks _ _ _ _ _ _ S) in Z. apply (cf_entry _ C Z).
Qed.
Lemma prints_quiet g ms d : prints g ms -> In d ms -> ~ is_terminator g d.
Proof.
  intros (a & s1 & s2 & p & c & xa & x1 & x2 & xp & xc & -> & A1 & A2 & A3 & A4 & A5 & (B1 & _) & (B2 & _) & (B3 & _) & (B4 & _) & (B5 & _)) I (y & Y & T).
  assert (K : In (i_op y) [ALLOCARRAY; STORERAW; GETELEMPTR; CALL]).
  { destruct I as [<-|[<-|[<-|[<-|[<-|[]]]]]]; [assert (y = xa) by congruence|assert (y = x1) by congruence|assert (y = x2) by congruence|assert (y = xp) by congruence|assert (y = xc) by congruence];
      subst y; cbn; rewrite ?B1, ?B2, ?B3, ?B4, ?B5; auto. }
  cbn in K, T. destruct K as [K|[K|[K|[K|[]]]]]; rewrite <- K in T; repeat (destruct T as [T|T]; [discriminate|]); exact T.
Qed.


(** at any place *)
Theorem printk_spec f b i pos msg : cfg_ok f -> In i (insns_of f b) -> pos = P_FRONT \/ pos = P_BACK ->
  exists g ms l r, place f b i pos l r /\ printk_insns f i pos msg = Ok g /\ prints g ms /\ spliced f g b l ms r /\
    (pos = P_FRONT \/ ~ is_terminator f i -> cfg_ok g).
Proof.
  intros C II PP. destruct (cf_linked _ C b i II) as (x & X & P).
  assert (LV : forall j, In j (insns_of f b) -> f_insn f j <> None) by (intros j J; exact (linked_live f b j (cf_linked _ C) J)).
  assert (BB : f_block f b <> None) by (intros K; unfold insns_of in II; rewrite K in II; destruct II).
  assert (FIN : forall l r f1 a u1, place f b i pos l r -> insns_of f b = l ++ r -> create_at f i (K_allocarray VR_64 1) pos = Ok (f1, a) -> ext f f1 b (l ++ a :: r) -> f_insn f a = None ->
    f_insn f1 a = Some (set_users u1 (build b (K_allocarray VR_64 1))) -> (r = [] -> pos = P_FRONT \/ ~ is_terminator f i -> forall j, In j l -> ~ is_terminator f j) ->
    exists g ms l r, place f b i pos l r /\ printk_insns f i pos msg = Ok g /\ prints g ms /\ spliced f g b l ms r /\ (pos = P_FRONT \/ ~ is_terminator f i -> cfg_ok g)).
  { intros l r f1 a u1 PL L C1 E1 F1 X1 T. destruct (printk_rest f i b pos msg l r f1 a u1 C1 E1 F1 X1 BB) as (g & ms & O & E & PR & N & ND & PA).
    { intros j J. apply LV. rewrite L. apply in_or_app. auto. }
    exists g, ms, l, r. split; auto. split; auto. split; auto. assert (S : spliced f g b l ms r); [|split; auto].
    { constructor; auto; try apply E.
      - split; auto. rewrite (ex_insns _ _ _ _ E), Nat.eqb_refl. reflexivity.
      - intros c NC. rewrite (ex_insns _ _ _ _ E). destruct (Nat.eqb_spec c b); [contradiction|reflexivity]. }
    intros QT. apply (spliced_cfg f g b l ms r C BB S (ex_fresh _ _ _ _ E) ND PA); [intros d; now apply prints_quiet|]. intros R. exact (T R QT). }
  destruct (iop_eqb (i_op x) PHI) eqn:O.
  - assert (O' : i_op x = PHI) by (destruct (i_op x); try discriminate O; reflexivity).
    destruct (phi_ext f i x b (K_allocarray VR_64 1) pos (cf_fresh _ C) X O' P BB LV) as (f1 & a & l & r & C1 & (L & P1 & P2) & E1 & F1 & u1 & X1); [discriminate|exact I|intros d []|].
    apply (FIN l r f1 a u1); auto.
    + apply pl_phi; auto. exists x. auto.
    + intros _ _ j J (y & Y & T). destruct (P1 j J) as (z & Z & Q). assert (Q' : i_op y = PHI) by congruence. rewrite Q' in T. cbn in T. decompose [or] T; try discriminate; contradiction.
  - assert (O' : i_op x <> PHI) by (intros K; rewrite K in O; discriminate). apply in_split in II as (l1 & l2 & L).
    assert (NPH : ~ is_phi f i) by (intros (y & Y & K); congruence).
    assert (NI : ~ In i l1). { pose proof (cf_once _ C b) as N. rewrite L in N. apply NoDup_remove_2 in N. intros K. apply N, in_or_app. auto. }
    destruct (create_ext f i x b (K_allocarray VR_64 1) pos l1 l2 (cf_fresh _ C) X P BB L NI O') as (f1 & a & C1 & E1 & F1 & u1 & X1); [auto|exact I|intros z []|discriminate|].
    destruct PP as [->| ->].
    + apply (FIN l1 (i :: l2) f1 a u1); auto; [now apply pl_before|discriminate].
    + apply (FIN (l1 ++ [i]) l2 f1 a u1); auto; [now apply pl_behind|now rewrite <- app_assoc|now rewrite <- app_assoc|].
      intros -> [[=]|QT] j J TJ. apply in_app_iff in J as [J|[<-|[]]]; [|auto].
      apply in_split in J as (m1 & m2 & ->). rewrite <- app_assoc in L. apply (cf_ends _ C b) in L; auto. now destruct m2.
Qed.
