(** The code that translate_throw_df writes. *)
From Coq Require Import ZArith List Bool Arith Lia.
From Verif Require Import M_Base M_Ir M_Edit SpecIr SpecEdit SpecCtor SpecPass SpecInstr L_Edit L_Uses L_Hist L_Ctor L_Ins M_Release SpecRelease L_Release.
Import ListNotations.
Open Scope list_scope.
Open Scope nat_scope.

Record ext (f g : func) (b : nat) (l : list nat) : Prop := {
  ex_fresh : fresh_ok g;
  ex_insns : forall c, insns_of g c = if c =? b then l else insns_of f c;
  ex_old : forall j, f_insn f j <> None -> unchanged f g j;
  ex_succs : forall c, succs_of g c = succs_of f c;
  ex_preds : forall c, preds_of g c = preds_of f c;
  ex_dom : forall c, f_block g c = None <-> f_block f c = None;
  ex_entry : f_entry g = f_entry f }.
Lemma unchanged_some f g j x : unchanged f g j -> f_insn f j = Some x -> exists u, f_insn g j = Some (set_users u x).
Proof. intros (u & E) X. exists u. now rewrite E, X. Qed.
Lemma unchanged_trans f g h j : unchanged f g j -> unchanged g h j -> unchanged f h j.
Proof. intros (u & E) (v & F). exists v. rewrite F, E. destruct (f_insn f j) as [x|]; [|reflexivity]. now destruct x. Qed.
Lemma unchanged_live f g j : unchanged f g j -> f_insn f j <> None -> f_insn g j <> None.
Proof. intros (u & E) X. rewrite E. destruct (f_insn f j); [discriminate|congruence]. Qed.
Lemma ext_trans f g h b l l' : ext f g b l -> ext g h b l' -> ext f h b l'.
Proof.
  intros A B. constructor; [apply B| | | | | |].
  - intros c. rewrite (ex_insns _ _ _ _ B), (ex_insns _ _ _ _ A). now destruct (c =? b).
  - intros j J. eapply unchanged_trans; [apply (ex_old _ _ _ _ A j J)|]. apply (ex_old _ _ _ _ B). eapply unchanged_live; [apply (ex_old _ _ _ _ A j J)|auto].
  - intros c. now rewrite (ex_succs _ _ _ _ B), (ex_succs _ _ _ _ A).
  - intros c. now rewrite (ex_preds _ _ _ _ B), (ex_preds _ _ _ _ A).
  - intros c. now rewrite (ex_dom _ _ _ _ B), (ex_dom _ _ _ _ A).
  - now rewrite (ex_entry _ _ _ _ B), (ex_entry _ _ _ _ A).
Qed.
Lemma ext_refl f b l : fresh_ok f -> insns_of f b = l -> ext f f b l.
Proof.
  intros F L. constructor; auto; try tauto.
  - intros c. destruct (Nat.eqb_spec c b) as [->|]; auto.
  - intros j J. unfold unchanged. destruct (f_insn f j) as [x|] eqn:X; [|exists []; reflexivity]. exists (i_users x). now destruct x.
Qed.
Lemma create_ext f a x b k p l1 l2 : fresh_ok f -> f_insn f a = Some x -> i_parent x = b -> f_block f b <> None ->
  insns_of f b = l1 ++ a :: l2 -> ~ In a l1 -> i_op x <> PHI -> p = P_FRONT \/ p = P_BACK -> ctor_ok k ->
  (forall d, names k d -> exists y, f_insn f d = Some y) -> i_op (build 0 k) <> PHI ->
  exists g i, create_at f a k p = Ok (g, i) /\ ext f g b (match p with P_FRONT => l1 ++ i :: a :: l2 | _ => l1 ++ a :: i :: l2 end) /\
    f_insn f i = None /\ exists u, f_insn g i = Some (set_users u (build b k)).
Proof.
  intros F X PB B L NI NP PP OK NM KP. subst b.
  assert (E : exists g i, create_at f a k p = Ok (g, i)).
  { unfold create_at. rewrite (proj2 (get_insn_ok _ _ _) X). cbn [bind]. destruct (create_insn_total f (i_parent x) k OK NM) as (f1 & i & C).
    rewrite C. cbn [bind fst snd]. apply create_raw in C as (C1 & C2 & C3 & C4 & C5 & C6 & (u & C7) & C8).
    assert (NA : a <> i). { intros ->. rewrite (proj1 F) in X; [discriminate|lia]. }
    destruct (C8 a NA) as (v & XA). rewrite X in XA. cbn in XA.
    assert (L1 : insns_of f1 (i_parent (set_users v x)) = l1 ++ a :: l2) by (cbn; unfold insns_of in *; now rewrite C6).
    destruct (insert_at_places f1 i a _ _ l1 l2 p XA C7 L1 NI PP) as (g & I & _); [intros Q; contradiction|].
    rewrite I. cbn [bind]. eauto. }
  destruct E as (g & i & E). exists g, i. split; auto.
  assert (G := grown_at f a x k p g i l1 l2 F X B L NI PP KP (fun Q => False_ind _ (NP Q)) E).
  assert (FI : f_insn f i = None) by (rewrite (gr_id _ _ _ _ _ _ G); apply F; lia).
  split; [|split; [auto|apply (gr_new _ _ _ _ _ _ G)]].
  constructor.
  - split.
    + intros j J. rewrite (gr_ni _ _ _ _ _ _ G) in J. destruct (gr_old _ _ _ _ _ _ G j) as (u & Q); [lia|]. rewrite Q.
      rewrite (proj1 F); [reflexivity|]. pose proof (gr_id _ _ _ _ _ _ G). lia.
    + intros c J. apply (gr_dom _ _ _ _ _ _ G). apply F. rewrite (gr_nb _ _ _ _ _ _ G) in J. exact J.
  - apply (gr_insns _ _ _ _ _ _ G).
  - intros j J. apply (gr_old _ _ _ _ _ _ G). congruence.
  - apply (gr_succs _ _ _ _ _ _ G).
  - apply (gr_preds _ _ _ _ _ _ G).
  - apply (gr_dom _ _ _ _ _ _ G).
  - apply (gr_entry _ _ _ _ _ _ G).
Qed.
Lemma arg_ext f0 f b l i x v : ext f0 f b l -> f_insn f0 i = None -> f_insn f i = Some x -> length (i_vals x) < 5 ->
  (forall d, val_target v = Some d -> f_insn f d <> None) ->
  exists g u, add_call_arg f i v = Ok g /\ ext f0 g b l /\ f_insn g i = Some (set_users u (set_vals (i_vals x ++ [v]) x)) /\
    (forall j, j <> i -> f_insn f j <> None -> unchanged f g j).
Proof.
  intros E NI X LV TV. unfold add_call_arg. rewrite (proj2 (get_insn_ok _ _ _) X). cbn [bind]. rewrite (proj2 (Nat.leb_gt 5 _) LV).
  set (f1 := put_insn f i _). destruct (add_user_total f1 v i) as (g & A).
  { intros d T. unfold live, f1. rewrite f_insn_put. destruct (d =? i); [discriminate|auto]. }
  rewrite A. apply add_user_spec in A as (UE & _). exists g.
  assert (R : forall j, exists u, f_insn g j = option_map (set_users u) (f_insn f1 j)) by apply (ue_rec _ _ UE).
  assert (OTH : forall j, j <> i -> unchanged f g j).
  { intros j N. destruct (R j) as (u & Q). exists u. rewrite Q. unfold f1. rewrite f_insn_put. destruct (Nat.eqb_spec j i); [contradiction|auto]. }
  assert (BL : forall c, f_block g c = f_block f c) by (intros c; rewrite (ue_block _ _ UE); reflexivity).
  destruct (R i) as (u & Q). exists u. split; auto. split; [|split; [|auto]].
  - constructor.
    + split; [|intros c C; rewrite BL; apply (ex_fresh _ _ _ _ E); rewrite (ue_nb _ _ UE) in C; exact C].
      intros j J. rewrite (ue_ni _ _ UE) in J. cbn in J. assert (N : j <> i).
      { intros ->. rewrite (proj1 (ex_fresh _ _ _ _ E) i J) in X. discriminate. }
      destruct (OTH j N) as (w & W). rewrite W, (proj1 (ex_fresh _ _ _ _ E) j J). reflexivity.
    + intros c. rewrite <- (ex_insns _ _ _ _ E). unfold insns_of. now rewrite BL.
    + intros j J. eapply unchanged_trans; [apply (ex_old _ _ _ _ E j J)|]. apply OTH. congruence.
    + intros c. rewrite <- (ex_succs _ _ _ _ E). unfold succs_of. now rewrite BL.
    + intros c. rewrite <- (ex_preds _ _ _ _ E). unfold preds_of. now rewrite BL.
    + intros c. rewrite BL. apply (ex_dom _ _ _ _ E).
    + rewrite (ue_entry _ _ UE). cbn. apply (ex_entry _ _ _ _ E).
  - rewrite Q. unfold f1. now rewrite f_insn_put, Nat.eqb_refl.
Qed.
Lemma discards_keep f g d r : unchanged f g d -> discards f d r -> discards g d r.
Proof. intros U (y & Y & A). destruct (unchanged_some _ _ _ _ U Y) as (u & Z). exists (set_users u y). split; [exact Z|exact A]. Qed.

(** the place of the throw *)
Record at_end (f : func) (t b : nat) (l : list nat) : Prop := {
  ae_fresh : fresh_ok f;
  ae_t : exists x, f_insn f t = Some x /\ i_parent x = b /\ i_op x = THROW;
  ae_block : f_block f b <> None;
  ae_insns : insns_of f b = l ++ [t];
  ae_notin : ~ In t l }.
Lemma at_end_ext f g t b l n : at_end f t b l -> ext f g b ((l ++ n) ++ [t]) -> (forall i, In i n -> f_insn f i = None) -> at_end g t b (l ++ n).
Proof.
  intros A E N. destruct (ae_t _ _ _ _ A) as (x & X & P & Q). constructor.
  - apply E.
  - destruct (unchanged_some f g t x (ex_old _ _ _ _ E t ltac:(congruence)) X) as (u & Y). exists (set_users u x). auto.
  - intros K. apply (ex_dom _ _ _ _ E) in K. now apply (ae_block _ _ _ _ A).
  - rewrite (ex_insns _ _ _ _ E), Nat.eqb_refl. reflexivity.
  - intros K. apply in_app_iff in K as [K|K]; [now apply (ae_notin _ _ _ _ A)|]. apply N in K. congruence.
Qed.
Lemma release_ok f t b l r y : at_end f t b l -> f_insn f r = Some y -> reserving y = true ->
  exists g d, release t f r = Ok g /\ ext f g b ((l ++ [d]) ++ [t]) /\ discards g d r /\ f_insn f d = None.
Proof.
  intros A Y R. destruct (ae_t _ _ _ _ A) as (x & X & P & Q). unfold release. rewrite (proj2 (get_insn_ok _ _ _) Y). cbn [bind].
  rewrite is_reserve_eq, R.
  destruct (create_ext f t x b (K_call DISCARD) P_FRONT l [] (ae_fresh _ _ _ _ A) X P (ae_block _ _ _ _ A) (ae_insns _ _ _ _ A) (ae_notin _ _ _ _ A) ltac:(congruence))
    as (f1 & d & C & E & FD & u & XD); [auto|exact I|intros z []|discriminate|].
  rewrite C. cbn [bind fst snd]. assert (RD : r <> d) by congruence.
  destruct (arg_ext f f1 b _ d _ (val_insn r) E FD XD) as (f2 & v & C2 & E2 & X2 & O2); [cbn; lia| |].
  { intros z [= <-]. eapply unchanged_live; [apply (ex_old _ _ _ _ E r)|]; congruence. }
  rewrite C2. cbn [bind].
  destruct (arg_ext f f2 b _ d _ (val_const32 0) E2 FD X2) as (f3 & w & C3 & E3 & X3 & O3); [cbn; lia|intros z [=]|].
  exists f3, d. split; auto. split; [rewrite <- app_assoc; exact E3|]. split; auto. eexists. split; [exact X3|]. cbn. auto.
Qed.
Lemma releases_ok rs : forall f t b l, at_end f t b l -> (forall r, In r rs -> exists y, f_insn f r = Some y /\ reserving y = true) ->
  exists g ds, ofold (release t) f rs = Ok g /\ ext f g b ((l ++ ds) ++ [t]) /\ Forall2 (discards g) ds rs /\ (forall d, In d ds -> f_insn f d = None).
Proof.
  induction rs as [|r rs IH]; intros f t b l A H; cbn [ofold].
  - exists f, []. split; auto. rewrite app_nil_r. split; [apply ext_refl; [apply A|apply A]|]. split; [constructor|intros d []].
  - destruct (H r (or_introl eq_refl)) as (y & Y & R). destruct (release_ok f t b l r y A Y R) as (f1 & d & C & E & D & FD). rewrite C. cbn [bind].
    assert (A1 : at_end f1 t b (l ++ [d])) by (eapply at_end_ext; eauto; intros i [<-|[]]; auto).
    destruct (IH f1 t b (l ++ [d]) A1) as (g & ds & G & E2 & F & N).
    { intros q Q. destruct (H q (or_intror Q)) as (z & Z & RZ). destruct (unchanged_some f f1 q z (ex_old _ _ _ _ E q ltac:(congruence)) Z) as (u & U).
      exists (set_users u z). auto. }
    exists g, (d :: ds). split; auto. split; [|split].
    + eapply ext_trans; [exact E|]. replace (l ++ d :: ds) with ((l ++ [d]) ++ ds) by now rewrite <- app_assoc. exact E2.
    + constructor; auto. eapply discards_keep; [|exact D]. apply (ex_old _ _ _ _ E2). destruct D as (z & Z & _). congruence.
    + intros q [<-|Q]; auto. specialize (N q Q). destruct (f_insn f q) as [z|] eqn:Z; auto. exfalso.
      destruct (unchanged_some f f1 q z (ex_old _ _ _ _ E q ltac:(congruence)) Z) as (u & U). congruence.
Qed.
Lemma keep1 f g b l j x : ext f g b l -> f_insn f j = Some x -> exists u, f_insn g j = Some (set_users u x).
Proof. intros E X. apply (unchanged_some f g j x); auto. apply (ex_old _ _ _ _ E). congruence. Qed.
Lemma gone f g b l j : ext f g b l -> f_insn g j = None -> f_insn f j = None.
Proof. intros E N. destruct (f_insn f j) as [x|] eqn:X; auto. destruct (keep1 _ _ _ _ _ _ E X). congruence. Qed.

Lemma prints_keep f g ms : (forall i, In i ms -> f_insn f i <> None -> unchanged f g i) -> prints f ms -> prints g ms.
Proof.
  intros U (a & s1 & s2 & p & c & xa & x1 & x2 & xp & xc & -> & A1 & A2 & A3 & A4 & A5 & B).
  destruct (unchanged_some f g a xa) as (ua & Ua); [apply U; [cbn; auto|congruence]|auto|].
  destruct (unchanged_some f g s1 x1) as (u1 & U1); [apply U; [cbn; auto|congruence]|auto|].
  destruct (unchanged_some f g s2 x2) as (u2 & U2); [apply U; [cbn; auto|congruence]|auto|].
  destruct (unchanged_some f g p xp) as (up & Up); [apply U; [cbn; auto|congruence]|auto|].
  destruct (unchanged_some f g c xc) as (uc & Uc); [apply U; [cbn; auto 6|congruence]|auto|].
  exists a, s1, s2, p, c, (set_users ua xa), (set_users u1 x1), (set_users u2 x2), (set_users up xp), (set_users uc xc). cbn. auto 12.
Qed.
Lemma message_ok f t b l : at_end f t b l -> (forall i, In i l -> f_insn f i <> None) ->
  exists g ms, message t f = Ok g /\ ext f g b ((l ++ ms) ++ [t]) /\ prints g ms /\ (forall d, In d ms -> f_insn f d = None).
Proof.
  intros A LV. destruct (ae_t _ _ _ _ A) as (x & X & P & Q). unfold message.
  destruct (create_ext f t x b (K_allocarray VR_64 1) P_FRONT l [] (ae_fresh _ _ _ _ A) X P (ae_block _ _ _ _ A) (ae_insns _ _ _ _ A) (ae_notin _ _ _ _ A) ltac:(congruence))
    as (f1 & a & C1 & E1 & F1 & u1 & X1); [auto|exact I|intros z []|discriminate|]. rewrite C1. cbn [bind fst snd].
  assert (NL : forall i, f_insn f i = None -> ~ In i l) by (intros i I J; apply (LV i J I)).
  assert (NT : forall i, f_insn f i = None -> i <> t) by congruence.
  assert (BL : forall h l', ext f h b l' -> f_block h b <> None) by (intros h l' E K; apply (ex_dom _ _ _ _ E) in K; now apply (ae_block _ _ _ _ A)).
  assert (IN1 : insns_of f1 b = l ++ a :: [t]) by (rewrite (ex_insns _ _ _ _ E1), Nat.eqb_refl; reflexivity).
  destruct (create_ext f1 a _ b (K_storeraw VR_8 (addr_val (val_insn a) 4) (val_const32 0)) P_BACK l [t] (ex_fresh _ _ _ _ E1) X1 eq_refl (BL _ _ E1) IN1 (NL _ F1))
    as (f2 & s1 & C2 & E2 & F2 & u2 & X2); [discriminate|auto|exact I|intros z [Z|Z]; cbn in Z; [injection Z as <-; eauto|discriminate]|discriminate|].
  rewrite C2. cbn [bind fst snd]. pose proof (ext_trans _ _ _ _ _ _ E1 E2) as E12. pose proof (gone _ _ _ _ _ E1 F2) as G2.
  destruct (keep1 _ _ _ _ _ _ E2 X1) as (v2 & Y2).
  assert (NA : s1 <> a) by congruence.
  assert (IN2 : insns_of f2 b = (l ++ [a]) ++ s1 :: [t]) by (rewrite (ex_insns _ _ _ _ E2), Nat.eqb_refl, <- app_assoc; reflexivity).
  destruct (create_ext f2 s1 _ b (K_storeraw VR_32 (addr_val (val_insn a) 0) (val_const32 1953069157)) P_BACK (l ++ [a]) [t] (ex_fresh _ _ _ _ E2) X2 eq_refl (BL _ _ E12) IN2)
    as (f3 & s2 & C3 & E3 & F3 & u3 & X3);
    [rewrite in_app_iff; cbn; intros [K|[K|[]]]; [now apply (NL s1)|congruence]|discriminate|auto|exact I|intros z [Z|Z]; cbn in Z; [injection Z as <-; eauto|discriminate]|discriminate|].
  rewrite C3. cbn [bind fst snd]. pose proof (ext_trans _ _ _ _ _ _ E12 E3) as E13. pose proof (gone _ _ _ _ _ E12 F3) as G3.
  destruct (keep1 _ _ _ _ _ _ E3 Y2) as (v3 & Y3). destruct (keep1 _ _ _ _ _ _ E3 X2) as (w3 & Z3).
  assert (IN3 : insns_of f3 b = (l ++ [a; s1]) ++ s2 :: [t]) by (rewrite (ex_insns _ _ _ _ E3), Nat.eqb_refl, <- !app_assoc; reflexivity).
  destruct (create_ext f3 s2 _ b (K_getelemptr a (val_const32 0)) P_BACK (l ++ [a; s1]) [t] (ex_fresh _ _ _ _ E3) X3 eq_refl (BL _ _ E13) IN3)
    as (f4 & p & C4 & E4 & F4 & u4 & X4);
    [rewrite in_app_iff; cbn; intros [K|[K|[K|[]]]]; [now apply (NL s2)|congruence|congruence]|discriminate|auto|exact I|intros z [Z|Z]; cbn in Z; [subst z; eauto|discriminate]|discriminate|].
  rewrite C4. cbn [bind fst snd]. pose proof (ext_trans _ _ _ _ _ _ E13 E4) as E14. pose proof (gone _ _ _ _ _ E13 F4) as G4.
  destruct (keep1 _ _ _ _ _ _ E4 Y3) as (v4 & Y4). destruct (keep1 _ _ _ _ _ _ E4 Z3) as (w4 & Z4). destruct (keep1 _ _ _ _ _ _ E4 X3) as (q4 & Q4).
  assert (IN4 : insns_of f4 b = (l ++ [a; s1; s2]) ++ p :: [t]) by (rewrite (ex_insns _ _ _ _ E4), Nat.eqb_refl, <- !app_assoc; reflexivity).
  destruct (create_ext f4 p _ b (K_call 6) P_BACK (l ++ [a; s1; s2]) [t] (ex_fresh _ _ _ _ E4) X4 eq_refl (BL _ _ E14) IN4)
    as (f5 & c & C5 & E5 & F5 & u5 & X5);
    [rewrite in_app_iff; cbn; intros [K|[K|[K|[K|[]]]]]; [now apply (NL p)|congruence|congruence|congruence]|discriminate|auto|exact I|intros z []|discriminate|].
  rewrite C5. cbn [bind fst snd]. pose proof (gone _ _ _ _ _ E14 F5) as G5. destruct (keep1 _ _ _ _ _ _ E5 X4) as (r5 & R5).
  destruct (arg_ext f4 f5 b _ c _ (val_insn p) E5 F5 X5) as (f6 & u6 & C6 & E6 & X6 & _); [cbn; lia|intros z [= <-]; congruence|].
  rewrite C6. cbn [bind].
  destruct (arg_ext f4 f6 b _ c _ (val_const32 5) E6 F5 X6) as (f7 & u7 & C7 & E7 & X7 & _); [cbn; lia|intros z [=]|].
  exists f7, [a; s1; s2; p; c]. split; auto. pose proof (ext_trans _ _ _ _ _ _ E14 E7) as E17. split; [|split].
  - rewrite <- !app_assoc in E17. rewrite <- app_assoc. exact E17.
  - destruct (keep1 _ _ _ _ _ _ E7 Y4) as (a1 & K1). destruct (keep1 _ _ _ _ _ _ E7 Z4) as (a2 & K2). destruct (keep1 _ _ _ _ _ _ E7 Q4) as (a3 & K3).
    destruct (keep1 _ _ _ _ _ _ E7 X4) as (a4 & K4).
    eexists a, s1, s2, p, c, _, _, _, _, _. split; [reflexivity|]. split; [exact K1|]. split; [exact K2|]. split; [exact K3|]. split; [exact K4|]. split; [exact X7|].
    cbn. repeat split.
  - intros d [<-|[<-|[<-|[<-|[<-|[]]]]]]; auto.
Qed.

(** one throw *)
Record stepped (h g : func) (t b : nat) : Prop := {
  sp_fresh : fresh_ok g;
  sp_insns : forall c, c <> b -> insns_of g c = insns_of h c;
  sp_old : forall j, j <> t -> f_insn h j <> None -> unchanged h g j;
  sp_succs : forall c, succs_of g c = succs_of h c;
  sp_preds : forall c, preds_of g c = preds_of h c;
  sp_dom : forall c, f_block g c = None <-> f_block h c = None;
  sp_entry : f_entry g = f_entry h }.
Lemma end_ok msg e f t b l ex : at_end f t b l -> (forall i, In i l -> f_insn f i <> None) -> e b = Some ex -> NoDup (x_out ex) ->
  (forall r, In r (x_out ex) -> exists y, f_insn f r = Some y /\ reserving y = true) ->
  exists g, end_throw msg e f t = Ok g /\ stepped f g t b /\ released f g msg b l t (x_out ex).
Proof.
  intros A LV EB ND RS. destruct (ae_t _ _ _ _ A) as (x & X & P & Q). unfold end_throw. rewrite (proj2 (get_insn_ok _ _ _) X). cbn [bind].
  unfold get_extra. rewrite P, EB. cbn [bind].
  destruct (releases_ok (x_out ex) f t b l A RS) as (f1 & ds & C1 & E1 & D1 & N1). rewrite C1. cbn [bind].
  pose proof (at_end_ext _ _ _ _ _ _ A E1 N1) as A1.
  assert (M : exists f2 ms, (if msg then message t f1 else Ok f1) = Ok f2 /\ ext f1 f2 b (((l ++ ds) ++ ms) ++ [t]) /\
     (if msg then prints f2 ms else ms = []) /\ (forall d, In d ms -> f_insn f1 d = None)).
  { destruct msg.
    - apply message_ok; auto. intros i I. apply in_app_iff in I as [I|I].
      + eapply unchanged_live; [apply (ex_old _ _ _ _ E1)|]; auto.
      + clear - D1 I. revert I. induction D1 as [|d r ds rs H D IH]; intros []; auto. subst. destruct H as (y & Y & _). congruence.
    - exists f1, []. split; auto. rewrite app_nil_r. split; [apply ext_refl; [apply A1|apply A1]|]. split; auto. intros d []. }
  destruct M as (f2 & ms & C2 & E2 & PM & N2). rewrite C2. cbn [bind].
  pose proof (ext_trans _ _ _ _ _ _ E1 E2) as E. destruct (keep1 _ _ _ _ _ _ E X) as (u & X2).
  rewrite (proj2 (get_insn_ok _ _ _) X2). cbn [bind]. set (y := set_vals [val_const32 0] (set_op RET (set_users u x))).
  exists (put_insn f2 t y). split; auto.
  assert (OTH : forall j, j <> t -> f_insn (put_insn f2 t y) j = f_insn f2 j) by (intros j N; rewrite f_insn_put; destruct (Nat.eqb_spec j t); [contradiction|auto]).
  assert (UN : forall j, j <> t -> unchanged f2 (put_insn f2 t y) j).
  { intros j N. unfold unchanged. rewrite (OTH j N). destruct (f_insn f2 j) as [z|] eqn:Z; [|exists []; reflexivity]. exists (i_users z). now destruct z. }
  assert (NT : forall d, f_insn f d = None -> d <> t) by congruence.
  assert (ND2 : forall d, In d ds -> d <> t) by (intros d D; apply NT; auto).
  assert (NM2 : forall d, In d ms -> d <> t) by (intros d D; apply NT; eapply gone; [exact E1|auto]).
  split.
  - constructor; [| | |exact (ex_succs _ _ _ _ E)|exact (ex_preds _ _ _ _ E)|exact (ex_dom _ _ _ _ E)|exact (ex_entry _ _ _ _ E)].
    + split; [|exact (proj2 (ex_fresh _ _ _ _ E))]. intros j J. assert (N : j <> t).
      { intros ->. cbn in J. rewrite (proj1 (ex_fresh _ _ _ _ E) t J) in X2. discriminate. }
      rewrite (OTH j N). apply (ex_fresh _ _ _ _ E). exact J.
    + intros c N. change (insns_of (put_insn f2 t y) c) with (insns_of f2 c). rewrite (ex_insns _ _ _ _ E). destruct (Nat.eqb_spec c b); [contradiction|auto].
    + intros j N J. eapply unchanged_trans; [apply (ex_old _ _ _ _ E j J)|apply UN; auto].
  - constructor; auto.
    + exists ds, ms. change (insns_of (put_insn f2 t y) b) with (insns_of f2 b). rewrite (ex_insns _ _ _ _ E), Nat.eqb_refl. split; [now rewrite <- !app_assoc|].
      split; [|split].
      * pose proof (ex_old _ _ _ _ E2) as U2. clear - D1 ND2 UN U2. revert D1 ND2. generalize (x_out ex). induction ds as [|d ds IH]; intros rs D N; inversion D; subst; constructor.
        -- eapply discards_keep; [apply UN; apply N; now left|]. eapply discards_keep; [|eassumption]. apply U2.
           destruct H1 as (z & Z & _). congruence.
        -- apply IH; auto. intros q K. apply N. now right.
      * intros d D. apply in_app_iff in D as [D|D]; auto. eapply gone; [exact E1|auto].
      * destruct msg; auto. eapply prints_keep; [|exact PM]. intros i I _. apply UN; auto.
    + exists y. rewrite f_insn_put, Nat.eqb_refl. auto.
Qed.

(** all of them *)
Lemma released_later h g1 g msg b l t rs : released h g1 msg b l t rs -> insns_of g b = insns_of g1 b ->
  (forall j, f_insn g1 j <> None -> f_insn h j = None \/ j = t -> unchanged g1 g j) -> released h g msg b l t rs.
Proof.
  intros [(ds & ms & L & D & N & M) ND (y & Y & R)] E U. constructor; auto.
  - exists ds, ms. rewrite E. split; auto. split; [|split; auto].
    + clear - D N U. assert (N' : forall d, In d ds -> f_insn h d = None) by (intros d I; apply N, in_or_app; auto). clear N.
      induction D as [|d r ds rs H D IH]; constructor.
      * eapply discards_keep; [|exact H]. apply U; [destruct H as (z & Z & _); congruence|left; apply N'; now left].
      * apply IH. intros q Q. apply N'. now right.
    + destruct msg; auto. eapply prints_keep; [|exact M]. intros i I J. apply U; auto. left. apply N, in_or_app. auto.
  - destruct (unchanged_some g1 g t y) as (u & Z); [apply U; [congruence|auto]|auto|]. exists (set_users u y). auto.
Qed.
Lemma ends_ok msg e ts : forall h, NoDup ts ->
  (forall t, In t ts -> exists b l ex, at_end h t b l /\ (forall i, In i l -> f_insn h i <> None) /\ e b = Some ex /\ NoDup (x_out ex) /\
     forall r, In r (x_out ex) -> exists y, f_insn h r = Some y /\ reserving y = true) -> fresh_ok h ->
  exists g, ofold (end_throw msg e) h ts = Ok g /\ fresh_ok g /\
    (forall c, (forall t l, In t ts -> insns_of h c <> l ++ [t]) -> insns_of g c = insns_of h c) /\
    (forall j, ~ In j ts -> f_insn h j <> None -> unchanged h g j) /\
    (forall c, succs_of g c = succs_of h c) /\ (forall c, preds_of g c = preds_of h c) /\ f_entry g = f_entry h /\
    (forall t b l ex, In t ts -> at_end h t b l -> e b = Some ex -> released h g msg b l t (x_out ex)).
Proof.
  induction ts as [|t ts IH]; intros h N H FR; cbn [ofold].
  - exists h. split; auto. split; auto. split; [auto|]. split; [|split; [auto|split; [auto|split; [auto|intros t b l ex []]]]].
    intros j _ J. unfold unchanged. destruct (f_insn h j) as [z|] eqn:Z; [|exists []; reflexivity]. exists (i_users z). now destruct z.
  - apply NoDup_cons_iff in N as (NT & N). destruct (H t (or_introl eq_refl)) as (b & l & ex & A & LV & EB & ND & RS).
    destruct (end_ok msg e h t b l ex A LV EB ND RS) as (g1 & C & S & R). rewrite C. cbn [bind].
    assert (OB : forall t' b' l', In t' ts -> at_end h t' b' l' -> b' <> b /\ t' <> t).
    { intros t' b' l' T A'. assert (t' <> t) by (intros ->; contradiction). split; auto. intros ->. pose proof (ae_insns _ _ _ _ A) as Q. rewrite (ae_insns _ _ _ _ A') in Q.
      apply app_inj_tail in Q as [_ Q]. contradiction. }
    assert (MV : forall t' b' l', In t' ts -> at_end h t' b' l' -> at_end g1 t' b' l').
    { intros t' b' l' T A'. destruct (OB _ _ _ T A') as (N1 & N2). destruct (ae_t _ _ _ _ A') as (x & X & P & Q).
      constructor; [apply S| | | |apply A'].
      - destruct (unchanged_some h g1 t' x) as (u & Y); [apply (sp_old _ _ _ _ S); congruence|auto|]. exists (set_users u x). auto.
      - intros K. apply (sp_dom _ _ _ _ S) in K. now apply (ae_block _ _ _ _ A').
      - rewrite (sp_insns _ _ _ _ S b' N1). apply A'. }
    assert (LIVE : forall i, f_insn h i <> None -> f_insn g1 i <> None).
    { intros i I. destruct (Nat.eq_dec i t) as [->|NE]; [destruct (rl_ret _ _ _ _ _ _ _ R) as (y & Y & _); congruence|].
      eapply unchanged_live; [apply (sp_old _ _ _ _ S)|]; auto. }
    destruct (IH g1 N) as (g & G & F & I1 & I2 & I3 & I4 & I5 & I6).
    { intros t' T. destruct (H t' (or_intror T)) as (b' & l' & ex' & A' & LV' & EB' & ND' & RS'). exists b', l', ex'. split; [now apply MV|].
      split; [intros i I; apply LIVE; auto|]. split; auto. split; auto. intros r Q. destruct (RS' r Q) as (y & Y & RY).
      assert (NE : r <> t). { intros ->. destruct (ae_t _ _ _ _ A) as (x & X & _ & O). rewrite Y in X. injection X as ->. unfold reserving in RY. rewrite O in RY. discriminate. }
      destruct (unchanged_some h g1 r y) as (u & Z); [apply (sp_old _ _ _ _ S); congruence|auto|]. exists (set_users u y). auto. }
    { apply S. }
    exists g. split; auto. split; auto. split; [|split; [|split; [|split; [|split]]]].
    + intros c K. assert (NB : c <> b) by (intros ->; apply (K t l); [now left|apply A]).
      rewrite I1; [now apply (sp_insns _ _ _ _ S)|]. intros t' l' T. rewrite (sp_insns _ _ _ _ S c NB). apply K. now right.
    + intros j J L. cbn in J. eapply unchanged_trans; [apply (sp_old _ _ _ _ S j); [intros ->; tauto|auto]|]. apply I2; [tauto|auto].
    + intros c. now rewrite I3, (sp_succs _ _ _ _ S).
    + intros c. now rewrite I4, (sp_preds _ _ _ _ S).
    + now rewrite I5, (sp_entry _ _ _ _ S).
    + intros t' b' l' ex' [<-|T] A' EB'.
      * destruct (ae_t _ _ _ _ A) as (x & X & P & _). destruct (ae_t _ _ _ _ A') as (x' & X' & P' & _). assert (b' = b) by congruence. clear P'. subst b'.
        assert (l' = l). { pose proof (ae_insns _ _ _ _ A') as Q. rewrite (ae_insns _ _ _ _ A) in Q. now apply app_inj_tail in Q as [-> _]. }
        subst l'. rewrite EB in EB'. injection EB' as <-. apply (released_later h g1); auto.
        -- apply I1. intros t' l' T Q. destruct (rl_block _ _ _ _ _ _ _ R) as (ds & ms & L & _). rewrite L in Q. rewrite !app_assoc in Q.
           apply app_inj_tail in Q as [_ ->]. contradiction.
        -- intros j J [K| ->]; [|apply I2; auto]. apply I2; auto. intros T. destruct (H j (or_intror T)) as (b2 & l2 & _ & A2 & _).
           destruct (ae_t _ _ _ _ A2) as (z & Z & _). congruence.
      * destruct (I6 t' b' l' ex' T (MV _ _ _ T A') EB') as [(ds & ms & L & D & FR' & M) Q1 Q2]. constructor; auto.
        exists ds, ms. split; auto. split; auto. split; auto. intros d I. specialize (FR' d I). destruct (f_insn h d) as [z|] eqn:Z; auto.
        exfalso. apply (LIVE d); congruence.
Qed.

(** which throws *)
Lemma throws_ok f l : (forall b, In b l -> f_block f b <> None) -> linked_ok f -> NoDup l -> forall acc,
  exists ts, ofold (last_throw f) acc l = Ok (acc ++ ts) /\ (forall t, In t ts <-> exists b pre, throws f l b pre t) /\ NoDup ts.
Proof.
  intros B LK. induction l as [|b l IH]; intros ND acc; cbn [ofold].
  - exists []. rewrite app_nil_r. split; auto. split; [|constructor]. intros t. split; [intros []|intros (b & pre & [] & _)].
  - apply NoDup_cons_iff in ND as (NB & ND). unfold last_throw at 1, get_block. destruct (f_block f b) as [bb|] eqn:EB; [|exfalso; apply (B b); [now left|auto]].
    cbn [bind]. assert (IB : insns_of f b = b_insns bb) by (unfold insns_of; now rewrite EB).
    assert (Q : exists o, (match rev (b_insns bb) with [] => Ok acc | i :: _ => do x <- get_insn f i; Ok (if iop_eqb (i_op x) THROW then acc ++ [i] else acc) end) = Ok (acc ++ o) /\
       (forall t, In t o <-> exists pre, throws f [b] b pre t) /\ NoDup o).
    { destruct (rev (b_insns bb)) as [|i r] eqn:RV.
      - exists []. rewrite app_nil_r. split; auto. split; [|constructor]. intros t. split; [intros []|]. intros (pre & _ & L & _).
        rewrite IB in L. apply (f_equal (@rev nat)) in RV. rewrite rev_involutive in RV. rewrite RV in L. now destruct pre.
      - apply (f_equal (@rev nat)) in RV. rewrite rev_involutive in RV. cbn [rev] in RV.
        destruct (LK b i) as (x & X & _); [rewrite IB, RV; apply in_or_app; right; now left|].
        rewrite (proj2 (get_insn_ok _ _ _) X). cbn [bind]. unfold iop_eqb. destruct (iop_eq_dec (i_op x) THROW) as [O|O].
        + exists [i]. split; auto. split; [|constructor; [intros []|constructor]]. intros t. split.
          * intros [<-|[]]. exists (rev r). split; [now left|]. split; [congruence|eauto].
          * intros (pre & _ & L & _). rewrite IB, RV in L. apply app_inj_tail in L as [_ ->]. now left.
        + exists []. rewrite app_nil_r. split; auto. split; [|constructor]. intros t. split; [intros []|].
          intros (pre & _ & L & y & Y & OY). rewrite IB, RV in L. apply app_inj_tail in L as [_ <-]. congruence. }
    destruct Q as (o & Q1 & Q2 & Q3). rewrite Q1. cbn [bind].
    destruct (IH (fun c C => B c (or_intror C)) ND (acc ++ o)) as (ts & T1 & T2 & T3). exists (o ++ ts). rewrite app_assoc. split; auto. split.
    + intros t. rewrite in_app_iff, Q2, T2. split.
      * intros [(pre & _ & H)|(c & pre & C & H)]; [exists b, pre; split; [now left|auto]|exists c, pre; split; [now right|auto]].
      * intros (c & pre & [<-|C] & H); [left; exists pre; split; [now left|auto]|right; exists c, pre; split; auto].
    + assert (DJ : forall t, In t o -> ~ In t ts).
      { intros t A1 A2. apply Q2 in A1 as (p1 & _ & L1 & _). apply T2 in A2 as (c & p2 & C & L2 & _).
        destruct (LK b t) as (x & X & P); [rewrite L1; apply in_or_app; right; now left|]. destruct (LK c t) as (x' & X' & P'); [rewrite L2; apply in_or_app; right; now left|]. congruence. }
      clear - Q3 T3 DJ. induction o as [|a o IH]; [auto|]. apply NoDup_cons_iff in Q3 as (A & Q3). cbn. constructor.
      * rewrite in_app_iff. intros [K|K]; [contradiction|]. apply (DJ a); [now left|auto].
      * apply IH; auto. intros t T. apply DJ. now right.
Qed.

Lemma complete_allowed f reach : cfg_ok f -> complete f reach -> allowed f reach.
Proof.
  intros C CP. split; [|apply (cp_pred _ _ CP)]. intros b I. destruct (cp_walk _ _ CP b I) as (p & W).
  destruct (walk_last _ _ _ W) as [(_ & ->)|(q & a & _ & _ & S)]; [exact (cf_entry _ C)|]. apply (cf_mirror _ C) in S. unfold preds_of in S.
  destruct (f_block f b); [discriminate|destruct S].
Qed.
Lemma linked_live f b i : linked_ok f -> In i (insns_of f b) -> f_insn f i <> None.
Proof. intros L I. destruct (L b i I) as (x & X & _). congruence. Qed.
Theorem df_runs f reach : cfg_ok f -> complete f reach -> forall fuel, length reach * length (flat_map (insns_of f) reach) < fuel ->
  (exists e, df fuel f reach = Ok e) <-> direct f reach.
Proof.
  intros C CP fuel FU. pose proof (complete_allowed _ _ C CP) as AL.
  pose proof (scans_dec f reach (proj1 AL) (fun b i => linked_live f b i (cf_linked _ C)) (fun _ => None)) as SD.
  assert (DP : direct f reach <-> forall b, In b reach -> plainly f (insns_of f b)).
  { split; intros H; [intros b I i x|intros b i x I]; eapply H; eauto. }
  rewrite DP, <- SD. unfold df. split.
  - intros (e & H). apply bind_ok in H as (e0 & S & _). eauto.
  - intros (e0 & S). rewrite S. cbn [bind]. apply loop_ends; auto; [now apply start_good, scan_start|]. lia.
Qed.
Lemma throw_place f reach b pre t : cfg_ok f -> complete f reach -> throws f reach b pre t -> at_end f t b pre /\ forall i, In i pre -> f_insn f i <> None.
Proof.
  intros C CP (I & L & x & X & O). destruct (cf_linked _ C b t) as (y & Y & P); [rewrite L; apply in_or_app; right; now left|]. rewrite X in Y. injection Y as <-. split.
  - constructor; auto; [exact (cf_fresh _ C)|eauto|now apply (complete_allowed _ _ C CP)|].
    pose proof (cf_once _ C b) as N. rewrite L in N. apply NoDup_remove_2 in N. now rewrite app_nil_r in N.
  - intros i J. apply (linked_live f b i (cf_linked _ C)). rewrite L. apply in_or_app. auto.
Qed.
Lemma after_df f reach fuel msg e : cfg_ok f -> complete f reach -> df fuel f reach = Ok e -> exists g, translate_throw_df fuel msg reach f = Ok g /\
  (forall b pre t, throws f reach b pre t -> exists ex, e b = Some ex /\ released f g msg b pre t (x_out ex)) /\
  (forall c, (forall pre t, ~ throws f reach c pre t) -> insns_of g c = insns_of f c) /\
  (forall j, f_insn f j <> None -> (forall b pre, ~ throws f reach b pre j) -> unchanged f g j) /\
  (forall c, succs_of g c = succs_of f c) /\ (forall c, preds_of g c = preds_of f c) /\ f_entry g = f_entry f.
Proof.
  intros C CP E. pose proof (df_good _ _ _ _ E) as G. unfold translate_throw_df. rewrite E. cbn [bind].
  destruct (throws_ok f reach (proj1 (complete_allowed _ _ C CP)) (cf_linked _ C) (cp_once _ _ CP) []) as (ts & T & TS & ND). cbn [app] in T. rewrite T. cbn [bind].
  assert (DB : forall b, In b reach -> exists ex, e b = Some ex) by (intros b I; destruct (gd_dom _ _ _ G b I) as (ex & X & _); eauto).
  destruct (ends_ok msg e ts f ND) as (g & H & F & I1 & I2 & I3 & I4 & I5 & I6).
  { intros t I. apply TS in I as (b & pre & TH). destruct (throw_place f reach b pre t C CP TH) as (A & LV). destruct (DB b (proj1 TH)) as (ex & X).
    exists b, pre, ex. split; auto. split; auto. split; auto. split; [apply (gd_nodup _ _ _ G _ _ X)|]. intros r R. apply (gd_univ _ _ _ G b ex r X). auto. }
  { exact (cf_fresh _ C). }
  exists g. split; auto. split; [|split; [|split; auto]].
  - intros b pre t TH. destruct (DB b (proj1 TH)) as (ex & X). exists ex. split; auto. apply I6; auto; [apply TS; eauto|apply (throw_place f reach b pre t C CP TH)].
  - intros c N. apply I1. intros t l I L. apply TS in I as (b & pre & TH). destruct TH as (IB & LB & x & X & O).
    destruct (cf_linked _ C b t) as (y & Y & P); [rewrite LB; apply in_or_app; right; now left|].
    destruct (cf_linked _ C c t) as (y' & Y' & P'); [rewrite L; apply in_or_app; right; now left|].
    assert (b = c) by congruence. clear P P'. subst b. apply (N pre t). split; auto. split; eauto.
  - intros j J N. apply I2; auto. intros I. apply TS in I as (b & pre & TH). now apply (N b pre).
Qed.
Theorem release_accepts f reach msg : cfg_ok f -> complete f reach -> forall fuel, length reach * length (flat_map (insns_of f) reach) < fuel ->
  (exists g, translate_throw_df fuel msg reach f = Ok g) <-> direct f reach.
Proof.
  intros C CP fuel FU. rewrite <- (df_runs f reach C CP fuel FU). split.
  - intros (g & H). unfold translate_throw_df in H. apply bind_ok in H as (e & E & _). eauto.
  - intros (e & E). destruct (after_df f reach fuel msg e C CP E) as (g & H & _). eauto.
Qed.
Theorem release_spec f reach msg fuel g : cfg_ok f -> complete f reach -> translate_throw_df fuel msg reach f = Ok g ->
  (forall b pre t, throws f reach b pre t -> exists rs, released f g msg b pre t rs /\
     (preds_of f (f_entry f) = [] -> forall r, In r rs -> held_at f b r) /\
     (loop_free f reach -> discovered f reach -> made_first f -> forall r, held_at f b r -> In r rs)) /\
  (forall c, (forall pre t, ~ throws f reach c pre t) -> insns_of g c = insns_of f c) /\
  (forall j, f_insn f j <> None -> (forall b pre, ~ throws f reach b pre j) -> unchanged f g j) /\
  (forall c, succs_of g c = succs_of f c) /\ (forall c, preds_of g c = preds_of f c) /\ f_entry g = f_entry f.
Proof.
  intros C CP H. assert (H' := H). unfold translate_throw_df in H'. apply bind_ok in H' as (e & E & _).
  destruct (after_df f reach fuel msg e C CP E) as (g' & H' & A & B). rewrite H in H'. injection H' as <-. split; [|exact B].
  intros b pre t TH. destruct (A b pre t TH) as (ex & X & R). exists (x_out ex). split; auto. pose proof (df_good _ _ _ _ E) as G. split.
  - intros NP r I. exact (gd_sound _ _ _ G NP (cf_mirror _ C) b ex r X I).
  - intros LF DI MF r HH. apply (df_complete f reach (cf_mirror _ C) CP LF MF) with (fuel := fuel) (e := e) (b := b); auto; [|apply TH].
    intros a c i I J. destruct (cf_linked _ C a i I) as (y & Y & P). destruct (cf_linked _ C c i J) as (y' & Y' & P'). congruence.
Qed.
