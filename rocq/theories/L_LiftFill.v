(** Sealing a block and lifting one instruction keep the invariant of SSA construction. *)
From Coq Require Import ZArith List Bool Arith Lia.
From Verif Require Import M_Base M_Ir M_Edit SpecWord SpecIsa M_GenBB M_Lift L_Edit L_Lift L_LiftRead.
Import ListNotations.
Open Scope nat_scope.

Section Fill.
Variable bs : list pblock.
Notation blk := (blk bs).
Notation inv := (inv bs).
Hypothesis Hpred : forall b pb p, blk b = Some pb -> In p (pb_preds pb) -> blk (S p) <> None.

(** ** Sealing *)

Definition seal_step (n b : nat) (s : lst) (reg : Z) : outcome lst :=
  match l_inc s b reg with
  | Some i => add_phi_operands (read_var n) reg i s
  | None => Ok s
  end.

Lemma seal_err n b l : forall s s', ofold (seal_step n b) s l = Ok s' -> l_err s = true -> l_err s' = true.
Proof.
  induction l as [|r l IH]; intros s s'; cbn [ofold]; [intros H; injection H as <-; auto|].
  intros H E. apply bind_ok in H as (s1 & H1 & H). eapply IH; [exact H|].
  unfold seal_step in H1. destruct (l_inc s b r); [|injection H1 as <-; exact E].
  eapply add_phi_err; [apply read_err | exact H1 | exact E].
Qed.

Definition pend (inc : Z -> option nat) (i : nat) : Prop := exists r, inc r = Some i.

Lemma seal_loop n b pb dn inc : blk b = Some pb -> b <> 1 ->
  (forall p, In p (pb_preds pb) -> dn (S p) <> None /\ blk (S p) <> None) -> single pb = None ->
  forall l e s s', NoDup l -> inv e dn (pend inc) s -> l_seal s b = false ->
  (forall r, l_inc s b r = inc r) -> (forall r i, inc r = Some i -> regok r /\ e b r = Some (val_insn i)) ->
  (forall r, In r l -> forall i, inc r = Some i -> exists x, f_insn (l_f s) i = Some x /\ i_phi x = []) ->
  (forall r, ~ In r l -> forall i, inc r = Some i -> exists x, f_insn (l_f s) i = Some x /\ complete s pb r (i_phi x)) ->
  ofold (seal_step n b) s l = Ok s' -> l_err s' = false ->
  exists e', inv e' dn (pend inc) s' /\ l_seal s' = l_seal s /\ l_fill s' = l_fill s /\
    (forall r, l_inc s' b r = inc r) /\ (forall r i, inc r = Some i -> e' b r = Some (val_insn i)) /\
    (forall r i, inc r = Some i -> exists x, f_insn (l_f s') i = Some x /\ complete s' pb r (i_phi x)).
Proof.
  intros B N1 Hp Sg. induction l as [|reg l IH]; intros e s s' ND I Se Hi He Hn Hd H Er.
  - injection H as <-. exists e. repeat (split; [now auto|]). split; [intros; now apply He|].
    intros r i Hr. apply (Hd r); auto.
  - cbn [ofold] in H. apply bind_ok in H as (s1 & H1 & H). inversion ND as [|? ? Nin ND']; subst.
    assert (Er1 : l_err s1 = false).
    { destruct (l_err s1) eqn:Q; [|reflexivity]. rewrite <- Er. symmetry. eapply seal_err; eassumption. }
    unfold seal_step in H1. rewrite Hi in H1. destruct (inc reg) as [i|] eqn:Ei.
    2:{ injection H1 as <-. eapply IH; try eassumption.
        - intros r Hr; apply Hn; now right.
        - intros r Hr j Hj. apply Hd; [|exact Hj]. intros [<-|Q]; congruence. }
    destruct (He _ _ Ei) as (Rg & Eb).
    destruct (Hn reg (or_introl eq_refl) _ Ei) as (x & Ex & Px).
    destruct (iv_ent _ _ _ _ _ I _ _ _ _ B N1 Eb) as (_ & K). rewrite Sg in K.
    destruct K as (j & Ej & x' & k & Ex' & O & Q & Ek & Hin & _). injection Ej as <-.
    rewrite Ex in Ex'; injection Ex' as <-.
    assert (Kp : b_preds k = map S (pb_preds pb)).
    { destruct (iv_blk _ _ _ _ _ I _ _ B) as (phs & ids & m & Hbi).
      rewrite (bi_blk _ _ _ _ _ _ _ _ _ Hbi) in Ek. injection Ek as <-. reflexivity. }
    unfold add_phi_operands in H1. apply bind_ok in H1 as (x0 & Hx & H1). apply get_insn_ok in Hx.
    rewrite Ex in Hx; injection Hx as <-. rewrite O in H1. change (negb (iop_eqb PHI PHI)) with false in H1.
    cbv iota in H1. rewrite Q in H1. apply bind_ok in H1 as (k0 & Hk & H1). apply get_block_ok in Hk.
    rewrite Ek in Hk; injection Hk as <-. rewrite Kp in H1.
    destruct (phi_ops_ok bs (read_var n) (read_ok bs Hpred n) (read_err n) dn (pend inc) reg i (map S (pb_preds pb)) e s x s1 I)
      as (e1 & x1 & ll & I1 & F1 & Ex1 & O1 & Q1 & Ph1 & Fa1); [exists reg; exact Ei | exact Ex | exact O | exact Rg | | exact H1 | exact Er1 |].
    { intros q Hq. apply in_map_iff in Hq as (p & <- & Hq). auto. }
    rewrite Px in Ph1. cbn [app] in Ph1.
    assert (Vb : forall r j, inc r = Some j -> rdv s b r <> None).
    { intros r j Hj Nv. destruct (He _ _ Hj) as (Rr & Ee).
      rewrite (ent_rdv bs _ _ _ _ _ _ _ I B Rr Nv) in Ee. discriminate. }
    assert (Hne : forall r j, r <> reg -> inc r = Some j -> j <> i).
    { intros r j Nr Hj ->. apply Nr. destruct (He _ _ Hj) as (_ & Ee).
      eapply (iv_inj _ _ _ _ _ I); eassumption. }
    destruct (IH e1 s1 s' ND' I1) as (e' & R); try assumption.
    + rewrite (rf_seal _ _ _ _ _ _ F1). exact Se.
    + intros r. rewrite <- Hi. apply (rf_inc _ _ _ _ _ _ F1).
      destruct (Z.eq_dec r reg) as [->|]; [right; eapply Vb; exact Ei | now left].
    + intros r j Hj. destruct (He _ _ Hj) as (Rr & Ee). split; [exact Rr|]. now apply (rf_em _ _ _ _ _ _ F1).
    + intros r Hr j Hj. destruct (Hn r (or_intror Hr) _ Hj) as (y & Ey & Py).
      destruct (rf_heap _ _ _ _ _ _ F1 j y) as (y' & Ey' & Sy); [|exact Ey|].
      * intros Qj. assert (r <> reg) by (intros ->; contradiction). symmetry in Qj. revert Qj. eapply Hne; eassumption.
      * exists y'; split; [exact Ey'|]. now rewrite (sim_phi _ _ Sy).
    + intros r Hr j Hj. destruct (Z.eq_dec r reg) as [->|Nr].
      * rewrite Ei in Hj; injection Hj as <-. exists x1; split; [exact Ex1|]. rewrite Ph1. apply Forall2_mapS. exact Fa1.
      * destruct (Hd r) with (i := j) as (y & Ey & Cy); [intros [->|]; tauto | exact Hj |].
        destruct (rf_heap _ _ _ _ _ _ F1 j y) as (y' & Ey' & Sy); [|exact Ey|].
        -- intros Qj. symmetry in Qj. revert Qj. eapply Hne; eassumption.
        -- exists y'; split; [exact Ey'|]. rewrite (sim_phi _ _ Sy).
           eapply complete_mono; [|exact Cy]. intros; now apply (rf_rdv _ _ _ _ _ _ F1).
    + exists e'. rewrite (rf_seal _ _ _ _ _ _ F1), (rf_fill _ _ _ _ _ _ F1) in R. exact R.
Qed.

Lemma all_regs_in r : regok r -> In r all_regs.
Proof.
  unfold regok; intros H. assert (r = 0 \/ r = 1 \/ r = 2 \/ r = 3 \/ r = 4 \/ r = 5 \/ r = 6 \/ r = 7 \/ r = 8 \/ r = 9)%Z by lia.
  unfold all_regs; cbn [In]. intuition auto.
Qed.
Lemma all_regs_nodup : NoDup all_regs.
Proof. unfold all_regs. repeat constructor; cbn [In]; intuition discriminate. Qed.

Definition set_seal (s : lst) (b : nat) : lst :=
  mkL (l_f s) (l_def s) (l_inc s) (fun x => if x =? b then true else l_seal s x) (l_fill s) (l_err s).

(** setting the flag *)
Lemma inv_seal e dn (P : nat -> Prop) s b pb : inv e dn P s -> blk b = Some pb ->
  (forall p, In p (pb_preds pb) -> l_fill s (S p) = true) ->
  (forall i, P i -> forall b' pb' r, blk b' = Some pb' -> b' <> 1 -> single pb' = None -> e b' r = Some (val_insn i) ->
     b' = b /\ exists x, f_insn (l_f s) i = Some x /\ complete s pb r (i_phi x)) ->
  (single pb = None -> forall r i, b <> 1 -> e b r = Some (val_insn i) -> l_seal s b = false -> P i) ->
  inv e dn noX (set_seal s b).
Proof.
  intros I B Hf Hc Hall.
  assert (Rs : forall b' r, rdv (set_seal s b) b' r = rdv s b' r) by reflexivity.
  constructor; try apply I.
  - intros b0 pb0 B0. destruct (iv_blk _ _ _ _ _ I _ _ B0) as (phs & ids & m & [K1 K2 K3 K4 K5 K6 K7 K8 K9]).
    exists phs, ids, m. constructor; assumption.
  - intros b0 pb0 r v B0 N0 E. destruct (iv_ent _ _ _ _ _ I _ _ _ _ B0 N0 E) as (R & K). split; [exact R|].
    destruct (single pb0) as [p|] eqn:S0.
    + cbn [set_seal l_seal]. rewrite Rs. destruct K as [K1 K2]. rewrite K1. destruct (b0 =? b); auto.
    + destruct K as (i & -> & x & k & Ex & O & Q & Ek & Hi & C). exists i; split; [reflexivity|].
      exists x, k. repeat split; try assumption. right. cbn [set_seal l_seal l_inc].
      destruct C as [C|C].
      * destruct (Hc _ C _ _ _ B0 N0 S0 E) as (-> & y & Ey & Cy). rewrite Nat.eqb_refl.
        cbn [l_f] in *. rewrite Ex in Ey; injection Ey as <-. rewrite B in B0; injection B0 as <-. exact Cy.
      * destruct (Nat.eqb_spec b0 b) as [->|Nb]; [|exact C].
        destruct (l_seal s b) eqn:Se.
        -- exact C.
        -- rewrite B in B0; injection B0 as <-. pose proof (Hall S0 _ _ N0 E eq_refl) as Pi.
           destruct (Hc _ Pi _ _ _ B N0 S0 E) as (_ & y & Ey & Cy). rewrite Ex in Ey; injection Ey as <-. exact Cy.
  - intros b0 pb0 p B0 Se Hp. cbn [set_seal l_seal l_fill] in *. destruct (Nat.eqb_spec b0 b) as [->|Nb].
    + rewrite B in B0; injection B0 as <-. auto.
    + eapply (iv_seal _ _ _ _ _ I); eassumption.
  - intros b0 pb0 B0 D S0. cbn [set_seal l_seal]. destruct (b0 =? b); [reflexivity|]. eapply (iv_one _ _ _ _ _ I); eassumption.
Qed.

Lemma seal_ok n e dn s b pb s' : inv e dn noX s -> blk b = Some pb -> l_seal s b = false ->
  (forall p, In p (pb_preds pb) -> l_fill s (S p) = true) ->
  seal_block n s b = Ok s' -> l_err s' = false ->
  exists e', inv e' dn noX s' /\ (forall x, l_seal s' x = if x =? b then true else l_seal s x) /\ l_fill s' = l_fill s.
Proof.
  intros I B Se Hf H Er. unfold seal_block in H. apply bind_ok in H as (s1 & H1 & H). injection H as <-.
  change (ofold (seal_step n b) s all_regs = Ok s1) in H1. cbn [l_err] in Er.
  change (exists e', inv e' dn noX (set_seal s1 b) /\
    (forall x, l_seal (set_seal s1 b) x = if x =? b then true else l_seal s x) /\ l_fill (set_seal s1 b) = l_fill s).
  assert (Triv : (forall r, l_inc s b r = None) -> s1 = s).
  { intros Hn. clear - H1 Hn. assert (G : forall l s1, ofold (seal_step n b) s l = Ok s1 -> s1 = s).
    { induction l as [|r l IH]; cbn [ofold]; intros t; [congruence|]. unfold seal_step at 1. rewrite Hn. cbn [bind]. apply IH. }
    eapply G; exact H1. }
  assert (Done : s1 = s -> (forall r, l_inc s b r = None) -> exists e', inv e' dn noX (set_seal s1 b) /\
    (forall x, l_seal (set_seal s1 b) x = if x =? b then true else l_seal s x) /\ l_fill (set_seal s1 b) = l_fill s).
  { intros -> Hn. exists e. split; [|split; reflexivity]. apply inv_seal with noX pb; try assumption.
    - intros i [].
    - intros Sg r i N1 E _. destruct (iv_ent _ _ _ _ _ I _ _ _ _ B N1 E) as (_ & K). rewrite Sg in K.
      destruct K as (j & Ej & x & k & Ex & O & Q & Ek & Hi & [[]|C]). rewrite Se in C. destruct C as [C _].
      rewrite Hn in C. discriminate. }
  destruct (Nat.eq_dec b 1) as [->|N1].
  { assert (Hn : forall r, l_inc s 1 r = None).
    { intros r. destruct (l_inc s 1 r) eqn:Q; [|reflexivity]. apply (iv_inc _ _ _ _ _ I) in Q as [[] _]. reflexivity. }
    apply Done; auto. }
  destruct (single pb) as [p|] eqn:Sg.
  { assert (Hn : forall r, l_inc s b r = None).
    { intros r. destruct (l_inc s b r) eqn:Q; [|reflexivity]. apply (iv_inc _ _ _ _ _ I) in Q as (_ & _ & Q).
      destruct (iv_ent _ _ _ _ _ I _ _ _ _ B N1 Q) as (_ & K). rewrite Sg in K. destruct K; congruence. }
    apply Done; auto. }
  destruct (seal_loop n b pb dn (l_inc s b) B N1) with (l := all_regs) (e := e) (s := s) (s' := s1)
    as (e' & I' & S' & F' & Hi & He & Hc); try assumption.
  - intros p Hp. pose proof (Hpred _ _ _ B Hp) as Hb. split; [|exact Hb].
    destruct (blk (S p)) as [q|] eqn:Eq; [|congruence]. rewrite (iv_fill _ _ _ _ _ I _ _ Eq (Hf _ Hp)). discriminate.
  - apply all_regs_nodup.
  - apply inv_pending with noX; [exact I | intros ? []].
  - reflexivity.
  - intros r i Hr. apply (iv_inc _ _ _ _ _ I) in Hr. tauto.
  - intros r _ i Hr. apply (iv_inc _ _ _ _ _ I) in Hr as (_ & Rr & E).
    destruct (iv_ent _ _ _ _ _ I _ _ _ _ B N1 E) as (_ & K). rewrite Sg in K.
    destruct K as (j & Ej & x & k & Ex & O & Q & Ek & Hi & [[]|C]). rewrite Se in C. injection Ej as <-.
    exists x; split; [exact Ex | apply C].
  - intros r Hr i Hri. apply (iv_inc _ _ _ _ _ I) in Hri as (_ & Rr & _). destruct Hr. now apply all_regs_in.
  - exists e'. split; [|split; [intros x; cbn [set_seal l_seal]; now rewrite S' | exact F']].
    apply inv_seal with (pend (l_inc s b)) pb; try assumption.
    + intros p Hp. rewrite F'. auto.
    + intros i (r0 & Hr0) b' pb' r B' N' S0 E.
      destruct (iv_ent _ _ _ _ _ I' _ _ _ _ B' N' E) as (_ & K). rewrite S0 in K.
      destruct K as (j & Ej & x & k & Ex & O & Q & _). injection Ej as <-.
      assert (E0 := He _ _ Hr0). destruct (iv_ent _ _ _ _ _ I' _ _ _ _ B N1 E0) as (_ & K). rewrite Sg in K.
      destruct K as (j & Ej & x' & k' & Ex' & O' & Q' & _). injection Ej as <-.
      rewrite Ex in Ex'; injection Ex' as <-. assert (Hb : b' = b) by congruence. clear Q Q'. subst b'. split; [reflexivity|].
      replace r with r0; [now apply Hc|]. eapply (iv_inj _ _ _ _ _ I'); eassumption.
    + intros _ r i _ E Se'. destruct (iv_ent _ _ _ _ _ I' _ _ _ _ B N1 E) as (_ & K). rewrite Sg in K.
      destruct K as (j & Ej & x & k & Ex & O & Q & Ek & Hin & [C|C]); injection Ej as <-; [exact C|].
      rewrite Se' in C. destruct C as [C _]. rewrite Hi in C. now exists r.
Qed.

(** ** Lifting one instruction *)

Definition dset (dn : nat -> option (list pre_insn)) (c : nat) (l : list pre_insn) : nat -> option (list pre_insn) :=
  fun b => if b =? c then Some l else dn b.
Lemma dset_same dn c l : dset dn c l c = Some l.
Proof. unfold dset; now rewrite Nat.eqb_refl. Qed.
Lemma dset_other dn c l b : b <> c -> dset dn c l b = dn b.
Proof. intros H; unfold dset; apply Nat.eqb_neq in H; now rewrite H. Qed.

Lemma like_op f i x : like f i x -> exists y, f_insn f i = Some y /\ i_op y = i_op x /\ i_parent y = i_parent x /\ i_phi y = i_phi x.
Proof. intros (y & E & S). exists y. split; [exact E|]. split; [now apply sim_op|]. split; [now apply sim_parent | now apply sim_phi]. Qed.

Lemma NoDup_app_intro (A : Type) (l1 l2 : list A) : NoDup l1 -> NoDup l2 -> (forall x, In x l1 -> ~ In x l2) -> NoDup (l1 ++ l2).
Proof.
  induction 1 as [|a l1 Na N1 IH]; intros N2 H; cbn [app]; [exact N2|]. constructor.
  - intros Hin. apply in_app_or in Hin as [Hin|Hin]; [contradiction|]. apply (H a); [now left | exact Hin].
  - apply IH; [exact N2|]. intros; apply H; now right.
Qed.

Lemma inv_emit e dn P s c pb l s' pi k ids2 :
  inv e dn P s -> blk c = Some pb -> dn c = Some l -> l_fill s c = false ->
  f_block (l_f s) c = Some k -> f_block (l_f s') c = Some (set_insns (b_insns k ++ ids2) k) ->
  (forall b, b <> c -> f_block (l_f s') b = f_block (l_f s) b) ->
  (forall i x, f_insn (l_f s) i = Some x -> like (l_f s') i x) ->
  (forall i x, f_insn (l_f s') i = Some x -> i < f_ni (l_f s')) -> f_ni (l_f s) <= f_ni (l_f s') ->
  NoDup ids2 -> (forall i, In i ids2 -> f_ni (l_f s) <= i /\ exists x, f_insn (l_f s') i = Some x /\ i_op x <> PHI /\ i_parent x = c) ->
  l_inc s' = l_inc s -> l_seal s' = l_seal s -> l_fill s' = l_fill s ->
  (forall b r, b <> c -> rdv s' b r = rdv s b r) ->
  (forall m, (forall r, regok r -> m r = rdv s c r) ->
     exists m', lifts (l_f s') bs c m pi ids2 m' /\ forall r, regok r -> rdv s' c r = m' r) ->
  inv e (dset dn c (l ++ [pi])) P s'.
Proof.
  intros I B D Nf Ek Ek' Eb Hh Hr Hn ND Hi Ei Es El Ev Hm.
  assert (Nc : forall b pb' p, blk b = Some pb' -> l_seal s b = true -> In p (pb_preds pb') -> S p <> c).
  { intros b pb' p B' S' Hp <-. rewrite (iv_seal _ _ _ _ _ I _ _ _ B' S' Hp) in Nf. discriminate. }
  assert (Bk : forall b k0, f_block (l_f s) b = Some k0 -> exists k1, f_block (l_f s') b = Some k1 /\ incl (b_insns k0) (b_insns k1)).
  { intros b k0 E. destruct (Nat.eq_dec b c) as [->|N].
    - rewrite Ek in E; injection E as <-. eexists; split; [exact Ek'|]. cbn [set_insns b_insns]. intros z Hz; apply in_or_app; now left.
    - exists k0. rewrite Eb by assumption. split; [exact E | intros z Hz; exact Hz]. }
  constructor.
  - exact (iv_e1 _ _ _ _ _ I).
  - intros b0 pb0 B0. destruct (iv_blk _ _ _ _ _ I _ _ B0) as (phs & ids & m & [K1 K2 K3 K4 K5 K6 K7 K8 K9]).
    assert (Hph : forall i, In i phs -> exists x r, f_insn (l_f s') i = Some x /\ i_op x = PHI /\ i_parent x = b0 /\ regok r /\ e b0 r = Some (val_insn i)).
    { intros i Hin. destruct (K2 i Hin) as (x & r & E & O & Q & Rr & V). destruct (like_op _ _ _ (Hh _ _ E)) as (y & Ey & O' & Q' & _).
      exists y, r. repeat split; try assumption; try apply Rr; congruence. }
    assert (Hid : forall i, In i ids -> exists x, f_insn (l_f s') i = Some x /\ i_op x <> PHI /\ i_parent x = b0).
    { intros i Hin. destruct (K4 i Hin) as (x & E & O & Q). destruct (like_op _ _ _ (Hh _ _ E)) as (y & Ey & O' & Q' & _).
      exists y. repeat split; congruence. }
    assert (L : lifts_l (l_f s') bs b0 (e b0) (done dn b0) ids m).
    { eapply lifts_l_heap; [|exact K7]. intros; now apply Hh. }
    destruct (Nat.eq_dec b0 c) as [->|N].
    + rewrite B in B0; injection B0 as <-. destruct (Hm m) as (m' & Lm & Rm); [intros r Rr; symmetry; now apply K8|].
      exists phs, (ids ++ ids2), m'. rewrite Ek in K1; injection K1 as ->. constructor; try assumption.
      * rewrite Ek'. cbn [set_insns b_insns b_preds b_succs b_flag]. now rewrite app_assoc.
      * intros i Hin. apply in_app_or in Hin as [Hin|Hin]; [now apply Hid | now apply Hi].
      * rewrite app_assoc. apply NoDup_app_intro; [exact K5 | exact ND |].
        intros i Hin Hin2. apply Hi in Hin2 as [Hge _].
        assert (exists x, f_insn (l_f s) i = Some x) as (x & Ex).
        { apply in_app_or in Hin as [Hin|Hin]; [destruct (K2 i Hin) as (x & ? & E & _) | destruct (K4 i Hin) as (x & E & _)]; eauto. }
        apply (iv_range _ _ _ _ _ I) in Ex. lia.
      * intros i Hin. rewrite app_assoc in Hin. apply in_app_or in Hin as [Hin|Hin]; [now apply K6|].
        apply Hi in Hin as [Hge _]. pose proof (iv_ni _ _ _ _ _ I); lia.
      * unfold done. rewrite dset_same. unfold done in L. rewrite D in L. eapply lifts_l_snoc; eassumption.
      * rewrite dset_same; discriminate.
    + exists phs, ids, m. constructor; try assumption.
      * rewrite Eb by assumption; exact K1.
      * unfold done. rewrite dset_other by assumption. exact L.
      * intros r Rr. rewrite Ev by assumption. auto.
      * rewrite dset_other by assumption. exact K9.
  - exact Hr.
  - pose proof (iv_ni _ _ _ _ _ I); lia.
  - intros b0 pb0 r v B0 N0 E. destruct (iv_ent _ _ _ _ _ I _ _ _ _ B0 N0 E) as (R & K). split; [exact R|].
    destruct (single pb0) as [p|] eqn:S0.
    + rewrite Es. destruct K as [K1 K2]. split; [exact K1|]. rewrite Ev; [exact K2|].
      eapply Nc; [exact B0 | exact K1|]. unfold single in S0. destruct (pb_preds pb0) as [|a [|? ?]]; try discriminate.
      injection S0 as ->; now left.
    + destruct K as (i & -> & x & k0 & Ex & O & Q & Ek0 & Hin & C). exists i; split; [reflexivity|].
      destruct (like_op _ _ _ (Hh _ _ Ex)) as (y & Ey & O' & Q' & Ph). destruct (Bk _ _ Ek0) as (k1 & Ek1 & In1).
      exists y, k1. repeat split; try congruence; [now apply In1|].
      destruct C as [C|C]; [now left|right]. rewrite Es, Ei, Ph. destruct (l_seal s b0) eqn:Se; [|exact C].
      eapply complete_mono; [|exact C]. intros p v Hp Hv. rewrite Ev; [exact Hv|]. eapply Nc; eassumption.
  - rewrite Es, El. exact (iv_seal _ _ _ _ _ I).
  - intros b0 pb0 B0 F0. rewrite El in F0. destruct (Nat.eq_dec b0 c) as [->|N]; [congruence|].
    rewrite dset_other by assumption. eapply (iv_fill _ _ _ _ _ I); eassumption.
  - intros b0 pb0 B0 D0 S0. rewrite Es. eapply (iv_one _ _ _ _ _ I); try eassumption.
    destruct (Nat.eq_dec b0 c) as [->|N]; [congruence|]. now rewrite dset_other in D0.
  - rewrite Ei. exact (iv_inc _ _ _ _ _ I).
  - exact (iv_inj _ _ _ _ _ I).
Qed.

Lemma uses_like i us : forall g g', ofold (fun g v => use_val g i v) g us = Ok g' ->
  f_block g' = f_block g /\ f_ni g' = f_ni g /\
  (forall j x, f_insn g' j = Some x -> exists y, f_insn g j = Some y) /\ (forall j x, f_insn g j = Some x -> like g' j x).
Proof.
  induction us as [|v us IH]; intros g g'; cbn [ofold].
  - intros H; injection H as <-. repeat split; eauto. intros j x E; exists x; split; [exact E | apply sim_refl].
  - intros H. apply bind_ok in H as (g1 & H1 & H). destruct (use_val_hstep noX _ _ _ _ H1) as ((A & B & C & _) & L).
    destruct (IH _ _ H) as (A' & B' & C' & L'). repeat split; try congruence.
    + intros j x E. apply C' in E as (y & E). now apply C in E.
    + intros j x E. eapply like_trans; [exact L' | now apply L].
Qed.

Lemma emit_eq s b x us s' i : emit s b x us = Ok (s', i) -> exists k g, f_block (l_f s) b = Some k /\ i = f_ni (l_f s) /\
  s' = with_f g s /\ f_ni g = S i /\ f_block g b = Some (set_insns (b_insns k ++ [i]) k) /\
  (forall b', b' <> b -> f_block g b' = f_block (l_f s) b') /\ like g i x /\
  (forall j y, j <> i -> f_insn (l_f s) j = Some y -> like g j y) /\
  (forall j y, f_insn g j = Some y -> j = i \/ exists y', f_insn (l_f s) j = Some y').
Proof.
  unfold emit. intros H. apply bind_ok in H as (k & Hk & H). apply get_block_ok in Hk.
  apply bind_ok in H as (g & Hg & H). injection H as <- <-. apply uses_like in Hg as (A & B & C & L).
  exists k, g. cbn [f_block f_ni f_insn] in *. repeat split; try assumption.
  - rewrite A. apply upd_eq.
  - intros b' N. rewrite A. now apply upd_ne.
  - apply L. apply upd_eq.
  - intros j y N E. apply L. now rewrite upd_ne.
  - intros j y E. destruct (Nat.eq_dec j (f_ni (l_f s))) as [->|N]; [now left|right].
    apply C in E as (y' & E). rewrite upd_ne in E by assumption. eauto.
Qed.

(** reading an operand *)
Definition opv (s : lst) (b : nat) (r : Z) : option value := if (r =? 10)%Z then Some (val_insn sp_id) else rdv s b r.
Definition regx (r : Z) : Prop := (0 <= r <= 10)%Z.

Record oframe (s s' : lst) : Prop := {
  of_op : forall b r v, opv s b r = Some v -> opv s' b r = Some v;
  of_seal : l_seal s' = l_seal s;
  of_fill : l_fill s' = l_fill s
}.
Lemma oframe_refl s : oframe s s. Proof. constructor; auto. Qed.
Lemma oframe_trans s s1 s2 : oframe s s1 -> oframe s1 s2 -> oframe s s2.
Proof. intros [A B C] [A' B' C']; constructor; auto; congruence. Qed.

Lemma read_op n e dn P s b reg s' v : inv e dn P s -> dn b <> None -> blk b <> None ->
  read_var n s reg b = Ok (s', v) -> l_err s' = false ->
  exists e', inv e' dn P s' /\ opv s' b reg = Some v /\ oframe s s' /\ regx reg.
Proof.
  intros I D Bk H Er. destruct (Z.eq_dec reg 10) as [->|N].
  - destruct n; [discriminate|]. cbn [read_var] in H. rewrite Z.eqb_refl in H. injection H as <- <-.
    exists e. split; [exact I|]. split; [reflexivity|]. split; [apply oframe_refl | unfold regx; lia].
  - assert (Rg : regok reg).
    { destruct n; [discriminate|]. cbn [read_var] in H. apply Z.eqb_neq in N. rewrite N in H. apply Z.eqb_neq in N.
      unfold regok. destruct (Z.leb_spec 0 reg), (Z.leb_spec reg 10); cbn [andb negb] in H; try discriminate. lia. }
    destruct (read_ok bs Hpred n _ _ _ _ _ _ _ _ I D Bk Rg H Er) as (e' & I' & V & F). exists e'.
    assert (N' := N). apply Z.eqb_neq in N'.
    split; [exact I'|]. split; [unfold opv; now rewrite N'|]. split; [|unfold regok, regx in *; lia].
    constructor; [|apply F|apply F]. intros b' r w. unfold opv. destruct (r =? 10)%Z; [easy|]. apply F.
Qed.

Definition opsrc (s : lst) (b : nat) (pi : pre_insn) : option value :=
  if src_x (pi_code pi) then opv s b (pi_src pi) else Some (val_const32 (pi_imm pi)).
Lemma read_src n e dn P s b pi s' v : inv e dn P s -> dn b <> None -> blk b <> None ->
  get_src n s b pi = Ok (s', v) -> l_err s' = false ->
  exists e', inv e' dn P s' /\ opsrc s' b pi = Some v /\ oframe s s' /\ (src_x (pi_code pi) = true -> regx (pi_src pi)).
Proof.
  intros I D Bk. unfold get_src, opsrc. destruct (src_x (pi_code pi)); intros H Er.
  - destruct (read_op _ _ _ _ _ _ _ _ _ I D Bk H Er) as (e' & ? & ? & ? & ?). exists e'; auto.
  - injection H as <- <-. exists e. split; [exact I|]. split; [reflexivity|]. split; [apply oframe_refl | discriminate].
Qed.
Lemma src_err n s b pi s' v : get_src n s b pi = Ok (s', v) -> l_err s = true -> l_err s' = true.
Proof.
  unfold get_src. destruct (src_x _); [apply read_err|]. intros H; injection H as <- <-; auto.
Qed.
Lemma emit_err s b x us s' i : emit s b x us = Ok (s', i) -> l_err s' = l_err s.
Proof. intros H. apply emit_eq in H as (k & g & _ & _ & -> & _). reflexivity. Qed.

(** the contents of a register as seen by [lifts] *)
Lemma opv_regv s c m r v : (forall r, regok r -> m r = rdv s c r) -> regx r -> opv s c r = Some v -> regv m r = Some v.
Proof.
  intros Hm R. unfold opv, regv. destruct (Z.eqb_spec r 10) as [->|N]; [easy|]. intros H. rewrite Hm; [exact H|].
  unfold regx, regok in *; lia.
Qed.
Lemma opsrc_srcv s c m pi v : (forall r, regok r -> m r = rdv s c r) -> (src_x (pi_code pi) = true -> regx (pi_src pi)) ->
  opsrc s c pi = Some v -> srcv m pi = Some v.
Proof.
  intros Hm R. unfold opsrc, srcv. destruct (src_x _); [|easy]. eapply opv_regv; auto.
Qed.

(** what [lift_insn] achieves *)
Definition stepped (dn : nat -> option (list pre_insn)) (P : nat -> Prop) (c : nat) (l : list pre_insn) (pi : pre_insn) (s s' : lst) : Prop :=
  (exists e', inv e' (dset dn c (l ++ [pi])) P s') /\ l_seal s' = l_seal s /\ l_fill s' = l_fill s.

Section Cur.
Variables (e : nat -> regmap) (dn : nat -> option (list pre_insn)) (P : nat -> Prop) (c : nat) (pb : pblock) (l : list pre_insn) (pi : pre_insn).
Hypothesis B : blk c = Some pb.
Hypothesis D : dn c = Some l.

Lemma fin_emit s0 s x us s1 i s' (w : option Z) : inv e dn P s -> oframe s0 s -> l_fill s0 c = false ->
  emit s c x us = Ok (s1, i) -> i_op x <> PHI -> i_parent x = c ->
  (forall d, w = Some d -> regx d) ->
  s' = match w with Some d => def_state s1 d c (val_insn i) | None => s1 end ->
  (forall m f', (forall r, regok r -> m r = rdv s c r) -> like f' i x ->
     lifts f' bs c m pi [i] (match w with Some d => wrote m d (val_insn i) | None => m end)) ->
  stepped dn P c l pi s0 s'.
Proof.
  intros I F Nf H O Q Hw Es' Hl. apply emit_eq in H as (k & g & Ek & -> & -> & Gn & Gb & Go & Gi & Gh & Gd).
  assert (Lf : l_f s' = g) by (subst s'; destruct w; reflexivity).
  assert (Lh : forall i x, f_insn (l_f s) i = Some x -> like g i x).
  { intros j y E. apply Gh; [|exact E]. apply (iv_range _ _ _ _ _ I) in E. lia. }
  assert (L3 : l_inc s' = l_inc s /\ l_seal s' = l_seal s /\ l_fill s' = l_fill s) by (subst s'; destruct w; repeat split; reflexivity).
  destruct L3 as (L1 & L2 & L3). split; [|split; [rewrite L2; apply F | rewrite L3; apply F]].
  exists e. apply inv_emit with s pb k [f_ni (l_f s)]; rewrite ?Lf; try assumption.
  - rewrite (of_fill _ _ F). exact Nf.
  - intros j y E. rewrite Gn. apply Gd in E as [->|(y' & E)]; [lia|]. apply (iv_range _ _ _ _ _ I) in E. lia.
  - lia.
  - constructor; [intros []|constructor].
  - intros j [<-|[]]. split; [lia|]. destruct (like_op _ _ _ Gi) as (y & Ey & O' & Q' & _). exists y. repeat split; congruence.
  - intros b r Nb. subst s'. destruct w as [d|]; [|reflexivity].
    rewrite rdv_def_state. apply Nat.eqb_neq in Nb. now rewrite Nb, andb_false_r.
  - intros m Hm. eexists; split; [apply Hl; eassumption|]. intros r Rr. subst s'.
    destruct w as [d|]; [|symmetry; now apply Hm].
    rewrite rdv_def_state, Nat.eqb_refl, andb_true_r. unfold wrote. destruct (r =? d)%Z; [reflexivity|]. symmetry; now apply Hm.
Qed.

Lemma fin_mov s0 s d v : inv e dn P s -> oframe s0 s -> l_fill s0 c = false -> 
  (forall m f', (forall r, regok r -> m r = rdv s c r) -> lifts f' bs c m pi [] (wrote m d v)) ->
  stepped dn P c l pi s0 (def_state s d c v).
Proof.
  intros I F Nf Hl. split; [|split; apply F].
  destruct (iv_blk _ _ _ _ _ I _ _ B) as (phs & ids & m0 & [K1 _ _ _ _ _ _ _ _]).
  exists e. eapply inv_emit with (s := s) (pb := pb) (ids2 := []); try eassumption; try reflexivity.
  - rewrite (of_fill _ _ F). exact Nf.
  - cbn [def_state l_f]. rewrite app_nil_r. rewrite K1. reflexivity.
  - intros j y E. exists y; split; [exact E | apply sim_refl].
  - exact (iv_range _ _ _ _ _ I).
  - constructor.
  - intros j [].
  - intros b r Nb. rewrite rdv_def_state. apply Nat.eqb_neq in Nb. now rewrite Nb, andb_false_r.
  - intros m Hm. eexists; split; [apply Hl; eassumption|]. intros r Rr.
    rewrite rdv_def_state, Nat.eqb_refl, andb_true_r. unfold wrote. destruct (r =? d)%Z; [reflexivity|]. symmetry; now apply Hm.
Qed.
End Cur.

Lemma err_back s s' : (l_err s = true -> l_err s' = true) -> l_err s' = false -> l_err s = false.
Proof. intros H E. destruct (l_err s); [|reflexivity]. rewrite H in E; [discriminate | reflexivity]. Qed.

Lemma write_err s d b v s' : write_var s d b v = Ok s' -> l_err s' = l_err s.
Proof. intros H. apply write_var_eq in H as [-> _]. reflexivity. Qed.

Lemma args_err n b k : forall j s s' vs, read_args n s b j k = Ok (s', vs) -> l_err s = true -> l_err s' = true.
Proof.
  induction k as [|k IH]; intros j s s' vs; cbn [read_args]; [intros H; injection H as <- <-; auto|].
  intros H E. apply bind_ok in H as ([s1 v] & H1 & H). destruct (j <? 5); [|discriminate].
  apply bind_ok in H as ([s2 t] & H2 & H). injection H as <- <-. cbn [fst snd] in *.
  eapply IH; [exact H2|]. eapply read_err; eassumption.
Qed.

Lemma read_args_len n b k : forall j s r, read_args n s b j k = Ok r -> j + k <= 5 \/ k = 0.
Proof.
  induction k as [|k IH]; intros j s r H; [now right|]. cbn [read_args] in H. apply bind_ok in H as (r1 & _ & H). destruct (Nat.ltb_spec j 5); [|discriminate H].
  apply bind_ok in H as (t & H & _). destruct (IH _ _ _ H); lia.
Qed.
Lemma read_args_ok n dn P b k : dn b <> None -> blk b <> None -> forall j e s s' vs, inv e dn P s ->
  read_args n s b j k = Ok (s', vs) -> l_err s' = false ->
  exists e', inv e' dn P s' /\ oframe s s' /\ (forall m, (forall r, regok r -> m r = rdv s' b r) -> argv m j k = Some vs).
Proof.
  intros D Bk. induction k as [|k IH]; intros j e s s' vs I H Er; cbn [read_args] in H.
  - injection H as <- <-. exists e. split; [exact I|]. split; [apply oframe_refl | reflexivity].
  - apply bind_ok in H as ([s1 v] & H1 & H). destruct (j <? 5) eqn:Ej; [|discriminate].
    apply bind_ok in H as ([s2 t] & H2 & H). injection H as <- <-. cbn [fst snd] in *.
    destruct (read_op _ _ _ _ _ _ _ _ _ I D Bk H1) as (e1 & I1 & V1 & F1 & R1).
    { eapply err_back; [|exact Er]. eapply args_err; exact H2. }
    destruct (IH _ _ _ _ _ I1 H2 Er) as (e2 & I2 & F2 & A2).
    exists e2. split; [exact I2|]. split; [now apply oframe_trans with s1|]. intros m Hm. cbn [argv].
    rewrite (opv_regv s2 b m _ v Hm R1), (A2 m Hm); [reflexivity|]. now apply (of_op _ _ F2).
Qed.

Ltac bk H s v := apply bind_ok in H as ([s v] & ? & H); cbn [fst snd] in H.

Lemma lift_insn_err n c s pi s' : lift_insn n bs c s pi = Ok s' -> l_err s = true -> l_err s' = true.
Proof.
  assert (Eb : forall s o a s', alu_write_bin n s c pi o a = Ok s' -> l_err s = true -> l_err s' = true).
  { intros t o a t' H E. unfold alu_write_bin in H. apply bind_ok in H as ([s1 v1] & H1 & H). apply bind_ok in H as ([s2 v2] & H2 & H).
    apply bind_ok in H as ([s3 i] & H3 & H). cbn [fst snd] in *. rewrite (write_err _ _ _ _ _ H), (emit_err _ _ _ _ _ _ H3).
    eapply src_err; [exact H2|]. eapply read_err; eassumption. }
  assert (Eu : forall s o a u s', alu_write_un n s c pi o a u = Ok s' -> l_err s = true -> l_err s' = true).
  { intros t o a u t' H E. unfold alu_write_un in H. apply bind_ok in H as ([s1 v1] & H1 & H).
    apply bind_ok in H as ([s3 i] & H3 & H). cbn [fst snd] in *. rewrite (write_err _ _ _ _ _ H), (emit_err _ _ _ _ _ _ H3).
    eapply read_err; eassumption. }
  unfold lift_insn. intros H E.
  destruct ((_ || _) : bool).
  { unfold lift_alu in H. apply bind_ok in H as (s1 & H1 & H). destruct (pi_off pi =? 0)%Z; [|discriminate]. injection H as <-.
    destruct (bin_of _); [eapply Eb; eassumption|]. destruct (_ =? 11)%Z.
    { apply bind_ok in H1 as ([s2 v] & H2 & H1). rewrite (write_err _ _ _ _ _ H1). eapply src_err; eassumption. }
    destruct (_ =? 13)%Z; [destruct (_ =? 4)%Z; [eapply Eu; eassumption | discriminate]|].
    destruct (_ =? 8)%Z; [|discriminate]. destruct (src_x _); [discriminate | eapply Eu; eassumption]. }
  destruct (_ && _ && _)%bool.
  { unfold lift_imm64 in H. destruct (_ <=? 6)%Z; [|discriminate]. apply bind_ok in H as ([s3 i] & H3 & H). cbn [fst snd] in *.
    rewrite (write_err _ _ _ _ _ H), (emit_err _ _ _ _ _ _ H3). exact E. }
  destruct (_ && _)%bool.
  { unfold lift_ldx in H. apply bind_ok in H as ([s1 v1] & H1 & H).
    apply bind_ok in H as ([s3 i] & H3 & H). cbn [fst snd] in *. rewrite (write_err _ _ _ _ _ H), (emit_err _ _ _ _ _ _ H3).
    eapply read_err; eassumption. }
  assert (Es : forall x, lift_st n s c pi x = Ok s' -> l_err s' = true).
  { intros x Hx. unfold lift_st in Hx. apply bind_ok in Hx as ([s1 v1] & H1 & Hx). apply bind_ok in Hx as ([s2 v2] & H2 & Hx).
    apply bind_ok in Hx as ([s3 i] & H3 & Hx). injection Hx as <-. cbn [fst snd] in *. rewrite (emit_err _ _ _ _ _ _ H3).
    pose proof (read_err n _ _ _ _ _ H1 E) as H1'. destruct x; [eapply read_err; eassumption|]. injection H2 as <- <-. exact H1'. }
  destruct (_ && _)%bool; [now apply Es in H|]. destruct (_ && _)%bool; [now apply Es in H|].
  destruct (jmp_cls _); [|discriminate]. unfold lift_jmp in H.
  destruct (_ =? 0)%Z.
  { apply bind_ok in H as (t & _ & H). apply bind_ok in H as ([s3 i] & H3 & H). injection H as <-. cbn [fst].
    now rewrite (emit_err _ _ _ _ _ _ H3). }
  destruct (_ =? 9)%Z.
  { apply bind_ok in H as ([s1 v1] & H1 & H). apply bind_ok in H as ([s3 i] & H3 & H). injection H as <-. cbn [fst snd] in *.
    rewrite (emit_err _ _ _ _ _ _ H3). eapply read_err; eassumption. }
  destruct (cond_of _).
  { unfold lift_cond in H. apply bind_ok in H as ([s1 v1] & H1 & H). apply bind_ok in H as ([s2 v2] & H2 & H).
    apply bind_ok in H as (t1 & _ & H). apply bind_ok in H as (t2 & _ & H).
    apply bind_ok in H as ([s3 i'] & H3 & H). injection H as <-. cbn [fst snd] in *. rewrite (emit_err _ _ _ _ _ _ H3).
    eapply src_err; [exact H2|]. eapply read_err; eassumption. }
  destruct (_ =? 8)%Z; [|discriminate]. unfold lift_call in H.
  destruct (_ || _)%bool; [discriminate|]. destruct (_ <? 0)%Z; [discriminate|]. destruct (_ =? 6)%Z.
  { apply bind_ok in H as ([s1 v1] & H1 & H). apply bind_ok in H as ([s3 i] & H3 & H). cbn [fst snd] in *.
    rewrite (write_err _ _ _ _ _ H), (emit_err _ _ _ _ _ _ H3). eapply args_err; eassumption. }
  destruct (nth_error _ _); [|discriminate]. apply bind_ok in H as (k & _ & H). destruct (5 <? k); [discriminate|].
  apply bind_ok in H as ([s1 v1] & H1 & H). apply bind_ok in H as ([s3 i] & H3 & H). cbn [fst snd] in *.
  rewrite (write_err _ _ _ _ _ H), (emit_err _ _ _ _ _ _ H3). eapply args_err; eassumption.
Qed.

Lemma bin_of_not o x : bin_of o = Some x -> x <> PHI.
Proof. unfold bin_of. repeat match goal with |- context [if ?b then _ else _] => destruct b end; intros H; inversion H; discriminate. Qed.
Lemma cond_of_not o x : cond_of o = Some x -> x <> PHI.
Proof. unfold cond_of. repeat match goal with |- context [if ?b then _ else _] => destruct b end; intros H; inversion H; discriminate. Qed.

Lemma lift_insn_ok n e dn P c pb l pi s s' : inv e dn P s -> blk c = Some pb -> dn c = Some l -> l_fill s c = false ->
  lift_insn n bs c s pi = Ok s' -> l_err s' = false -> stepped dn P c l pi s s'.
Proof.
  intros I B D Nf H Er.
  assert (D' : dn c <> None) by congruence. assert (B' : blk c <> None) by congruence.
  unfold lift_insn in H.
  destruct ((_ || _) : bool) eqn:Ca in H.
  { change (is_alu (pi_code pi) = true) in Ca.
    unfold lift_alu in H. apply bind_ok in H as (sx & H1 & H). destruct (Z.eqb_spec (pi_off pi) 0) as [Eo|]; [|discriminate]. injection H as <-.
    assert (Un : forall o a u, alu_write_un n s c pi o a u = Ok sx -> o <> PHI ->
      (opn (pi_code pi) = 13%Z /\ cls (pi_code pi) = 4%Z /\ o = (if src_x (pi_code pi) then HTOBE else HTOLE) /\
       a = A_32 /\ u = pi_imm pi \/
       opn (pi_code pi) = 8%Z /\ src_x (pi_code pi) = false /\ o = M_Ir.NEG /\ a = alu_w (pi_code pi) /\ u = 0%Z) -> stepped dn P c l pi s sx).
    { intros o a u Hu No Hc. unfold alu_write_un in Hu. apply bind_ok in Hu as ([s1 v1] & G1 & Hu).
      apply bind_ok in Hu as ([s3 i] & G3 & Hu). cbn [fst snd] in *.
      destruct (write_var_eq _ _ _ _ _ Hu) as [Ew Rw]. rewrite (write_err _ _ _ _ _ Hu), (emit_err _ _ _ _ _ _ G3) in Er.
      destruct (read_op _ _ _ _ _ _ _ _ _ I D' B' G1 Er) as (e1 & I1 & V1 & F1 & R1).
      eapply (fin_emit _ _ _ _ _ _ _ B D) with (w := Some (pi_dst pi)); [exact I1 | exact F1 | exact Nf | exact G3 | exact No | reflexivity | intros d Hd; injection Hd as <-; exact Rw | exact Ew |].
      intros m f' Hm Hl. eapply lf_un; try eassumption; [|reflexivity]. eapply opv_regv; eassumption. }
    destruct (bin_of _) as [o|] eqn:Eb.
    - unfold alu_write_bin in H1. apply bind_ok in H1 as ([s1 v1] & G1 & H). apply bind_ok in H as ([s2 v2] & G2 & H).
      apply bind_ok in H as ([s3 i] & G3 & H). cbn [fst snd] in *.
      destruct (write_var_eq _ _ _ _ _ H) as [Ew Rw]. rewrite (write_err _ _ _ _ _ H), (emit_err _ _ _ _ _ _ G3) in Er.
      destruct (read_op _ _ _ _ _ _ _ _ _ I D' B' G1) as (e1 & I1 & V1 & F1 & R1).
      { eapply err_back; [|exact Er]. eapply src_err; exact G2. }
      destruct (read_src _ _ _ _ _ _ _ _ _ I1 D' B' G2 Er) as (e2 & I2 & V2 & F2 & R2).
      eapply (fin_emit _ _ _ _ _ _ _ B D) with (w := Some (pi_dst pi)); [exact I2 | eapply oframe_trans; eassumption | exact Nf | exact G3 | | reflexivity | intros d Hd; injection Hd as <-; exact Rw | exact Ew |].
      { cbn. eapply bin_of_not; exact Eb. }
      intros m f' Hm Hl. eapply lf_bin; try eassumption; [| |reflexivity].
      + eapply opv_regv; try eassumption. now apply (of_op _ _ F2).
      + eapply opsrc_srcv; eassumption.
    - destruct (Z.eqb_spec (opn (pi_code pi)) 11) as [E11|].
      { apply bind_ok in H1 as ([s1 v1] & G1 & H). cbn [fst snd] in *.
        destruct (write_var_eq _ _ _ _ _ H) as [-> Rw].
        destruct (read_src _ _ _ _ _ _ _ _ _ I D' B' G1 Er) as (e2 & I2 & V2 & F2 & R2).
        eapply (fin_mov _ _ _ _ _ _ _ B D); [exact I2 | exact F2 | exact Nf |].
        intros m f' Hm. eapply lf_mov; try eassumption; [|reflexivity]. eapply opsrc_srcv; eassumption. }
      destruct (Z.eqb_spec (opn (pi_code pi)) 13) as [E13|].
      { destruct (Z.eqb_spec (cls (pi_code pi)) 4) as [E4|]; [|discriminate].
        eapply Un; [exact H1 | destruct (src_x _); discriminate | left; auto]. }
      destruct (Z.eqb_spec (opn (pi_code pi)) 8) as [E8|]; [|discriminate].
      destruct (src_x (pi_code pi)) eqn:Ex; [discriminate|]. eapply Un; [exact H1 | discriminate | right; repeat split; auto]. }
  destruct (_ && _ && _)%bool eqn:Ci in H.
  { apply andb_prop in Ci as [Ci C3]. apply andb_prop in Ci as [C1 C2]. apply Z.eqb_eq in C1, C2, C3.
    unfold lift_imm64 in H. destruct (Z.leb_spec (pi_src pi) 6) as [L6|]; [|discriminate]. apply bind_ok in H as ([s3 i] & G3 & H). cbn [fst snd] in *.
    destruct (write_var_eq _ _ _ _ _ H) as [Ew Rw].
    eapply (fin_emit _ _ _ _ _ _ _ B D) with (w := Some (pi_dst pi)); [exact I | apply oframe_refl | exact Nf | exact G3 | discriminate | reflexivity | intros d Hd; injection Hd as <-; exact Rw | exact Ew |].
    intros m f' Hm Hl. eapply lf_imm; try eassumption. reflexivity. }
  destruct (_ && _)%bool eqn:Cl in H.
  { apply andb_prop in Cl as [C1 C2]. apply Z.eqb_eq in C1. apply orb_prop in C2.
    unfold lift_ldx in H. apply bind_ok in H as ([s1 v1] & G1 & H).
    apply bind_ok in H as ([s3 i] & G3 & H). cbn [fst snd] in *.
    destruct (write_var_eq _ _ _ _ _ H) as [Ew Rw]. rewrite (write_err _ _ _ _ _ H), (emit_err _ _ _ _ _ _ G3) in Er.
    destruct (read_op _ _ _ _ _ _ _ _ _ I D' B' G1 Er) as (e1 & I1 & V1 & F1 & R1).
    eapply (fin_emit _ _ _ _ _ _ _ B D) with (w := Some (pi_dst pi)); [exact I1 | exact F1 | exact Nf | exact G3 | discriminate | reflexivity | intros d Hd; injection Hd as <-; exact Rw | exact Ew |].
    intros m f' Hm Hl. eapply lf_ldx; try eassumption; [| |reflexivity].
    - destruct C2 as [C2|C2]; apply Z.eqb_eq in C2; auto.
    - eapply opv_regv; eassumption. }
  assert (St : forall x, lift_st n s c pi x = Ok s' -> mode (pi_code pi) = 3%Z -> cls (pi_code pi) = (if x then 3 else 2)%Z -> stepped dn P c l pi s s').
  { intros x Hx M C. unfold lift_st in Hx. apply bind_ok in Hx as ([s1 v1] & G1 & Hx). apply bind_ok in Hx as ([s2 v2] & G2 & Hx).
    apply bind_ok in Hx as ([s3 i] & G3 & Hx). injection Hx as Ew. cbn [fst snd] in *. rewrite <- Ew, (emit_err _ _ _ _ _ _ G3) in Er.
    destruct (read_op _ _ _ _ _ _ _ _ _ I D' B' G1) as (e1 & I1 & V1 & F1 & R1).
    { eapply err_back; [|exact Er]. destruct x; [eapply read_err; exact G2 | injection G2 as <- _; auto]. }
    destruct x.
    - destruct (read_op _ _ _ _ _ _ _ _ _ I1 D' B' G2 Er) as (e2 & I2 & V2 & F2 & R2).
      eapply (fin_emit _ _ _ _ _ _ _ B D) with (w := None); [exact I2 | eapply oframe_trans; eassumption | exact Nf | exact G3 | discriminate | reflexivity | discriminate | now symmetry |].
      intros m f' Hm Hl. eapply lf_st; try eassumption; [right; split; [exact C|] | | reflexivity].
      + eapply opv_regv; eassumption.
      + eapply opv_regv; try eassumption. now apply (of_op _ _ F2).
    - injection G2 as <- <-.
      eapply (fin_emit _ _ _ _ _ _ _ B D) with (w := None); [exact I1 | exact F1 | exact Nf | exact G3 | discriminate | reflexivity | discriminate | now symmetry |].
      intros m f' Hm Hl. eapply lf_st; try eassumption; [left; split; [exact C | reflexivity] | | reflexivity].
      eapply opv_regv; eassumption. }
  destruct (_ && _)%bool eqn:C2 in H.
  { apply andb_prop in C2 as [C1 C2]. apply Z.eqb_eq in C1, C2. eapply St; eassumption. }
  destruct (_ && _)%bool eqn:C3 in H.
  { apply andb_prop in C3 as [C1 C3]. apply Z.eqb_eq in C1, C3. eapply St; eassumption. }
  clear St. destruct (jmp_cls (pi_code pi)) eqn:Cj; [|discriminate]. unfold lift_jmp in H.
  destruct (Z.eqb_spec (opn (pi_code pi)) 0) as [E0|].
  { apply bind_ok in H as (t & Ht & H). apply bind_ok in H as ([s3 i] & G3 & H). injection H as Ew. cbn [fst] in *.
    eapply (fin_emit _ _ _ _ _ _ _ B D) with (w := None); [exact I | apply oframe_refl | exact Nf | exact G3 | discriminate | reflexivity | discriminate | now symmetry |].
    intros m f' Hm Hl. eapply lf_ja; try eassumption. reflexivity. }
  destruct (Z.eqb_spec (opn (pi_code pi)) 9) as [E9|].
  { apply bind_ok in H as ([s1 v1] & G1 & H). apply bind_ok in H as ([s3 i] & G3 & H). injection H as Ew. cbn [fst snd] in *.
    rewrite <- Ew, (emit_err _ _ _ _ _ _ G3) in Er.
    destruct (read_op _ _ _ _ _ _ _ _ _ I D' B' G1 Er) as (e1 & I1 & V1 & F1 & R1).
    eapply (fin_emit _ _ _ _ _ _ _ B D) with (w := None); [exact I1 | exact F1 | exact Nf | exact G3 | discriminate | reflexivity | discriminate | now symmetry |].
    intros m f' Hm Hl. eapply lf_ret; try eassumption; [|reflexivity]. eapply opv_regv; eassumption. }
  destruct (cond_of _) as [o|] eqn:Ec.
  { unfold lift_cond in H. apply bind_ok in H as ([s1 v1] & G1 & H). apply bind_ok in H as ([s2 v2] & G2 & H).
    apply bind_ok in H as (t1 & T1 & H). apply bind_ok in H as (t2 & T2 & H).
    apply bind_ok in H as ([s3 i'] & G3 & H). injection H as Ew. cbn [fst snd] in *. rewrite <- Ew, (emit_err _ _ _ _ _ _ G3) in Er.
    destruct (read_op _ _ _ _ _ _ _ _ _ I D' B' G1) as (e1 & I1 & V1 & F1 & R1).
    { eapply err_back; [|exact Er]. eapply src_err; exact G2. }
    destruct (read_src _ _ _ _ _ _ _ _ _ I1 D' B' G2 Er) as (e2 & I2 & V2 & F2 & R2).
    eapply (fin_emit _ _ _ _ _ _ _ B D) with (w := None); [exact I2 | eapply oframe_trans; eassumption | exact Nf | exact G3 | | reflexivity | discriminate | now symmetry |].
    { cbn. eapply cond_of_not; exact Ec. }
    intros m f' Hm Hl. eapply lf_cond; try eassumption; [| |reflexivity].
    + eapply opv_regv; try eassumption. now apply (of_op _ _ F2).
    + eapply opsrc_srcv; eassumption. }
  destruct (Z.eqb_spec (opn (pi_code pi)) 8) as [E8|]; [|discriminate]. unfold lift_call in H.
  destruct ((pi_src pi =? 1) || (pi_src pi =? 2))%Z; [discriminate H|].
  destruct (pi_imm pi <? 0)%Z eqn:Lz; [discriminate H|]. apply Z.ltb_ge in Lz.
  destruct (Z.eqb_spec (pi_src pi) 6) as [E6|N6].
  { apply bind_ok in H as ([s1 v1] & G1 & H). apply bind_ok in H as ([s3 i] & G3 & H). cbn [fst snd] in *.
    destruct (write_var_eq _ _ _ _ _ H) as [Ew Rw]. rewrite (write_err _ _ _ _ _ H), (emit_err _ _ _ _ _ _ G3) in Er.
    destruct (read_args_ok _ _ _ _ _ D' B' _ _ _ _ _ I G1 Er) as (e1 & I1 & F1 & A1).
    eapply (fin_emit _ _ _ _ _ _ _ B D) with (w := Some 0%Z); [exact I1 | exact F1 | exact Nf | exact G3 | discriminate | reflexivity | intros d Hd; injection Hd as <-; exact Rw | exact Ew |].
    intros m f' Hm Hl. eapply lf_call with (o := ECALL); try eassumption; [now left | now apply A1 | reflexivity | destruct (read_args_len _ _ _ _ _ _ G1); lia | discriminate]. }
  destruct (nth_error _ _) as [a|] eqn:Ea; [|discriminate]. apply bind_ok in H as (k & Hk & H).
  assert (K6 : pi_imm pi = 6%Z -> 2 <= k).
  { intros E6. rewrite E6 in Ea, Hk. change (Some (-1)%Z = Some a) in Ea. injection Ea as <-. cbn in Hk. injection Hk as <-. unfold printk_args.
    repeat match goal with |- context [match ?o with Some _ => _ | None => _ end] => destruct o end; lia. } destruct (5 <? k) eqn:E5; [discriminate|].
  apply bind_ok in H as ([s1 v1] & G1 & H). apply bind_ok in H as ([s3 i] & G3 & H). cbn [fst snd] in *.
  destruct (write_var_eq _ _ _ _ _ H) as [Ew Rw]. rewrite (write_err _ _ _ _ _ H), (emit_err _ _ _ _ _ _ G3) in Er.
  destruct (read_args_ok _ _ _ _ _ D' B' _ _ _ _ _ I G1 Er) as (e1 & I1 & F1 & A1).
  eapply (fin_emit _ _ _ _ _ _ _ B D) with (w := Some 0%Z); [exact I1 | exact F1 | exact Nf | exact G3 | discriminate | reflexivity | intros d Hd; injection Hd as <-; exact Rw | exact Ew |].
  intros m f' Hm Hl. eapply lf_call with (o := CALL); try eassumption; [right | now apply A1 | reflexivity | apply Nat.ltb_ge in E5; exact E5 | intros _; exact K6].
  split; [reflexivity|]. split; [exact N6|]. exists a. split; [exact Ea|].
  destruct (Z.ltb_spec a 0) as [La|La].
  - left. destruct (Z.eqb_spec (pi_imm pi) 6) as [E|]; [exact E | discriminate].
  - right. injection Hk as <-. lia.
Qed.
End Fill.
