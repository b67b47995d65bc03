(** The check for division by zero leaves the other executions alone. *)
From Coq Require Import ZArith List Bool Arith Lia.
From Verif Require Import M_Base M_Ir M_Edit M_Pass SpecWord SpecFlat SpecSsa SpecIr SpecEdit SpecPass SpecStrict SpecInstr SpecWeave
  L_Edit L_Uses L_Hist L_Ctor L_Ins L_PassAlloc L_Div L_Count L_CountRun L_Weave.
Import ListNotations.
Open Scope nat_scope.

(** * Blocks in parts *)
Definition sinsns (w : world) (bi : bconst -> Z) (f : func) (prev : nat) (s : sst) (l : list nat) : option sres :=
  match sphis bi f prev s s l with None => None | Some (r, s1) => sbody w bi f s1 r end.
Lemma sblock_parts w bi f prev b s : f_block f b <> None -> sblock w bi f prev b s =
  match sinsns w bi f prev s (insns_of f b) with
  | Some (SNext s2) => match succs_of f b with b' :: _ => Some (SJmp b' s2) | [] => None end
  | o => o
  end.
Proof. intros B. rewrite sblock_eq by exact B. unfold sinsns. destruct (sphis bi f prev s s (insns_of f b)) as [[l s1]|]; reflexivity. Qed.
Lemma sinsns_app w bi f prev s l r : (forall i, In i r -> f_insn f i <> None) -> (forall i, In i r -> ~ is_phi f i) ->
  sinsns w bi f prev s (l ++ r) = match sinsns w bi f prev s l with Some (SNext s1) => sbody w bi f s1 r | o => o end.
Proof.
  intros L N. unfold sinsns. rewrite sphis_app by auto. destruct (sphis bi f prev s s l) as [[t s1]|]; [|reflexivity]. apply sbody_cat.
Qed.
Lemma sinsns_plain w bi f prev s r : (forall i, In i r -> f_insn f i <> None) -> (forall i, In i r -> ~ is_phi f i) -> sinsns w bi f prev s r = sbody w bi f s r.
Proof. intros L N. unfold sinsns. now rewrite sphis_none. Qed.
Lemma sphis_sub bi f prev s0 : forall l s r s1, sphis bi f prev s0 s l = Some (r, s1) -> forall i, In i r -> In i l.
Proof.
  induction l as [|k l IH]; intros s r s1 E i I; cbn [sphis] in E; [injection E as <- <-; exact I|].
  destruct (f_insn f k) as [x|]; cbn [obind] in E; [|discriminate]. destruct (iop_eqb (i_op x) PHI); [|injection E as <- <-; exact I].
  destruct (incoming x prev) as [v|]; cbn [obind] in E; [|discriminate]. destruct (seval bi (s_env s0) v); cbn [obind] in E; [|discriminate]. right. eapply IH; eauto.
Qed.
Lemma sinsns_jump w bi f prev s l q : sinsns w bi f prev s l = Some q -> (forall s', q <> SNext s') -> exists i, In i l /\ is_terminator f i.
Proof.
  unfold sinsns. destruct (sphis bi f prev s s l) as [[r s1]|] eqn:P; [|discriminate]. intros E N.
  destruct (sbody_jump w bi f r s1 q E N) as (i & I & T). exists i. split; [|exact T]. eapply sphis_sub; eauto.
Qed.
Lemma sinsns_agr f g w bi prev prev' s s' l : operands_live f -> kept f g -> (forall i, In i l -> f_insn f i <> None) -> agr f s s' ->
  prev' = prev \/ (forall i, In i l -> ~ is_phi f i) -> orel (qrel f) (sinsns w bi f prev s l) (sinsns w bi g prev' s' l).
Proof.
  intros OL KP L A Q.
  assert (K : orel (qrel f) (sinsns w bi f prev s l) (sinsns w bi g prev s' l)).
  { unfold sinsns. destruct (sphis bi f prev s s l) as [[r t]|] eqn:E1; destruct (sphis bi g prev s' s' l) as [[r' t']|] eqn:E2;
      assert (R := sphis_agr f g bi OL KP prev s s' A l s s' L A); rewrite E1, E2 in R; inversion R as [|p q (H1 & H2) P1 P2]; subst; [|constructor].
    cbn in H1, H2. subst r'. apply sbody_agr; auto. intros i I. apply L. eapply sphis_sub; eauto. }
  destruct Q as [-> |Q]; [exact K|].
  assert (LG : forall i, In i l -> f_insn g i <> None) by (intros i I; destruct (kept_some f g KP i (L i I)) as (x & y & _ & Y & _); congruence).
  assert (NG : forall i, In i l -> ~ is_phi g i).
  { intros i I (y & Y & P). destruct (kept_some f g KP i (L i I)) as (x & y' & X & Y' & O & _). rewrite Y in Y'. injection Y' as <-. apply (Q i I). exists x. split; [exact X|congruence]. }
  rewrite !sinsns_plain in * by auto. exact K.
Qed.

(** * Corresponding places *)
Definition at_div (f : func) (_ prev b : nat) (s : sst) (prev' : nat) (s' : sst) : Prop :=
  f_block f b <> None /\ agr f s s' /\ (prev' = prev \/ phi_free f b).
Lemma jump_to w bi f prev b s b' t : cfg_ok f -> sblock w bi f prev b s = Some (SJmp b' t) -> In b' (succs_of f b) /\ f_block f b' <> None.
Proof.
  intros C E. apply sblock_goes in E. apply (cf_goes _ C) in E. split; [exact E|]. apply (proj1 (cf_mirror _ C)) in E. intros Z. unfold preds_of in E. rewrite Z in E. exact E.
Qed.
Lemma linked_live f b i : cfg_ok f -> In i (insns_of f b) -> f_insn f i <> None.
Proof. intros C I. destruct (cf_linked _ C b i I) as (x & X & _). congruence. Qed.
Lemma block_same f g w bi k prev b s prev' s' : cfg_ok f -> operands_live f -> kept f g -> f_block g b <> None -> insns_of g b = insns_of f b -> succs_of g b = succs_of f b ->
  at_div f k prev b s prev' s' -> orel (jrel (at_div f) k b b) (sblock w bi f prev b s) (sblock w bi g prev' b s').
Proof.
  intros C OL KP BG EI ES (B & A & Q).
  assert (J : forall b' t, sblock w bi f prev b s = Some (SJmp b' t) -> f_block f b' <> None) by (intros b' t E; eapply jump_to; eauto).
  rewrite !sblock_parts in * by auto. rewrite EI, ES.
  assert (R := sinsns_agr f g w bi prev prev' s s' (insns_of f b) OL KP (fun i I => linked_live f b i C I) A Q).
  destruct R as [|q q' R]; [constructor|]. destruct R as [t t' R|b' t t' R|r t t' R|t t' R].
  - destruct (succs_of f b) as [|b' l]; [constructor|]. constructor. constructor. split; [eapply J; reflexivity|]. auto.
  - constructor. constructor. split; [eapply J; reflexivity|]. auto.
  - constructor. constructor; apply R.
  - constructor. constructor.
Qed.

(** the division [i] by zero is the next instruction *)
Definition zero_div (f : func) (bi : bconst -> Z) (i : nat) (t : sst) : Prop :=
  exists x a d r k z, f_insn f i = Some x /\ i_op x = DIV /\ i_vals x = a :: d :: r /\ v_data d = VInsn k /\ seval bi (s_env t) d = Some z /\ trunc true z = 0%Z.
Lemma zero_div_agr f g bi : operands_live f -> kept f g -> forall i t t', f_insn f i <> None -> agr f t t' -> zero_div g bi i t' -> zero_div f bi i t.
Proof.
  intros OL KP i t t' L A (y & a & d & r & k & z & Y & O & V & D & E & T). destruct (kept_some f g KP i L) as (x & y' & X & Y' & O' & _ & V').
  rewrite Y in Y'. injection Y' as <-. exists x, a, d, r, k, z. split; [exact X|]. split; [congruence|]. split; [congruence|]. split; [exact D|]. split; [|exact T].
  rewrite <- E. apply (agr_seval f); auto. intros k' K. rewrite D in K. injection K as <-. apply (OL i x d k X); auto. unfold operand_values. apply in_or_app. left. rewrite <- V', V. right. now left.
Qed.
Definition event (w : world) (bi : bconst -> Z) (f : func) (prev b : nat) (s : sst) : Prop :=
  (exists t, sblock w bi f prev b s = Some (SThrow t)) \/
  exists l1 i l2 t, insns_of f b = l1 ++ i :: l2 /\ sinsns w bi f prev s l1 = Some (SNext t) /\ zero_div f bi i t.
Lemma app_snoc_in (A : Type) (l1 : list A) i l2 : forall l j, l ++ [j] = l1 ++ i :: l2 -> i = j /\ l2 = [] \/ exists l3, l = l1 ++ i :: l3.
Proof.
  intros l j E. destruct l2 as [|z l2] using rev_ind.
  - left. apply app_inj_tail in E as (_ & ->). auto.
  - right. clear IHl2. change (l1 ++ i :: l2 ++ [z]) with (l1 ++ (i :: l2) ++ [z]) in E. rewrite app_assoc in E. apply app_inj_tail in E as (-> & _). exists l2. reflexivity.
Qed.

Section CUT.
Variables (f g : func) (bb : nat) (keep moved : list nat) (nb eb t j i : nat) (x : insn) (a d : value) (r : list value) (dk : nat).
Hypotheses (C : cfg_ok f) (PF : phis_first f) (OL : operands_live f) (L : insns_of f bb = keep ++ i :: moved)
  (X : f_insn f i = Some x) (O : i_op x = DIV) (V : i_vals x = a :: d :: r) (VD : v_data d = VInsn dk)
  (G : cut f g bb keep (i :: moved) nb eb t j (K_jbin d (val_const32 0) nb eb JEQ A_64))
  (FR : forall c, In c (succs_of f bb) -> phi_free f c).

Lemma cd_ne : bb <> nb /\ bb <> eb /\ nb <> eb /\ f_block f nb = None /\ f_block f eb = None.
Proof. exact (cut_ne _ _ _ _ _ _ _ _ _ _ _ _ _ C L ltac:(discriminate) G). Qed.
Lemma cd_kept : kept f g.
Proof.
  intros k y Y. apply (like_some f g k y); auto. destruct (cut_fresh _ _ _ _ _ _ _ _ _ _ _ _ _ C G) as (F1 & F2).
  apply (cut_like _ _ _ _ _ _ _ _ _ _ _ _ _ G); intros ->; congruence.
Qed.
Lemma cd_moved k : In k (i :: moved) -> f_insn f k <> None /\ ~ is_phi f k.
Proof.
  intros I. split.
  - apply (linked_live f bb); auto. rewrite L. apply in_or_app. auto.
  - assert (NI : ~ is_phi f i) by (intros (y & Y & P); rewrite X in Y; injection Y as <-; congruence).
    destruct I as [<-|I]; [exact NI|]. intros P. apply NI. apply in_split in I as (m1 & m2 & E). 
    apply (PF bb (keep ++ i :: m1) k m2); [rewrite L, E, <- app_assoc; reflexivity|exact P|]. apply in_or_app. right. now left.
Qed.
Lemma cd_keep k : In k keep -> f_insn f k <> None /\ ~ is_terminator f k.
Proof.
  intros I. split; [apply (linked_live f bb); auto; rewrite L; apply in_or_app; auto|]. intros T. apply in_split in I as (m1 & m2 & E).
  assert (Z : m2 ++ i :: moved = []). { apply (cf_ends _ C bb m1 k (m2 ++ i :: moved)); [rewrite L, E, <- app_assoc; reflexivity|exact T]. } destruct m2; discriminate.
Qed.
Lemma cd_throw w bi p s : srun w bi g 1 p eb s = Some (OThrow s).
Proof.
  destruct cd_ne as (N1 & N2 & N3 & N4 & N5). destruct (ct_throw _ _ _ _ _ _ _ _ _ _ G) as (u & T). cbn [srun].
  assert (B : f_block g eb <> None) by (apply (ct_dom _ _ _ _ _ _ _ _ _ _ G); auto). rewrite sblock_parts by exact B.
  rewrite (ct_insns _ _ _ _ _ _ _ _ _ _ G). destruct (Nat.eqb_spec eb bb); [congruence|]. destruct (Nat.eqb_spec eb nb); [congruence|]. rewrite Nat.eqb_refl.
  unfold sinsns. cbn [sphis]. rewrite T. cbn. rewrite T. cbn. reflexivity.
Qed.
(** where [f] and [g] go from corresponding places *)
Inductive goes_on (w : world) (bi : bconst -> Z) (kk prev b : nat) (s : sst) (prev' : nat) (s' : sst) : Prop :=
| go_same : orel (jrel (at_div f) kk b b) (sblock w bi f prev b s) (sblock w bi g prev' b s') -> (b = bb -> sblock w bi g prev' b s' = None) ->
    goes_on w bi kk prev b s prev' s'
| go_split s1 s1' z : b = bb -> sinsns w bi f prev s keep = Some (SNext s1) -> agr f s1 s1' -> seval bi (s_env s1) d = Some z ->
    trunc true z = 0%Z /\ sblock w bi g prev' bb s' = Some (SJmp eb s1') \/
    sblock w bi g prev' bb s' = Some (SJmp nb s1') /\ orel (jrel (at_div f) kk bb nb) (sblock w bi f prev bb s) (sblock w bi g bb nb s1') ->
    goes_on w bi kk prev b s prev' s'.
Lemma cd_goes w bi kk prev b s prev' s' : at_div f kk prev b s prev' s' -> goes_on w bi kk prev b s prev' s'.
Proof.
  intros A. destruct cd_ne as (N1 & N2 & N3 & N4 & N5). assert (KP := cd_kept). assert (B := proj1 A).
  assert (IG := ct_insns _ _ _ _ _ _ _ _ _ _ G). assert (SG := ct_succs _ _ _ _ _ _ _ _ _ _ G). assert (DG := ct_dom _ _ _ _ _ _ _ _ _ _ G).
  assert (BG : f_block g b <> None) by (apply DG; auto).
  assert (BN : f_block g nb <> None) by (apply DG; auto).
  destruct (Nat.eq_dec b bb) as [E|NE].
  2:{ apply go_same; [|intros; contradiction]. assert (Q1 : b <> nb) by congruence. assert (Q2 : b <> eb) by congruence.
    apply block_same; auto; rewrite ?IG, ?SG; destruct (Nat.eqb_spec b bb); [contradiction| |contradiction|]; destruct (Nat.eqb_spec b nb); [contradiction| |contradiction|];
      destruct (Nat.eqb_spec b eb); [contradiction| |contradiction|]; reflexivity. }
  subst b. destruct A as (_ & A & Q).
  assert (EI : insns_of g bb = keep ++ [j]) by (rewrite IG, Nat.eqb_refl; reflexivity).
  assert (EN : insns_of g nb = i :: moved) by (rewrite IG, Nat.eqb_refl; destruct (Nat.eqb_spec nb bb); [congruence|reflexivity]).
  assert (SN : succs_of g nb = succs_of f bb) by (rewrite SG, Nat.eqb_refl; destruct (Nat.eqb_spec nb bb); [congruence|reflexivity]).
  destruct (ct_jmp _ _ _ _ _ _ _ _ _ _ G) as (u & XJ).
  assert (J : forall b' t, sblock w bi f prev bb s = Some (SJmp b' t) -> In b' (succs_of f bb) /\ f_block f b' <> None) by (intros b' t' E; eapply jump_to; eauto).
  assert (LM : forall k, In k (i :: moved) -> f_insn f k <> None) by (intros k I; apply cd_moved; auto).
  assert (PM : forall k, In k (i :: moved) -> ~ is_phi f k) by (intros k I; apply cd_moved; auto).
  assert (R := sinsns_agr f g w bi prev prev' s s' keep OL KP (fun k I => proj1 (cd_keep k I)) A ltac:(destruct Q as [Q|Q]; [auto|right; intros k I; apply Q; rewrite L; apply in_or_app; auto])).
  assert (GJ : sblock w bi g prev' bb s' = match sinsns w bi g prev' s' keep with
      | Some (SNext s1) => match seval bi (s_env s1) d with Some z => Some (SJmp (if cmp_fn CEq true z 0 then eb else nb) s1) | None => None end
      | o => o end).
  { rewrite sblock_parts by exact BG. rewrite EI, sinsns_app.
    2:{ intros k [<-|[]]. congruence. }
    2:{ intros k [<-|[]] (y & Y & P). rewrite XJ in Y. injection Y as <-. discriminate P. }
    destruct (sinsns w bi g prev' s' keep) as [[s1|b1 s1|r1 s1|s1]|]; try reflexivity. cbn [sbody]. rewrite XJ. cbn. destruct (seval bi (s_env s1) d) as [z|]; reflexivity. }
  assert (FB : sblock w bi f prev bb s = match (match sinsns w bi f prev s keep with Some (SNext s1) => sbody w bi f s1 (i :: moved) | o => o end) with
      | Some (SNext s2) => match succs_of f bb with b' :: _ => Some (SJmp b' s2) | [] => None end | o => o end).
  { rewrite sblock_parts by exact B. now rewrite L, sinsns_app. }
  assert (GN : forall s1, sblock w bi g bb nb s1 = match sbody w bi g s1 (i :: moved) with
      | Some (SNext s2) => match succs_of f bb with b' :: _ => Some (SJmp b' s2) | [] => None end | o => o end).
  { intros s1. rewrite sblock_parts by exact BN. rewrite EN, SN, sinsns_plain; [reflexivity| |].
    - intros k I. destruct (kept_some f g KP k (LM k I)) as (x' & y & _ & Y & _). congruence.
    - intros k I (y & Y & P). destruct (kept_some f g KP k (LM k I)) as (x' & y' & X' & Y' & O' & _). rewrite Y in Y'. injection Y' as <-. apply (PM k I). exists x'. split; [exact X'|congruence]. }
  destruct (sinsns w bi f prev s keep) as [q|] eqn:E1; inversion R as [R1 R2|q1 q2 R' R1 R2]; subst.
  2:{ apply go_same; rewrite GJ, <- R2; [rewrite FB; constructor|reflexivity]. }
  rewrite <- R2 in GJ. destruct R' as [s1 s1' R'|b1 s1 s1' R'|r1 s1 s1' R'|s1 s1' R'].
  2,3,4: exfalso; destruct (sinsns_jump _ _ _ _ _ _ _ E1 ltac:(intros ? Z; discriminate Z)) as (k & K1 & K2); apply (proj2 (cd_keep k K1)); exact K2.
  assert (ED : seval bi (s_env s1) d = seval bi (s_env s1') d).
  { apply (agr_seval f); auto. intros k K. apply (OL i x d k X); auto. unfold operand_values. apply in_or_app. left. rewrite V. right. now left. }
  destruct (seval bi (s_env s1') d) as [z|] eqn:EZ.
  - destruct (cmp_fn CEq true z 0) eqn:Z0.
    + apply (go_split w bi kk prev bb s prev' s' s1 s1' z); auto; left. split; [|exact GJ]. apply Z.eqb_eq in Z0. exact Z0.
    + apply (go_split w bi kk prev bb s prev' s' s1 s1' z); auto; right. split; [exact GJ|]. rewrite GN. rewrite FB in *.
      assert (RM := sbody_agr f g w bi OL KP (i :: moved) s1 s1' LM R').
      destruct (sbody w bi f s1 (i :: moved)) as [q|]; destruct (sbody w bi g s1' (i :: moved)) as [q'|]; inversion RM as [|q1 q2 RM' M1 M2]; [subst q1 q2|constructor].
      destruct RM' as [t1 t1' RM'|b1 t1 t1' RM'|r1 t1 t1' RM'|t1 t1' RM'].
      * destruct (succs_of f bb) as [|b' l]; [constructor|]. constructor. constructor. split; [eapply J; reflexivity|]. split; [exact RM'|]. right. apply FR. now left.
      * constructor. constructor. split; [eapply J; reflexivity|]. split; [exact RM'|]. right. apply FR. eapply J; reflexivity.
      * constructor. constructor; apply RM'.
      * constructor. constructor.
  - apply go_same; [|intros _; exact GJ]. rewrite GJ, FB. cbn [sbody]. rewrite X. cbn [obind].
    replace (sexec w bi f i x s1) with (@None sres); [constructor|]. unfold sexec. rewrite O, V. destruct r; [|reflexivity]. cbn. rewrite ED. destruct (width_of (i_alu x)); cbn; [|reflexivity].
    destruct (seval bi (s_env s1) a); reflexivity.
Qed.
Lemma cd_step w bi kk prev b s prev' s' : at_div f kk prev b s prev' s' -> meets_again f g w bi (at_div f) (fun _ => True) kk prev b s prev' s'.
Proof.
  intros A. destruct (cd_goes w bi kk prev b s prev' s' A) as [R _|s1 s1' z E _ _ _ [(_ & GJ)|(GJ & R)]]; [|subst b..].
  - right. exists 0, prev', b, s'. split; [reflexivity|exact R].
  - left. split; [exact I|]. exists 2, s1'. change 2 with (1 + 1). cbn [srun Nat.add]. rewrite GJ. exact (cd_throw w bi bb s1').
  - right. exists 1, bb, nb, s1'. split; [cbn [srun]; rewrite GJ; reflexivity|exact R].
Qed.

(** throws and divisions by zero of [g] are throws and divisions by zero of [f] *)
Lemma cd_zero_same w bi kk prev b s prev' s' l1 l2 : at_div f kk prev b s prev' s' -> insns_of f b = l1 ++ l2 ->
  forall i' tt, In i' l2 -> sinsns w bi g prev' s' l1 = Some (SNext tt) -> zero_div g bi i' tt -> exists t0, sinsns w bi f prev s l1 = Some (SNext t0) /\ zero_div f bi i' t0.
Proof.
  intros (B & A & Q) LL i' tt I' ST Z. assert (KP := cd_kept).
  assert (R := sinsns_agr f g w bi prev prev' s s' l1 OL KP (fun k H => linked_live f b k C ltac:(rewrite LL; apply in_or_app; auto)) A
    ltac:(destruct Q as [Q|Q]; [auto|right; intros k H; apply Q; rewrite LL; apply in_or_app; auto])).
  rewrite ST in R. inversion R as [|q1 q2 R' R1 R2]. subst q2. inversion R' as [t0 t1 R3 R4 R5| | |]. subst. exists t0. split; [reflexivity|].
  apply (zero_div_agr f g bi OL KP i' t0 tt); auto. apply (linked_live f b); auto. rewrite LL. apply in_or_app. auto.
Qed.
Lemma cd_event0 w bi kk prev b s prev' s' : at_div f kk prev b s prev' s' -> event w bi g prev' b s' -> event w bi f prev b s.
Proof.
  intros A Ev. destruct cd_ne as (N1 & N2 & N3 & N4 & N5). assert (IG := ct_insns _ _ _ _ _ _ _ _ _ _ G).
  destruct Ev as [(t' & T)|(l1 & i' & l2 & t' & LI & ST & ZD)].
  - left. destruct (cd_goes w bi kk prev b s prev' s' A) as [R Nn|s2 s2' z Eb _ _ _ [(_ & GJ)|(GJ & R)]]; [|subst b; congruence..].
    rewrite T in R. inversion R as [|q1 q2 R' R1 R2]. subst q2. inversion R'. subst q1. eauto.
  - right. destruct (ct_jmp _ _ _ _ _ _ _ _ _ _ G) as (uj & XJ).
    assert (LL : exists l3, insns_of f b = l1 ++ i' :: l3).
    { rewrite IG in LI. destruct (Nat.eqb_spec b bb) as [->|].
      - destruct (app_snoc_in _ _ _ _ _ _ LI) as [(-> & _)|(l3 & EK)].
        + exfalso. destruct ZD as (y & ? & ? & ? & ? & ? & Y & O' & _). rewrite XJ in Y. injection Y as <-. discriminate O'.
        + exists (l3 ++ i :: moved). rewrite L, EK, <- app_assoc. reflexivity.
      - destruct (Nat.eqb_spec b nb) as [->|]; [destruct (proj1 A N4)|]. destruct (Nat.eqb_spec b eb) as [->|]; [destruct (proj1 A N5)|]. eauto. }
    destruct LL as (l3 & LL). destruct (cd_zero_same w bi kk prev b s prev' s' l1 _ A LL i' t' (or_introl eq_refl) ST ZD) as (t0 & S0 & Z0).
    exists l1, i', l3, t0. auto.
Qed.
Lemma cd_event w bi : forall n n0 kk prev b s prev' s' p1 b1 s1, n0 <= n -> at_div f kk prev b s prev' s' -> srun w bi g n0 prev' b s' = Some (OAt p1 b1 s1) ->
  event w bi g p1 b1 s1 -> exists n' p2 b2 s2, srun w bi f n' prev b s = Some (OAt p2 b2 s2) /\ event w bi f p2 b2 s2.
Proof.
  destruct cd_ne as (N1 & N2 & N3 & N4 & N5). assert (KP := cd_kept).
  assert (IG := ct_insns _ _ _ _ _ _ _ _ _ _ G).
  assert (EN : insns_of g nb = i :: moved) by (rewrite IG, Nat.eqb_refl; destruct (Nat.eqb_spec nb bb); [congruence|reflexivity]).
  induction n as [|n IH]; intros n0 kk prev b s prev' s' p1 b1 s1 Ln A E Ev.
  { assert (n0 = 0) by lia. subst n0. cbn [srun] in E. injection E as <- <- <-. exists 0, prev, b, s. split; [reflexivity|]. eapply cd_event0; eauto. }
  destruct n0 as [|n0]; cbn [srun] in E.
  { injection E as <- <- <-. exists 0, prev, b, s. split; [reflexivity|]. eapply cd_event0; eauto. }
  destruct (cd_goes w bi kk prev b s prev' s' A) as [R _|s2 s2' z Eb SK A2 EZ [(TZ & GJ)|(GJ & R)]].
  - inversion R as [E1 E2|q q' R' E1 E2]; rewrite <- E2 in E; cbn [obind] in E; [discriminate|]. inversion R'; subst q q'; try discriminate.
    destruct (IH n0 _ _ _ _ _ _ _ _ _ ltac:(lia) H E Ev) as (n' & p2 & b3 & s3 & F & Ev'). exists (S n'), p2, b3, s3. split; [|exact Ev']. cbn [srun]. rewrite <- E1. exact F.
  - subst b. exists 0, prev, bb, s. split; [reflexivity|]. right. exists keep, i, moved, s2. split; [exact L|]. split; [exact SK|]. exists x, a, d, r, dk, z. auto 8.
  - subst b. rewrite GJ in E. cbn [obind] in E. destruct n0 as [|n0]; cbn [srun] in E.
    + injection E as <- <- <-. exists 0, prev, bb, s. split; [reflexivity|]. destruct Ev as [(t' & T)|(l1 & i' & l2 & t' & LI & ST & ZD)].
      * left. rewrite T in R. inversion R as [|q1 q2 R' R1 R2]. subst q2. inversion R'. subst q1. eauto.
      * right. rewrite EN in LI. assert (LM : forall k, In k l1 -> f_insn f k <> None /\ ~ is_phi f k) by (intros k K; apply cd_moved; rewrite LI; apply in_or_app; auto).
        rewrite sinsns_plain in ST.
        2:{ intros k K. destruct (kept_some f g KP k (proj1 (LM k K))) as (x' & y & _ & Y & _). congruence. }
        2:{ intros k K (y & Y & P). destruct (kept_some f g KP k (proj1 (LM k K))) as (x' & y' & X' & Y' & O' & _). rewrite Y in Y'. injection Y' as <-. apply (proj2 (LM k K)). exists x'. split; [exact X'|congruence]. }
        assert (RM := sbody_agr f g w bi OL KP l1 s2 s2' (fun k K => proj1 (LM k K)) A2). rewrite ST in RM. inversion RM as [|q1 q2 R' R1 R2]. subst q2. inversion R' as [t0 t1 R3 R4 R5| | |]. subst.
        exists (keep ++ l1), i', l2, t0. split; [rewrite L, LI, <- app_assoc; reflexivity|]. split; [rewrite sinsns_app, SK; [symmetry; exact R1|intros k K; apply LM; exact K..]|].
        apply (zero_div_agr f g bi OL KP i' t0 t'); auto. apply (cd_moved i'). rewrite LI. apply in_or_app. right. now left.
    + inversion R as [E1 E2|q q' R' E1 E2]; rewrite <- E2 in E; cbn [obind] in E; [discriminate|]. inversion R'; subst q q'; try discriminate.
      destruct (IH n0 _ _ _ _ _ _ _ _ _ ltac:(lia) H E Ev) as (n' & p2 & b3 & s3 & F & Ev'). exists (S n'), p2, b3, s3. split; [|exact Ev']. cbn [srun]. rewrite <- E1. exact F.
Qed.
Lemma cut_event w bi s0 n p1 b1 s1 : srun w bi g n 0 (f_entry g) s0 = Some (OAt p1 b1 s1) -> event w bi g p1 b1 s1 ->
  exists n' p2 b2 s2, srun w bi f n' 0 (f_entry f) s0 = Some (OAt p2 b2 s2) /\ event w bi f p2 b2 s2.
Proof.
  rewrite (ct_entry _ _ _ _ _ _ _ _ _ _ G). intros E Ev. apply (cd_event w bi n n 0 0 (f_entry f) s0 0 s0 p1 b1 s1 (le_n n)); auto.
  split; [apply C|]. split; [apply agr_refl|]. now left.
Qed.
Lemma cut_transparent bi : transparent bi f g.
Proof.
  apply (sim_transparent bi f g (at_div f) (fun _ => True)).
  - apply (ct_entry _ _ _ _ _ _ _ _ _ _ G).
  - intros s. split; [apply C|]. split; [apply agr_refl|]. now left.
  - intros w k prev b s prev' s'. apply cd_step.
Qed.
End CUT.

(** * The whole pass *)
Lemma divisions_apart_cut f g bb keep moved nb eb t j i x a d r : cfg_ok f -> phis_first f -> insns_of f bb = keep ++ i :: moved ->
  f_insn f i = Some x -> i_op x = DIV -> i_vals x = a :: d :: r ->
  cut f g bb keep (i :: moved) nb eb t j (K_jbin d (val_const32 0) nb eb JEQ A_64) -> divisions_apart f -> divisions_apart g.
Proof.
  intros C PF L X O V G D.
  destruct (cd_ne f g bb keep moved nb eb t j i d C L G) as (N1 & N2 & N3 & N4 & N5).
  destruct (cut_fresh _ _ _ _ _ _ _ _ _ _ _ _ _ C G) as (F1 & F2).
  assert (LK : forall k, k <> t -> k <> j -> opt_like f g k) by (intros k K1 K2; exact (cut_like _ _ _ _ _ _ _ _ _ _ _ _ _ G k K1 K2)).
  assert (IG := ct_insns _ _ _ _ _ _ _ _ _ _ G). assert (SG := ct_succs _ _ _ _ _ _ _ _ _ _ G).
  destruct (ct_throw _ _ _ _ _ _ _ _ _ _ G) as (ut & XT). destruct (ct_jmp _ _ _ _ _ _ _ _ _ _ G) as (uj & XJ).
  assert (PT : ~ is_phi g t) by (intros (y & Y & P); rewrite XT in Y; injection Y as <-; discriminate P).
  assert (PJ : ~ is_phi g j) by (intros (y & Y & P); rewrite XJ in Y; injection Y as <-; discriminate P).
  assert (FN : forall k, ~ is_phi f k -> ~ is_phi g k).
  { intros k H P. destruct (Nat.eq_dec k t) as [->|]; [contradiction|]. destruct (Nat.eq_dec k j) as [->|]; [contradiction|]. apply H. apply (like_phi f g k); auto. }
  assert (FF : forall c, phi_free f c -> c <> nb -> c <> eb -> phi_free g c).
  { intros c H Q1 Q2 k I. rewrite IG in I. destruct (Nat.eqb_spec c bb) as [->|].
    - apply in_app_or in I as [I|[<-|[]]]; [|exact PJ]. apply FN. apply H. rewrite L. apply in_or_app. auto.
    - destruct (Nat.eqb_spec c nb); [contradiction|]. destruct (Nat.eqb_spec c eb); [contradiction|]. apply FN. apply H. exact I. }
  assert (SB : forall b c, In c (succs_of f b) -> c <> nb /\ c <> eb).
  { intros b c I. apply (proj1 (cf_mirror _ C)) in I. split; intros ->; unfold preds_of in I; [rewrite N4 in I|rewrite N5 in I]; exact I. }
  intros b k y a' d' r' m c I Y OY VY DY S.
  assert (KT : k <> t) by (intros ->; rewrite XT in Y; injection Y as <-; discriminate OY).
  assert (KJ : k <> j) by (intros ->; rewrite XJ in Y; injection Y as <-; discriminate OY).
  destruct (like_back _ _ _ _ (LK k KT KJ) Y) as (y0 & u & q & Y0 & ->). cbn in OY, VY.
  rewrite SG in S. rewrite IG in I. destruct (Nat.eqb_spec b bb) as [->|].
  - destruct S as [<-|[<-|[]]].
    + intros k2 K2. rewrite IG, Nat.eqb_refl in K2. destruct (Nat.eqb_spec nb bb); [congruence|]. apply FN. eapply (cd_moved f bb keep moved i x); eauto.
    + intros k2 K2. rewrite IG in K2. destruct (Nat.eqb_spec eb bb); [congruence|]. destruct (Nat.eqb_spec eb nb); [congruence|]. rewrite Nat.eqb_refl in K2. destruct K2 as [<-|[]]. exact PT.
  - destruct (Nat.eqb_spec b nb) as [->|].
    + apply FF; try (eapply SB; eauto). eapply (D bb k y0); eauto. rewrite L. apply in_or_app. auto.
    + destruct (Nat.eqb_spec b eb) as [->|]; [destruct S|]. apply FF; try (eapply SB; eauto). eapply (D b k y0); eauto.
Qed.
Lemma operands_live_cut f g bb keep moved nb eb t j d i x a r : cfg_ok f -> operands_live f -> f_insn f i = Some x -> i_vals x = a :: d :: r ->
  cut f g bb keep (i :: moved) nb eb t j (K_jbin d (val_const32 0) nb eb JEQ A_64) -> operands_live g.
Proof.
  intros C OL X V G. destruct (cut_fresh _ _ _ _ _ _ _ _ _ _ _ _ _ C G) as (F1 & F2).
  assert (LK : forall k, k <> t -> k <> j -> opt_like f g k) by (intros k K1 K2; exact (cut_like _ _ _ _ _ _ _ _ _ _ _ _ _ G k K1 K2)).
  assert (LV : forall m, f_insn f m <> None -> f_insn g m <> None).
  { intros m M. apply (opt_like_live f g); auto. apply LK; intros ->; congruence. }
  intros k y v m Y I D. destruct (Nat.eq_dec k t) as [->|KT].
  { destruct (ct_throw _ _ _ _ _ _ _ _ _ _ G) as (u & XT). rewrite XT in Y. injection Y as <-. destruct I. }
  destruct (Nat.eq_dec k j) as [->|KJ].
  { destruct (ct_jmp _ _ _ _ _ _ _ _ _ _ G) as (u & XJ). rewrite XJ in Y. injection Y as <-. destruct I as [<-|[<-|[]]]; [|discriminate D].
    apply LV. apply (OL i x d m X); auto. unfold operand_values. apply in_or_app. left. rewrite V. right. now left. }
  destruct (like_back _ _ _ _ (LK k KT KJ) Y) as (y0 & u & q & Y0 & ->). apply LV. apply (OL k y0 v m Y0); auto.
Qed.
Lemma check_div_transparent bi f i g x : cfg_ok f -> phis_first f -> operands_live f -> divisions_apart f -> f_insn f i = Some x -> i_op x = DIV -> check_div f i = Ok g ->
  transparent bi f g /\ operands_live g /\ divisions_apart g.
Proof.
  intros C PF OL D X O E.
  assert (HV : (forall a d r, i_vals x = a :: d :: r -> forall k, v_data d <> VInsn k) \/ exists a d r k, i_vals x = a :: d :: r /\ v_data d = VInsn k).
  { destruct (i_vals x) as [|a [|d r]]; [left; discriminate..|]. destruct (v_data d) eqn:VD; [left; intros ? ? ? Q ?; injection Q as <- <- <-; rewrite VD; discriminate..| |left; intros ? ? ? Q ?; injection Q as <- <- <-; rewrite VD; discriminate|left; intros ? ? ? Q ?; injection Q as <- <- <-; rewrite VD; discriminate].
    right. exists a, d, r. eauto. }
  destruct HV as [HV|(a & d & r & k & V & VD)].
  { assert (g = f); [|subst g; split; [apply transparent_refl|auto]]. unfold check_div in E. rewrite (proj2 (get_insn_ok _ _ _) X) in E. cbn [bind] in E.
    destruct (i_vals x) as [|a [|d r]]; try discriminate. cbn [nth_error] in E. specialize (HV a d r eq_refl). destruct (v_data d) as [| | |k| |]; try (injection E as <-; reflexivity). exfalso. apply (HV k). reflexivity. }
  destruct (check_div_spec f i g C PF E) as [(-> & _)|(x' & a' & d' & r' & p & l1 & l2 & nb & eb & t & j & X' & V' & L & G)]; [split; [apply transparent_refl|auto]|].
  rewrite X in X'. injection X' as <-. rewrite V in V'. injection V' as <- <- <-.
  assert (LL : insns_of f (i_parent x) = (l1 ++ [p]) ++ i :: l2) by (rewrite <- app_assoc; exact L).
  assert (IN : In i (insns_of f (i_parent x))) by (rewrite LL; apply in_or_app; right; now left).
  split; [|split].
  - apply (cut_transparent f g (i_parent x) (l1 ++ [p]) l2 nb eb t j i x a d r); auto. intros c S. eapply (D (i_parent x) i x); eauto.
  - eapply operands_live_cut; eauto.
  - eapply divisions_apart_cut; eauto.
Qed.
Lemma check_divs_transparent bi : forall l f g, cfg_ok f -> phis_first f -> operands_live f -> divisions_apart f ->
  (forall i, In i l -> exists x, f_insn f i = Some x /\ i_op x = DIV) -> ofold check_div f l = Ok g -> transparent bi f g.
Proof.
  induction l as [|i l IH]; intros f g C PF OL D H E; cbn [ofold] in E; [injection E as <-; apply transparent_refl|].
  apply bind_ok in E as (f1 & E1 & E). destruct (H i (or_introl eq_refl)) as (x & X & O).
  destruct (check_div_transparent bi f i f1 x C PF OL D X O E1) as (T & OL1 & D1). destruct (check_div_step f i f1 C PF E1) as (C1 & P1 & _).
  eapply transparent_trans; [exact T|]. apply (IH f1 g); auto. intros k K. destruct (H k (or_intror K)) as (y & Y & OY).
  assert (LK : opt_like f f1 k) by (apply (check_div_like f i f1 C PF E1); congruence). destruct (like_some _ _ _ _ LK Y) as (u & q & Z). eexists. split; [exact Z|exact OY].
Qed.
Lemma div_by_zero_transparent bi reach f g : cfg_ok f -> phis_first f -> operands_live f -> divisions_apart f -> div_by_zero reach f = Ok g -> transparent bi f g.
Proof.
  intros C PF OL D E. unfold div_by_zero in E. apply bind_ok in E as (l & El & E). apply (check_divs_transparent bi l f g); auto.
  intros i I. apply (collect_spec _ _ _ _ El) in I as (x & _ & X & O). exists x. split; [exact X|]. unfold iop_eqb in O. destruct (iop_eq_dec (i_op x) DIV); [auto|discriminate].
Qed.

(** * The checks throw only where the function divides by zero *)
Definition gets_to (w : world) (bi : bconst -> Z) (f : func) (s0 : sst) : Prop :=
  exists n p b s, srun w bi f n 0 (f_entry f) s0 = Some (OAt p b s) /\ event w bi f p b s.
Lemma check_div_event w bi f i g x s0 : cfg_ok f -> phis_first f -> operands_live f -> divisions_apart f -> f_insn f i = Some x -> i_op x = DIV -> check_div f i = Ok g ->
  gets_to w bi g s0 -> gets_to w bi f s0.
Proof.
  intros C PF OL D X O E (n & p0 & b & s & R & Ev).
  destruct (check_div_spec f i g C PF E) as [(-> & _)|(x' & a & d & r & p & l1 & l2 & nb & eb & t & j & X' & V & L & G)]; [exists n, p0, b, s; auto|].
  rewrite X in X'. injection X' as <-.
  assert (LL : insns_of f (i_parent x) = (l1 ++ [p]) ++ i :: l2) by (rewrite <- app_assoc; exact L).
  assert (VD : exists k, v_data d = VInsn k).
  { assert (NE : g <> f).
    { intros ->. assert (Z := cut_ne _ _ _ _ _ _ _ _ _ _ _ _ _ C LL ltac:(discriminate) G). destruct Z as (_ & _ & _ & Z & _).
      apply (proj2 (ct_dom _ _ _ _ _ _ _ _ _ _ G nb)); [right; now left|exact Z]. }
    unfold check_div in E. rewrite (proj2 (get_insn_ok _ _ _) X) in E. cbn [bind] in E. rewrite V in E. cbn [nth_error] in E.
    destruct (v_data d) as [| | |k| |] eqn:VD; try (injection E as <-; contradiction). eauto. }
  destruct VD as (k & VD).
  assert (IN : In i (insns_of f (i_parent x))) by (rewrite LL; apply in_or_app; right; now left).
  unfold gets_to. eapply (cut_event f g (i_parent x) (l1 ++ [p]) l2 nb eb t j i x a d r k); eauto.
Qed.
Lemma check_divs_event w bi s0 : forall l f g, cfg_ok f -> phis_first f -> operands_live f -> divisions_apart f ->
  (forall i, In i l -> exists x, f_insn f i = Some x /\ i_op x = DIV) -> ofold check_div f l = Ok g -> gets_to w bi g s0 -> gets_to w bi f s0.
Proof.
  induction l as [|i l IH]; intros f g C PF OL D H E Ev; cbn [ofold] in E; [injection E as <-; exact Ev|].
  apply bind_ok in E as (f1 & E1 & E). destruct (H i (or_introl eq_refl)) as (x & X & O).
  destruct (check_div_transparent bi f i f1 x C PF OL D X O E1) as (T & OL1 & D1). destruct (check_div_step f i f1 C PF E1) as (C1 & P1 & _).
  apply (check_div_event w bi f i f1 x); auto. apply (IH f1 g); auto. intros k K. destruct (H k (or_intror K)) as (y & Y & OY).
  assert (LK : opt_like f f1 k) by (apply (check_div_like f i f1 C PF E1); congruence). destruct (like_some _ _ _ _ LK Y) as (u & q & Z). eexists. split; [exact Z|exact OY].
Qed.
Lemma throw_at w bi f : forall n p b s t, srun w bi f n p b s = Some (OThrow t) -> exists n' p' b' s', srun w bi f n' p b s = Some (OAt p' b' s') /\ sblock w bi f p' b' s' = Some (SThrow t).
Proof.
  induction n as [|n IH]; intros p b s t E; cbn [srun] in E; [discriminate|].
  destruct (sblock w bi f p b s) as [[s1|b1 s1|r1 s1|s1]|] eqn:B; cbn [obind] in E; try discriminate.
  - destruct (IH _ _ _ _ E) as (n' & p' & b' & s' & R & T). exists (S n'), p', b', s'. cbn [srun]. rewrite B. auto.
  - injection E as ->. exists 0, p, b, s. auto.
Qed.
Lemma div_by_zero_throws reach f g : cfg_ok f -> phis_first f -> operands_live f -> divisions_apart f -> div_by_zero reach f = Ok g ->
  forall w bi s0, throws w bi g s0 -> throws w bi f s0 \/ divides_by_zero w bi f s0.
Proof.
  intros C PF OL D E w bi s0 (n & t & R). unfold div_by_zero in E. apply bind_ok in E as (l & El & E).
  destruct (throw_at _ _ _ _ _ _ _ _ R) as (n' & p & b & s & R' & T).
  destruct (check_divs_event w bi s0 l f g C PF OL D) as (m & p2 & b2 & s2 & F & Ev); auto.
  - intros i I. apply (collect_spec _ _ _ _ El) in I as (x & _ & X & O). exists x. split; [exact X|]. unfold iop_eqb in O. destruct (iop_eq_dec (i_op x) DIV); [auto|discriminate].
  - exists n', p, b, s. split; [exact R'|]. left. eauto.
  - destruct Ev as [(u & U)|(l1 & i & l2 & u & LI & SI & x & a & d & r & k & z & Z)].
    + left. exists (m + 1), u. rewrite (srun_split _ _ _ _ _ _ _ _ _ _ _ F). cbn [srun]. rewrite U. reflexivity.
    + right. exists i, u, x, a, d, r, k, z. split; [|exact Z]. unfold sinsns in SI. destruct (sphis bi f p2 s2 s2 l1) as [[rest s3]|] eqn:P; [|discriminate].
      exists m, p2, b2, s2, l1, l2, rest, s3. auto.
Qed.
