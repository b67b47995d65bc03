(** The instruction counter leaves executions alone until it stops them. *)
From Coq Require Import ZArith List Bool Arith Lia.
From Verif Require Import M_Base M_Ir M_Edit M_Pass SpecWord SpecFlat SpecSsa SpecIr SpecEdit SpecPass SpecStrict SpecInstr SpecWeave
  L_Word L_Edit L_Uses L_Hist L_Ctor L_Ins L_Div L_Count L_CountRun L_Weave L_WeaveDiv.
Import ListNotations.
Open Scope nat_scope.

Lemma sinsns_var cell w bi g prev s l q : (forall i, In i l -> not_to cell g i) -> sinsns w bi g prev s l = Some q -> s_var (out_state q) cell = s_var s cell.
Proof.
  intros N E. unfold sinsns in E. destruct (sphis bi g prev s s l) as [[r s1]|] eqn:P; [|discriminate].
  rewrite <- (sphis_var cell _ _ _ _ _ _ _ _ P). eapply sbody_var; [|exact E]. intros i I. apply N. eapply sphis_sub; eauto.
Qed.

Section COUNT.
Variables (bi : bconst -> Z) (f f0 g : func) (cell st0 : nat) (inc : value) (cnt limit : Z) (done : list nat).
Hypotheses (C : cfg_ok f) (OL : operands_live f) (C0 : cfg_ok f0) (EN : f_entry f0 = f_entry f) (DM : forall c, f_block f0 c = None <-> f_block f c = None)
  (LK : forall i, f_insn f i <> None -> opt_like f f0 i) (NC : f_insn f cell = None) (NS : f_insn f st0 = None)
  (OTH : forall c, c <> f_entry f -> insns_of f0 c = insns_of f c) (SU : forall c, succs_of f0 c = succs_of f c)
  (CA : counter_at f0 cell st0 (insns_of f (f_entry f))) (I0 : cinv f0 g cell (inc, limit) done) (HI : forall e, seval bi e inc = Some (u64 cnt))
  (PE : phi_free f (f_entry f))
  (AP : forall b i c, In b done -> In i (insns_of f b) -> is_terminator f i -> In c (succs_of f b) -> phi_free f c).
Definition fits : Prop := (0 <= cnt /\ 0 <= limit /\ limit + cnt < 2 ^ 32)%Z.
Definition hold (k : nat) (s : sst) : Prop :=
  exists v, s_var s cell = Some v /\ (fits -> 0 <= v <= Z.of_nat k * cnt /\ v <= limit)%Z.
Definition at_cnt (k prev b : nat) (s : sst) (prev' : nat) (s' : sst) : Prop :=
  f_block f b <> None /\ agr f s s' /\ (prev' = prev \/ phi_free f b) /\ (b = f_entry f \/ hold k s').
Definition over (k : nat) : Prop := fits -> (limit < Z.of_nat k * cnt)%Z.
Definition pre (b : nat) : list nat := if b =? f_entry f then [cell; st0] else [].

Lemma hold_more k s : hold k s -> hold (S k) s.
Proof. intros (v & V & H). exists v. split; [exact V|]. intros F. specialize (H F). destruct F as (F1 & _). split; [|lia]. nia. Qed.
Lemma cw_live i : f_insn f i <> None -> f_insn f0 i <> None.
Proof. intros L. eapply opt_like_live; [apply LK; exact L|exact L]. Qed.
Lemma cw_kept : kept f g.
Proof.
  intros i x X. apply (like_some f g i x); auto. eapply like_trans; [apply LK; congruence|]. apply I0. apply cw_live. congruence.
Qed.
Lemma cw_not_to i : f_insn f i <> None -> not_to cell g i.
Proof.
  intros L. assert (L0 := cw_live i L). apply (not_to_like cell f0 g); [apply I0; exact L0|]. apply CA; [intros ->; congruence|exact L0].
Qed.
Lemma cw_insns b : f_block f b <> None -> insns_of f0 b = pre b ++ insns_of f b.
Proof.
  intros B. unfold pre. destruct (Nat.eqb_spec b (f_entry f)) as [->|N]; [|apply OTH; exact N]. rewrite <- EN at 1. rewrite (ca_entry _ _ _ _ CA). reflexivity.
Qed.
Lemma cw_term i : f_insn f i <> None -> (is_terminator f0 i <-> is_terminator f i).
Proof. intros L. apply like_term. apply LK. exact L. Qed.

(** the instructions of [b], or the first of them *)
Lemma cw_head w k prev b s prev' s' l r : at_cnt k prev b s prev' s' -> insns_of f b = l ++ r ->
  orel (fun q q' => qrel f q q' /\ hold k (out_state q')) (sinsns w bi f prev s l) (sinsns w bi g prev' s' (pre b ++ l)).
Proof.
  intros (B & A & P & H) E. assert (KP := cw_kept).
  assert (LL : forall i, In i l -> f_insn f i <> None) by (intros i I; apply (linked_live f b); auto; rewrite E; apply in_or_app; auto).
  assert (LV : forall i, In i l -> not_to cell g i) by (intros i I; apply cw_not_to; auto).
  assert (K : forall prev1 s1', agr f s s1' -> hold k s1' -> prev1 = prev \/ (forall i, In i l -> ~ is_phi f i) ->
    orel (fun q q' => qrel f q q' /\ hold k (out_state q')) (sinsns w bi f prev s l) (sinsns w bi g prev1 s1' l)).
  { intros prev1 s1' A1 H1 P1. assert (R := sinsns_agr f g w bi prev prev1 s s1' l OL KP LL A1 P1).
    destruct (sinsns w bi f prev s l) as [q|]; destruct (sinsns w bi g prev1 s1' l) as [q'|] eqn:E2; inversion R as [|a c R' Q1 Q2]; subst; constructor. split; [exact R'|].
    destruct H1 as (v & V & H1). exists v. split; [|exact H1]. rewrite <- V. eapply sinsns_var; eauto. }
  unfold pre. destruct (Nat.eqb_spec b (f_entry f)) as [->|N].
  - destruct (run_cell f0 g cell st0 _ inc limit done I0 CA) as (y & Y & OY & RY). destruct (run_st0 f0 g cell st0 _ inc limit done I0 CA) as (x & X & OX & VX).
    assert (NL : forall i, In i l -> ~ is_phi f i) by (intros i I; apply PE; rewrite E; apply in_or_app; auto).
    set (s1' := mkS (s_env s') (eupd (s_var s') cell 0%Z) (s_mem s') (s_nc s')).
    assert (Z : sinsns w bi g prev' s' ([cell; st0] ++ l) = sinsns w bi g prev' s1' l).
    { assert (NG : forall i, In i l -> ~ is_phi g i).
      { intros i I (z & Z & P'). destruct (kept_some f g KP i (LL i I)) as (x' & y' & X' & Y' & O' & _). rewrite Z in Y'. injection Y' as <-. apply (NL i I). exists x'. split; [exact X'|congruence]. }
      assert (LG : forall i, In i l -> f_insn g i <> None) by (intros i I; destruct (kept_some f g KP i (LL i I)) as (? & ? & _ & Y' & _); congruence).
      rewrite (sinsns_plain w bi g prev' s1' l LG NG). rewrite sinsns_plain.
      - cbn [app sbody]. rewrite Y. cbn [obind]. unfold sexec at 1. rewrite OY. cbn [obind]. rewrite X. cbn [obind]. unfold sexec at 1. rewrite OX, VX. cbn [val_insn v_data]. rewrite Y. cbn [obind]. rewrite OY, RY.
        reflexivity.
      - intros i [<-|[<-|I]]; [congruence|congruence|auto].
      - intros i [<-|[<-|I]]; [intros (z & Z & P'); congruence|intros (z & Z & P'); congruence|auto]. }
    rewrite Z. apply K; auto.
    + apply agr_var; auto.
    + exists 0%Z. split; [cbn; unfold eupd; now rewrite Nat.eqb_refl|]. intros (F1 & F2 & _). split; [nia|exact F2].
  - cbn [app]. destruct H as [H|H]; [contradiction|]. apply K; auto. destruct P as [P|P]; [now left|right]. intros i I. apply P. rewrite E. apply in_or_app. auto.
Qed.

(** the check *)
Lemma cw_check w k s s' ld ad st j eb xj : check g cell (inc, limit) ld ad st j eb -> f_insn g j = Some xj -> f_insn f ld = None -> f_insn f ad = None -> agr f s s' -> hold k s' ->
  exists c s2, sbody w bi g s' [ld; ad; st; j] = Some (SJmp (if c : bool then eb else i_bb1 xj) s2) /\ agr f s s2 /\ (c = true -> over (S k)) /\ (c = false -> hold (S k) s2).
Proof.
  intros CK XJ NL NA A (v & V & H). assert (CK' := CK). destruct CK' as [(x1 & X1 & O1 & V1) (x2 & X2 & O2 & V2 & W2) (x3 & X3 & O3 & V3) (x4 & X4 & O4 & V4 & W4 & B4) _]. cbn [fst snd] in V2, V4.
  destruct (run_cell f0 g cell st0 _ inc limit done I0 CA) as (y & Y & OY & RY). rewrite X4 in XJ. injection XJ as ->.
  set (a := alu_fn AAdd true (u64 v) (u64 cnt)).
  set (s2 := mkS (eupd (eupd (s_env s') ld (u64 v)) ad (u64 a)) (eupd (s_var s') cell (u64 a mod 2 ^ (8 * Z.of_nat 4))%Z) (s_mem s') (s_nc s')).
  assert (E3 : sbody w bi g s' [ld; ad; st] = Some (SNext s2)).
  { cbn [sbody]. rewrite X1. cbn [obind]. unfold sexec at 1. rewrite O1, V1. cbn [val_insn v_data]. rewrite V. cbn [obind].
    rewrite X2. cbn [obind]. unfold sexec at 1. rewrite O2, V2, W2. cbn [alu_op_of cmp_op_of width_of obind]. unfold seval at 1. cbn [val_insn v_data]. unfold sres_ at 1. cbn [s_env]. unfold eupd at 1. rewrite Nat.eqb_refl. cbn [obind].
    rewrite HI. cbn [obind]. rewrite X3. cbn [obind]. unfold sexec at 1. rewrite O3, V3. cbn [val_insn v_data]. rewrite Y. cbn [obind]. rewrite OY, RY.
    unfold iop_eqb. destruct (iop_eq_dec ALLOC ALLOC) as [_|NA']; [|congruence]. cbn [vr_bytes obind].
    unfold seval at 1. cbn [v_data val_insn]. unfold sres_ at 1. cbn [s_env]. unfold eupd at 1. rewrite Nat.eqb_refl. cbn [obind]. reflexivity. }
  set (c := cmp_fn CGt true (u64 a) (u64 limit)).
  assert (EJ : sexec w bi g j xj s2 = Some (SJmp (if c then eb else i_bb1 xj) s2)).
  { unfold sexec. rewrite O4, V4, W4. cbn [alu_op_of cmp_op_of width_of obind]. unfold seval at 1. cbn [val_insn v_data]. unfold s2 at 1. cbn [s_env]. unfold eupd at 1. rewrite Nat.eqb_refl. cbn [obind].
    unfold seval. cbn [val_const32 v_data]. unfold const_val. cbn [v_bi val_const32 obind]. rewrite B4. reflexivity. }
  exists c, s2. split; [|split; [|]].
  - change [ld; ad; st; j] with ([ld; ad; st] ++ [j]). rewrite sbody_cat, E3. cbn [sbody]. rewrite X4. cbn [obind]. rewrite EJ. reflexivity.
  - assert (A1 := agr_var f s (sres_ (sres_ s' ld v) ad a) cell (u64 a mod 2 ^ (8 * Z.of_nat 4))%Z (agr_extra f s _ ad a (agr_extra f s s' ld v A NL) NA) NC). exact A1.
  - assert (KK : fits -> s_var s2 cell = Some (v + cnt)%Z /\ c = (limit <? v + cnt)%Z).
    { intros F. assert (HF := H F). destruct F as (F1 & F2 & F3). destruct (check_run w bi g cell inc cnt limit ld ad st j eb y s' s2 _ xj v HI CK Y OY RY V ltac:(lia) F1 F3 E3 X4 EJ) as (Q1 & Q2). split; [exact Q1|].
      (* the target tells the condition only if the targets differ; recompute *)
      unfold c, a. change (2 ^ 32)%Z with 4294967296%Z in F3.
      assert (Ec : u64 (cnt) = cnt) by (apply u64_small; change (2 ^ 64)%Z with 18446744073709551616%Z; lia).
      assert (Ev : u64 v = v) by (apply u64_small; change (2 ^ 64)%Z with 18446744073709551616%Z; lia).
      assert (T64 : forall z, (0 <= z < 8589934592)%Z -> trunc true z = z).
      { intros z Z. unfold trunc, bits. apply Z.mod_small. change (2 ^ 64)%Z with 18446744073709551616%Z. lia. }
      assert (EA : alu_fn AAdd true (u64 v) (u64 (cnt)) = (v + cnt)%Z).
      { unfold alu_fn. rewrite Ev, Ec, (T64 v), (T64 (cnt)) by lia. apply T64. lia. }
      assert (Es : u64 (v + cnt) = (v + cnt)%Z) by (apply u64_small; change (2 ^ 64)%Z with 18446744073709551616%Z; lia).
      assert (El : u64 limit = limit) by (apply u64_small; change (2 ^ 64)%Z with 18446744073709551616%Z; lia).
      rewrite EA, Es, El. unfold cmp_fn. rewrite (T64 (v + cnt)%Z), (T64 limit) by lia. reflexivity. }
    split.
    + intros Q F. destruct (KK F) as (_ & K2). rewrite Q in K2. symmetry in K2. apply Z.ltb_lt in K2. specialize (H F). lia.
    + intros Q. exists (u64 a mod 2 ^ (8 * Z.of_nat 4))%Z. split; [cbn; unfold eupd; now rewrite Nat.eqb_refl|]. intros F. destruct (KK F) as (K1 & K2). rewrite Q in K2. symmetry in K2. apply Z.ltb_ge in K2.
      unfold s2 in K1. cbn [s_var] in K1. unfold eupd in K1. rewrite Nat.eqb_refl in K1.
      assert (K3 := f_equal (fun o => match o with Some z => z | None => 0%Z end) K1). cbv beta iota in K3. rewrite K3. specialize (H F). destruct F as (F1 & _). lia.
Qed.

(** a done block, seen from [f] *)
Lemma cw_done b : In b done -> exists body tail ld ad st j eb nb xj, insns_of f b = body ++ tail /\ insns_of g b = pre b ++ body ++ [ld; ad; st; j] /\ check g cell (inc, limit) ld ad st j eb /\
    f_insn g j = Some xj /\ i_bb1 xj = nb /\ f_insn f ld = None /\ f_insn f ad = None /\ f_block g eb <> None /\ (forall i, In i body -> ~ is_terminator f i) /\
    ((tail = [] /\ succs_of f b = [nb]) \/
     exists i, tail = [i] /\ is_terminator f i /\ f_block g nb <> None /\ insns_of g nb = [i] /\ succs_of g nb = succs_of f b).
Proof.
  intros D. destruct (ci_done _ _ _ _ _ I0 b D) as (B0 & _). assert (B : f_block f b <> None) by (rewrite <- DM; exact B0).
  destruct (ci_woven _ _ _ _ _ I0 b D) as (body & tail & ld & ad & st & j & eb & nb & xj & E1 & E2 & E3 & E4 & E5 & E6 & E7 & E8 & E9 & E10 & E11).
  rewrite (cw_insns b B) in E1. rewrite SU in E11.
  assert (NF : forall i, f_insn f0 i = None -> f_insn f i = None) by (intros i Z; destruct (f_insn f i) eqn:Q; auto; exfalso; apply (cw_live i); congruence).
  destruct (ca_cell _ _ _ _ CA) as (y & Y & OY & _). destruct (ca_st0 _ _ _ _ CA) as (x & X & OX & _).
  assert (T1 : ~ is_terminator f0 cell) by (intros (z & Z & T); rewrite Y in Z; injection Z as <-; rewrite OY in T; cbn in T; intuition discriminate).
  assert (T2 : ~ is_terminator f0 st0) by (intros (z & Z & T); rewrite X in Z; injection Z as <-; rewrite OX in T; cbn in T; intuition discriminate).
  assert (TT : tail = [] \/ exists i, tail = [i] /\ is_terminator f0 i) by (destruct E11 as [(Q & _)|(i & Q & T & _)]; eauto).
  assert (K : exists body', body = pre b ++ body' /\ insns_of f b = body' ++ tail).
  { unfold pre in *. destruct (b =? f_entry f); [|exists body; auto]. cbn [app] in E1. destruct body as [|z1 body].
    { exfalso. destruct TT as [-> |(i & -> & T)]; cbn in E1; [discriminate|]. injection E1 as <- _. contradiction. }
    cbn in E1. injection E1 as <- E1. destruct body as [|z2 body].
    { exfalso. destruct TT as [-> |(i & -> & T)]; cbn in E1; [discriminate|]. injection E1 as <- _. contradiction. }
    cbn in E1. injection E1 as <- E1. exists body. auto. }
  destruct K as (body' & -> & F1).
  assert (LB : forall i, In i (insns_of f b) -> f_insn f i <> None) by (intros i I; apply (linked_live f b); auto).
  exists body', tail, ld, ad, st, j, eb, nb, xj. split; auto. split; [rewrite E2, <- app_assoc; reflexivity|]. do 6 (split; auto). split.
  { intros i I T. apply (E10 i); [apply in_or_app; now right|]. apply cw_term; auto. apply LB. rewrite F1. apply in_or_app. auto. }
  destruct E11 as [E11|(i & G1 & G2 & G3 & G4 & G5 & G6)]; [now left|]. right. exists i. split; auto. split; [apply cw_term; auto; apply LB; rewrite F1, G1; apply in_or_app; right; now left|]. auto.
Qed.
Lemma cw_throw w ld ad st j eb p s : check g cell (inc, limit) ld ad st j eb -> f_block g eb <> None -> srun w bi g 1 p eb s = Some (OThrow s).
Proof.
  intros [_ _ _ _ (t & x & T & X & O & V)] B. cbn [srun]. rewrite sblock_parts by exact B. rewrite T. unfold sinsns. cbn [sphis]. rewrite X. cbn [obind]. rewrite O. cbn [iop_eqb].
  unfold iop_eqb. destruct (iop_eq_dec THROW PHI); [discriminate|]. cbn [sbody]. rewrite X. cbn [obind]. unfold sexec. rewrite O, V. reflexivity.
Qed.
Lemma cw_step w k prev b s prev' s' : at_cnt k prev b s prev' s' -> meets_again f g w bi at_cnt over k prev b s prev' s'.
Proof.
  intros A. assert (B := proj1 A). assert (KP := cw_kept). assert (BG : f_block g b <> None) by (apply I0; rewrite DM; exact B).
  assert (J : forall b' t, sblock w bi f prev b s = Some (SJmp b' t) -> In b' (succs_of f b) /\ f_block f b' <> None) by (intros b' t E; eapply jump_to; eauto).
  destruct (in_dec Nat.eq_dec b done) as [D|D].
  - destruct (cw_done b D) as (body & tail & ld & ad & st & j & eb & nb & xj & E1 & E2 & E3 & E4 & E5 & E6 & E7 & E8 & E10 & E11).
    assert (R := cw_head w k prev b s prev' s' body tail A E1).
    assert (LT : forall i, In i tail -> f_insn f i <> None) by (intros i I; apply (linked_live f b); auto; rewrite E1; apply in_or_app; auto).
    assert (PT : forall i, In i tail -> ~ is_phi f i).
    { destruct E11 as [(-> & _)|(i & -> & T & _)]; [intros i []|]. intros i' [<-|[]] (x & X & P). destruct T as (x' & X' & T). rewrite X in X'. injection X' as <-. rewrite P in T. cbn in T. intuition discriminate. }
    assert (FB : sblock w bi f prev b s = match (match sinsns w bi f prev s body with Some (SNext s1) => sbody w bi f s1 tail | o => o end) with
      | Some (SNext s2) => match succs_of f b with b' :: _ => Some (SJmp b' s2) | [] => None end | o => o end).
    { rewrite sblock_parts by exact B. now rewrite E1, sinsns_app. }
    assert (QC : forall i, In i [ld; ad; st; j] -> f_insn g i <> None /\ ~ is_phi g i).
    { intros i I. split; [|eapply (check_quiet g cell inc limit ld ad st j eb E3); exact I]. destruct E3 as [(x1 & X1 & _) (x2 & X2 & _) (x3 & X3 & _) _ _]. destruct I as [<-|[<-|[<-|[<-|[]]]]]; congruence. }
    assert (GB : sblock w bi g prev' b s' = match (match sinsns w bi g prev' s' (pre b ++ body) with Some (SNext s1) => sbody w bi g s1 [ld; ad; st; j] | o => o end) with
      | Some (SNext s2) => match succs_of g b with b' :: _ => Some (SJmp b' s2) | [] => None end | o => o end).
    { rewrite sblock_parts by exact BG. rewrite E2, app_assoc, sinsns_app; [reflexivity| |]; intros i I; now apply QC. }
    destruct (sinsns w bi f prev s body) as [q|] eqn:F1; destruct (sinsns w bi g prev' s' (pre b ++ body)) as [q'|]; inversion R as [|q1 q2 (R' & H') M1 M2]; [subst q1 q2|right; exists 0, prev', b, s'; split; [reflexivity|]; rewrite FB, GB; constructor].
    destruct R' as [s1 s1' R'|b1 s1 s1' R'|r1 s1 s1' R'|s1 s1' R'].
    2,3,4: exfalso; destruct (sinsns_jump _ _ _ _ _ _ _ F1 ltac:(intros ? Z; discriminate Z)) as (i & K1 & K2); exact (E10 i K1 K2).
    cbn [out_state] in H'. destruct (cw_check w k s1 s1' ld ad st j eb xj E3 E4 E6 E7 R' H') as (c & s2 & G1 & G2 & G3 & G4). rewrite G1 in GB.
    destruct c.
    + left. split; [auto|]. exists 2, s2. change 2 with (1 + 1). cbn [srun Nat.add]. rewrite GB. exact (cw_throw w ld ad st j eb b s2 E3 E8).
    + specialize (G4 eq_refl). rewrite E5 in GB. right. destruct E11 as [(-> & ES)|(i & -> & T & BN & EN' & SN)].
      * exists 0, prev', b, s'. split; [reflexivity|]. rewrite GB. cbn [sbody] in FB. rewrite ES in FB. rewrite FB in *. constructor. constructor. split; [eapply J; reflexivity|]. auto.
      * exists 1, b, nb, s2. split; [cbn [srun]; rewrite GB; reflexivity|].
        assert (LG : forall i', In i' [i] -> f_insn g i' <> None) by (intros i' I; destruct (kept_some f g KP i' (LT i' I)) as (? & ? & _ & Y' & _); congruence).
        assert (NG : forall i', In i' [i] -> ~ is_phi g i').
        { intros i' I (z & Z & P'). destruct (kept_some f g KP i' (LT i' I)) as (x' & y' & X' & Y' & O' & _). rewrite Z in Y'. injection Y' as <-. apply (PT i' I). exists x'. split; [exact X'|congruence]. }
        rewrite (sblock_parts w bi g b nb s2 BN), EN', SN, sinsns_plain by auto.
        assert (IB : In i (insns_of f b)) by (rewrite E1; apply in_or_app; right; now left).
        assert (RM := sbody_agr f g w bi OL KP [i] s1 s2 LT G2). rewrite FB in *.
        destruct (sbody w bi f s1 [i]) as [q|]; destruct (sbody w bi g s2 [i]) as [q'|] eqn:G5; inversion RM as [|q1 q2 RM' M3 M4]; [subst q1 q2|constructor].
        assert (HO : hold (S k) (out_state q')).
        { destruct G4 as (v & V & G4). exists v. split; [|exact G4]. rewrite <- V. eapply sbody_var; [|exact G5]. intros i' I. apply cw_not_to. auto. }
        destruct RM' as [t1 t1' RM'|b1 t1 t1' RM'|r1 t1 t1' RM'|t1 t1' RM']; cbn [out_state] in HO.
        -- destruct (succs_of f b) as [|b' l] eqn:SF; [constructor|]. constructor. constructor. split; [eapply J; reflexivity|]. split; [exact RM'|]. split; [|now right]. right. eapply (AP b i); eauto. rewrite SF. now left.
        -- constructor. constructor. split; [eapply J; reflexivity|]. split; [exact RM'|]. split; [|now right]. right. eapply (AP b i); eauto. eapply J; reflexivity.
        -- constructor. constructor; apply RM'.
        -- constructor. constructor.
  - right. exists 0, prev', b, s'. split; [reflexivity|].
    assert (EI : insns_of g b = pre b ++ insns_of f b) by (rewrite <- cw_insns by exact B; apply I0; [rewrite DM; exact B|exact D]).
    assert (ES : succs_of g b = succs_of f b) by (rewrite <- SU; apply I0; [rewrite DM; exact B|exact D]).
    assert (R := cw_head w k prev b s prev' s' (insns_of f b) [] A (eq_sym (app_nil_r _))).
    rewrite (sblock_parts w bi f), (sblock_parts w bi g) in * by auto. rewrite EI, ES.
    destruct (sinsns w bi f prev s (insns_of f b)) as [q|]; destruct (sinsns w bi g prev' s' (pre b ++ insns_of f b)) as [q'|]; inversion R as [|q1 q2 (R' & H') M1 M2]; [subst q1 q2|constructor].
    apply hold_more in H'. destruct R' as [t t' R'|b' t t' R'|r t t' R'|t t' R']; cbn [out_state] in H'.
    + destruct (succs_of f b) as [|b' l]; [constructor|]. constructor. constructor. split; [eapply J; reflexivity|]. auto.
    + constructor. constructor. split; [eapply J; reflexivity|]. auto.
    + constructor. constructor; apply R'.
    + constructor. constructor.
Qed.
Lemma cw_entry : f_entry g = f_entry f.
Proof. rewrite (ci_entry _ _ _ _ _ I0). exact EN. Qed.
Lemma cw_start s : at_cnt 0 0 (f_entry f) s 0 s.
Proof. split; [apply C|]. split; [apply agr_refl|]. auto. Qed.
Lemma cw_transparent : transparent bi f g.
Proof. exact (sim_transparent bi f g at_cnt over cw_entry cw_start cw_step). Qed.
Lemma cw_within w n s0 r m k : fits -> (Z.of_nat n * cnt <= limit)%Z -> returns_in w bi f n s0 r m k -> returns w bi g s0 r m k.
Proof.
  intros F L. apply (sim_within bi f g at_cnt over cw_entry cw_start cw_step). intros j J O. specialize (O F). destruct F as (F & _). nia.
Qed.
End COUNT.

(** * The passes *)
Lemma make_counter_more f f0 cell : cfg_ok f -> make_counter f = Ok (f0, cell) ->
  (forall i, f_insn f i <> None -> opt_like f f0 i) /\ f_insn f cell = None /\
  (exists st0, insns_of f0 (f_entry f) = cell :: st0 :: insns_of f (f_entry f) /\ f_insn f st0 = None) /\ (forall c, c <> f_entry f -> insns_of f0 c = insns_of f c).
Proof.
  intros C E. unfold make_counter in E. apply bind_ok in E as ((f1 & a) & E1 & E). cbn [fst snd] in E.
  apply bind_ok in E as ((f2 & st) & E2 & E). cbn [fst snd] in E. injection E as -> ->.
  assert (G1 := grown_bb _ _ _ _ _ _ (cf_entry _ C) E1 (or_intror eq_refl)). cbn match in G1.
  assert (T1 : insns_of f (f_entry f) = [] -> forall j, In j (@nil nat) -> ~ is_terminator f j) by (intros _ j []).
  assert (Q1 : quiet_op (i_op (build 0 (K_alloc VR_32)))) by (split; [discriminate|cbn; intuition discriminate]).
  assert (C1 : cfg_ok f1). { exact (grown_cfg f f1 cell (f_entry f) _ [] (insns_of f (f_entry f)) C (cf_entry _ C) eq_refl G1 Q1 T1). }
  destruct (gr_new _ _ _ _ _ _ G1) as (u1 & X1).
  assert (I1 := gr_insns _ _ _ _ _ _ G1 (f_entry f)). rewrite Nat.eqb_refl in I1.
  assert (B1 : f_block f1 (f_entry f) <> None) by (intros Z; apply (gr_dom _ _ _ _ _ _ G1) in Z; apply (cf_entry _ C); exact Z).
  assert (G2 : grown f1 f0 st (f_entry f) (K_store cell (val_const32 0)) (cell :: st :: insns_of f (f_entry f))).
  { refine (grown_at f1 cell _ _ P_BACK f0 st [] (insns_of f (f_entry f)) (cf_fresh _ C1) X1 _ _ _ _ _ _ E2); cbn; auto; discriminate. }
  assert (D1 := gr_id _ _ _ _ _ _ G1). assert (D2 := gr_id _ _ _ _ _ _ G2). assert (D3 := gr_ni _ _ _ _ _ _ G1).
  split; [|split; [|split]].
  - intros i L. assert (i <> cell) by (apply (live_ne f); [apply C|exact L|lia]). assert (i <> st) by (apply (live_ne f); [apply C|exact L|lia]).
    eapply like_trans; [apply (grown_like _ _ _ _ _ _ G1); auto|apply (grown_like _ _ _ _ _ _ G2); auto].
  - apply (cf_fresh _ C). lia.
  - exists st. split; [|apply (cf_fresh _ C); lia]. rewrite (gr_insns _ _ _ _ _ _ G2), Nat.eqb_refl. reflexivity.
  - intros c N. rewrite (gr_insns _ _ _ _ _ _ G2), (gr_insns _ _ _ _ _ _ G1). destruct (Nat.eqb_spec c (f_entry f)); [contradiction|reflexivity].
Qed.
(** what the counter passes do to [f]: [P] holds of the counted blocks *)
Record counts (f g : func) (limit : value * Z) (P : nat -> Prop) : Prop := {
  ct_parts : exists f0 cell st0 done, cfg_ok f0 /\ f_entry f0 = f_entry f /\ (forall c, f_block f0 c = None <-> f_block f c = None) /\
    (forall i, f_insn f i <> None -> opt_like f f0 i) /\ f_insn f cell = None /\ f_insn f st0 = None /\
    (forall c, c <> f_entry f -> insns_of f0 c = insns_of f c) /\ (forall c, succs_of f0 c = succs_of f c) /\
    counter_at f0 cell st0 (insns_of f (f_entry f)) /\ cinv f0 g cell limit done /\ (forall b, In b done -> P b) }.
Lemma fast_counts limit reach f g : cfg_ok f -> operands_live f -> explored f reach -> counter_fast limit reach f = Ok g -> counts f g (by_size limit) (meets f).
Proof.
  intros C OL [X1 XB X2 X3] E. unfold counter_fast in E. apply bind_ok in E as ((f0 & cell) & E1 & E). cbn [fst snd] in E.
  destruct (make_counter_ok _ _ _ C OL E1) as (st0 & CA & C0 & EN & DM & PR & SU). destruct (make_counter_more _ _ _ C E1) as (LK & NC & (st1 & IE & NS) & OTH).
  assert (st1 = st0). { assert (Q := ca_entry _ _ _ _ CA). rewrite EN, IE in Q. injection Q as ->. reflexivity. } subst st1.
  assert (EX : forall c, In c reach -> f_block f0 c <> None). { intros c H Z. apply DM in Z. apply (XB c H). exact Z. }
  destruct (fast_fold f0 cell limit C0 reach f0 g [] (cinv_start _ _ _ C0) X1) as (d & A1 & A2 & A3 & A4); auto.
  constructor. exists f0, cell, st0, d. do 10 (split; auto). intros b D. destruct (A4 b D) as [[]|(_ & M)]. unfold meets. rewrite <- PR. exact M.
Qed.
Lemma mark_preds_from f0 : forall l s s', minv f0 (fst s) (snd s) -> ofold mark_pred s l = Ok s' -> forall c, In c (snd s') -> In c (snd s) \/ In c l.
Proof.
  induction l as [|p l IH]; intros s s' M E c I; cbn [ofold] in E; [injection E as <-; auto|].
  apply bind_ok in E as (s1 & E1 & E2). destruct (mark_pred_ok _ _ _ _ M E1) as (M1 & _ & _ & F). destruct (IH _ _ M1 E2 c I) as [H|H]; [|right; now right].
  destruct (F c H) as [H'| ->]; [now left|right; now left].
Qed.
Lemma mark_blocks_from f0 : forall l s s', minv f0 (fst s) (snd s) -> ofold mark_block s l = Ok s' -> forall c, In c (snd s') -> In c (snd s) \/ exists m, (1 < length (preds_of f0 m) \/ m = f_entry f0) /\ In c (preds_of f0 m).
Proof.
  induction l as [|b l IH]; intros s s' M E c I; cbn [ofold] in E; [injection E as <-; auto|].
  apply bind_ok in E as (s1 & E1 & E2).
  assert (K : minv f0 (fst s1) (snd s1) /\ forall c, In c (snd s1) -> In c (snd s) \/ exists m, (1 < length (preds_of f0 m) \/ m = f_entry f0) /\ In c (preds_of f0 m)).
  { unfold mark_block in E1. apply bind_ok in E1 as (k & K & E1). apply get_block_ok in K.
    assert (P : b_preds k = preds_of f0 b). { rewrite <- (sg_preds _ _ (mi_same _ _ _ M)). unfold preds_of. rewrite K. reflexivity. }
    rewrite P in E1. destruct (_ <=? 1) eqn:Q in E1.
    - injection E1 as <-. auto.
    - destruct (mark_preds_ok _ _ _ _ M E1) as (A1 & _). split; [exact A1|]. intros c' I'. destruct (mark_preds_from _ _ _ _ M E1 c' I') as [H|H]; [now left|right; exists b; split; [|exact H]]. apply Nat.leb_gt in Q. rewrite (sg_entry _ _ (mi_same _ _ _ M)) in Q. destruct (Nat.eqb_spec b (f_entry f0)); [now right|left; lia]. }
  destruct K as (M1 & K). destruct (IH _ _ M1 E2 c I) as [H|H]; auto.
Qed.
Lemma accurate_counts limit reach f g : cfg_ok f -> operands_live f -> unmarked f -> counter_accurate limit reach f = Ok g ->
  counts f g (by_size limit) (fun b => exists m, In m (succs_of f b) /\ (meets f m \/ m = f_entry f)).
Proof.
  intros C OL UM E. unfold counter_accurate in E. apply bind_ok in E as ((f0 & cell) & E1 & E). cbn [fst snd] in E.
  apply bind_ok in E as ((fm & ms) & E2 & E). cbn [fst snd] in E.
  destruct (make_counter_ok _ _ _ C OL E1) as (st0 & CA & C0 & EN & DM & PR & SU). destruct (make_counter_more _ _ _ C E1) as (LK & NC & (st1 & IE & NS) & OTH).
  assert (st1 = st0). { assert (Q := ca_entry _ _ _ _ CA). rewrite EN, IE in Q. injection Q as ->. reflexivity. } subst st1.
  assert (M0 : minv f0 (fst (f0, @nil nat)) (snd (f0, @nil nat))).
  { cbn. constructor; [apply same_refl| |constructor|intros b []]. intros b k K. split; [|intros []].
    intros T. exfalso. assert (F := make_counter_flags _ _ _ E1 b). unfold flags_of in F. rewrite K in F. cbn in F.
    destruct (f_block f b) as [k0|] eqn:K0; [|discriminate]. cbn in F. injection F as F. rewrite F, (UM b k0 K0) in T. discriminate. }
  destruct (mark_blocks_ok f0 reach _ _ M0 E2) as (M & _ & _). cbn [fst snd] in M.
  assert (MF := mark_blocks_from f0 reach _ _ M0 E2). cbn [fst snd] in MF. assert (SG := mi_same _ _ _ M).
  assert (Cm := same_cfg _ _ SG C0).
  destruct (acc_fold fm cell limit Cm ms fm g [] (cinv_start _ _ _ Cm) (mi_once _ _ _ M)) as (d & A1 & A2); auto.
  { intros c H. split; [intros []|]. intros Z. apply (sg_dom _ _ SG) in Z. apply (mi_dom _ _ _ M c H). exact Z. }
  constructor. exists fm, cell, st0, d. split; auto. split; [rewrite (sg_entry _ _ SG); exact EN|]. split; [intros c; rewrite (sg_dom _ _ SG); apply DM|].
  split. { intros i L. destruct (LK i L) as (u & q & Q). exists u, q. rewrite (sg_insn _ _ SG). exact Q. }
  split; auto. split; auto. split; [intros c N; rewrite (sg_insns _ _ SG); auto|]. split; [intros c; rewrite (sg_succs _ _ SG); apply SU|].
  split; [eapply same_counter; eauto|]. split; auto.
  intros b D. apply A2 in D as [[]|D]. destruct (MF b D) as [[]|(m & L & I)]. exists m. rewrite PR in L, I. rewrite EN in L. split; [apply (cf_mirror _ C); exact I|exact L].
Qed.
Lemma counts_transparent bi f g inc cnt limit P : (forall e, seval bi e inc = Some (u64 cnt)) -> cfg_ok f -> operands_live f -> phi_free f (f_entry f) -> apart_after f P -> counts f g (inc, limit) P -> transparent bi f g.
Proof.
  intros HI C OL PE AP [(f0 & cell & st0 & done & C0 & EN & DM & LK & NC & NS & OTH & SU & CA & I & HP)].
  apply (cw_transparent bi f f0 g cell st0 inc cnt limit done); auto. intros b i c D. apply AP. auto.
Qed.
Lemma counts_within bi f g inc cnt limit P : (forall e, seval bi e inc = Some (u64 cnt)) -> cfg_ok f -> operands_live f -> phi_free f (f_entry f) -> apart_after f P -> counts f g (inc, limit) P ->
  (0 <= cnt)%Z -> (0 <= limit)%Z -> (limit + cnt < 2 ^ 32)%Z ->
  forall w n s0 r m k, (Z.of_nat n * cnt <= limit)%Z -> returns_in w bi f n s0 r m k -> returns w bi g s0 r m k.
Proof.
  intros HI C OL PE AP [(f0 & cell & st0 & done & C0 & EN & DM & LK & NC & NS & OTH & SU & CA & I & HP)] F1 F2 F3 w n s0 r m k L.
  apply (cw_within bi f f0 g cell st0 inc cnt limit done); auto; [intros b i c D; apply AP; auto|]. split; auto.
Qed.
Lemma fast_transparent limit reach f g bi : cfg_ok f -> operands_live f -> explored f reach -> phi_free f (f_entry f) -> apart_after f (meets f) -> counter_fast limit reach f = Ok g ->
  transparent bi f g.
Proof. intros C OL X PE AP E. eapply (counts_transparent bi f g count_value (bi B_INSN_COUNT) limit); eauto. eapply fast_counts; eauto. Qed.
Lemma accurate_transparent limit reach f g bi : cfg_ok f -> operands_live f -> unmarked f -> phi_free f (f_entry f) ->
  apart_after f (fun b => exists m, In m (succs_of f b) /\ (meets f m \/ m = f_entry f)) -> counter_accurate limit reach f = Ok g -> transparent bi f g.
Proof. intros C OL UM PE AP E. eapply (counts_transparent bi f g count_value (bi B_INSN_COUNT) limit); eauto. eapply accurate_counts; eauto. Qed.
Lemma fast_within limit reach f g bi : cfg_ok f -> operands_live f -> explored f reach -> phi_free f (f_entry f) -> apart_after f (meets f) -> counter_fast limit reach f = Ok g ->
  (0 <= bi B_INSN_COUNT)%Z -> (0 <= limit)%Z -> (limit + bi B_INSN_COUNT < 2 ^ 32)%Z ->
  forall w n s0 r m k, (Z.of_nat n * bi B_INSN_COUNT <= limit)%Z -> returns_in w bi f n s0 r m k -> returns w bi g s0 r m k.
Proof. intros C OL X PE AP E. eapply (counts_within bi f g count_value (bi B_INSN_COUNT) limit); eauto. eapply fast_counts; eauto. Qed.
Lemma accurate_within limit reach f g bi : cfg_ok f -> operands_live f -> unmarked f -> phi_free f (f_entry f) ->
  apart_after f (fun b => exists m, In m (succs_of f b) /\ (meets f m \/ m = f_entry f)) -> counter_accurate limit reach f = Ok g ->
  (0 <= bi B_INSN_COUNT)%Z -> (0 <= limit)%Z -> (limit + bi B_INSN_COUNT < 2 ^ 32)%Z ->
  forall w n s0 r m k, (Z.of_nat n * bi B_INSN_COUNT <= limit)%Z -> returns_in w bi f n s0 r m k -> returns w bi g s0 r m k.
Proof. intros C OL UM PE AP E. eapply (counts_within bi f g count_value (bi B_INSN_COUNT) limit); eauto. eapply accurate_counts; eauto. Qed.
