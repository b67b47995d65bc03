(** The division check. *)
From Coq Require Import ZArith List Bool Arith Lia.
From Verif Require Import M_Base M_Ir M_Edit M_Pass SpecWord SpecFlat SpecSsa SpecIr SpecEdit SpecPass SpecStrict SpecInstr
  L_Edit L_Uses L_Hist L_Ctor L_PassAlloc L_PassThrow L_Ins.
Import ListNotations.
Open Scope nat_scope.

(** * Executions *)
Lemma srun_last w bi g : forall n prev b s prev' b' s', srun w bi g (S n) prev b s = Some (OAt prev' b' s') ->
  exists q t, srun w bi g n prev b s = Some (OAt q prev' t) /\ sblock w bi g q prev' t = Some (SJmp b' s').
Proof.
  induction n as [|n IH]; intros prev b s prev' b' s' H.
  - cbn in H. unfold obind in H. destruct (sblock w bi g prev b s) as [r|] eqn:E; [|discriminate]. destruct r; try discriminate.
    injection H as <- <- <-. exists prev, s. split; [reflexivity|exact E].
  - remember (S n) as m eqn:Em. cbn [srun] in H. unfold obind in H. destruct (sblock w bi g prev b s) as [r|] eqn:E; [|discriminate]. destruct r; try discriminate.
    subst m. destruct (IH _ _ _ _ _ _ H) as (q & t & A & B). exists q, t. split; auto. cbn [srun]. now rewrite E.
Qed.
Lemma sexec_jump w bi f i x s q : sexec w bi f i x s = Some q -> (forall s', q <> SNext s') -> f_insn f i = Some x -> is_terminator f i.
Proof.
  intros E N X. exists x. split; auto. unfold sexec, obind in E.
  destruct (i_op x); cbn; auto 20; exfalso; revert E;
    cbn [alu_op_of cmp_op_of]; repeat match goal with |- match ?e with _ => _ end = _ -> _ => destruct e end; intros E; try discriminate E;
    injection E as E; subst q; eapply N; reflexivity.
Qed.
Lemma sbody_app w bi f : forall l r s q, sbody w bi f s (l ++ r) = Some q ->
  (exists s', sbody w bi f s l = Some (SNext s') /\ sbody w bi f s' r = Some q) \/
  (sbody w bi f s l = Some q /\ forall s', q <> SNext s').
Proof.
  induction l as [|i l IH]; intros r s q H; [left; exists s; auto|].
  cbn [sbody app] in H |- *. unfold obind in *. destruct (f_insn f i) as [x|]; [|discriminate]. destruct (sexec w bi f i x s) as [t|]; [|discriminate].
  destruct t as [s1|b s1|z s1|s1]; [destruct (IH _ _ _ H) as [A|A]; auto| | |]; right; split; auto; intros s'; injection H as <-; discriminate.
Qed.
Lemma sbody_jump w bi f : forall l s q, sbody w bi f s l = Some q -> (forall s', q <> SNext s') -> exists i, In i l /\ is_terminator f i.
Proof.
  induction l as [|i l IH]; intros s q H N; cbn in H; unfold obind in H; [injection H as <-; exfalso; eapply N; reflexivity|].
  destruct (f_insn f i) as [x|] eqn:X; [|discriminate]. destruct (sexec w bi f i x s) as [t|] eqn:E; [|discriminate].
  destruct t as [s1|b s1|z s1|s1].
  1:{ destruct (IH _ _ H N) as (k & K & T). exists k. split; [now right|auto]. }
  all: injection H as <-; exists i; split; [now left|]; eapply sexec_jump; eauto; discriminate.
Qed.
(** the phis are a prefix *)
Lemma sphis_split bi f prev s0 : forall l s rest s1, sphis bi f prev s0 s l = Some (rest, s1) ->
  exists ps, l = ps ++ rest /\ forall i, In i ps -> is_phi f i.
Proof.
  induction l as [|i l IH]; intros s rest s1 H; cbn in H; unfold obind in H.
  - injection H as <- <-. exists []. split; auto. intros i [].
  - destruct (f_insn f i) as [x|] eqn:X; [|discriminate]. destruct (iop_eqb (i_op x) PHI) eqn:P.
    + destruct (incoming x prev) as [v|]; [|discriminate]. destruct (seval bi (s_env s0) v) as [z|]; [|discriminate].
      destruct (IH _ _ _ H) as (ps & -> & Q). exists (i :: ps). split; auto. intros k [<-|K]; auto.
      exists x. split; auto. unfold iop_eqb in P. destruct (iop_eq_dec (i_op x) PHI); auto; discriminate.
    + injection H as <- <-. exists []. split; auto. intros k [].
Qed.
(** a block ending in instruction [j], not a phi, left through a jump to [c], runs [j] *)
Lemma sblock_last w bi f prev b s l j q : insns_of f b = l ++ [j] -> ~ is_phi f j -> (forall i, In i l -> ~ is_terminator f i) -> is_terminator f j ->
  sblock w bi f prev b s = Some q ->
  exists rest s1 s2 x, sphis bi f prev s s (insns_of f b) = Some (rest ++ [j], s1) /\ sbody w bi f s1 rest = Some (SNext s2) /\
    (exists ps, l = ps ++ rest /\ forall i, In i ps -> is_phi f i) /\
    f_insn f j = Some x /\ sexec w bi f j x s2 = Some q.
Proof.
  intros L NP NT TJ H. unfold sblock, obind in H. assert (L0 := L). unfold insns_of in L0. destruct (f_block f b) as [k|] eqn:B; [|destruct l; discriminate].
  rewrite L0 in H.
  destruct (sphis bi f prev s s (l ++ [j])) as [[r s1]|] eqn:P; [|discriminate].
  destruct (sphis_split _ _ _ _ _ _ _ _ P) as (ps & E & Q).
  assert (R : exists rest, r = rest ++ [j]).
  { destruct r as [|r0 r'] using rev_ind; [|apply app_assoc_reverse || idtac].
    - rewrite app_nil_r in E. exfalso. apply NP. apply Q. rewrite <- E. apply in_or_app. right. now left.
    - clear IHr'. rewrite app_assoc in E. apply app_inj_tail in E as (_ & <-). eauto. }
  destruct R as (rest & ->). rewrite app_assoc in E. apply app_inj_tail in E as (E & _).
  destruct (sbody w bi f s1 (rest ++ [j])) as [t|] eqn:SB; [|discriminate].
  apply sbody_app in SB as [(s2 & S1 & S2)|(S1 & S2)].
  - cbn [sbody] in S2. unfold obind in S2. destruct (f_insn f j) as [x|] eqn:X; [|discriminate]. destruct (sexec w bi f j x s2) as [t'|] eqn:SE; [|discriminate].
    exists rest, s1, s2, x. rewrite L. split; auto. split; auto. split; [eauto|]. split; auto.
    destruct t' as [s3|c s3|z s3|s3]; [|injection S2 as <-; injection H as <-; exact SE..].
    exfalso. destruct TJ as (y & Y & T). rewrite X in Y. injection Y as <-. clear -SE T. unfold sexec, obind in SE.
    cbn in T. decompose [or] T; try contradiction;
      match goal with H : _ = i_op x |- _ => rewrite <- H in SE end; cbn in SE;
      revert SE; repeat match goal with |- match ?e with _ => _ end = _ -> _ => destruct e; try discriminate end; discriminate.
  - exfalso. destruct (sbody_jump _ _ _ _ _ _ S1 S2) as (i & I & T). apply (NT i); auto. rewrite E. apply in_or_app. auto.
Qed.

(** * The guard *)
Record guarded (g : func) (i : nat) (d : value) : Prop := {
  gd_ex : exists nb r b l j y eb, insns_of g nb = i :: r /\ nb <> f_entry g /\ (forall c, goes g c nb -> c = b) /\
    insns_of g b = l ++ [j] /\ f_insn g j = Some y /\ i_op y = JEQ /\ i_vals y = [d; val_const32 0] /\ i_alu y = A_64 /\
    i_bb1 y = nb /\ i_bb2 y = eb /\ eb <> nb }.

Lemma guarded_reaches w bi g s0 i d s z : cfg_ok g -> guarded g i d -> reaches w bi g s0 i s -> seval bi (s_env s) d = Some z -> trunc true z <> 0%Z.
Proof.
  intros C [(nb & r & b & l & j & y & eb & I1 & I2 & I3 & I4 & Y1 & Y2 & Y3 & Y4 & Y5 & Y6 & Y7)] (n & prev & b0 & s1 & k1 & k2 & rest & s2 & R & IB & P & B) Z.
  assert (B0 : b0 = nb).
  { destruct (cf_linked _ C b0 i) as (x & X & PX); [rewrite IB; apply in_or_app; right; now left|].
    destruct (cf_linked _ C nb i) as (x' & X' & PX'); [rewrite I1; now left|]. congruence. }
  subst b0. assert (ND := cf_once _ C nb). rewrite I1 in IB, ND.
  assert (k1 = []).
  { destruct k1 as [|a k1]; auto. exfalso. injection IB as <- E. apply NoDup_cons_iff in ND as (ND & _). apply ND. rewrite E. apply in_or_app. right. now left. }
  subst k1. cbn in P. injection P as <- <-. cbn in B. injection B as <-.
  destruct n as [|n]; [cbn in R; injection R as _ R _; congruence|].
  apply srun_last in R as (q & t & _ & SB).
  assert (PB : prev = b) by (apply I3; eapply block_goes; eauto). subst prev.
  assert (TJ : is_terminator g j) by (exists y; split; auto; rewrite Y2; cbn; auto 20).
  assert (NP : ~ is_phi g j) by (intros (x & X & Q); congruence).
  assert (NT : forall k, In k l -> ~ is_terminator g k).
  { intros k K T. apply in_split in K as (m1 & m2 & ->). rewrite <- app_assoc in I4. cbn in I4.
    assert (Q := cf_ends _ C _ _ _ _ I4 T). destruct m2; discriminate. }
  destruct (sblock_last _ _ _ _ _ _ _ _ _ I4 NP NT TJ SB) as (rest & s3 & s4 & x & _ & _ & _ & X & SE).
  rewrite Y1 in X. injection X as <-. unfold sexec in SE. rewrite Y2, Y3 in SE. cbn in SE. rewrite Y4 in SE. cbn in SE.
  destruct (seval bi (s_env s4) d) as [a|] eqn:SV; [|discriminate]. injection SE as E1 E2. subst s4. rewrite Z in SV. injection SV as ->.
  destruct (Z.eqb_spec (trunc true a) 0) as [Q|Q]; [congruence|exact Q].
Qed.

(** cutting another block keeps the guard *)
Lemma guarded_cut f g bb keep moved nb' eb' t j' v1 v2 o al i d : cfg_ok f -> insns_of f bb = keep ++ moved -> keep <> [] -> moved <> [] -> cmp_op_of o <> None ->
  cut f g bb keep moved nb' eb' t j' (K_jbin v1 v2 nb' eb' o al) -> guarded f i d -> guarded g i d.
Proof.
  intros C L NK NM CO G [(nb & r & b & l & j & y & eb & I1 & I2 & I3 & I4 & Y1 & Y2 & Y3 & Y4 & Y5 & Y6 & Y7)].
  destruct (cut_ne _ _ _ _ _ _ _ _ _ _ _ _ _ C L NM G) as (N1 & N2 & N3 & N4 & N5).
  assert (BX : f_block f b <> None) by (apply (in_block f b j); rewrite I4; apply in_or_app; right; now left).
  assert (NX : f_block f nb <> None) by (apply (in_block f nb i); rewrite I1; now left).
  assert (M1 : nb <> nb') by (intros Q; rewrite Q in NX; contradiction). assert (M2 : nb <> eb') by (intros Q; rewrite Q in NX; contradiction).
  assert (M3 : b <> nb') by (intros Q; rewrite Q in BX; contradiction). assert (M4 : b <> eb') by (intros Q; rewrite Q in BX; contradiction).
  assert (JI : In j (insns_of f b)) by (rewrite I4; apply in_or_app; right; now left).
  destruct (cut_notin _ _ _ _ _ _ _ _ _ _ _ _ _ C G j b JI) as (T1 & T2).
  destruct (like_some f g j y (cut_like _ _ _ _ _ _ _ _ _ _ _ _ _ G j T1 T2) Y1) as (u & q & XJ).
  assert (H1 : exists r', insns_of g nb = i :: r').
  { rewrite (ct_insns _ _ _ _ _ _ _ _ _ _ G). destruct (Nat.eqb_spec nb bb) as [E|_].
    - rewrite <- E in L. rewrite I1 in L. destruct keep as [|a keep']; [congruence|]. injection L as <- _. cbn. eauto.
    - destruct (Nat.eqb_spec nb nb'); [contradiction|]. destruct (Nat.eqb_spec nb eb'); [contradiction|]. eauto. }
  destruct H1 as (r' & H1).
  constructor. destruct (Nat.eq_dec b bb) as [->|NB].
  - (* the guard has moved to nb' *)
    rewrite L in I4. destruct (exists_last NM) as (m & z & ->). rewrite app_assoc in I4. apply app_inj_tail in I4 as (_ & ->).
    exists nb, r', nb', m, j, (set_users u (set_parent q y)), eb. split; auto. split; [rewrite (ct_entry _ _ _ _ _ _ _ _ _ _ G); auto|]. split.
    { intros c W. apply (cut_goes _ _ _ _ _ _ _ _ _ _ _ _ _ C L NM CO G) in W as [(_ & [W|W])|[(-> & W)|(A1 & A2 & A3 & W)]]; try congruence. exfalso. apply A1. auto. }
    split. { rewrite (ct_insns _ _ _ _ _ _ _ _ _ _ G). destruct (Nat.eqb_spec nb' bb); [congruence|]. now rewrite Nat.eqb_refl. }
    split; [exact XJ|]. cbn. auto 10.
  - exists nb, r', b, l, j, (set_users u (set_parent q y)), eb. split; auto. split; [rewrite (ct_entry _ _ _ _ _ _ _ _ _ _ G); auto|]. split.
    { intros c W. apply (cut_goes _ _ _ _ _ _ _ _ _ _ _ _ _ C L NM CO G) in W as [(_ & [W|W])|[(-> & W)|(A1 & A2 & A3 & W)]]; try congruence; auto.
      exfalso. apply NB. symmetry. auto. }
    split. { rewrite (ct_insns _ _ _ _ _ _ _ _ _ _ G). destruct (Nat.eqb_spec b bb); [congruence|]. destruct (Nat.eqb_spec b nb'); [congruence|]. destruct (Nat.eqb_spec b eb'); [congruence|]. auto. }
    split; [exact XJ|]. cbn. auto 10.
Qed.

Definition not_first (g : func) (i : nat) : Prop := exists b z r, insns_of g b = z :: r /\ In i r.
(** the instruction with the operands it has in [f] *)
Definition div_ok (g : func) (i : nat) (d : value) : Prop :=
  exists x a r, f_insn g i = Some x /\ i_vals x = a :: d :: r /\ (guarded g i d \/ not_first g i).

Lemma prev_spec f i x p : cfg_ok f -> f_insn f i = Some x -> prev_insn f i = Ok p ->
  match p with
  | None => exists r, insns_of f (i_parent x) = i :: r
  | Some p => exists l1 l2, insns_of f (i_parent x) = l1 ++ p :: i :: l2
  end.
Proof.
  intros C X E. unfold prev_insn in E. rewrite (proj2 (get_insn_ok _ _ _) X) in E. cbn [bind] in E.
  apply bind_ok in E as (b & B & E). apply get_block_ok in B. assert (L : insns_of f (i_parent x) = b_insns b) by (unfold insns_of; now rewrite B).
  destruct (index_of i (b_insns b)) as [k|] eqn:K; [|discriminate].
  assert (NT : exists l1 l2, b_insns b = l1 ++ i :: l2 /\ length l1 = k).
  { clear -K. revert k K. induction (b_insns b) as [|a l IH]; intros k K; [discriminate|]. cbn in K. destruct (Nat.eqb_spec a i) as [->|N].
    - injection K as <-. exists [], l. auto.
    - destruct (index_of i l) as [k'|] eqn:Q; [|discriminate]. injection K as <-. destruct (IH k' eq_refl) as (l1 & l2 & -> & <-).
      exists (a :: l1), l2. auto. }
  destruct NT as (l1 & l2 & E1 & E2). rewrite L, E1. destruct k as [|k].
  - injection E as <-. destruct l1; [|discriminate]. exists l2. reflexivity.
  - injection E as <-. destruct (exists_last (l := l1)) as (m & z & ->); [destruct l1; discriminate|].
    rewrite app_length in E2. cbn in E2. assert (length m = k) by lia.
    rewrite E1, <- app_assoc. cbn. rewrite nth_error_app2 by lia. replace (k - length m) with 0 by lia. cbn. exists m, l2. reflexivity.
Qed.

Lemma check_div_spec f i g : cfg_ok f -> phis_first f -> check_div f i = Ok g ->
  (g = f /\ exists x a d r, f_insn f i = Some x /\ i_vals x = a :: d :: r /\ ((forall k, v_data d <> VInsn k) \/ exists t, insns_of f (i_parent x) = i :: t)) \/
  exists x a d r p l1 l2 nb eb t j, f_insn f i = Some x /\ i_vals x = a :: d :: r /\ insns_of f (i_parent x) = l1 ++ p :: i :: l2 /\
    cut f g (i_parent x) (l1 ++ [p]) (i :: l2) nb eb t j (K_jbin d (val_const32 0) nb eb JEQ A_64).
Proof.
  intros C PF E. unfold check_div in E. apply bind_ok in E as (x & X & E). apply get_insn_ok in X.
  destruct (i_vals x) as [|a [|d r]] eqn:V; try discriminate. cbn [nth_error] in E.
  destruct (v_data d) as [c|c|c|k|q|] eqn:VD.
  1,2,3,5,6: left; injection E as <-; split; auto; exists x, a, d, r; split; [exact X|]; split; [exact V|]; left; intros k; rewrite VD; discriminate.
  apply bind_ok in E as (p & P & E). assert (PS := prev_spec f i x p C X P). destruct p as [p|].
  2:{ left. injection E as <-. split; auto. exists x, a, d, r. auto. }
  destruct PS as (l1 & l2 & L). right.
  apply bind_ok in E as ((f1 & rr) & E1 & E). 
  destruct (cf_linked _ C (i_parent x) p) as (xp & XP & PP); [rewrite L; apply in_or_app; right; now left|].
  assert (LP : insns_of f (i_parent xp) = l1 ++ p :: i :: l2) by now rewrite PP.
  assert (PH : i_op xp = PHI -> forall j, In j l1 -> is_phi f j).
  { intros Q j J. eapply (PF (i_parent xp)); [exact LP| |exact J]. exists xp; auto. }
  assert (NN : i :: l2 <> []) by discriminate.
  destruct (cut_split f p xp l1 (i :: l2) C XP LP NN f1 rr E1) as (-> & _).
  destruct (create_bb f1) as [f2 eb] eqn:E2. apply bind_ok in E as ((f3 & t) & E3 & E). apply bind_ok in E as ((f4 & j) & E4 & E5). cbn [fst] in *.
  rewrite <- PP in E5.
  exists x, a, d, r, p, l1, l2, (f_nb f), eb, t, j. split; auto. split; auto. split; auto. rewrite <- PP.
  eapply cut_div; eauto. discriminate.
Qed.

Lemma check_div_step f i g : cfg_ok f -> phis_first f -> check_div f i = Ok g -> cfg_ok g /\ phis_first g /\
  (forall k d, div_ok f k d -> div_ok g k d) /\
  (forall d, div_ok f i d -> (exists k, v_data d = VInsn k) -> guarded g i d) /\ (forall k d, guarded f k d -> guarded g k d).
Proof.
  intros C PF E. destruct (check_div_spec f i g C PF E) as [(-> & x & a & d & r & X & V & H)|(x & a & d & r & p & l1 & l2 & nb & eb & t & j & X & V & L & G)].
  - split; auto. split; auto. split; auto. split; auto. intros d' (x' & a' & r' & X' & V' & O) (k & VD).
    rewrite X in X'. injection X' as <-. rewrite V in V'. injection V' as <- <- <-.
    destruct H as [H|(t & H)]; [exfalso; eapply H; eauto|]. destruct O as [O|(b & z & q & B & I)]; auto. exfalso.
    destruct (cf_linked _ C b i) as (x' & X' & PX); [rewrite B; now right|]. rewrite X in X'. injection X' as <-. subst b.
    rewrite H in B. injection B as <- ->. assert (ND := cf_once _ C (i_parent x)). rewrite H in ND. inversion ND; contradiction.
  - assert (NN : i :: l2 <> []) by discriminate. assert (NK : l1 ++ [p] <> []) by (destruct l1; discriminate). assert (CO : cmp_op_of JEQ <> None) by discriminate.
    assert (LL : insns_of f (i_parent x) = (l1 ++ [p]) ++ i :: l2) by (rewrite <- app_assoc; exact L).
    destruct (cut_ne _ _ _ _ _ _ _ _ _ _ _ _ _ C LL NN G) as (N1 & N2 & N3 & N4 & N5).
    assert (C' := cut_cfg _ _ _ _ _ _ _ _ _ _ _ _ _ C LL NN CO G).
    assert (PF' := cut_phis_first _ _ _ _ _ _ _ _ _ _ _ _ _ C LL CO G PF).
    assert (GU : guarded g i d).
    { constructor. destruct (ct_jmp _ _ _ _ _ _ _ _ _ _ G) as (u & XJ).
      exists nb, l2, (i_parent x), (l1 ++ [p]), j, (set_users u (build (i_parent x) (K_jbin d (val_const32 0) nb eb JEQ A_64))), eb.
      assert (IG := ct_insns _ _ _ _ _ _ _ _ _ _ G). split.
      { rewrite IG. destruct (Nat.eqb_spec nb (i_parent x)); [congruence|]. now rewrite Nat.eqb_refl. }
      split. { rewrite (ct_entry _ _ _ _ _ _ _ _ _ _ G). intros Q. apply (cf_entry _ C). now rewrite <- Q. }
      split. { intros c W. apply (cf_goes _ C') in W. apply (proj1 (cf_mirror _ C')) in W. rewrite (ct_preds _ _ _ _ _ _ _ _ _ _ G), Nat.eqb_refl in W. destruct W as [W|[]]; auto. }
      split. { rewrite IG, Nat.eqb_refl. reflexivity. }
      split; [exact XJ|]. cbn. auto 10. }
    split; auto. split; auto.
    assert (K : forall k d, guarded f k d -> guarded g k d). { intros k d' Gk. exact (guarded_cut f g _ _ _ _ _ _ _ _ _ _ _ k d' C LL NK NN CO G Gk). }
    split; [|split; auto].
    + intros k d' (x' & a' & r' & X' & V' & O).
      assert (IK : k <> t /\ k <> j). { destruct (cut_fresh _ _ _ _ _ _ _ _ _ _ _ _ _ C G) as (F1 & F2). split; intros ->; congruence. }
      destruct IK as (K1 & K2). destruct (like_some f g k x' (cut_like _ _ _ _ _ _ _ _ _ _ _ _ _ G k K1 K2) X') as (u & q & XG).
      exists (set_users u (set_parent q x')), a', r'. split; auto. split; auto.
      destruct O as [O|(b & z & q' & B & I)]; auto.
      destruct (Nat.eq_dec k i) as [->|NK'].
      { left. rewrite X in X'. injection X' as <-. rewrite V in V'. injection V' as <- <- <-. exact GU. }
      right. assert (IG := ct_insns _ _ _ _ _ _ _ _ _ _ G). destruct (Nat.eq_dec b (i_parent x)) as [->|NB].
      * rewrite LL in B.
        destruct (in_dec Nat.eq_dec k l2) as [I2|I2].
        { exists nb, i, l2. rewrite IG. destruct (Nat.eqb_spec nb (i_parent x)); [congruence|]. rewrite Nat.eqb_refl. auto. }
        assert (I3 : exists r3, l1 ++ [p] = z :: r3 /\ In k r3).
        { destruct (l1 ++ [p]) as [|z' r3]; [congruence|]. cbn in B. injection B as <- <-. exists r3. split; auto.
          apply in_app_or in I as [I|[I|I]]; auto; congruence. }
        destruct I3 as (r3 & E3 & I3). exists (i_parent x), z, (r3 ++ [j]). rewrite IG, Nat.eqb_refl, E3. split; auto. apply in_or_app. auto.
      * exists b, z, q'. split; auto. rewrite IG. destruct (Nat.eqb_spec b (i_parent x)); [contradiction|].
        destruct (Nat.eqb_spec b nb) as [->|]; [unfold insns_of in B; rewrite N4 in B; discriminate|].
        destruct (Nat.eqb_spec b eb) as [->|]; [unfold insns_of in B; rewrite N5 in B; discriminate|]. exact B.
    + intros d' (x' & a' & r' & X' & V' & _) _. rewrite X in X'. injection X' as <-. rewrite V in V'. injection V' as <- <- <-. exact GU.
Qed.

Lemma check_divs : forall l f g, cfg_ok f -> phis_first f -> ofold check_div f l = Ok g -> cfg_ok g /\ phis_first g /\
  (forall k d, div_ok f k d -> div_ok g k d) /\ (forall k d, guarded f k d -> guarded g k d) /\
  (forall k d, In k l -> div_ok f k d -> (exists q, v_data d = VInsn q) -> guarded g k d).
Proof.
  induction l as [|i l IH]; intros f g C P E; cbn [ofold] in E.
  - injection E as <-. split; auto. split; auto. split; auto. split; auto. intros k d [].
  - apply bind_ok in E as (f1 & E1 & E). destruct (check_div_step f i f1 C P E1) as (C1 & P1 & D1 & G1 & K1).
    destruct (IH f1 g C1 P1 E) as (C2 & P2 & D2 & K2 & G2). split; auto. split; auto. split; [auto|]. split; [auto|].
    intros k d [<-|I] D Q; eauto.
Qed.

Lemma div_by_zero_ok reach f g : cfg_ok f -> phis_first f -> div_by_zero reach f = Ok g -> cfg_ok g /\ phis_first g /\
  forall i x d, division f i x d -> In (i_parent x) reach -> guarded g i d.
Proof.
  intros C P E. unfold div_by_zero in E. apply bind_ok in E as (l & El & E).
  destruct (check_divs l f g C P E) as (C1 & P1 & _ & _ & G). split; auto. split; auto.
  intros i x d [X O (a & r & V) VD (l1 & p & l2 & L)] R. apply G; auto.
  - apply (collect_spec _ _ _ _ El). exists x. split; [|split; auto; unfold iop_eqb; rewrite O; reflexivity].
    apply in_flat_map. exists (i_parent x). split; auto. rewrite L. apply in_or_app. right. right. now left.
  - exists x, a, r. split; auto. split; auto. right. exists (i_parent x). destruct l1 as [|z l1].
    + exists p, (i :: l2). split; [exact L|now left].
    + exists z, (l1 ++ p :: i :: l2). split; [exact L|]. apply in_or_app. right. right. now left.
Qed.

Lemma opt_self f i : opt_like f f i.
Proof. destruct (f_insn f i) as [x|] eqn:X; unfold opt_like; rewrite X; [exists (i_users x), (i_parent x); destruct x; reflexivity|exists [], 0; reflexivity]. Qed.
Lemma check_div_like f i g : cfg_ok f -> phis_first f -> check_div f i = Ok g -> forall k, f_insn f k <> None -> opt_like f g k.
Proof.
  intros C PF E k K. destruct (check_div_spec f i g C PF E) as [(-> & _)|(x & a & d & r & p & l1 & l2 & nb & eb & t & j & X & V & L & G)]; [apply opt_self|].
  destruct (cut_fresh _ _ _ _ _ _ _ _ _ _ _ _ _ C G) as (F1 & F2). apply (cut_like _ _ _ _ _ _ _ _ _ _ _ _ _ G); intros ->; contradiction.
Qed.
Lemma check_divs_like : forall l f g, cfg_ok f -> phis_first f -> ofold check_div f l = Ok g -> forall k, f_insn f k <> None -> opt_like f g k.
Proof.
  induction l as [|i l IH]; intros f g C P E k K; cbn [ofold] in E; [injection E as <-; apply opt_self|].
  apply bind_ok in E as (f1 & E1 & E). destruct (check_div_step f i f1 C P E1) as (C1 & P1 & _).
  assert (L := check_div_like f i f1 C P E1 k K). eapply like_trans; [exact L|]. apply (IH f1 g C1 P1 E).
  destruct (f_insn f k) as [x|] eqn:X; [|congruence]. destruct (like_some _ _ _ _ L X) as (u & q & Y). congruence.
Qed.
Lemma div_by_zero_kept reach f g : cfg_ok f -> phis_first f -> div_by_zero reach f = Ok g -> kept f g.
Proof.
  intros C P E i x X. unfold div_by_zero in E. apply bind_ok in E as (l & El & E). apply (like_some f g i x); auto.
  apply (check_divs_like l f g C P E). congruence.
Qed.
Lemma div_checked reach f g : cfg_ok f -> phis_first f -> div_by_zero reach f = Ok g -> forall i x d, division f i x d -> In (i_parent x) reach ->
  forall w bi s0 s z, reaches w bi g s0 i s -> seval bi (s_env s) d = Some z -> trunc true z <> 0%Z.
Proof.
  intros C P E i x d D R w bi s0 s z H Z. destruct (div_by_zero_ok reach f g C P E) as (C1 & _ & K). eapply guarded_reaches; eauto.
Qed.
