(** Unset registers in the program and in the lifter's blocks. *)
From Coq Require Import ZArith List Bool Arith Lia.
From Verif Require Import M_Base M_Ir M_Edit SpecWord SpecIsa M_GenBB SpecCfg M_Lift SpecSsa SpecLift SpecIr SpecEdit
  L_Edit L_GenBB L_Lift L_LiftRead L_LiftRun L_LiftDfs L_LiftMain L_LiftSafe L_LiftTerm L_LiftAcc L_LiftProp SpecInit L_InitFwd.
Import ListNotations.
Open Scope nat_scope.

Ltac Zify.zify_post_hook ::= Z.div_mod_to_equations.

Definition from (i : bpf_insn) (x : pre_insn) : Prop :=
  (b_code i <> 24%Z /\ exists i', same_insn i i' /\
       x = M_GenBB.mkPre (b_code i') (b_dst i') (b_src i') (b_off i') false (b_imm i') (u32 (b_imm i')) (pi_pos x)) \/
  (b_code i = 24%Z /\ pi_code x = 24%Z /\ pi_dst x = b_dst i /\ pi_src x = b_src i).

Lemma two_cls c : two_way c = true -> (c mod 8 = 5 \/ c mod 8 = 6)%Z /\ (c / 16 <> 0 /\ c / 16 <> 8 /\ c / 16 <> 9)%Z.
Proof.
  unfold two_way. intros T. apply andb_prop in T as [A B]. split.
  - apply orb_prop in A as [A|A]; apply Z.eqb_eq in A; auto.
  - apply orb_prop in B as [B|B]; apply andb_prop in B as [B1 B2]; apply Z.leb_le in B1, B2; lia.
Qed.
Lemma mods c : (c mod 8 = 0 \/ c mod 8 = 1 \/ c mod 8 = 2 \/ c mod 8 = 3 \/ c mod 8 = 4 \/ c mod 8 = 5 \/ c mod 8 = 6 \/ c mod 8 = 7)%Z.
Proof. pose proof (Z.mod_pos_bound c 8). lia. Qed.
Definition jdef (i : bpf_insn) : Prop := (b_code i mod 8 = 5 \/ b_code i mod 8 = 6)%Z ->
  (b_code i = 5 \/ b_code i = 0x85 \/ b_code i = 0x95 \/ two_way (b_code i) = true)%Z.
Lemma from_wr i x : jdef i -> from i x -> wr x = sets i.
Proof.
  intros Jd [[N24 (i' & Si & ->)]|(E & Ec & Ed & _)].
  - unfold sets, writes, wr, jmp_cls, cls, opn. cbn [pi_code pi_dst pi_src]. destruct Si as [->|(T & O & ->)].
    + destruct (Z.eqb_spec (b_code i) 0x85) as [E|N]; [rewrite E; reflexivity|].
      destruct (mods (b_code i)) as [M|[M|[M|[M|[M|[M|[M|M]]]]]]]; rewrite M in *; cbn [Z.eqb orb andb app Pos.eqb]; try reflexivity;
        (destruct (Z.eqb_spec (b_code i / 16) 8) as [E8|]; [|reflexivity]); exfalso; unfold jdef in Jd;
        (destruct Jd as [J|[J|[J|J]]]; [lia | rewrite J in E8; discriminate | congruence | rewrite J in E8; discriminate |
          destruct (two_cls _ J) as (_ & _ & K & _); congruence]).
    + cbn [b_code]. destruct (two_cls _ T) as [[M|M] (K0 & K8 & K9)]; rewrite M; cbn [app];
        (destruct (Z.eqb_spec (b_code i) 0x85) as [E|N]; [rewrite E in K8; exfalso; apply K8; reflexivity | reflexivity]).
  - unfold wr, sets, writes. rewrite Ec, Ed, E. reflexivity.
Qed.
Definition ofix (x : pre_insn) : Prop := two_way (pi_code x) = true -> pi_off x <> 0%Z.
Lemma from_cases i x : from i x -> ofix x ->
  (two_way (b_code i) = true /\ b_off i = 0%Z /\ pi_code x = 5%Z) \/
  (pi_code x = b_code i /\ pi_dst x = b_dst i /\ pi_src x = b_src i /\ (b_code i <> 24%Z -> pi_off x = b_off i /\ pi_imm x = b_imm i) /\
   ~ (two_way (b_code i) = true /\ b_off i = 0%Z)).
Proof.
  intros [[N24 (i' & Si & E)]|(E & A & B & C)] O.
  - unfold ofix in O. rewrite E in *. cbn in *. destruct Si as [->|(T & Of & ->)]; [right | left; auto]. repeat split; auto. tauto.
  - right. rewrite E. repeat split; auto; try congruence. intros (T & _). discriminate.
Qed.
Lemma from_rd i x : jdef i -> from i x -> ofix x -> rd x = needs i.
Proof.
  intros Jd Fr O. destruct (from_cases i x Fr O) as [(T & Of & Ec)|(Ec & Ed & Es & _ & Nt)].
  - unfold rd, needs. rewrite Ec, T, Of. reflexivity.
  - unfold rd, needs, reads. rewrite Ec, Ed, Es. unfold jmp_cls, cls, opn, src_x.
    assert (E : two_way (b_code i) && (b_off i =? 0)%Z = false).
    { destruct (two_way (b_code i)); [|reflexivity]. cbn. apply Z.eqb_neq. tauto. }
    rewrite E. destruct (mods (b_code i)) as [M|[M|[M|[M|[M|[M|[M|M]]]]]]]; rewrite M in *; reflexivity.
Qed.

Section ZScope.
Local Open Scope Z_scope.
Lemma alu_bin_of n : alu_of n <> None -> bin_of n <> None.
Proof.
  unfold bin_of. intros H. destruct (Z.leb_spec 0 n) as [L|L]; [|destruct n; try lia; now destruct H].
  destruct (Z.leb_spec n 12) as [L2|L2].
  2:{ exfalso. apply H. destruct n as [|q|q]; try lia. unfold alu_of. do 4 (destruct q as [q|q|]; try lia; try reflexivity). }
  assert (K : n = 0 \/ n = 1 \/ n = 2 \/ n = 3 \/ n = 4 \/ n = 5 \/ n = 6 \/ n = 7 \/ n = 8 \/ n = 9 \/ n = 10 \/ n = 11 \/ n = 12) by lia.
  repeat (destruct K as [->|K]; [first [discriminate | exfalso; apply H; reflexivity]|]). subst. discriminate.
Qed.
Lemma cmp_cond_of n : cmp_of n <> None -> cond_of n <> None.
Proof.
  unfold cond_of. intros H. destruct (Z.leb_spec 0 n) as [L|L]; [|destruct n; try lia; now destruct H].
  destruct (Z.leb_spec n 13) as [L2|L2].
  2:{ exfalso. apply H. destruct n as [|q|q]; try lia. unfold cmp_of. do 4 (destruct q as [q|q|]; try lia; try reflexivity). }
  assert (K : n = 0 \/ n = 1 \/ n = 2 \/ n = 3 \/ n = 4 \/ n = 5 \/ n = 6 \/ n = 7 \/ n = 8 \/ n = 9 \/ n = 10 \/ n = 11 \/ n = 12 \/ n = 13) by lia.
  repeat (destruct K as [->|K]; [first [discriminate | exfalso; apply H; reflexivity]|]). subst. discriminate.
Qed.

(** an instruction is accepted exactly when it is translatable *)
Lemma acc_exact i x : jdef i -> in_limits i -> from i x -> ofix x -> (acc x <-> translatable i).
Proof.
  intros Jd (Ld & Ls & _) Fr Of.
  destruct (from_cases i x Fr Of) as [(T & O & E5)|(Qc & Qd & Qs & Qo & Nt)].
  { split; [|intros _; unfold acc; rewrite E5; cbn; auto]. intros _. unfold translatable. destruct (two_cls _ T) as [[M|M] _]; rewrite M; tauto. }
  assert (R1 : rng (pi_dst x)) by (unfold rng; rewrite Qd; lia). assert (R2 : rng (pi_src x)) by (unfold rng; rewrite Qs; lia).
  unfold acc, translatable. rewrite Qc. unfold jmp_cls, cls, opn, mode, szf, src_x.
  assert (Alu : (b_code i mod 8 = 4 \/ b_code i mod 8 = 7) ->
    (pi_off x = 0 /\ rng (pi_dst x) /\
     (bin_of (b_code i / 16) <> None /\ (Z.odd (b_code i / 8) = true -> rng (pi_src x)) \/
      b_code i / 16 = 11 /\ (Z.odd (b_code i / 8) = true -> rng (pi_src x)) \/
      b_code i / 16 = 13 /\ b_code i mod 8 = 4 \/ b_code i / 16 = 8 /\ Z.odd (b_code i / 8) = false)) <->
    (b_off i = 0 /\ (alu_of (b_code i / 16) <> None \/ b_code i / 16 = 11 \/ b_code i / 16 = 8 /\ Z.odd (b_code i / 8) = false \/ b_code i / 16 = 13 /\ b_code i mod 8 = 4))).
  { intros M. assert (N24 : b_code i <> 24) by (intros E; rewrite E in M; cbn in M; lia). destruct (Qo N24) as [-> _].
    pose proof (alu_bin_of (b_code i / 16)) as K1. pose proof (bin_alu_of (b_code i / 16)) as K2. tauto. }
  assert (Jmp : (b_code i mod 8 = 5 \/ b_code i mod 8 = 6) ->
    (b_code i / 16 = 0 \/ b_code i / 16 = 9 \/
     cond_of (b_code i / 16) <> None /\ rng (pi_dst x) /\ (Z.odd (b_code i / 8) = true -> rng (pi_src x)) \/
     b_code i / 16 = 8 /\ pi_src x <> 1 /\ pi_src x <> 2 /\ 0 <= pi_imm x /\ (pi_src x = 6 \/ nth_error helper_args (Z.to_nat (pi_imm x)) <> None)) <->
    (b_code i = 5 \/ b_code i = 0x95 \/ cmp_of (b_code i / 16) <> None \/ two_way (b_code i) = true /\ b_off i = 0 \/
     b_code i = 0x85 /\ b_src i <> 1 /\ b_src i <> 2 /\ 0 <= b_imm i /\ (b_src i = 6 \/ b_imm i <= 211))).
  { intros M. assert (N24 : b_code i <> 24) by (intros E; rewrite E in M; cbn in M; lia). destruct (Qo N24) as [Eo Ei]. rewrite Qs in R2 |- *. rewrite Ei.
    assert (Hl : 0 <= b_imm i -> (nth_error helper_args (Z.to_nat (b_imm i)) <> None <-> b_imm i <= 211)).
    { intros L. rewrite nth_error_Some. change (length helper_args) with 212%nat. lia. }
    pose proof (cmp_cond_of (b_code i / 16)) as K1. pose proof (cond_cmp_of (b_code i / 16)) as K2.
    destruct (Jd M) as [J|[J|[J|J]]].
    - rewrite J. cbn. tauto.
    - rewrite J in *. change (0x85 / 16) with 8 in *. cbn [cond_of cmp_of] in *. change (two_way 0x85) with false. split.
      + intros [E|[E|[(E & _)|(_ & A & B & C & D)]]]; try discriminate; [now destruct E|]. do 4 right. rewrite Hl in D by lia. tauto.
      + intros [E|[E|[E|[(E & _)|(_ & A & B & C & D)]]]]; try discriminate; [now destruct E|]. do 3 right. rewrite Hl by lia. tauto.
    - rewrite J in *. cbn. tauto.
    - destruct (two_cls _ J) as [_ (N0 & N8 & N9)]. split; [tauto|].
      intros [E|[E|[E|[(E & O)|(E & _)]]]]; try (rewrite E in J; discriminate); [tauto|].
      tauto. }
  destruct (mods (b_code i)) as [M|[M|[M|[M|[M|[M|[M|M]]]]]]]; rewrite M in *; cbn [Z.eqb orb andb Pos.eqb].
  - destruct (Z.eqb_spec (b_code i / 32) 0) as [M0|N0]; cbn [andb].
    + destruct (Z.eqb_spec (b_code i / 8 mod 4) 3) as [S3|N3].
      * assert (b_code i = 24) by lia. rewrite Qs. tauto.
      * split; [tauto|]. intros [E _]. rewrite E in N3. apply N3. reflexivity.
    + split; [tauto|]. intros [E _]. rewrite E in N0. apply N0. reflexivity.
  - destruct (Z.eqb_spec (b_code i / 32) 4) as [M4|N4]; cbn [orb]; [tauto|].
    destruct (Z.eqb_spec (b_code i / 32) 3) as [M3|N3]; [tauto|]. split; [tauto | intros [E|E]; congruence].
  - destruct (Z.eqb_spec (b_code i / 32) 3) as [M3|N3]; tauto.
  - destruct (Z.eqb_spec (b_code i / 32) 3) as [M3|N3]; tauto.
  - apply Alu; auto.
  - apply Jmp; auto.
  - apply Jmp; auto.
  - apply Alu; auto.
Qed.
End ZScope.

(** ** Positions in blocks *)
Definition wid (i : bpf_insn) : nat := if (b_code i =? 24)%Z then 2 else 1.
Lemma code_split p s e l : code_of p s e l -> forall l1 x l2, l = l1 ++ x :: l2 ->
  exists i, at_pos p (pi_pos x) i /\ b_code i <> 0%Z /\ from i x /\ s <= pi_pos x < e /\ code_of p (pi_pos x + wid i) e l2 /\ (l1 = [] -> pi_pos x = s).
Proof.
  induction 1 as [| s e i i' l A B C D K IH | s e i j l A B C D K IH]; intros l1 x l2 E.
  - destruct l1; discriminate.
  - pose proof (code_of_le _ _ _ _ K). destruct l1 as [|y l1].
    + injection E as <- <-. exists i. cbn [pi_pos]. unfold wid. destruct (Z.eqb_spec (b_code i) 24); [congruence|].
      rewrite Nat.add_1_r. repeat split; auto. left. split; [exact C|]. exists i'. auto.
    + injection E as _ E. subst l. destruct (IH l1 x l2 eq_refl) as (i0 & A0 & B0 & C0 & D0 & K0 & _). exists i0. repeat split; auto; try lia. discriminate.
  - pose proof (code_of_le _ _ _ _ K). destruct l1 as [|y l1].
    + injection E as <- <-. exists i. cbn [pi_pos]. unfold wid. rewrite B. change (24 =? 24)%Z with true. cbv iota.
      replace (s + 2) with (S (S s)) by lia. repeat split; auto; try lia. right. cbn. auto.
    + injection E as _ E. subst l. destruct (IH l1 x l2 eq_refl) as (i0 & A0 & B0 & C0 & D0 & K0 & _). exists i0. repeat split; auto; try lia. discriminate.
Qed.
Lemma fetch_at p q i : at_pos p q i -> fetch p (Z.of_nat q) = Some i.
Proof. intros A. unfold fetch. destruct (Z.ltb_spec (Z.of_nat q) 0); [lia|]. rewrite Nat2Z.id. exact A. Qed.
Lemma inner_next i q : ~ (b_code i = 5%Z \/ b_code i = 0x95%Z \/ two_way (b_code i) = true) -> next_pcs i (Z.of_nat q) = [Z.of_nat (q + wid i)].
Proof.
  intros N. unfold next_pcs, wid. destruct (Z.eqb_spec (b_code i) 5); [tauto|]. destruct (two_way (b_code i)); [tauto|].
  destruct (Z.eqb_spec (b_code i) 0x95); [tauto|]. destruct (Z.eqb_spec (b_code i) 24); f_equal; lia.
Qed.

Section Prog.
Variable p : list bpf_insn.
Hypothesis W : wf_prog p.
Hypothesis No0 : ~ jump_target p 0.
Variable bs : list pblock.
Hypothesis Hbo : blocks_of p bs.
Hypothesis Heo : edges_of p bs.

Lemma jd q i : at_pos p q i -> jdef i.
Proof. intros A. unfold jdef. apply (wf_jmp _ W q i A). Qed.
(** an instruction with another one after it in its block *)
Lemma inner pb l1 x y l2 i : In pb bs -> pb_insns pb = l1 ++ x :: y :: l2 -> at_pos p (pi_pos x) i -> from i x ->
  next_pcs i (Z.of_nat (pi_pos x)) = [Z.of_nat (pi_pos y)].
Proof.
  intros Ib E A Fr. destruct (bo_code _ _ Hbo pb Ib) as [Co _].
  destruct (code_split _ _ _ _ Co l1 x (y :: l2) E) as (i' & A' & Nz & _ & L & K & _).
  assert (i' = i) by (unfold at_pos in *; congruence). subst i'.
  destruct (code_split _ _ _ _ K [] y l2 eq_refl) as (j & Aj & _ & _ & Lj & _ & Ey). rewrite (Ey eq_refl) in *.
  apply inner_next. intros J. assert (S (pi_pos x) = pb_end pb).
  { apply (bo_last _ _ Hbo pb (pi_pos x) i); auto. }
  assert (1 <= wid i) by (unfold wid; destruct (_ =? _)%Z; lia). lia.
Qed.
Lemma last_one pb l1 x : pb_insns pb = l1 ++ [x] -> last_pos pb (pi_pos x).
Proof. intros E. exists l1, x. auto. Qed.

Lemma block_unset pb r : In pb bs -> unset p r (Z.of_nat (pb_start pb)) -> forall l1 x l2, pb_insns pb = l1 ++ x :: l2 -> nowr l1 r ->
  unset p r (Z.of_nat (pi_pos x)).
Proof.
  intros Ib U. destruct (bo_code _ _ Hbo pb Ib) as [Co _].
  induction l1 as [|y l1 IH] using rev_ind; intros x l2 E N.
  - destruct (code_split _ _ _ _ Co [] x l2 E) as (_ & _ & _ & _ & _ & _ & Ex). now rewrite (Ex eq_refl).
  - rewrite <- app_assoc in E. cbn [app] in E.
    destruct (code_split _ _ _ _ Co l1 y (x :: l2) E) as (i & A & Nz & Fr & _).
    eapply (un_s p r _ i); [apply (IH y (x :: l2) E); intros z Iz; apply N, in_or_app; auto | apply fetch_at, A | |].
    + rewrite <- (from_wr i y (jd _ _ A) Fr). apply N, in_or_app. right. now left.
    + rewrite (inner pb l1 y x l2 i Ib E A Fr). now left.
Qed.
Lemma entry_start pb : blk bs 1 = Some pb -> pb_start pb = 0.
Proof. intros B. destruct (bo_entry _ _ Hbo) as (b0 & E0 & S0). change (nth_error bs 0 = Some pb) in B. congruence. Qed.
Lemma end_unset a A r : blk bs (S a) = Some A -> unset p r (Z.of_nat (pb_start A)) -> nowr (pb_insns A) r ->
  forall b B, blk bs b = Some B -> In a (pb_preds B) -> unset p r (Z.of_nat (pb_start B)).
Proof.
  intros Ea U N b B Eb Ia. destruct (blk_in _ _ _ Ea) as (IA & _ & Na). destruct (blk_in _ _ _ Eb) as (IB & _ & Nb). cbn [Nat.pred] in Na.
  destruct (bo_code _ _ Hbo A IA) as [Co Ne].
  destruct (exists_last Ne) as (l & x & El).
  destruct (code_split _ _ _ _ Co l x [] El) as (i & Ai & Nz & Fr & _).
  eapply (un_s p r _ i).
  - apply (block_unset A r IA U l x [] El). intros y Iy. apply N. rewrite El. apply in_or_app; auto.
  - apply fetch_at, Ai.
  - rewrite <- (from_wr i x (jd _ _ Ai) Fr). apply N. rewrite El. apply in_or_app. right. now left.
  - apply (eo_succ _ _ Heo _ _ _ _ _ _ Na Nb (last_one A l x El) Ai). apply (eo_pred _ _ Heo _ _ _ _ Na Nb). exact Ia.
Qed.
Lemma uo_unset r b : uo bs r b -> forall pb, blk bs b = Some pb -> unset p r (Z.of_nat (pb_start pb)) /\ nowr (pb_insns pb) r.
Proof.
  induction 1 as [r pb0 Bd E0 N0 | r a b pb0 U IH E0 Ia N0]; intros pb E; assert (pb0 = pb) by congruence; subst pb0; split; auto.
  - rewrite (entry_start pb E). now constructor.
  - pose proof (main_pred p bs Heo _ _ _ E Ia) as Ka. destruct (blk bs (S a)) as [A|] eqn:Ea; [|congruence].
    destruct (IH A eq_refl) as [UA NA]. eapply end_unset; eauto.
Qed.
Lemma ui_unset r b pb : ui bs r b -> blk bs b = Some pb -> unset p r (Z.of_nat (pb_start pb)).
Proof.
  intros [[-> Bd]|(pb0 & a & E0 & Ia & U)] E; [rewrite (entry_start pb E); now constructor|].
  assert (pb0 = pb) by congruence. subst pb0.
  pose proof (main_pred p bs Heo _ _ _ E Ia) as Ka. destruct (blk bs (S a)) as [A|] eqn:Ea; [|congruence].
  destruct (uo_unset r (S a) U A Ea) as [UA NA]. eapply end_unset; eauto.
Qed.

Lemma unset_ui r pc : unset p r pc -> exists b pb l1 x l2 i, blk bs b = Some pb /\ pb_insns pb = l1 ++ x :: l2 /\ pc = Z.of_nat (pi_pos x) /\
  nowr l1 r /\ ui bs r b /\ at_pos p (pi_pos x) i /\ from i x.
Proof.
  induction 1 as [r Bd | r pc i t U IH F Ns Ht].
  - destruct (bo_entry _ _ Hbo) as (b0 & E0 & S0). destruct (bo_code _ _ Hbo b0 (nth_error_In _ _ E0)) as [Co Ne].
    destruct (pb_insns b0) as [|x l] eqn:El; [congruence|]. destruct (code_split _ _ _ _ Co [] x l eq_refl) as (i & A & Nz & Fr & _ & _ & Ex).
    exists 1, b0, [], x, l, i. rewrite (Ex eq_refl), S0 in *. repeat split; auto; [intros y [] | left; auto].
  - destruct IH as (b & pb & l1 & x & l2 & i' & B & El & -> & N & Ui & A & Fr).
    assert (i' = i) by (pose proof (fetch_at _ _ _ A) as Q; congruence). subst i'.
    destruct (blk_in _ _ _ B) as (Ib & Eb & Nb).
    assert (N1 : nowr (l1 ++ [x]) r).
    { intros y Iy. apply in_app_or in Iy as [Iy|[<-|[]]]; [now apply N|]. now rewrite (from_wr i x (jd _ _ A) Fr). }
    destruct l2 as [|y l2].
    + pose proof (last_one pb l1 x El) as Lp. destruct (eo_total _ _ Heo pb _ i _ Ib Lp A Ht) as (B' & IB & ->).
      apply In_nth_error in IB as [c IB].
      assert (Hc : In c (pb_succs pb)) by (apply (eo_succ _ _ Heo _ _ _ _ _ _ Nb IB Lp A); exact Ht).
      assert (Ha : In (Nat.pred b) (pb_preds B')) by (apply (eo_pred _ _ Heo _ _ _ _ Nb IB); exact Hc).
      destruct (bo_code _ _ Hbo B' (nth_error_In _ _ IB)) as [Co Ne]. destruct (pb_insns B') as [|z l] eqn:Ez; [congruence|].
      destruct (code_split _ _ _ _ Co [] z l eq_refl) as (i2 & A2 & Nz2 & Fr2 & _ & _ & Ex).
      exists (S c), B', [], z, l, i2. rewrite (Ex eq_refl) in *. repeat split; auto; [intros y []|].
      right. exists B', (Nat.pred b). split; [exact IB|]. split; [exact Ha|]. rewrite <- Eb. eapply ui_uo; eauto. now rewrite El.
    + rewrite (inner pb l1 x y l2 i Ib El A Fr) in Ht. destruct Ht as [<-|[]].
      destruct (bo_code _ _ Hbo pb Ib) as [Co _]. assert (El' : pb_insns pb = (l1 ++ [x]) ++ y :: l2) by (rewrite <- app_assoc; exact El).
      destruct (code_split _ _ _ _ Co (l1 ++ [x]) y l2 El') as (i2 & A2 & Nz2 & Fr2 & _).
      exists b, pb, (l1 ++ [x]), y, l2, i2. repeat split; auto.
Qed.

(** reached blocks hold reached instructions *)
Lemma block_reach pb : In pb bs -> reach p (Z.of_nat (pb_start pb)) -> forall l1 x l2, pb_insns pb = l1 ++ x :: l2 -> reach p (Z.of_nat (pi_pos x)).
Proof.
  intros Ib U. destruct (bo_code _ _ Hbo pb Ib) as [Co _].
  induction l1 as [|y l1 IH] using rev_ind; intros x l2 E.
  - destruct (code_split _ _ _ _ Co [] x l2 E) as (_ & _ & _ & _ & _ & _ & Ex). now rewrite (Ex eq_refl).
  - rewrite <- app_assoc in E. cbn [app] in E.
    destruct (code_split _ _ _ _ Co l1 y (x :: l2) E) as (i & A & Nz & Fr & _).
    eapply (re_s p _ i); [apply (IH y (x :: l2) E) | apply fetch_at, A|].
    rewrite (inner pb l1 y x l2 i Ib E A Fr). now left.
Qed.
Lemma path_reach k b : path bs k b -> forall pb, blk bs b = Some pb -> reach p (Z.of_nat (pb_start pb)).
Proof.
  induction 1 as [|k b A c P IH Ea Hc]; intros pb E.
  - rewrite (entry_start pb E). constructor.
  - destruct (blk_in _ _ _ Ea) as (IA & _ & Na). destruct (blk_in _ _ _ E) as (IB & _ & Nb). cbn [Nat.pred] in Nb.
    destruct (bo_code _ _ Hbo A IA) as [Co Ne]. destruct (exists_last Ne) as (l & x & El).
    destruct (code_split _ _ _ _ Co l x [] El) as (i & Ai & Nz & Fr & _).
    eapply (re_s p _ i); [exact (block_reach A IA (IH A Ea) l x [] El) | apply fetch_at, Ai|].
    apply (eo_succ _ _ Heo _ _ _ _ _ _ Na Nb (last_one A l x El) Ai). exact Hc.
Qed.
End Prog.

(** ** Lifting succeeds *)
Theorem lift_succeeds p m n : wf_prog p -> (Z.of_nat (length p) <= 32768)%Z -> ~ jump_target p 0 -> (forall j i, at_pos p j i -> in_limits i) ->
  (forall j i, reach p (Z.of_nat j) -> at_pos p j i -> translatable i) -> initialised p ->
  length p + 1 <= m -> (length p + 2) * (length p + 2) <= n -> exists f, lift m n p = Ok f.
Proof.
  intros W Len No0 Lim Tr Ini Lm Ln. destruct (lift_total p W Len No0 m n Lim Lm Ln) as [E|E]; [exfalso | exact E].
  destruct (gen_bb_ok p W Len No0) as (bs & Hg & Hbo & Heo). unfold lift in E. rewrite Hg in E. cbn [bind] in E.
  pose proof (lift_blocks_f bs (main_pred p bs Heo) (main_succ p bs Heo) n) as K.
  destruct (lift_blocks m n bs) as [s| | | |] eqn:El; try discriminate. apply (fun a b => K a b m (bs_ne p bs Hbo Heo) El).
  - intros k b pb x P B Ix. destruct (blk_in _ _ _ B) as (Ib & _). destruct (bo_code _ _ Hbo pb Ib) as [Co _].
    destruct (in_split _ _ Ix) as (l1 & l2 & Ei). destruct (code_split _ _ _ _ Co l1 x l2 Ei) as (i & A & Nz & Fr & _).
    split; [|apply (po_ecall bs x), (pre_ok p W bs Hbo Heo Lim pb x Ib Ix)].
    apply (acc_exact i x); [exact (jd p W _ _ A) | exact (Lim _ _ A) | exact Fr | exact (bo_off _ _ Hbo pb x Ib Ix)|].
    apply (Tr (pi_pos x)); [|exact A]. eapply (block_reach p bs Hbo pb Ib); [|exact Ei]. eapply (path_reach p bs Hbo Heo); eauto.
  - intros k b pb l1 x l2 r P B Ei Ir N U. destruct (blk_in _ _ _ B) as (Ib & _). destruct (bo_code _ _ Hbo pb Ib) as [Co _].
    destruct (code_split _ _ _ _ Co l1 x l2 Ei) as (i & A & Nz & Fr & _).
    apply (Ini (Z.of_nat (pi_pos x)) i r); [|apply fetch_at, A|].
    + eapply (block_unset p W bs Hbo pb r Ib); eauto. eapply (ui_unset p W bs Hbo Heo); eauto.
    + rewrite <- (from_rd i x (jd p W _ _ A) Fr); [exact Ir|]. unfold ofix. apply (bo_off _ _ Hbo pb x Ib). rewrite Ei. apply in_or_app. right. now left.
Qed.
