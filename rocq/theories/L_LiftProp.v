(** The lifter on programs: termination, safety, structure of the result, accepted instructions. *)
From Coq Require Import ZArith List Bool Arith Lia.
From Verif Require Import M_Base M_Ir M_Edit SpecWord SpecIsa M_GenBB SpecCfg M_Lift SpecSsa SpecLift SpecIr SpecEdit
  L_Edit L_GenBB L_Lift L_LiftRead L_LiftRun L_LiftDfs L_LiftMain L_LiftSafe L_LiftTerm L_LiftAcc.
Import ListNotations.
Open Scope nat_scope.

Ltac Zify.zify_post_hook ::= Z.div_mod_to_equations.

Lemma code_of_pre p s e l : code_of p s e l -> forall q i, s <= q < e -> at_pos p q i -> b_code i <> 0%Z ->
  exists x, In x l /\ pi_pos x = q /\
   ((b_code i <> 24%Z /\ exists i', same_insn i i' /\
       x = M_GenBB.mkPre (b_code i') (b_dst i') (b_src i') (b_off i') false (b_imm i') (u32 (b_imm i')) q) \/
    (b_code i = 24%Z /\ pi_code x = 24%Z /\ pi_dst x = b_dst i /\ pi_src x = b_src i)).
Proof.
  induction 1 as [| s e i0 i' l A B C D K IH | s e i0 j l A B C D K IH]; intros q i L Aq Nz; [lia| |].
  - destruct (Nat.eq_dec q s) as [->|N].
    + assert (i0 = i) by (unfold at_pos in *; congruence). subst. eexists. split; [now left|]. split; [reflexivity|]. left. eauto.
    + destruct (IH q i ltac:(lia) Aq Nz) as (x & Ix & Q). exists x. split; [now right | exact Q].
  - destruct (Nat.eq_dec q s) as [->|N].
    + assert (i0 = i) by (unfold at_pos in *; congruence). subst. eexists. split; [now left|]. split; [reflexivity|]. right. auto.
    + destruct (Nat.eq_dec q (S s)) as [->|N2]; [unfold at_pos in *; congruence|].
      destruct (IH q i ltac:(lia) Aq Nz) as (x & Ix & Q). exists x. split; [now right | exact Q].
Qed.

(** conversely, every element of the list comes from an instruction *)
Lemma code_of_org p s e l : code_of p s e l -> forall x, In x l -> exists i, s <= pi_pos x < e /\ at_pos p (pi_pos x) i /\ b_code i <> 0%Z /\
   ((b_code i <> 24%Z /\ exists i', same_insn i i' /\
       x = M_GenBB.mkPre (b_code i') (b_dst i') (b_src i') (b_off i') false (b_imm i') (u32 (b_imm i')) (pi_pos x)) \/
    (b_code i = 24%Z /\ pi_code x = 24%Z /\ pi_dst x = b_dst i /\ pi_src x = b_src i)).
Proof.
  induction 1 as [| s e i0 i' l A B C D K IH | s e i0 j l A B C D K IH]; intros x Ix; [destruct Ix| |].
  - pose proof (code_of_le _ _ _ _ K). destruct Ix as [<-|Ix].
    + exists i0. cbn. split; [lia|]. split; [exact A|]. split; [exact D|]. left. eauto.
    + destruct (IH x Ix) as (i & L & Q). exists i. split; [lia | exact Q].
  - pose proof (code_of_le _ _ _ _ K). destruct Ix as [<-|Ix].
    + exists i0. cbn. split; [lia|]. split; [exact A|]. split; [lia|]. right. auto.
    + destruct (IH x Ix) as (i & L & Q). exists i. split; [lia | exact Q].
Qed.

Definition helper_id (id : Z) : Prop := (0 <= id <= 211)%Z.
Lemma helper_known id : (0 <= id)%Z -> nth_error helper_args (Z.to_nat id) <> None -> helper_id id.
Proof.
  intros L H. apply nth_error_Some in H. change (length helper_args) with 212 in H. unfold helper_id. lia.
Qed.

Lemma bin_alu_of n : bin_of n <> None -> alu_of n <> None.
Proof.
  unfold bin_of. intros H.
  repeat match type of H with (if (n =? ?k)%Z then _ else _) <> _ => destruct (Z.eqb_spec n k) as [E0|]; [rewrite E0; discriminate|] end. congruence.
Qed.
Lemma cond_cmp_of n : cond_of n <> None -> cmp_of n <> None.
Proof.
  unfold cond_of. intros H.
  repeat match type of H with (if (n =? ?k)%Z then _ else _) <> _ => destruct (Z.eqb_spec n k) as [E0|]; [rewrite E0; discriminate|] end. congruence.
Qed.

(** the accepted instructions *)
Section ZScope.
Local Open Scope Z_scope.
Lemma acc_supported i x : (b_code i <> 24%Z /\ x = M_GenBB.mkPre (b_code i) (b_dst i) (b_src i) (b_off i) false (b_imm i) (u32 (b_imm i)) (pi_pos x)) \/
    (b_code i = 24%Z /\ pi_code x = 24%Z /\ pi_dst x = b_dst i /\ pi_src x = b_src i) ->
  (b_code i mod 8 = 5 \/ b_code i mod 8 = 6 ->
    b_code i = 5 \/ b_code i = 0x85 \/ b_code i = 0x95 \/ two_way (b_code i) = true)%Z ->
  acc x -> supported helper_id i \/ tolerated i.
Proof.
  intros Hx Wj Ac.
  assert (Q : pi_code x = b_code i /\ pi_dst x = b_dst i /\ pi_src x = b_src i /\ (b_code i <> 24%Z -> pi_off x = b_off i /\ pi_imm x = b_imm i)).
  { destruct Hx as [[N ->]|(E & A & B & C)]; cbn; [auto|]. repeat split; try congruence; intros; congruence. }
  destruct Q as (Qc & Qd & Qs & Qo). unfold acc in Ac. rewrite Qc, Qd, Qs in Ac. unfold jmp_cls, cls, opn, mode, szf, src_x, rng in Ac.
  unfold supported, tolerated.
  assert (Cm : (b_code i mod 8 = 0 \/ b_code i mod 8 = 1 \/ b_code i mod 8 = 2 \/ b_code i mod 8 = 3 \/ b_code i mod 8 = 4 \/
    b_code i mod 8 = 5 \/ b_code i mod 8 = 6 \/ b_code i mod 8 = 7)%Z) by (pose proof (Z.mod_pos_bound (b_code i) 8); lia).
  assert (Wd : (b_dst i = 10 \/ b_dst i <> 10)%Z) by lia.
  assert (Alu : (b_code i mod 8 = 4 \/ b_code i mod 8 = 7)%Z -> pi_off x = 0%Z /\ (0 <= b_dst i <= 10)%Z /\
       (bin_of (b_code i / 16) <> None /\ (Z.odd (b_code i / 8) = true -> 0 <= b_src i <= 10)%Z \/
        b_code i / 16 = 11%Z /\ (Z.odd (b_code i / 8) = true -> 0 <= b_src i <= 10)%Z \/
        (b_code i / 16)%Z = 13%Z /\ b_code i mod 8 = 4%Z \/ (b_code i / 16)%Z = 8%Z /\ Z.odd (b_code i / 8) = false) ->
     (b_off i = 0 /\ (0 <= b_dst i <= 9) /\
      (b_code i / 16 = 8 /\ Z.odd (b_code i / 8) = false \/
       b_code i / 16 = 13 /\ b_code i mod 8 = 4 /\ (b_imm i = 16 \/ b_imm i = 32 \/ b_imm i = 64) \/
       (b_code i / 16 = 11 \/ alu_of (b_code i / 16) <> None) /\ (Z.odd (b_code i / 8) = true -> 0 <= b_src i <= 10)))%Z \/
     (b_dst i = 10 \/ b_code i mod 8 = 4 /\ b_code i / 16 = 13 /\ b_imm i <> 16 /\ b_imm i <> 32 /\ b_imm i <> 64)%Z).
  { intros Hc (O & D & K). assert (N24 : b_code i <> 24%Z) by (intros E; rewrite E in Hc; cbn in Hc; lia).
    destruct (Qo N24) as [Oo Oi]. destruct Wd as [Wd|Wd]; [right; now left|].
    destruct K as [[K1 K2]|[[K1 K2]|[[K1 K2]|[K1 K2]]]].
    - left. apply bin_alu_of in K1. split; [congruence|]. split; [lia|]. right; right. auto.
    - left. split; [congruence|]. split; [lia|]. right; right. auto.
    - assert (Ei : (b_imm i = 16 \/ b_imm i = 32 \/ b_imm i = 64 \/ (b_imm i <> 16 /\ b_imm i <> 32 /\ b_imm i <> 64))%Z) by lia.
      destruct Ei as [E|[E|[E|E]]]; [left|left|left|right; right; tauto]; (split; [congruence|]; split; [lia|]; right; left; tauto).
    - left. split; [congruence|]. split; [lia|]. left; auto. }
  destruct Cm as [E|[E|[E|[E|[E|[E|[E|E]]]]]]]; rewrite E in *; cbn [Z.eqb orb andb] in Ac;
    change ((0 =? 4)%Z || (0 =? 7)%Z) with false in Ac.
  - (* LD *)
    destruct (Z.eqb_spec (b_code i / 32) 0) as [M0|]; [|destruct Ac]. cbn [andb] in Ac.
    destruct (Z.eqb_spec (b_code i / 8 mod 4) 3) as [S3|]; [|destruct Ac].
    assert (C24 : b_code i = 24%Z) by lia. rewrite C24. destruct Ac as [As Ad].
    destruct Wd as [Wd|Wd]; [right; left; cbn; auto|]. left. cbn. split; [reflexivity | lia].
  - (* LDX *)
    destruct (Z.eqb_spec (b_code i / 32) 4) as [M4|].
    { right; right; right; left. auto. }
    destruct (Z.eqb_spec (b_code i / 32) 3) as [M3|]; [|destruct Ac]. cbn [orb] in Ac. destruct Ac as [Ad As].
    destruct Wd as [Wd|Wd]; [right; left; cbn; auto|]. left. split; [exact M3 | lia].
  - destruct (Z.eqb_spec (b_code i / 32) 3) as [M3|]; [|destruct Ac]. left. auto.
  - destruct (Z.eqb_spec (b_code i / 32) 3) as [M3|]; [|destruct Ac]. left. split; [exact M3 | exact Ac].
  - change ((4 =? 4)%Z || (4 =? 7)%Z) with true in Ac. cbv iota in Ac.
    destruct (Alu (or_introl eq_refl) Ac) as [A|[A|A]]; [left; exact A | right; left; cbn; auto | right; right; left; exact A].
  - assert (N24 : b_code i <> 24%Z) by lia. destruct (Qo N24) as [Oo Oi]. specialize (Wj (or_introl eq_refl)).
    change ((5 =? 5)%Z || (5 =? 6)%Z) with true in Ac. cbv iota in Ac.
    destruct Ac as [A|[A|[(A & A1 & A2)|(A & A1 & A2 & A3 & A4)]]].
    + left. left. unfold two_way in Wj. destruct Wj as [W|[W|[W|W]]]; auto; exfalso.
      * rewrite W in A; discriminate.
      * rewrite W in A; discriminate.
      * apply andb_prop in W as [_ W]. rewrite A in W. discriminate.
    + left. right; left. destruct Wj as [W|[W|[W|W]]]; auto; exfalso.
      * rewrite W in A; discriminate.
      * rewrite W in A; discriminate.
      * unfold two_way in W. apply andb_prop in W as [_ W]. rewrite A in W. discriminate.
    + left. right; right; right. apply cond_cmp_of in A. tauto.
    + assert (W : b_code i = 0x85%Z).
      { destruct Wj as [W|[W|[W|W]]]; auto; exfalso.
        - rewrite W in A; discriminate.
        - rewrite W in A; discriminate.
        - unfold two_way in W. apply andb_prop in W as [_ W]. rewrite A in W. discriminate. }
      destruct (Z.eq_dec (b_src i) 0) as [S0|S0]; [|right; right; right; right; auto].
      left. right; right; left. split; [exact W|]. split; [exact S0|]. rewrite Oi in *.
      destruct A4 as [A4|A4]; [lia|]. now apply helper_known.
  - assert (N24 : b_code i <> 24%Z) by lia. destruct (Qo N24) as [Oo Oi]. specialize (Wj (or_intror eq_refl)).
    change ((6 =? 5)%Z || (6 =? 6)%Z) with true in Ac. cbv iota in Ac.
    destruct Wj as [W|[W|[W|W]]]; [rewrite W in E; discriminate | rewrite W in E; discriminate | rewrite W in E; discriminate|].
    unfold two_way in W. apply andb_prop in W as [_ W].
    destruct Ac as [A|[A|[(A & A1 & A2)|(A & A1 & A2 & A3 & A4)]]]; [rewrite A in W; discriminate | rewrite A in W; discriminate | | rewrite A in W; discriminate].
    left. right; right; right. apply cond_cmp_of in A. tauto.
  - change ((7 =? 4)%Z || (7 =? 7)%Z) with true in Ac. cbv iota in Ac.
    destruct (Alu (or_intror eq_refl) Ac) as [A|[A|A]]; [left; exact A | right; left; split; [cbn; tauto | exact A] | destruct A; discriminate].
Qed.
End ZScope.

Section Prog.
Variable p : list bpf_insn.
Hypothesis W : wf_prog p.
Hypothesis Len : (Z.of_nat (length p) <= 32768)%Z.
Hypothesis No0 : ~ jump_target p 0.

Lemma blocks_le bs : blocks_of p bs -> length bs <= length p.
Proof.
  intros Hbo. rewrite <- (map_length pb_start bs), <- (seq_length (length p) 0).
  apply NoDup_incl_length; [apply (bo_once _ _ Hbo)|]. intros k Hk. apply in_map_iff in Hk as (B & <- & IB).
  destruct (block_span p bs Hbo B IB) as (_ & i & A & _). unfold at_pos in A. apply in_seq.
  assert (pb_start B < length p); [|lia]. apply nth_error_Some. congruence.
Qed.

Lemma pre_ok bs : blocks_of p bs -> edges_of p bs -> (forall j i, at_pos p j i -> in_limits i) ->
  forall pb i, In pb bs -> In i (pb_insns pb) -> piok bs i.
Proof.
  intros Hbo Heo Lim pb x Ib Ix. destruct (bo_code _ _ Hbo pb Ib) as [Co _].
  destruct (code_of_org _ _ _ _ Co x Ix) as (i & L & A & Nz & Q).
  destruct (Lim _ _ A) as (Ld & Ls & Le).
  assert (St : forall t, In t (next_pcs i (Z.of_nat (pi_pos x))) ->
      b_code i = 5%Z \/ two_way (b_code i) = true -> In t (map (fun b => Z.of_nat (pb_start b)) bs)).
  { intros t Ht J. assert (S (pi_pos x) = pb_end pb) by (eapply (bo_last _ _ Hbo); eauto; tauto).
    destruct (block_last p bs Hbo pb Ib) as (q & iq & Lp & Aq & Lq & Nq & Eq).
    assert (q = pi_pos x).
    { destruct Eq as [[_ Eq]|[Eq Ee]]; [lia|]. exfalso. assert (pi_pos x = S q) by lia.
      destruct (wf_wide _ W q iq Aq Eq) as (i3 & A3 & C3). unfold at_pos in *. congruence. }
    subst q. assert (iq = i) by (unfold at_pos in *; congruence). subst iq.
    destruct (eo_total _ _ Heo pb _ i t Ib Lp A Ht) as (B & IB & ->). apply in_map_iff. eauto. }
  assert (Jm : jmp_cls (pi_code x) = true -> (b_code i = 5 \/ b_code i = 0x85 \/ b_code i = 0x95 \/ two_way (b_code i) = true)%Z /\ b_code i <> 24%Z).
  { intros J. destruct Q as [[N24 (i' & Si & Ex)]|(E & Ec & _)]; [|rewrite Ec in J; discriminate]. split; [|exact N24].
    destruct Si as [->|(T & _ & _)]; [|tauto]. rewrite Ex in J. cbn in J. apply (wf_jmp _ W _ _ A).
    unfold jmp_cls, cls in J. apply orb_prop in J as [J|J]; apply Z.eqb_eq in J; auto. }
  assert (T5 : two_way (b_code i) = true -> next_pcs i (Z.of_nat (pi_pos x)) = [Z.of_nat (pi_pos x) + 1 + b_off i; Z.of_nat (pi_pos x) + 1]%Z).
  { intros T. unfold next_pcs. destruct (Z.eqb_spec (b_code i) 5) as [E|]; [rewrite E in T; discriminate|]. now rewrite T. }
  constructor.
  - destruct Q as [[N24 (i' & Si & Ex)]|(E & Ec & Ed & Es)]; [|rewrite Ed; exact Ld].
    rewrite Ex. cbn. destruct Si as [->|(_ & _ & ->)]; cbn; [exact Ld | lia].
  - destruct Q as [[N24 (i' & Si & Ex)]|(E & Ec & Ed & Es)]; [|rewrite Es; exact Ls].
    rewrite Ex. cbn. destruct Si as [->|(_ & _ & ->)]; cbn; [exact Ls | lia].
  - intros J O S6. destruct (Jm J) as [K N24]. destruct Q as [[_ (i' & Si & Ex)]|(E & _)]; [|congruence].
    rewrite Ex in O, S6 |- *. cbn in O, S6 |- *. destruct Si as [->|(_ & _ & ->)]; [|cbn; lia].
    apply Le; [|exact S6]. unfold opn in O. destruct K as [K|[K|[K|K]]]; auto; exfalso.
    + rewrite K in O. discriminate.
    + rewrite K in O. discriminate.
    + unfold two_way in K. apply andb_prop in K as [_ K]. rewrite O in K. discriminate.
  - intros J O. destruct (Jm J) as [K N24]. destruct Q as [[_ (i' & Si & Ex)]|(E & _)]; [|congruence].
    rewrite Ex in O |- *. cbn in O |- *. destruct Si as [->|(T & O0 & ->)].
    + assert (J2 : b_code i = 5%Z \/ two_way (b_code i) = true).
      { unfold opn in O. destruct K as [K|[K|[K|K]]]; auto; exfalso; rewrite K in O; destruct O as [O|O]; [discriminate| |discriminate|]; now apply O. }
      apply St; [|exact J2]. destruct J2 as [J2|J2].
      * unfold next_pcs. rewrite J2. cbn. left. lia.
      * rewrite (T5 J2). left. lia.
    + cbn. apply St; [|auto]. rewrite (T5 T). right; left. lia.
  - intros J O. destruct (Jm J) as [K N24]. destruct Q as [[_ (i' & Si & Ex)]|(E & _)]; [|congruence].
    rewrite Ex in O |- *. cbn in O |- *. destruct Si as [->|(T & O0 & ->)]; [|exfalso; now apply O].
    assert (J2 : two_way (b_code i) = true).
    { unfold opn in O. destruct K as [K|[K|[K|K]]]; auto; exfalso; rewrite K in O; now apply O. }
    apply St; [|auto]. rewrite (T5 J2). right; left. lia.
Qed.

Lemma lift_total m n : (forall j i, at_pos p j i -> in_limits i) -> length p + 1 <= m -> (length p + 2) * (length p + 2) <= n ->
  lift m n p = Err \/ exists f, lift m n p = Ok f.
Proof.
  intros Lim Lm Ln. destruct (gen_bb_ok p W Len No0) as (bs & Hg & Hbo & Heo). unfold lift. rewrite Hg. cbn [bind].
  pose proof (blocks_le bs Hbo) as Lb.
  pose proof (lift_blocks_safe bs True (main_pred p bs Heo) (main_succ p bs Heo) (fun _ => pre_ok bs Hbo Heo Lim) m n (bs_ne p bs Hbo Heo)) as S1.
  pose proof (lift_blocks_t bs (main_pred p bs Heo) (main_succ p bs Heo) (main_mir p bs Heo) n ltac:(nia) m (bs_ne p bs Hbo Heo) ltac:(lia)) as S2.
  destruct (lift_blocks m n bs) as [s| | | |]; cbn in *; [right; eauto | left; reflexivity | | |]; exfalso; auto.
Qed.
Lemma lift_safe m n : (forall j i, at_pos p j i -> in_limits i) -> lift m n p <> UB /\ lift m n p <> Crit.
Proof.
  intros Lim. destruct (gen_bb_ok p W Len No0) as (bs & Hg & Hbo & Heo). unfold lift. rewrite Hg. cbn [bind].
  pose proof (lift_blocks_safe bs True (main_pred p bs Heo) (main_succ p bs Heo) (fun _ => pre_ok bs Hbo Heo Lim) m n (bs_ne p bs Hbo Heo)) as S1.
  destruct (lift_blocks m n bs) as [s| | | |]; cbn in *; split; try discriminate; exfalso; auto.
Qed.

Lemma lift_finv m n f : lift m n p = Ok f -> exists bs, gen_bb p = Ok bs /\ blocks_of p bs /\ edges_of p bs /\ finv bs f.
Proof.
  intros H. destruct (gen_bb_ok p W Len No0) as (bs & Hg & Hbo & Heo). exists bs. repeat (split; [assumption|]).
  unfold lift in H. rewrite Hg in H. cbn [bind] in H.
  pose proof (lift_blocks_safe bs False (main_pred p bs Heo) (main_succ p bs Heo) ltac:(intros []) m n (bs_ne p bs Hbo Heo)) as S1.
  destruct (lift_blocks m n bs) as [s| | | |]; try discriminate. injection H as <-. apply S1.
Qed.

Lemma lift_supported m n f j i : lift m n p = Ok f -> reach p (Z.of_nat j) -> at_pos p j i ->
  supported helper_id i \/ tolerated i \/ (two_way (b_code i) = true /\ b_off i = 0%Z).
Proof.
  intros H R A. destruct (gen_bb_ok p W Len No0) as (bs & Hg & Hbo & Heo). unfold lift in H. rewrite Hg in H. cbn [bind] in H.
  destruct (lift_blocks m n bs) as [s| | | |] eqn:Lb; try discriminate.
  destruct (lift_blocks_ok bs (main_pred p bs Heo) (main_succ p bs Heo) (main_mir p bs Heo) (main_entry p No0 bs Hbo Heo) m n s (bs_ne p bs Hbo Heo) Lb)
    as (_ & F1 & Fs & _).
  destruct (reach_path p W bs Hbo Heo _ R) as (k & b & pb & q & i' & P & B & Eq & L & A' & Nz).
  assert (q = j) by lia. subst q. assert (i' = i) by (unfold at_pos in *; congruence). subst i'.
  assert (Fb : l_fill s b = true) by (clear - P F1 Fs; induction P; [exact F1 | eapply Fs; eauto]).
  destruct (blk_in _ _ _ B) as (Ib & _). destruct (bo_code _ _ Hbo pb Ib) as [Co _].
  destruct (code_of_pre _ _ _ _ Co j i L A Nz) as (x & Ix & Ex & Q).
  pose proof (lift_acc bs m n s Lb b pb x B Fb Ix) as Ac.
  destruct Q as [[N24 (i' & Si & Q)]|Q].
  - destruct Si as [->|(T & O & _)]; [|auto]. destruct (acc_supported i x) as [S|S]; auto.
    + left. split; [exact N24|]. rewrite Ex. exact Q.
    + apply (wf_jmp _ W j i A).
  - destruct (acc_supported i x) as [S|S]; auto. apply (wf_jmp _ W j i A).
Qed.
End Prog.

(** supported instructions have a meaning *)
Lemma supported_runs ids w p pc s i : wf_prog p -> at_pos p pc i -> b_code i <> 0%Z -> (0 <= b_src i)%Z ->
  supported ids i -> isa_step w p (Z.of_nat pc) s <> IStuck.
Proof.
  intros W A Nz S0 H. unfold isa_step, fetch. destruct (Z.ltb_spec (Z.of_nat pc) 0); [lia|]. rewrite Nat2Z.id.
  unfold at_pos in A. rewrite A. unfold supported in H.
  assert (Cm : (b_code i mod 8 = 0 \/ b_code i mod 8 = 1 \/ b_code i mod 8 = 2 \/ b_code i mod 8 = 3 \/ b_code i mod 8 = 4 \/
    b_code i mod 8 = 5 \/ b_code i mod 8 = 6 \/ b_code i mod 8 = 7)%Z) by (pose proof (Z.mod_pos_bound (b_code i) 8); lia).
  assert (Wr : forall r, (0 <= r <= 9)%Z -> is_wreg r = true) by (intros r L; unfold is_wreg; apply andb_true_iff; split; apply Z.leb_le; lia).
  assert (Rr : forall r, (0 <= r <= 10)%Z -> is_reg r = true) by (intros r L; unfold is_reg; apply andb_true_iff; split; apply Z.leb_le; lia).
  assert (Alu : forall wd, (b_off i = 0 /\ 0 <= b_dst i <= 9 /\
      (b_code i / 16 = 8 /\ Z.odd (b_code i / 8) = false \/
       b_code i / 16 = 13 /\ wd = false /\ (b_imm i = 16 \/ b_imm i = 32 \/ b_imm i = 64) \/
       (b_code i / 16 = 11 \/ alu_of (b_code i / 16) <> None) /\ (Z.odd (b_code i / 8) = true -> 0 <= b_src i <= 10)))%Z ->
     isa_alu wd i (Z.of_nat pc) s <> IStuck).
  { intros wd (O & D & K). unfold isa_alu. rewrite (Wr _ D), O. cbn [negb orb]. destruct K as [[K1 K2]|[(K1 & K2 & K3)|[K1 K2]]].
    - rewrite K2, K1. cbn. discriminate.
    - rewrite K1, K2. cbn [Z.eqb]. change (13 =? 13)%Z with true. change (13 =? 8)%Z with false. change (13 =? 11)%Z with false.
      cbn [negb andb]. rewrite andb_false_r. cbn [andb].
      destruct K3 as [-> |[-> | ->]]; discriminate.
    - assert (E : Z.odd (b_code i / 8) && negb (b_code i / 16 =? 13)%Z && negb (is_reg (b_src i)) = false).
      { destruct (Z.odd (b_code i / 8)); [|reflexivity]. rewrite (Rr _ (K2 eq_refl)). cbn. apply andb_false_r. }
      rewrite E. destruct (b_code i / 16 =? 8)%Z; [discriminate|]. destruct (Z.eqb_spec (b_code i / 16) 11) as [|N11]; [discriminate|].
      destruct K1 as [K1|K1]; [congruence|]. destruct (Z.eqb_spec (b_code i / 16) 13) as [E13|]; [rewrite E13 in K1; now destruct K1|].
      destruct (alu_of (b_code i / 16)) as [[]|]; try discriminate. congruence. }
  destruct Cm as [E|[E|[E|[E|[E|[E|[E|E]]]]]]]; rewrite E in *.
  - destruct H as (C & D & Sr). destruct (wf_wide _ W pc i A C) as (i2 & A2 & C2). rewrite C.
    destruct (Z.ltb_spec (Z.of_nat pc + 1) 0); [lia|]. replace (Z.to_nat (Z.of_nat pc + 1)) with (S pc) by lia.
    unfold at_pos in A2. rewrite A2, C2, (Wr _ D). destruct (Z.leb_spec 0 (b_src i)); [|lia]. destruct (Z.leb_spec (b_src i) 6); [|lia]. discriminate.
  - destruct H as (M & D & Sr). rewrite M, (Wr _ D), (Rr _ Sr). discriminate.
  - destruct H as (M & D). rewrite M, (Rr _ D). discriminate.
  - destruct H as (M & D & Sr). rewrite M, (Rr _ D), (Rr _ Sr). discriminate.
  - apply Alu. destruct H as (O & D & K). split; [exact O|]. split; [exact D|]. tauto.
  - unfold isa_jmp. destruct H as [C|[C|[(C & Sr & _)|(K & D & Sr)]]].
    + rewrite C. discriminate.
    + rewrite C. discriminate.
    + rewrite C, Sr. discriminate.
    + destruct (Z.eqb_spec (b_code i / 16) 0) as [X|_]; [rewrite X in K; now destruct K|].
      destruct (Z.eqb_spec (b_code i / 16) 8) as [X|_]; [rewrite X in K; now destruct K|].
      destruct (Z.eqb_spec (b_code i / 16) 9) as [X|_]; [rewrite X in K; now destruct K|].
      rewrite (Rr _ D). cbn [negb orb].
      assert (E2 : Z.odd (b_code i / 8) && negb (is_reg (b_src i)) = false).
      { destruct (Z.odd (b_code i / 8)); [|reflexivity]. rewrite (Rr _ (Sr eq_refl)). reflexivity. }
      rewrite E2. destruct (b_code i / 16 =? 4)%Z; [discriminate|]. destruct (cmp_of (b_code i / 16)); [discriminate | congruence].
  - unfold isa_jmp. destruct H as [C|[C|[(C & Sr & _)|(K & D & Sr)]]].
    + rewrite C in E. discriminate.
    + rewrite C in E. discriminate.
    + rewrite C in E. discriminate.
    + destruct (Z.eqb_spec (b_code i / 16) 0) as [X|_]; [rewrite X in K; now destruct K|].
      destruct (Z.eqb_spec (b_code i / 16) 8) as [X|_]; [rewrite X in K; now destruct K|].
      destruct (Z.eqb_spec (b_code i / 16) 9) as [X|_]; [rewrite X in K; now destruct K|].
      rewrite (Rr _ D). cbn [negb orb].
      assert (E2 : Z.odd (b_code i / 8) && negb (is_reg (b_src i)) = false).
      { destruct (Z.odd (b_code i / 8)); [|reflexivity]. rewrite (Rr _ (Sr eq_refl)). reflexivity. }
      rewrite E2. destruct (b_code i / 16 =? 4)%Z; [discriminate|]. destruct (cmp_of (b_code i / 16)); [discriminate | congruence].
  - apply Alu. destruct H as (O & D & K). split; [exact O|]. split; [exact D|].
    destruct K as [K|[(_ & K & _)|K]]; [tauto | discriminate | tauto].
Qed.

(** ** Structure of the result *)
Lemma finv_mirrored p bs f : blocks_of p bs -> edges_of p bs -> finv bs f -> mirrored f.
Proof.
  intros Hbo Heo F.
  assert (Sx : forall b, succs_of f b = match blk bs b with Some pb => map S (pb_succs pb) | None => [] end).
  { intros b. unfold succs_of. pose proof (fi_blk bs f F b) as K. destruct (blk bs b); [destruct K as [l ->]; reflexivity | now rewrite K]. }
  assert (Px : forall b, preds_of f b = match blk bs b with Some pb => map S (pb_preds pb) | None => [] end).
  { intros b. unfold preds_of. pose proof (fi_blk bs f F b) as K. destruct (blk bs b); [destruct K as [l ->]; reflexivity | now rewrite K]. }
  assert (Nd : forall l, NoDup l -> NoDup (map S l)).
  { intros l N. apply FinFun.Injective_map_NoDup; [intros x y E; congruence | exact N]. }
  split; [|split].
  - intros a b. rewrite Sx, Px. split; intros H.
    + destruct (blk bs a) as [A|] eqn:Ea; [|destruct H]. apply in_map_iff in H as (c & <- & Hc). destruct a as [|a]; [discriminate|].
      pose proof (main_succ p bs Heo _ _ _ Ea Hc) as K. destruct (blk bs (S c)) as [B|] eqn:Eb; [|congruence].
      apply in_map_iff. exists a. split; [reflexivity|]. now apply (main_mir p bs Heo a c A B Ea Eb).
    + destruct (blk bs b) as [B|] eqn:Eb; [|destruct H]. apply in_map_iff in H as (c & <- & Hc). destruct b as [|b]; [discriminate|].
      pose proof (main_pred p bs Heo _ _ _ Eb Hc) as K. destruct (blk bs (S c)) as [A|] eqn:Ea; [|congruence].
      apply in_map_iff. exists b. split; [reflexivity|]. now apply (main_mir p bs Heo c b A B Ea Eb).
  - intros a. rewrite Sx. destruct (blk bs a) eqn:Ea; [|constructor]. destruct (blk_in _ _ _ Ea) as (I & _). apply Nd, (eo_nodup _ _ Heo _ I).
  - intros a. rewrite Px. destruct (blk bs a) eqn:Ea; [|constructor]. destruct (blk_in _ _ _ Ea) as (I & _). apply Nd, (eo_nodup _ _ Heo _ I).
Qed.
Lemma finv_fresh bs f : finv bs f -> fresh_ok f.
Proof.
  intros F. split.
  - intros i L. apply (fi_none bs f i F L).
  - intros b L. rewrite (fi_nb bs f F) in L. pose proof (fi_blk bs f F b) as K. destruct b as [|b]; [lia|]. cbn [blk] in K.
    assert (E : nth_error bs b = None) by (apply nth_error_None; lia). now rewrite E in K.
Qed.
