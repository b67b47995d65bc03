(** Lifting one instruction. *)
From Coq Require Import ZArith List Bool Arith Lia.
From Verif Require Import M_Base M_Ir M_Edit SpecWord SpecIsa SpecIr SpecSsa SpecCfg SpecLift SpecGuard L_Guard SpecLiftOne SpecFlat L_Word M_GenBB M_Lift L_Edit L_Lift L_LiftFill L_LiftSim L_LiftRun.
Import ListNotations.
Open Scope nat_scope.

Section One.
Variables (bs : list pblock) (b : nat).

Lemma read_known n s r : known s b r -> (0 <= r <= 10)%Z -> exists v, regv (fun q => l_def s q b) r = Some v /\ read_var (S n) s r b = Ok (s, v).
Proof.
  intros K L. unfold regv. cbn [read_var]. destruct (Z.eqb_spec r 10) as [|N]; [eauto|].
  destruct K as [K|K]; [congruence|]. destruct (l_def s r b) as [v|] eqn:E; [|congruence]. exists v. split; [reflexivity|].
  destruct (Z.leb_spec 0 r); [|lia]. destruct (Z.leb_spec r 10); [|lia]. reflexivity.
Qed.
Lemma read_reg_rng n s r : read_var (S n) s r b <> UB -> (0 <= r <= 10)%Z.
Proof.
  cbn [read_var]. destruct (Z.eqb_spec r 10) as [->|N]; [lia|].
  destruct (Z.leb_spec 0 r); cbn [andb negb]; [|congruence]. destruct (Z.leb_spec r 10); cbn [negb]; [lia | congruence].
Qed.
Lemma read_inv n s r a : known s b r -> read_var (S n) s r b = Ok a -> fst a = s /\ regv (fun q => l_def s q b) r = Some (snd a).
Proof.
  intros K H. destruct (read_known n s r K) as (v & E1 & E2); [apply (read_reg_rng n s); congruence|].
  rewrite E2 in H. injection H as <-. auto.
Qed.
Lemma src_inv n s x a : (src_x (pi_code x) = true -> known s b (pi_src x)) -> get_src (S n) s b x = Ok a ->
  fst a = s /\ srcv (fun q => l_def s q b) x = Some (snd a).
Proof.
  intros K. unfold get_src, srcv. destruct (src_x _); intros H; [apply (read_inv n); auto | injection H as <-; auto].
Qed.
Lemma write_def s r v s' : write_var s r b v = Ok s' -> l_f s' = l_f s /\ forall q, l_def s' q b = wrote (fun q => l_def s q b) r v q.
Proof.
  unfold write_var. destruct (_ && _)%Z; [|discriminate]. intros H; injection H as <-. split; [reflexivity|].
  intros q. cbn. unfold wrote. now rewrite Nat.eqb_refl, andb_true_r.
Qed.
Lemma emit_inv s x us a : emit s b x us = Ok a -> snd a = f_ni (l_f s) /\ like (l_f (fst a)) (snd a) x /\
  (forall q c, l_def (fst a) q c = l_def s q c) /\ insns_of (l_f (fst a)) b = insns_of (l_f s) b ++ [snd a] /\
  f_ni (l_f (fst a)) = S (f_ni (l_f s)).
Proof.
  destruct a as [s' i]. intros H. apply emit_eq in H as (k & g & Ek & -> & -> & Gn & Gb & Go & Gi & Gh & Gd).
  cbn [fst snd with_f l_f l_def]. split; [reflexivity|]. split; [exact Gi|]. split; [reflexivity|]. split; [|exact Gn].
  unfold insns_of. rewrite Gb, Ek. reflexivity.
Qed.

Ltac bo H r E := apply bind_ok in H as (r & E & H).

(** the instruction classes without control flow *)
Lemma one_lifts n s i x s' : pre_form i x ->
  (b_code i mod 8 = 1 \/ b_code i mod 8 = 2 \/ b_code i mod 8 = 3 \/ b_code i mod 8 = 4 \/ b_code i mod 8 = 7)%Z ->
  (forall ar r, In r (reads ar i) -> known s b r) ->
  lift_insn (S n) bs b s x = Ok s' ->
  exists ids, lifts (l_f s') bs b (fun q => l_def s q b) x ids (fun q => l_def s' q b) /\
    insns_of (l_f s') b = insns_of (l_f s) b ++ ids /\ (forall z, In z ids -> z = f_ni (l_f s)) /\
    f_ni (l_f s') = f_ni (l_f s) + length ids.
Proof.
  intros (Pc & Pd & Ps & Po & Pi) C Kn H. specialize (Kn (fun _ => None)). unfold reads in Kn.
  rewrite <- Pc, <- Pd, <- Ps in *.
  assert (Fin : forall a d s1, snd a = f_ni (l_f s) -> insns_of (l_f (fst a)) b = insns_of (l_f s) b ++ [snd a] ->
     f_ni (l_f (fst a)) = S (f_ni (l_f s)) -> (forall q c, l_def (fst a) q c = l_def s q c) ->
     write_var (fst a) d b (val_insn (snd a)) = Ok s1 ->
     l_f s1 = l_f (fst a) /\ (forall q, l_def s1 q b = wrote (fun q => l_def s q b) d (val_insn (snd a)) q) /\
     insns_of (l_f s1) b = insns_of (l_f s) b ++ [snd a] /\ (forall z, In z [snd a] -> z = f_ni (l_f s)) /\
     f_ni (l_f s1) = f_ni (l_f s) + length [snd a]).
  { intros a d s1 E1 E2 E3 E4 Hw. apply write_def in Hw as [Ef Ed]. rewrite Ef. split; [reflexivity|].
    split; [intros q; rewrite Ed; unfold wrote; destruct (q =? d)%Z; auto|]. split; [exact E2|].
    split; [intros z [<-|[]]; exact E1 | rewrite E3; cbn; lia]. }
  unfold lift_insn, cls in H.
  assert (Cs : (b_code i mod 8 = 4 \/ b_code i mod 8 = 7)%Z \/ (b_code i mod 8 = 1)%Z \/ (b_code i mod 8 = 2)%Z \/ (b_code i mod 8 = 3)%Z)
    by (rewrite <- Pc; tauto).
  rewrite <- Pc in Cs. destruct Cs as [Cs|[Cs|[Cs|Cs]]].
  - assert (Ca : is_alu (pi_code x) = true) by (unfold is_alu, cls; destruct Cs as [-> | ->]; reflexivity).
    assert (E : ((pi_code x mod 8 =? 4) || (pi_code x mod 8 =? 7))%Z = true) by exact Ca. rewrite E in H.
    assert (Kd : (pi_code x / 16 <> 11)%Z -> known s b (pi_dst x)).
    { intros N. apply Kn. apply Z.eqb_neq in N. destruct Cs as [-> | ->]; rewrite N; left; reflexivity. }
    assert (Ks : (pi_code x / 16 <> 13)%Z -> src_x (pi_code x) = true -> known s b (pi_src x)).
    { intros N Sx. apply Kn. apply Z.eqb_neq in N. unfold src_x in Sx. rewrite Sx, N.
      destruct Cs as [-> | ->]; apply in_or_app; right; left; reflexivity. }
    clear Kn. unfold lift_alu in H. bo H s1 H1. destruct (Z.eqb_spec (pi_off x) 0) as [O|]; [|discriminate]. injection H as <-.
    destruct (bin_of (opn (pi_code x))) as [o|] eqn:Bo.
    + destruct (bin_alu _ _ Bo) as (_ & _ & _ & _ & N11 & N13). unfold opn in N11, N13.
      unfold alu_write_bin in H1. bo H1 r1 E1. bo H1 r2 E2. bo H1 r3 E3.
      apply read_inv in E1 as [F1 V1]; [|auto]. rewrite F1 in E2. apply src_inv in E2 as [F2 V2]; [|auto]. rewrite F2 in E3.
      apply emit_inv in E3 as (I1 & I2 & I3 & I4 & I5).
      destruct (Fin _ _ _ I1 I4 I5 I3 H1) as (W1 & W2 & W3 & W4 & W5).
      exists [snd r3]. split; [|auto]. eapply lf_bin; eauto. rewrite W1. exact I2.
    + destruct (Z.eqb_spec (opn (pi_code x)) 11) as [E11|N11].
      { unfold opn in E11. bo H1 r1 E1. apply src_inv in E1 as [F1 V1]; [|apply Ks; lia]. rewrite F1 in H1.
        apply write_def in H1 as [W1 W2]. exists []. rewrite W1, app_nil_r. split; [|split; [reflexivity|split; [intros z []|cbn; lia]]].
        eapply lf_mov; eauto. }
      assert (Un : forall o a u, alu_write_un (S n) s b x o a u = Ok s1 ->
        (opn (pi_code x) = 13%Z /\ cls (pi_code x) = 4%Z /\ o = (if src_x (pi_code x) then HTOBE else HTOLE) /\
         a = A_32 /\ u = pi_imm x \/
         opn (pi_code x) = 8%Z /\ src_x (pi_code x) = false /\ o = NEG /\ a = alu_w (pi_code x) /\ u = 0%Z) ->
        exists ids, lifts (l_f s1) bs b (fun q => l_def s q b) x ids (fun q => l_def s1 q b) /\
          insns_of (l_f s1) b = insns_of (l_f s) b ++ ids /\ (forall z, In z ids -> z = f_ni (l_f s)) /\
          f_ni (l_f s1) = f_ni (l_f s) + length ids).
      { intros o a u Hu Ho. unfold alu_write_un in Hu. bo Hu r1 E1. bo Hu r2 E2.
        apply read_inv in E1 as [F1 V1]; [|apply Kd; exact N11]. rewrite F1 in E2. apply emit_inv in E2 as (I1 & I2 & I3 & I4 & I5).
        destruct (Fin _ _ _ I1 I4 I5 I3 Hu) as (W1 & W2 & W3 & W4 & W5).
        exists [snd r2]. split; [|auto]. eapply lf_un; eauto. rewrite W1. exact I2. }
      destruct (Z.eqb_spec (opn (pi_code x)) 13) as [E13|N13].
      { destruct (Z.eqb_spec (cls (pi_code x)) 4) as [E4|]; [|discriminate]. eapply Un; [exact H1|]. left. auto. }
      destruct (Z.eqb_spec (opn (pi_code x)) 8) as [E8|]; [|discriminate].
      destruct (src_x (pi_code x)) eqn:Sx; [discriminate|]. eapply Un; [exact H1|]. right. auto.
  - rewrite Cs in *. cbn [Z.eqb Pos.eqb orb andb] in H. unfold jmp_cls, cls in H. rewrite Cs in H. cbn [Z.eqb Pos.eqb orb] in H.
    destruct ((mode (pi_code x) =? 4) || (mode (pi_code x) =? 3))%Z eqn:M; [|discriminate].
    unfold lift_ldx in H. bo H r1 E1. bo H r2 E2. apply read_inv in E1 as [F1 V1]; [|apply Kn; now left]. rewrite F1 in E2.
    apply emit_inv in E2 as (I1 & I2 & I3 & I4 & I5). destruct (Fin _ _ _ I1 I4 I5 I3 H) as (W1 & W2 & W3 & W4 & W5).
    exists [snd r2]. split; [|auto]. eapply lf_ldx; eauto; [|rewrite W1; exact I2].
    apply orb_prop in M as [M|M]; apply Z.eqb_eq in M; auto.
  - rewrite Cs in *. cbn [Z.eqb Pos.eqb orb andb] in H. unfold jmp_cls, cls in H. rewrite Cs in H. cbn [Z.eqb Pos.eqb orb] in H.
    destruct (Z.eqb_spec (mode (pi_code x)) 3) as [M|]; [|discriminate].
    unfold lift_st in H. bo H r1 E1. cbn [bind] in H. bo H r2 E2. injection H as <-. apply read_inv in E1 as [F1 V1]; [|apply Kn; now left].
    cbn [fst snd] in E2. rewrite F1 in E2. apply emit_inv in E2 as (I1 & I2 & I3 & I4 & I5).
    exists [snd r2]. split; [|split; [exact I4|split; [intros z [<-|[]]; exact I1 | rewrite I5; cbn; lia]]].
    eapply lf_st; eauto.
  - rewrite Cs in *. cbn [Z.eqb Pos.eqb orb andb] in H. unfold jmp_cls, cls in H. rewrite Cs in H. cbn [Z.eqb Pos.eqb orb] in H.
    destruct (Z.eqb_spec (mode (pi_code x)) 3) as [M|]; [|discriminate].
    unfold lift_st in H. bo H r1 E1. bo H r0 E0. bo H r2 E2. injection H as <-. apply read_inv in E1 as [F1 V1]; [|apply Kn; now left].
    rewrite F1 in E0. apply read_inv in E0 as [F0 V0]; [|apply Kn; right; now left].
    rewrite F0 in E2. apply emit_inv in E2 as (I1 & I2 & I3 & I4 & I5).
    exists [snd r2]. split; [|split; [exact I4|split; [intros z [<-|[]]; exact I1 | rewrite I5; cbn; lia]]].
    eapply lf_st; eauto.
Qed.

Lemma one_insn w bi p pc st pc' st' i x n s s' t :
  at_pos p pc i -> isa_step w p (Z.of_nat pc) st = INext pc' st' -> st_ok st ->
  (b_code i mod 8 = 1 \/ b_code i mod 8 = 2 \/ b_code i mod 8 = 3 \/ b_code i mod 8 = 4 \/ b_code i mod 8 = 7)%Z ->
  plain (fun _ => None) i -> pre_form i x ->
  describes bi s b t st -> table_live s b -> (forall ar r, In r (reads ar i) -> known s b r) ->
  lift_insn (S n) bs b s x = Ok s' ->
  exists ids t', insns_of (l_f s') b = insns_of (l_f s) b ++ ids /\
    sbody w bi (l_f s') t ids = Some (SNext t') /\ describes bi s' b t' st' /\ table_live s' b.
Proof.
  intros A St O C Pl Pf D [L7 Tl] Kn H.
  destruct (one_lifts n s i x s' Pf C Kn H) as (ids & Li & Ei & Ez & En).
  exists ids.
  assert (Li2 : lifts (l_f s') bs b (fun q => l_def s q b) (mkPre (b_code i) (b_dst i) (b_src i) (b_off i) false (b_imm i) (u32 (b_imm i)) pc) ids (fun q => l_def s' q b)).
  { destruct Pf as (Pc & Pd & Ps & Po & Pi).
    inversion Li; subst; unfold srcv in *; rewrite ?Pc, ?Pd, ?Ps, ?Po, ?Pi in *.
    - eapply lf_bin; eauto.
    - eapply lf_mov; eauto.
    - eapply lf_un; eauto.
    - exfalso. unfold cls in *. lia.
    - eapply lf_ldx; eauto.
    - eapply lf_st; eauto.
    - exfalso. unfold jmp_cls, cls in *. destruct C as [C|[C|[C|[C|C]]]]; rewrite C in *; discriminate.
    - exfalso. unfold jmp_cls, cls in *. destruct C as [C|[C|[C|[C|C]]]]; rewrite C in *; discriminate.
    - exfalso. unfold jmp_cls, cls in *. destruct C as [C|[C|[C|[C|C]]]]; rewrite C in *; discriminate.
    - exfalso. unfold jmp_cls, cls in *. destruct C as [C|[C|[C|[C|C]]]]; rewrite C in *; discriminate. }
  assert (R : rel bi (fun q => l_def s q b) t st clean).
  { destruct D as [D1 D2 D3 D4]. constructor; auto. intros r v Hr Hv. exists (rget st r). split; [apply D1; auto|].
    split; [now apply rget_range | auto]. }
  assert (Fr : forall z, In z ids -> fresh (fun q => l_def s q b) z).
  { intros z Hz. apply Ez in Hz. subst z. split; [exact L7|]. intros r v Hv Hd. specialize (Tl r v _ Hv Hd). lia. }
  assert (Cl : existsb clean (reads (fun _ => None) i) = false).
  { induction (reads (fun _ => None) i) as [|a l IH]; [reflexivity | exact IH]. }
  pose proof (insn_sim nowhere w bi (fun _ => None) p bs ltac:(discriminate) ltac:(intros ? ? ? ? ? ?; discriminate) (l_f s') b _ _ ids _ pc i (S pc) st clean t Li2) as G.
  rewrite St in G. specialize (G ltac:(left; exists i; repeat split; auto; [left; reflexivity| |]; intros K; rewrite K in C; cbn in C; lia) R Fr Pl Cl (iquiet_nowhere _ _)).
  destruct G as [(t' & Sb & R' & _ & _)|(B & t' & J & _)].
  2:{ exfalso. destruct J as [J|J]; [rewrite J in C; cbn in C; lia|]. unfold two_way in J. apply andb_prop in J as [J _].
      apply orb_prop in J as [J|J]; apply Z.eqb_eq in J; lia. }
  exists t'. split; [exact Ei|]. split; [specialize (Sb []); rewrite app_nil_r in Sb; cbn [gsbody] in Sb; rewrite gsbody_nowhere in Sb; exact Sb|]. split.
  - destruct R' as [R1 R2 R3 R4 R5]. constructor; auto. intros r v Hr Hv. destruct (R1 r v Hr Hv) as (y & Ey & _ & Eq).
    rewrite Ey. f_equal. apply Eq. unfold dirty_after, clean. destruct (Z.eqb_spec (b_code i) 0x85) as [K|]; [rewrite K in C; cbn in C; lia | reflexivity].
  - split; [lia|]. intros r v z Hv Hd. destruct (lifts_vals _ _ _ _ _ _ _ _ _ _ Li Hv Hd) as [K|[K|[r' K]]].
    + assert (0 < length ids) by (destruct ids; [destruct K | cbn; lia]). apply Ez in K. lia.
    + unfold sp_id in K. lia.
    + specialize (Tl r' v z K Hd). lia.
Qed.
End One.

Lemma one_alu bs b w bi p pc st pc' st' i x n s s' t :
  at_pos p pc i -> isa_step w p (Z.of_nat pc) st = INext pc' st' -> st_ok st ->
  (b_code i mod 8 = 4 \/ b_code i mod 8 = 7)%Z ->
  plain (fun _ => None) i -> pre_form i x ->
  describes bi s b t st -> table_live s b -> (forall ar r, In r (reads ar i) -> known s b r) ->
  lift_insn (S n) bs b s x = Ok s' ->
  exists ids t', insns_of (l_f s') b = insns_of (l_f s) b ++ ids /\
    sbody w bi (l_f s') t ids = Some (SNext t') /\ describes bi s' b t' st' /\ table_live s' b.
Proof. intros H1 H2 H3 H4. eapply one_insn; eauto; tauto. Qed.
Lemma one_mem bs b w bi p pc st pc' st' i x n s s' t :
  at_pos p pc i -> isa_step w p (Z.of_nat pc) st = INext pc' st' -> st_ok st ->
  (b_code i mod 8 = 1 \/ b_code i mod 8 = 2 \/ b_code i mod 8 = 3)%Z ->
  plain (fun _ => None) i -> pre_form i x ->
  describes bi s b t st -> table_live s b -> (forall ar r, In r (reads ar i) -> known s b r) ->
  lift_insn (S n) bs b s x = Ok s' ->
  exists ids t', insns_of (l_f s') b = insns_of (l_f s) b ++ ids /\
    sbody w bi (l_f s') t ids = Some (SNext t') /\ describes bi s' b t' st' /\ table_live s' b.
Proof. intros H1 H2 H3 H4. eapply one_insn; eauto; tauto. Qed.
