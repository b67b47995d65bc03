(** Executions of the lifted function follow executions of the program. *)
From Coq Require Import ZArith List Bool Arith Lia.
From Verif Require Import M_Base M_Ir M_Edit SpecWord SpecIsa SpecFlat M_GenBB SpecCfg M_Lift SpecSsa SpecLift SpecGuard
  L_Word L_Edit L_GenBB L_Lift L_LiftRead L_LiftFill L_LiftDfs L_LiftSim.
Import ListNotations.
Open Scope nat_scope.

Section Run.
Variables (Rg : SpecGs.addrs) (w : world) (bi : bconst -> Z) (ar : arity_table) (p : list bpf_insn) (bs : list pblock).
Hypothesis Har : forall id k, ar id = Some k -> nth_error helper_args (Z.to_nat id) = Some (Z.of_nat k).
Hypothesis Hw : respects w ar.
Hypothesis Hpl : forall j i, at_pos p j i -> plain ar i.
Hypothesis Hbo : blocks_of p bs.
Hypothesis Heo : edges_of p bs.
Variable s : lst.
Variable e : nat -> regmap.
Variable dn : nat -> option (list pre_insn).
Hypothesis Hinv : inv bs e dn noX s.
Hypothesis Hfill : forall b pb, blk bs b = Some pb -> l_fill s b = true.
Hypothesis Hseal : forall b pb, blk bs b = Some pb -> b <> 1 -> l_seal s b = true.
Hypothesis Hentry : forall pb, blk bs 1 = Some pb -> pb_preds pb = [].

Notation f := (l_f s).
Notation rel := (rel bi).

Lemma blk_in b pb : blk bs b = Some pb -> In pb bs /\ b = S (pred b) /\ nth_error bs (pred b) = Some pb.
Proof.
  destruct b as [|k]; [discriminate|]. cbn. intros H. split; [|auto]. eapply nth_error_In; eauto.
Qed.
Lemma edge_sym b pb c pc : blk bs b = Some pb -> blk bs (S c) = Some pc -> In c (pb_succs pb) ->
  exists b0, b = S b0 /\ In b0 (pb_preds pc).
Proof.
  intros H1 H2 H. destruct (blk_in _ _ H1) as (_ & E & N). exists (pred b). split; [exact E|].
  apply (eo_pred _ _ Heo (pred b) c pb pc N H2). exact H.
Qed.
Lemma succ_blk b pb c : blk bs b = Some pb -> In c (pb_succs pb) -> exists pc, blk bs (S c) = Some pc.
Proof.
  intros H Hc. destruct (blk_in _ _ H) as (I & _ & _).
  pose proof (eo_range _ _ Heo pb c I (or_introl Hc)) as L. cbn.
  destruct (nth_error bs c) eqn:E; [eauto|]. apply nth_error_None in E. lia.
Qed.

Inductive path : nat -> nat -> Prop :=
| pa_0 : path 0 1
| pa_s n b pb c : path n b -> blk bs b = Some pb -> In c (pb_succs pb) -> path (S n) (S c).
Hypothesis Hreach : forall b pb, blk bs b = Some pb -> exists n, path n b.

Lemma block_facts b pb : blk bs b = Some pb -> exists phs ids m, binv bs e dn s b pb phs ids m /\
  lifts_l f bs b (e b) (pb_insns pb) ids m.
Proof.
  intros B. destruct (iv_blk _ _ _ _ _ Hinv _ _ B) as (phs & ids & m & H). exists phs, ids, m. split; [exact H|].
  pose proof (bi_lifts _ _ _ _ _ _ _ _ _ H) as L. unfold done in L.
  now rewrite (iv_fill _ _ _ _ _ Hinv _ _ B (Hfill _ _ B)) in L.
Qed.

(** where the values in the registers come from *)
Lemma lifts_vals b m pi ids m' r v i : lifts f bs b m pi ids m' -> m' r = Some v -> v_data v = VInsn i ->
  In i ids \/ i = sp_id \/ exists r', m r' = Some v.
Proof.
  intros H Hv Hd.
  assert (Wr : forall d z, (forall r, m' r = wrote m d (val_insn z) r) -> ids = [z] -> In i ids \/ i = sp_id \/ exists r', m r' = Some v).
  { intros d z E ->. rewrite E in Hv. unfold wrote in Hv. destruct (r =? d)%Z; [|eauto].
    injection Hv as <-. cbn in Hd. injection Hd as <-. left; now left. }
  inversion H; subst; try (eapply Wr; eauto; fail);
    try (match goal with E : forall r, m' r = m r |- _ => rewrite E in Hv; eauto end).
  match goal with E : forall r, m' r = _ |- _ => rewrite E in Hv end. unfold wrote in Hv.
  destruct (Z.eqb_spec r (pi_dst pi)); [|eauto]. injection Hv as ->.
  match goal with E : srcv m pi = _ |- _ => unfold srcv, regv in E; destruct (src_x _); [|injection E as <-; discriminate Hd];
    destruct (Z.eqb (pi_src pi) 10); [|eauto]; injection E as <- end.
  cbn in Hd. injection Hd as <-. auto.
Qed.
Lemma lifts_l_vals b m l ids m' : lifts_l f bs b m l ids m' -> forall r v i, m' r = Some v -> v_data v = VInsn i ->
  In i ids \/ i = sp_id \/ exists r', m r' = Some v.
Proof.
  induction 1 as [m m' E|m pi l i1 i2 mb m' H1 H2 IH]; intros r v i Hv Hd.
  - rewrite E in Hv. eauto.
  - destruct (IH r v i Hv Hd) as [K|[K|[r' K]]]; [left; apply in_or_app; auto | auto |].
    destruct (lifts_vals _ _ _ _ _ _ _ _ H1 K Hd) as [J|J]; [left; apply in_or_app; auto | auto].
Qed.

Lemma path_single n b pb q : path n b -> blk bs b = Some pb -> b <> 1 -> single pb = Some q ->
  exists n0, n = S n0 /\ path n0 (S q).
Proof.
  intros P B N S1. destruct P as [|n b0 pb0 c P B0 C]; [congruence|]. exists n. split; [reflexivity|].
  destruct (edge_sym _ _ _ _ B0 B C) as (b1 & -> & I). unfold single in S1.
  destruct (pb_preds pb) as [|x [|]]; try discriminate. injection S1 as ->. destruct I as [->|[]]. exact P.
Qed.

Lemma val_origin n : forall b pb, path n b -> blk bs b = Some pb -> forall r v i, regok r -> rdv s b r = Some v -> v_data v = VInsn i ->
  i < 7 \/ exists x n', f_insn f i = Some x /\ n' <= n /\ path n' (i_parent x).
Proof.
  induction n as [n IH] using lt_wf_ind. intros b pb P B r v i R Hv Hd.
  destruct (block_facts b pb B) as (phs & ids & m & H & L).
  rewrite (bi_rdv _ _ _ _ _ _ _ _ _ H r R) in Hv.
  destruct (lifts_l_vals _ _ _ _ _ L r v i Hv Hd) as [K|[K|[r' K]]].
  - right. destruct (bi_ids _ _ _ _ _ _ _ _ _ H i K) as (x & E & _ & Q). exists x, n. rewrite Q. auto.
  - left. unfold sp_id in K. lia.
  - destruct (Nat.eq_dec b 1) as [->|N1].
    + rewrite (iv_e1 _ _ _ _ _ Hinv) in K. destruct ((1 <=? r') && (r' <=? 5))%Z eqn:G; [|discriminate]. injection K as <-.
      cbn in Hd. injection Hd as <-. left. unfold arg_id. apply andb_true_iff in G as [G1 G2]. lia.
    + destruct (iv_ent _ _ _ _ _ Hinv _ _ _ _ B N1 K) as (R' & Q). destruct (single pb) as [q|] eqn:Sg.
      * destruct Q as [_ Q]. destruct (path_single _ _ _ _ P B N1 Sg) as (n0 & -> & P0).
        assert (B0 : exists pq, blk bs (S q) = Some pq).
        { destruct (blk_in _ _ B) as (I & _ & _). unfold single in Sg. destruct (pb_preds pb) as [|x [|]] eqn:Ep; try discriminate. injection Sg as ->.
          pose proof (eo_range _ _ Heo pb q I) as Lq. rewrite Ep in Lq. specialize (Lq (or_intror (or_introl eq_refl))). cbn.
          destruct (nth_error bs q) eqn:Eq; [eauto|]. apply nth_error_None in Eq. lia. }
        destruct B0 as [pq B0]. destruct (IH n0 ltac:(lia) _ _ P0 B0 r' v i R' Q Hd) as [J|(x & n' & E & Ln & Pn)]; [auto|].
        right. exists x, n'. repeat split; auto; lia.
      * destruct Q as (j & -> & x & k & E & _ & Pa & _). cbn in Hd. injection Hd as ->.
        right. exists x, n. rewrite Pa. auto.
Qed.

(** what a block finds in the registers was not computed by itself *)
Lemma ent_fresh b pb phs ids m z : blk bs b = Some pb -> binv bs e dn s b pb phs ids m -> In z ids -> fresh (e b) z.
Proof.
  intros B H Hz. assert (Ge : 7 <= z) by (apply (bi_ge _ _ _ _ _ _ _ _ _ H), in_or_app; auto).
  split; [exact Ge|]. intros r v Hv Hd.
  destruct (bi_ids _ _ _ _ _ _ _ _ _ H z Hz) as (x & E & NP & Pa).
  destruct (Nat.eq_dec b 1) as [->|N1].
  { rewrite (iv_e1 _ _ _ _ _ Hinv) in Hv. destruct ((1 <=? r) && (r <=? 5))%Z eqn:G; [|discriminate]. injection Hv as <-.
    cbn in Hd. injection Hd as <-. unfold arg_id in Ge. apply andb_true_iff in G as [G1 G2]. lia. }
  destruct (iv_ent _ _ _ _ _ Hinv _ _ _ _ B N1 Hv) as (R' & Q). destruct (single pb) as [q|] eqn:Sg.
  - destruct Q as [_ Q]. destruct (Hreach _ _ B) as [n P].
    induction n as [n IH] using lt_wf_ind.
    destruct (path_single _ _ _ _ P B N1 Sg) as (n0 & -> & P0).
    assert (B0 : exists pq, blk bs (S q) = Some pq).
    { destruct (blk_in _ _ B) as (I & _ & _). unfold single in Sg. destruct (pb_preds pb) as [|y [|]] eqn:Ep; try discriminate. injection Sg as ->.
      pose proof (eo_range _ _ Heo pb q I) as Lq. rewrite Ep in Lq. specialize (Lq (or_intror (or_introl eq_refl))). cbn.
      destruct (nth_error bs q) eqn:Eq; [eauto|]. apply nth_error_None in Eq. lia. }
    destruct B0 as [pq B0]. destruct (val_origin n0 _ _ P0 B0 r v z R' Q Hd) as [J|(y & n' & Ey & Ln & Pn)]; [lia|].
    rewrite E in Ey. injection Ey as <-. rewrite Pa in Pn. apply (IH n'); [lia | exact Pn].
  - destruct Q as (j & -> & y & k & Ey & Op & _). cbn in Hd. injection Hd as ->. congruence.
Qed.

(** ** The code of a block *)
Definition ends_ret (L : nat) (pc : Z) (st : st) (d : dirty) (o : option sres) : Prop :=
  exists r st' d' t', (forall n, L <= n -> gcrun Rg w ar p n pc st d = Some (IExit r st', d')) /\
    o = Some (SRet r t') /\ s_mem t' = mem st' /\ s_nc t' = ncall st'.
Definition ends_jmp (b : nat) (pb : pblock) (L : nat) (pc : Z) (st : st) (d : dirty) (o : option sres) (m : regmap) : Prop :=
  exists c pc' st' d' t', In c (pb_succs pb) /\ blk bs (S c) = Some pc' /\
    (forall n, L <= n -> gcrun Rg w ar p n pc st d = gcrun Rg w ar p (n - L) (Z.of_nat (pb_start pc')) st' d') /\
    o = Some (SJmp (S c) t') /\ rel m t' st' d'.
Definition ends_none (L : nat) (pc : Z) (st : st) (d : dirty) : Prop :=
  forall n, L <= n -> gcrun Rg w ar p n pc st d = None.
Definition ends_next (L : nat) (q e0 : nat) (st : st) (d : dirty) (o : option sres) (m : regmap) : Prop :=
  exists st' d' t', (forall n, L <= n -> gcrun Rg w ar p n (Z.of_nat q) st d = gcrun Rg w ar p (n - L) (Z.of_nat e0) st' d') /\
    o = Some (SNext t') /\ rel m t' st' d' /\
    (forall q' i, at_pos p q' i -> q <= q' < e0 -> b_code i <> 0%Z -> ~ is_jump i /\ b_code i <> 0x95%Z).

Lemma code_of_pre q e0 pi l : code_of p q e0 (pi :: l) -> exists i q', pre_of p q i q' pi /\ code_of p q' e0 l /\ at_pos p q i /\ q < q' /\
  (forall j i', q < j < q' -> at_pos p j i' -> b_code i' = 0%Z).
Proof.
  intros H. inversion H; subst.
  - exists i, (S q). split; [left; exists i'; auto 10|]. repeat split; auto. intros; lia.
  - exists i, (S (S q)). split; [right; exists j; auto 10|]. repeat split; auto. intros k i' Hk A.
    assert (k = S q) by lia. subst k. unfold at_pos in *. congruence.
Qed.

Lemma body_sim b pb : blk bs b = Some pb -> forall l q ids mm m t st d,
  code_of p q (pb_end pb) l -> pb_start pb <= q -> lifts_l f bs b mm l ids m ->
  (forall z, In z ids -> fresh mm z) -> NoDup ids -> rel mm t st d ->
  (forall l0 x, l = l0 ++ [x] -> last_pos pb (pi_pos x)) ->
  let L := length l in let o := gsbody Rg w bi f t ids in
  ends_ret L (Z.of_nat q) st d o \/ ends_jmp b pb L (Z.of_nat q) st d o m \/
  ends_next L q (pb_end pb) st d o m \/ ends_none L (Z.of_nat q) st d.
Proof.
  intros B. induction l as [|pi l IH]; intros q ids mm m t st d Hc Hq Hl Hf Nd R Hlast L o.
  - inversion Hl; subst. inversion Hc; subst. right. right. left. exists st, d, t. split; [|split; [reflexivity|split]].
    + intros n _. unfold L. cbn [length]. now rewrite Nat.sub_0_r.
    + eapply rel_ext; eauto.
    + intros; lia.
  - inversion Hl as [|? ? ? i1 i2 m1 ? H1 H2]; subst.
    destruct (code_of_pre _ _ _ _ Hc) as (i & q' & Pr & Hc' & Pi & Lq & Gap).
    assert (St : forall n, L <= n -> exists k, n = S k /\ length l <= k).
    { intros [|k] Hn; unfold L in Hn; cbn [length] in Hn; [lia|]. exists k. split; [reflexivity | lia]. }
    assert (Fe : fetch p (Z.of_nat q) = Some i) by (unfold fetch; destruct (Z.ltb_spec (Z.of_nat q) 0); [lia|]; now rewrite Nat2Z.id).
    destruct (existsb d (reads ar i)) eqn:D.
    { right; right; right. intros n Hn. destruct (St n Hn) as (k & -> & _). cbn [gcrun]. now rewrite Fe, D. }
    destruct (iquiet Rg i st) eqn:Q.
    2:{ right; right; right. intros n Hn. destruct (St n Hn) as (k & -> & _). cbn [gcrun]. now rewrite Fe, D, Q. }
    pose proof (insn_sim Rg w bi ar p bs Har Hw f b mm pi i1 m1 q i q' st d t H1 Pr R
      (fun z Hz => Hf z (in_or_app _ _ _ (or_introl Hz))) (Hpl _ _ Pi) D Q) as G.
    destruct (isa_step w p (Z.of_nat q) st) as [pc st'|r st'|] eqn:Is; unfold goes in G.
    + destruct G as [(t' & Sb & R' & -> & NJ & NX)|(Bt & t' & J & Sb & R' & -> & Ip & pbt & Bb & Pc)].
      * (* next instruction *)
        assert (Nd2 : NoDup i2 /\ forall z, In z i1 -> ~ In z i2).
        { clear -Nd. induction i1 as [|a i1 IHi]; [split; [exact Nd | intros ? []]|]. cbn in Nd. inversion Nd as [|? ? X Y]; subst.
          destruct (IHi Y) as [A C]. split; [exact A|]. intros z [->|Hz]; [intros K; apply X, in_or_app; auto | auto]. }
        destruct Nd2 as [Nd2 Dj].
        assert (Hf2 : forall z, In z i2 -> fresh m1 z).
        { intros z Hz. destruct (Hf z (in_or_app _ _ _ (or_intror Hz))) as [Ge Fz]. split; [exact Ge|].
          intros r v Hv Hd. destruct (lifts_vals _ _ _ _ _ _ _ _ H1 Hv Hd) as [K|[K|[r' K]]].
          - exact (Dj z K Hz).
          - unfold sp_id in K; lia.
          - exact (Fz r' v K Hd). }
        assert (Hla : forall l0 x, l = l0 ++ [x] -> last_pos pb (pi_pos x)).
        { intros l0 x ->. apply (Hlast (pi :: l0)). reflexivity. }
        assert (Cr : forall n, L <= n -> exists k, n = S k /\ length l <= k /\ gcrun Rg w ar p n (Z.of_nat q) st d = gcrun Rg w ar p k (Z.of_nat q') st' (dirty_after i d)).
        { intros n Hn. destruct (St n Hn) as (k & -> & Lk). exists k. split; [reflexivity|]. split; [exact Lk|].
          cbn [gcrun]. now rewrite Fe, D, Q, Is. }
        unfold o. rewrite Sb.
        destruct (IH q' i2 m1 m t' st' (dirty_after i d) Hc' ltac:(lia) H2 Hf2 Nd2 R' Hla) as [K|[K|[K|K]]].
        -- left. destruct K as (r & s2 & d2 & t2 & K1 & K2). exists r, s2, d2, t2. split; [|exact K2].
           intros n Hn. destruct (Cr n Hn) as (k & -> & Lk & ->). now apply K1.
        -- right; left. destruct K as (c & pcb & s2 & d2 & t2 & K0 & K1 & K2 & K3). exists c, pcb, s2, d2, t2. split; [exact K0|]. split; [exact K1|]. split; [|exact K3].
           intros n Hn. destruct (Cr n Hn) as (k & -> & Lk & ->). rewrite K2 by exact Lk. unfold L. cbn [length]. reflexivity.
        -- right; right; left. destruct K as (s2 & d2 & t2 & K1 & K2 & K3 & K4). exists s2, d2, t2. split; [|split; [exact K2|split; [exact K3|]]].
           ++ intros n Hn. destruct (Cr n Hn) as (k & -> & Lk & ->). rewrite K1 by exact Lk. unfold L. cbn [length]. reflexivity.
           ++ intros j ij Aj Rj Nz. destruct (Nat.eq_dec j q) as [->|Nj].
              ** unfold at_pos in *. rewrite Pi in Aj. injection Aj as <-. auto.
              ** destruct (lt_dec j q') as [Lj|Lj]; [exfalso; apply Nz, (Gap j); auto; lia|]. apply (K4 j); auto. lia.
        -- right; right; right. intros n Hn. destruct (Cr n Hn) as (k & -> & Lk & ->). now apply K.
      * (* jump: the last instruction *)
        right; left. destruct (blk_in _ _ B) as (Ib & _ & Nb).
        pose proof (code_of_le _ _ _ _ Hc') as Le.
        assert (En : S q = pb_end pb).
        { apply (bo_last _ _ Hbo pb q i Ib Pi); [lia|]. destruct J as [J|J]; auto. }
        assert (l = []). { inversion Hc'; subst; auto; match goal with X : code_of _ _ _ _ |- _ => apply code_of_le in X; lia end. }
        subst l. inversion H2; subst.
        assert (Lp : last_pos pb q).
        { replace q with (pi_pos pi); [apply (Hlast []); reflexivity|].
          destruct Pr as [(i' & _ & _ & _ & _ & _ & ->)|(j & _ & _ & _ & _ & _ & ->)]; reflexivity. }
        destruct (blk_in _ _ Bb) as (_ & EB & NB).
        exists (pred Bt), pbt, st', (dirty_after i d), t'. split; [|split; [|split; [|split]]].
        -- apply (eo_succ _ _ Heo (pred b) (pred Bt) pb pbt q i Nb NB Lp Pi). exact Ip.
        -- rewrite <- EB. exact Bb.
        -- intros n Hn. destruct (St n Hn) as (k & -> & _). cbn [gcrun]. rewrite Fe, D, Q, Is. unfold L. cbn [length]. now rewrite Nat.sub_1_r.
        -- unfold o. rewrite <- EB. apply Sb.
        -- eapply rel_ext; eauto.
    + left. destruct G as (t' & Sb & G). exists r, st', d, t'. split; [|split; [apply Sb | tauto]].
      intros n Hn. destruct (St n Hn) as (k & -> & _). cbn [gcrun]. now rewrite Fe, D, Q, Is.
    + right; right; right. intros n Hn. destruct (St n Hn) as (k & -> & _). cbn [gcrun]. now rewrite Fe, D, Q, Is.
Qed.

(** ** Entering a block *)
Definition ent (prev b : nat) (t : sst) (st : st) (d : dirty) : Prop :=
  exists pb phs ids m t1, blk bs b = Some pb /\ binv bs e dn s b pb phs ids m /\
    sphis bi f prev t t (phs ++ ids) = Some (ids, t1) /\ rel (e b) t1 st d.

Lemma sphis_stop prev t0 acc ids : (forall i, In i ids -> exists x, f_insn f i = Some x /\ i_op x <> PHI) ->
  sphis bi f prev t0 acc ids = Some (ids, acc).
Proof.
  destruct ids as [|i ids]; intros H; [reflexivity|]. cbn [sphis].
  destruct (H i (or_introl eq_refl)) as (x & -> & N). cbn [obind].
  destruct (iop_eqb (i_op x) PHI) eqn:E; [|reflexivity]. destruct (i_op x); try discriminate E. congruence.
Qed.

Lemma sphis_run prev t0 ids : (forall i, In i ids -> exists x, f_insn f i = Some x /\ i_op x <> PHI) ->
  forall phs acc,
  (forall i, In i phs -> exists x v z, f_insn f i = Some x /\ i_op x = PHI /\ incoming x prev = Some v /\ seval bi (s_env t0) v = Some z) ->
  exists acc', sphis bi f prev t0 acc (phs ++ ids) = Some (ids, acc') /\ s_mem acc' = s_mem acc /\ s_nc acc' = s_nc acc /\
    (forall j, ~ In j phs -> s_env acc' j = s_env acc j) /\
    (forall j x v z, In j phs -> f_insn f j = Some x -> incoming x prev = Some v -> seval bi (s_env t0) v = Some z ->
       s_env acc' j = Some (u64 z)).
Proof.
  intros Hi. induction phs as [|i phs IH]; intros acc Hp.
  - exists acc. cbn [app]. rewrite (sphis_stop _ _ _ _ Hi). repeat split; auto. intros ? ? ? ? [].
  - destruct (Hp i (or_introl eq_refl)) as (x & v & z & E & O & Inc & Ev). cbn [app sphis]. rewrite E. cbn [obind]. rewrite O.
    cbn [iop_eqb]. rewrite Inc. cbn [obind]. rewrite Ev. cbn [obind].
    destruct (IH (sres_ acc i z) (fun j Hj => Hp j (or_intror Hj))) as (acc' & K1 & K2 & K3 & K4 & K5).
    exists acc'. split; [exact K1|]. split; [exact K2|]. split; [exact K3|]. split.
    + intros j Nj. rewrite K4 by (intros X; apply Nj; now right). cbn [sres_ s_env]. unfold eupd.
      destruct (Nat.eqb_spec j i) as [->|_]; [exfalso; apply Nj; now left | reflexivity].
    + intros j y v' z' Hj Ej Ij Vj. destruct (in_dec Nat.eq_dec j phs) as [K|K]; [eapply K5; eauto|].
      destruct Hj as [->|Hj]; [|contradiction]. rewrite (K4 _ K). cbn [sres_ s_env]. unfold eupd. rewrite Nat.eqb_refl.
      rewrite E in Ej. injection Ej as <-. rewrite Inc in Ij. injection Ij as <-. rewrite Ev in Vj. congruence.
Qed.

Lemma complete_incoming pb r x q : complete s pb r (i_phi x) -> In q (pb_preds pb) ->
  exists v, incoming x (S q) = Some v /\ rdv s (S q) r = Some v.
Proof.
  unfold complete, incoming. generalize (i_phi x) as l. intros l F. induction F as [|a p0 l ps [A B] F IH]; intros Hq; [destruct Hq|].
  cbn [find]. destruct (Nat.eqb_spec (snd a) (S q)) as [E|N].
  - exists (fst a). split; [reflexivity|]. rewrite A in E. injection E as ->. exact B.
  - destruct Hq as [->|Hq]; [congruence|]. auto.
Qed.

Lemma ent_edge b pb phs ids m t st d c pc : blk bs b = Some pb -> binv bs e dn s b pb phs ids m -> rel m t st d ->
  In c (pb_succs pb) -> blk bs (S c) = Some pc -> ent b (S c) t st d.
Proof.
  intros B H R Hc Bc. destruct (edge_sym _ _ _ _ B Bc Hc) as (b0 & -> & Ip).
  assert (N1 : S c <> 1). { intros E. rewrite E in Bc. rewrite (Hentry _ Bc) in Ip. destruct Ip. }
  destruct (block_facts _ _ Bc) as (ph2 & id2 & m2 & H2 & _).
  assert (Hi : forall i, In i id2 -> exists x, f_insn f i = Some x /\ i_op x <> PHI).
  { intros i Hi. destruct (bi_ids _ _ _ _ _ _ _ _ _ H2 i Hi) as (x & E & N & _). eauto. }
  assert (Rd : forall r v, regok r -> rdv s (S b0) r = Some v -> m r = Some v).
  { intros r v Hr Hv. now rewrite <- (bi_rdv _ _ _ _ _ _ _ _ _ H r Hr). }
  destruct (single pc) as [q|] eqn:Sg.
  - assert (q = b0). { unfold single in Sg. destruct (pb_preds pc) as [|y [|]]; try discriminate. injection Sg as ->. destruct Ip as [->|[]]; auto. }
    subst q. assert (E0 : ph2 = []) by (apply (bi_single _ _ _ _ _ _ _ _ _ H2); congruence). subst ph2.
    exists pc, [], id2, m2, t. split; [exact Bc|]. split; [exact H2|]. split; [now apply sphis_stop|].
    constructor; try apply R. intros r v Hr Hv. destruct (iv_ent _ _ _ _ _ Hinv _ _ _ _ Bc N1 Hv) as (_ & Q). rewrite Sg in Q.
    apply (rl_val _ _ _ _ _ R r v Hr). apply Rd; tauto.
  - assert (Ph : forall r i, e (S c) r = Some (val_insn i) -> exists x v z, In i ph2 /\ f_insn f i = Some x /\ i_op x = PHI /\
      incoming x (S b0) = Some v /\ seval bi (s_env t) v = Some z /\ (0 <= z < 2 ^ 64)%Z /\ (d r = false -> z = rget st r)).
    { intros r i Hv. destruct (iv_ent _ _ _ _ _ Hinv _ _ _ _ Bc N1 Hv) as (Hr & Q). rewrite Sg in Q.
      destruct Q as (j & Ej & x & k & E & O & Pa & Bk & Ik & [[]|C]). injection Ej as <-. rewrite (Hseal _ _ Bc N1) in C.
      destruct (complete_incoming _ _ _ _ C Ip) as (v & Inc & Rv).
      destruct (rl_val _ _ _ _ _ R r v Hr (Rd _ _ Hr Rv)) as (z & Z1 & Z2 & Z3).
      exists x, v, z. repeat (split; [|auto]); auto.
      rewrite (bi_blk _ _ _ _ _ _ _ _ _ H2) in Bk. injection Bk as <-. cbn in Ik. apply in_app_or in Ik as [Ik|Ik]; [exact Ik|].
      destruct (Hi i Ik) as (y & Ey & Ny). congruence. }
    destruct (sphis_run (S b0) t id2 Hi ph2 t) as (t1 & K1 & K2 & K3 & K4 & K5).
    { intros i Ii. destruct (bi_phs _ _ _ _ _ _ _ _ _ H2 i Ii) as (_ & r & _ & _ & _ & Hr & Hv).
      destruct (Ph r i Hv) as (x & v & z & P1 & P2 & P3 & P4 & P5 & _). eauto 10. }
    exists pc, ph2, id2, m2, t1. split; [exact Bc|]. split; [exact H2|]. split; [exact K1|].
    constructor.
    + intros r v Hr Hv. destruct (iv_ent _ _ _ _ _ Hinv _ _ _ _ Bc N1 Hv) as (_ & Q). rewrite Sg in Q. destruct Q as (i & -> & _).
      destruct (Ph r i Hv) as (x & v & z & P1 & P2 & P3 & P4 & P5 & P6 & P7). exists z.
      split; [|split; [exact P6 | exact P7]]. cbn [seval val_insn v_data].
      rewrite (K5 i x v z P1 P2 P4 P5). f_equal. apply u64_small. exact P6.
    + rewrite K4; [apply R|]. intros X. pose proof (bi_ge _ _ _ _ _ _ _ _ _ H2 sp_id (in_or_app _ _ _ (or_introl X))) as G. unfold sp_id in G. lia.
    + rewrite K2. apply R.
    + rewrite K3. apply R.
    + apply R.
Qed.

Lemma ent_start st t prev : st_ok st -> bs <> [] -> enters st t sp_id arg_id -> ent prev 1 t st clean.
Proof.
  intros O Ne (E1 & E2 & E3 & E4).
  assert (B : exists pb, blk bs 1 = Some pb) by (destruct bs; [congruence | cbn; eauto]). destruct B as [pb B].
  destruct (block_facts _ _ B) as (phs & ids & m & H & _). exists pb, phs, ids, m, t.
  assert (phs = []).
  { destruct phs as [|i phs]; [reflexivity|]. exfalso.
    destruct (bi_phs _ _ _ _ _ _ _ _ _ H i (or_introl eq_refl)) as (x & r & _ & _ & _ & _ & Hv).
    pose proof (bi_ge _ _ _ _ _ _ _ _ _ H i (or_introl eq_refl)) as G.
    rewrite (iv_e1 _ _ _ _ _ Hinv) in Hv. destruct ((1 <=? r) && (r <=? 5))%Z eqn:K; [|discriminate]. injection Hv as <-.
    unfold arg_id in G. apply andb_true_iff in K as [K1 K2]. lia. }
  subst phs. split; [exact B|]. split; [exact H|]. split.
  - apply sphis_stop. intros i Hi. destruct (bi_ids _ _ _ _ _ _ _ _ _ H i Hi) as (x & E & N & _). eauto.
  - constructor; auto. intros r v Hr Hv. rewrite (iv_e1 _ _ _ _ _ Hinv) in Hv. destruct ((1 <=? r) && (r <=? 5))%Z eqn:K; [|discriminate]. injection Hv as <-.
    exists (rget st r). cbn [seval val_insn v_data]. apply andb_true_iff in K as [K1 K2].
    split; [apply E2; lia|]. split; [apply rget_range; exact O | reflexivity].
Qed.

(** ** Running a block *)
Lemma block_step prev b t st d pb : ent prev b t st d -> blk bs b = Some pb ->
  let L := length (pb_insns pb) in let q := Z.of_nat (pb_start pb) in let o := gsblock Rg w bi f prev b t in
  0 < L /\
  (ends_ret L q st d o \/ ends_none L q st d \/
   exists B pb' st' d' t', blk bs B = Some pb' /\
     (forall n, L <= n -> gcrun Rg w ar p n q st d = gcrun Rg w ar p (n - L) (Z.of_nat (pb_start pb')) st' d') /\
     o = Some (SJmp B t') /\ ent b B t' st' d').
Proof.
  intros (pb0 & phs & ids & m & t1 & B0 & H & Sp & R) B L q o. rewrite B in B0. injection B0 as <-.
  destruct (blk_in _ _ B) as (Ib & _ & Nb). destruct (bo_code _ _ Hbo pb Ib) as [Cd Ne].
  split; [unfold L; destruct (pb_insns pb); [congruence | cbn; lia]|].
  assert (Lf : lifts_l f bs b (e b) (pb_insns pb) ids m).
  { pose proof (bi_lifts _ _ _ _ _ _ _ _ _ H) as X. unfold done in X.
    now rewrite (iv_fill _ _ _ _ _ Hinv _ _ B (Hfill _ _ B)) in X. }
  assert (Nd : NoDup ids).
  { pose proof (bi_nodup _ _ _ _ _ _ _ _ _ H) as X. clear -X. induction phs; [exact X|]. cbn in X. inversion X; auto. }
  assert (Ob : o = (let? r := gsbody Rg w bi f t1 ids in match r with
     | SNext s2 => match map S (pb_succs pb) with b' :: _ => Some (SJmp b' s2) | [] => None end | _ => Some r end)).
  { unfold o, gsblock. rewrite (bi_blk _ _ _ _ _ _ _ _ _ H). cbn [obind b_insns b_succs]. rewrite Sp. reflexivity. }
  rewrite Ob.
  destruct (body_sim b pb B (pb_insns pb) (pb_start pb) ids (e b) m t1 st d Cd (le_n _) Lf
    (fun z Hz => ent_fresh _ _ _ _ _ _ B H Hz) Nd R) as [K|[K|[K|K]]].
  - intros l0 x E. exists l0, x. auto.
  - left. destruct K as (r & s2 & d2 & t2 & K1 & K2 & K3 & K4). exists r, s2, d2, t2. rewrite K2. cbn [obind]. auto.
  - right; right. destruct K as (c & pbc & s2 & d2 & t2 & K0 & K1 & K2 & K3 & K4).
    exists (S c), pbc, s2, d2, t2. split; [exact K1|]. split; [exact K2|]. rewrite K3. cbn [obind]. split; [reflexivity|].
    eapply ent_edge; eauto.
  - right; right. destruct K as (s2 & d2 & t2 & K1 & K2 & K3 & K4). rewrite K2. cbn [obind].
    assert (Ls : pb_start pb < pb_end pb).
    { pose proof (code_of_le _ _ _ _ Cd). destruct (Nat.eq_dec (pb_start pb) (pb_end pb)) as [E|E]; [|lia].
      exfalso. apply Ne. rewrite E in Cd. inversion Cd; subst; auto; match goal with X : code_of _ _ _ _ |- _ => apply code_of_le in X; lia end. }
    destruct (code_of_last _ _ _ _ Cd Ls) as (l0 & x & i & E & Ai & Lx & Nz & Ee).
    assert (Nx : next_pcs i (Z.of_nat (pi_pos x)) = [Z.of_nat (pb_end pb)]).
    { destruct (K4 (pi_pos x) i Ai ltac:(lia) Nz) as [NJ NX]. unfold next_pcs.
      destruct (Z.eqb_spec (b_code i) 5) as [X|_]; [exfalso; apply NJ; now left|].
      destruct (two_way (b_code i)) eqn:Tw; [exfalso; apply NJ; now right|].
      destruct (Z.eqb_spec (b_code i) 0x95) as [X|_]; [contradiction|].
      destruct Ee as [[X Ee]|[X Ee]].
      - destruct (Z.eqb_spec (b_code i) 24); [contradiction|]. f_equal. lia.
      - rewrite X. cbn [Z.eqb Pos.eqb]. f_equal. lia. }
    assert (Lp : last_pos pb (pi_pos x)) by (exists l0, x; auto).
    destruct (eo_total _ _ Heo pb (pi_pos x) i (Z.of_nat (pb_end pb)) Ib Lp Ai) as (B1 & IB & SB); [rewrite Nx; now left|].
    apply In_nth_error in IB as [c1 IB].
    pose proof (proj2 (eo_succ _ _ Heo _ _ _ _ _ _ Nb IB Lp Ai)) as Hs. rewrite Nx, <- SB in Hs. specialize (Hs (or_introl eq_refl)).
    destruct (pb_succs pb) as [|c cs] eqn:Es; [destruct Hs|]. cbn [map].
    destruct (succ_blk b pb c B) as [pbc Bc]; [rewrite Es; now left|].
    pose proof (proj1 (eo_succ _ _ Heo _ c _ pbc _ _ Nb Bc Lp Ai)) as Hs2. rewrite Es, Nx in Hs2. specialize (Hs2 (or_introl eq_refl)).
    destruct Hs2 as [Hs2|[]].
    exists (S c), pbc, s2, d2, t2. split; [exact Bc|]. rewrite <- Hs2. split; [exact K1|]. split; [reflexivity|].
    eapply ent_edge; eauto. rewrite Es. now left.
  - right; left. exact K.
Qed.

Lemma crun_exit n : forall pc st d r st' d' n', gcrun Rg w ar p n pc st d = Some (IExit r st', d') -> n <= n' ->
  gcrun Rg w ar p n' pc st d = Some (IExit r st', d').
Proof.
  induction n as [|n IH]; intros pc st d r st' d' n' H Hn; cbn [gcrun] in H; [discriminate|].
  destruct n' as [|n']; [lia|]. cbn [gcrun]. destruct (fetch p pc); [|discriminate]. destruct (existsb _ _); [discriminate|]. destruct (iquiet _ _ _); [|discriminate].
  destruct (isa_step w p pc st); try assumption. apply IH; auto. lia.
Qed.

Lemma run_exit n : forall prev b t st d pb r st' d', ent prev b t st d -> blk bs b = Some pb ->
  gcrun Rg w ar p n (Z.of_nat (pb_start pb)) st d = Some (IExit r st', d') ->
  exists k t', gsrun Rg w bi f k prev b t = Some (ORet r t') /\ s_mem t' = mem st' /\ s_nc t' = ncall st'.
Proof.
  induction n as [n IH] using lt_wf_ind. intros prev b t st d pb r st' d' En B Hr.
  destruct (block_step _ _ _ _ _ _ En B) as [Lp [K|[K|K]]].
  - destruct K as (r1 & s1 & d1 & t1 & K1 & K2 & K3 & K4).
    specialize (K1 (n + length (pb_insns pb)) ltac:(lia)).
    rewrite (crun_exit _ _ _ _ _ _ _ (n + length (pb_insns pb)) Hr) in K1 by lia. injection K1 as <- <- <-.
    exists 1, t1. cbn [gsrun]. rewrite K2. cbn [obind]. auto.
  - specialize (K (n + length (pb_insns pb)) ltac:(lia)).
    rewrite (crun_exit _ _ _ _ _ _ _ (n + length (pb_insns pb)) Hr) in K by lia. discriminate.
  - destruct K as (B' & pb' & s1 & d1 & t1 & Bb & K1 & K2 & K3).
    destruct (le_lt_dec (length (pb_insns pb)) n) as [Ln|Ln].
    + rewrite (K1 n Ln) in Hr.
      destruct (IH (n - length (pb_insns pb)) ltac:(lia) _ _ _ _ _ _ _ _ _ K3 Bb Hr) as (k & t2 & J1 & J2).
      exists (S k), t2. split; [|exact J2]. cbn [gsrun]. rewrite K2. cbn [obind]. exact J1.
    + specialize (K1 _ (le_n _)). rewrite (crun_exit _ _ _ _ _ _ _ _ Hr (Nat.lt_le_incl _ _ Ln)) in K1.
      rewrite Nat.sub_diag in K1. discriminate K1.
Qed.

Lemma run_any k : forall prev b t st d pb, ent prev b t st d -> blk bs b = Some pb ->
  (forall n, gcrun Rg w ar p n (Z.of_nat (pb_start pb)) st d <> None) ->
  (exists prev' b' t', gsrun Rg w bi f k prev b t = Some (OAt prev' b' t')) \/
  (exists n r st' d' t', gcrun Rg w ar p n (Z.of_nat (pb_start pb)) st d = Some (IExit r st', d') /\
     gsrun Rg w bi f k prev b t = Some (ORet r t') /\ s_mem t' = mem st' /\ s_nc t' = ncall st').
Proof.
  induction k as [|k IH]; intros prev b t st d pb En B Hs; [left; cbn; eauto|].
  destruct (block_step _ _ _ _ _ _ En B) as [Lp [K|[K|K]]].
  - destruct K as (r1 & s1 & d1 & t1 & K1 & K2 & K3 & K4). right. exists (length (pb_insns pb)), r1, s1, d1, t1.
    split; [now apply K1|]. cbn [gsrun]. rewrite K2. cbn [obind]. auto.
  - exfalso. exact (Hs _ (K _ (le_n _))).
  - destruct K as (B' & pb' & s1 & d1 & t1 & Bb & K1 & K2 & K3). cbn [gsrun]. rewrite K2. cbn [obind].
    destruct (IH b B' t1 s1 d1 pb' K3 Bb) as [J|J].
    + intros n. specialize (K1 (n + length (pb_insns pb)) ltac:(lia)). rewrite Nat.add_sub in K1. rewrite <- K1. apply Hs.
    + left. exact J.
    + right. destruct J as (n & r & s2 & d2 & t2 & J1 & J2). exists (n + length (pb_insns pb)), r, s2, d2, t2.
      split; [|exact J2]. rewrite K1 by lia. rewrite Nat.add_sub. exact J1.
Qed.
End Run.
