(** Lifted functions are strict. *)
From Coq Require Import ZArith List Bool Arith Lia.
From Verif Require Import SpecWord SpecIsa SpecFlat SpecCfg SpecLift SpecLiftOne SpecIr SpecEdit SpecSsa M_Base M_Ir M_Edit M_GenBB M_Lift
  L_Word L_Edit L_GenBB L_GenBBEx L_Lift L_LiftRead L_LiftFill L_LiftDfs L_LiftSim L_LiftRun L_LiftMain L_LiftSafe L_LiftTerm L_LiftAcc L_LiftProp L_LiftEx SpecPass SpecStrict.
Import ListNotations.
Open Scope nat_scope.

Lemma code_pre p q e0 pi l : code_of p q e0 (pi :: l) -> exists i q', pre_of p q i q' pi /\ code_of p q' e0 l /\ at_pos p q i /\ q < q'.
Proof.
  intros H. inversion H; subst.
  - exists i, (S q). split; [left; exists i'; auto 10|]. repeat split; auto.
  - exists i, (S (S q)). split; [right; exists j; auto 10|]. repeat split; auto.
Qed.
Section Strict.
Variables (p : list bpf_insn) (bs : list pblock).
Hypothesis W : wf_prog p.
Hypothesis Hbo : blocks_of p bs.
Hypothesis Heo : edges_of p bs.
Variable s : lst.
Variable e : nat -> regmap.
Variable dn : nat -> option (list pre_insn).
Hypothesis Hinv : inv bs e dn noX s.
Hypothesis Hfill : forall b pb, blk bs b = Some pb -> l_fill s b = true.
Hypothesis Hseal : forall b pb, blk bs b = Some pb -> l_seal s b = true.
Hypothesis Hentry : forall pb, blk bs 1 = Some pb -> pb_preds pb = [].
Notation f := (l_f s).
Hypothesis Hdead : forall b, blk bs b = None -> f_block f b = None.

(** ** Jumps go to successors *)
Definition jumps_to (x : insn) (c : nat) : Prop :=
  i_op x = JA /\ c = i_bb1 x \/ exists o, cmp_op_of (i_op x) = Some o /\ (c = i_bb1 x \/ c = i_bb2 x).
Lemma like_get i y x : like f i y -> f_insn f i = Some x -> sim_i x y.
Proof. intros (z & E & S) H. rewrite E in H. injection H as ->. exact S. Qed.
Lemma jumps_sim x y c : sim_i x y -> jumps_to x c -> jumps_to y c.
Proof.
  unfold sim_i, jumps_to. destruct x, y; cbn. intros E. injection E as -> -> -> -> -> -> -> -> -> -> -> ->. auto.
Qed.
Lemma lifts_jump b m pi ids m' i x c : lifts f bs b m pi ids m' -> In i ids -> f_insn f i = Some x -> jumps_to x c ->
  jmp_cls (pi_code pi) = true /\
  (opn (pi_code pi) = 0%Z /\ bb_from bs (Z.of_nat (pi_pos pi) + pi_off pi + 1) = Ok c \/
   exists o, cond_of (opn (pi_code pi)) = Some o /\
     (bb_from bs (Z.of_nat (pi_pos pi) + pi_off pi + 1) = Ok c \/ bb_from bs (Z.of_nat (pi_pos pi) + 1) = Ok c)).
Proof.
  intros L I Hx J. inversion L; subst; try (destruct I; fail); destruct I as [<-|[]];
    match goal with H : like f _ _ |- _ => pose proof (jumps_sim _ _ _ (like_get _ _ _ H Hx) J) as K; cbn in K; clear J end.
  - destruct K as [[K _]|(o' & K & _)]; cbn in K.
    + unfold bin_of in H0. repeat match type of H0 with (if ?q then _ else _) = _ => destruct q; [injection H0 as <-; discriminate K|] end; try discriminate H0.
    + unfold bin_of in H0. repeat match type of H0 with (if ?q then _ else _) = _ => destruct q; [injection H0 as <-; discriminate K|] end; try discriminate H0.
  - exfalso. destruct H0 as [(_ & _ & -> & _)|(_ & _ & -> & _)]; destruct K as [[K _]|(o' & K & _)]; cbn in K; try discriminate K; destruct (src_x _); discriminate K.
  - exfalso. destruct K as [[K _]|(o' & K & _)]; discriminate K.
  - exfalso. destruct K as [[K _]|(o' & K & _)]; discriminate K.
  - exfalso. destruct K as [[K _]|(o' & K & _)]; discriminate K.
  - split; [assumption|]. left. destruct K as [[_ ->]|(o' & K & _)]; [auto|discriminate K].
  - exfalso. destruct K as [[K _]|(o' & K & _)]; discriminate K.
  - split; [assumption|]. right. exists o. split; [assumption|]. destruct K as [[K _]|(o' & K & [-> | ->])]; cbn in *; auto.
    exfalso. match goal with C : cond_of _ = Some o |- _ => destruct (cond_cmp _ _ C) as (a & _ & A & _) end. rewrite K in A. discriminate A.
  - exfalso. destruct H2 as [(-> & _)|(-> & _)]; destruct K as [[K _]|(o' & K & _)]; discriminate K.
Qed.
Lemma code_jump q i e0 pi c : pre_of p q i e0 pi -> jmp_cls (pi_code pi) = true ->
  (opn (pi_code pi) = 0%Z /\ bb_from bs (Z.of_nat (pi_pos pi) + pi_off pi + 1) = Ok c \/
   exists o, cond_of (opn (pi_code pi)) = Some o /\
     (bb_from bs (Z.of_nat (pi_pos pi) + pi_off pi + 1) = Ok c \/ bb_from bs (Z.of_nat (pi_pos pi) + 1) = Ok c)) ->
  is_jump i /\ exists pc pb, In pc (next_pcs i (Z.of_nat q)) /\ blk bs c = Some pb /\ pc = Z.of_nat (pb_start pb).
Proof.
  intros [(i' & A & S & N24 & N0 & -> & ->)|(j & A & C24 & A2 & C0 & -> & ->)] JC H; cbn [pi_code pi_pos pi_off] in *.
  2:{ discriminate JC. }
  destruct S as [-> |(TW & O0 & ->)]; cbn [b_code b_off] in *.
  - destruct H as [(O & Bf)|(o & Co & Bf)].
    + assert (C5 : b_code i = 5%Z).
      { assert (CL : (b_code i mod 8 = 5 \/ b_code i mod 8 = 6)%Z).
        { unfold jmp_cls, cls in JC. apply orb_true_iff in JC as [Q|Q]; apply Z.eqb_eq in Q; auto. }
        destruct (wf_jmp _ W _ _ A CL) as [Q|[Q|[Q|Q]]]; [exact Q|rewrite Q in O; discriminate O|rewrite Q in O; discriminate O|].
        unfold two_way in Q. apply andb_true_iff in Q as [_ Q]. cbv zeta in Q. unfold opn in O. rewrite O in Q. discriminate Q. }
      destruct (bb_from_ok ar_table bs ar_agrees _ _ Bf) as (pb & Q1 & Q2). split; [left; exact C5|]. exists (Z.of_nat (pb_start pb)), pb. repeat split; auto.
      unfold next_pcs. rewrite C5. left. lia.
    + pose proof (two_way_of ar_table ar_agrees _ _ JC Co) as TW. split; [right; exact TW|].
      destruct Bf as [Bf|Bf]; destruct (bb_from_ok ar_table bs ar_agrees _ _ Bf) as (pb & Q1 & Q2); exists (Z.of_nat (pb_start pb)), pb; repeat split; auto;
        unfold next_pcs; (destruct (Z.eqb_spec (b_code i) 5) as [X|_]; [rewrite X in TW; discriminate TW|]); rewrite TW; [left; lia|right; left; lia].
  - destruct H as [(O & Bf)|(o & Co & _)]; [|discriminate Co].
    destruct (bb_from_ok ar_table bs ar_agrees _ _ Bf) as (pb & Q1 & Q2). split; [right; exact TW|]. exists (Z.of_nat (pb_start pb)), pb. repeat split; auto.
    unfold next_pcs. destruct (Z.eqb_spec (b_code i) 5) as [X|_]; [rewrite X in TW; discriminate TW|]. rewrite TW. right. left. lia.
Qed.
Lemma body_jump b pb : blk bs b = Some pb -> forall l q ids mm m,
  code_of p q (pb_end pb) l -> pb_start pb <= q -> lifts_l f bs b mm l ids m ->
  (forall l0 x, l = l0 ++ [x] -> last_pos pb (pi_pos x)) ->
  forall i x c, In i ids -> f_insn f i = Some x -> jumps_to x c -> exists c0, c = S c0 /\ In c0 (pb_succs pb).
Proof.
  intros B. induction l as [|pi l IH]; intros q ids mm m Hc Hq Hl Hlast i x c I Hx J.
  - inversion Hl; subst. destruct I.
  - inversion Hl as [|? ? ? i1 i2 m1 ? H1 H2]; subst. destruct (code_pre _ _ _ _ _ Hc) as (bi & q' & Pr & Hc' & Pi & Lq).
    apply in_app_or in I as [I|I].
    + destruct (lifts_jump _ _ _ _ _ _ _ _ H1 I Hx J) as (JC & K). destruct (code_jump _ _ _ _ _ Pr JC K) as (IJ & pc & pbt & Ip & Bb & Pc).
      destruct (blk_in bs _ _ B) as (Ib & _ & Nb). pose proof (code_of_le _ _ _ _ Hc') as Le.
      assert (En : S q = pb_end pb).
      { apply (bo_last _ _ Hbo pb q bi Ib Pi); [lia|]. destruct IJ as [IJ|IJ]; auto. }
      assert (l = []). { inversion Hc'; subst; auto; match goal with X : code_of _ _ _ _ |- _ => apply code_of_le in X; lia end. }
      subst l.
      assert (Lp : last_pos pb q).
      { replace q with (pi_pos pi); [apply (Hlast []); reflexivity|].
        destruct Pr as [(i' & _ & _ & _ & _ & _ & ->)|(j & _ & _ & _ & _ & _ & ->)]; reflexivity. }
      destruct (blk_in bs _ _ Bb) as (_ & EB & NB). exists (pred c). split; [exact EB|].
      apply (eo_succ _ _ Heo (pred b) (pred c) pb pbt q bi Nb NB Lp Pi). now rewrite <- Pc.
    + apply (IH q' i2 m1 m Hc' ltac:(lia) H2) with (i := i) (x := x); auto. intros l0 y ->. apply (Hlast (pi :: l0)). reflexivity.
Qed.
Lemma goes_succ b c : SpecPass.goes f b c -> exists pb c0, blk bs b = Some pb /\ c = S c0 /\ In c0 (pb_succs pb).
Proof.
  intros G. assert (HB : exists pb, blk bs b = Some pb).
  { assert (K : f_block f b <> None).
    { intros K. destruct G as [i x I|i x o I|i x o I|c l I]; try (unfold insns_of in I; rewrite K in I; destruct I; fail). unfold succs_of in I. rewrite K in I. discriminate I. }
    destruct (blk bs b) as [pb|] eqn:Q; [eauto|]. exfalso. apply K. exact (Hdead b Q). }
  destruct HB as (pb & B). exists pb.
  destruct (iv_blk _ _ _ _ _ Hinv _ _ B) as (phs & ids & m & H).
  pose proof (bi_lifts _ _ _ _ _ _ _ _ _ H) as L. unfold done in L. rewrite (iv_fill _ _ _ _ _ Hinv _ _ B (Hfill _ _ B)) in L.
  destruct (blk_in bs _ _ B) as (Ib & _ & _). destruct (bo_code _ _ Hbo pb Ib) as [Cd _].
  assert (EI : insns_of f b = phs ++ ids) by (unfold insns_of; now rewrite (bi_blk _ _ _ _ _ _ _ _ _ H)).
  assert (J : forall i x, In i (insns_of f b) -> f_insn f i = Some x -> jumps_to x c -> exists c0, blk bs b = Some pb /\ c = S c0 /\ In c0 (pb_succs pb)).
  { intros i x I Hx JT. rewrite EI in I. apply in_app_or in I as [I|I].
    - exfalso. destruct (bi_phs _ _ _ _ _ _ _ _ _ H i I) as (y & r & Hy & O & _). assert (y = x) by congruence. subst y. destruct JT as [[K _]|(o & K & _)]; rewrite O in K; discriminate K.
    - destruct (body_jump b pb B (pb_insns pb) (pb_start pb) ids (e b) m Cd (le_n _) L) with (i := i) (x := x) (c := c) as (c0 & K); auto.
      intros l0 y E. exists l0, y. auto. exists c0. split; [exact B|exact K]. }
  destruct G as [i x I Hx O|i x o I Hx O|i x o I Hx O|c l SU].
  - apply (J i x I Hx). left. auto.
  - apply (J i x I Hx). right. eauto.
  - apply (J i x I Hx). right. eauto.
  - unfold succs_of in SU. rewrite (bi_blk _ _ _ _ _ _ _ _ _ H) in SU. cbn in SU. destruct (pb_succs pb) as [|c0 r] eqn:Q; [discriminate SU|]. cbn in SU. injection SU as <- _.
    exists c0. split; [exact B|]. split; [reflexivity|now left].
Qed.

Lemma succ_blk' b pb c : blk bs b = Some pb -> In c (pb_succs pb) -> exists pc, blk bs (S c) = Some pc.
Proof.
  intros H Hc. destruct (blk_in bs _ _ H) as (I & _ & _). pose proof (eo_range _ _ Heo pb c I (or_introl Hc)) as L. cbn.
  destruct (nth_error bs c) eqn:E; [eauto|]. apply nth_error_None in E. lia.
Qed.

Lemma code_of_at q0 e0 l pi : code_of p q0 e0 l -> In pi l -> exists i e1, pre_of p (pi_pos pi) i e1 pi.
Proof.
  induction 1 as [|q0 e0 i i' l A B C D K IH|q0 e0 i j l A B C D K IH]; intros I; [destruct I| |]; (destruct I as [<-|I]; [|now apply IH]); cbn [pi_pos].
  - exists i, (S q0). left. exists i'. auto 10.
  - exists i, (S (S q0)). right. exists j. auto 10.
Qed.

(** ** Operands *)
Lemma ops_sim x y : sim_i x y -> operand_values x = operand_values y.
Proof. unfold sim_i, operand_values. destruct x, y; cbn. intros E. injection E as -> -> -> -> -> -> -> -> -> -> -> ->. reflexivity. Qed.
Lemma op_sim x y : sim_i x y -> i_op x = i_op y.
Proof. unfold sim_i. destruct x, y; cbn. intros E. now injection E as -> -> -> -> -> -> -> -> -> -> -> ->. Qed.
Definition from (m : regmap) (v : value) (d : nat) : Prop := d = sp_id \/ exists r, m r = Some v.
Lemma regv_from m r v d : regv m r = Some v -> v_data v = VInsn d -> from m v d.
Proof. unfold regv, from. destruct (r =? 10)%Z; [|eauto]. intros E D. injection E as <-. cbn in D. injection D as <-. auto. Qed.
Lemma srcv_from m pi v d : srcv m pi = Some v -> v_data v = VInsn d -> from m v d.
Proof. unfold srcv. destruct (src_x _); [apply regv_from|]. intros E D. injection E as <-. discriminate D. Qed.
Lemma argv_from m v d : v_data v = VInsn d -> forall k j l, argv m j k = Some l -> In v l -> from m v d.
Proof.
  intros D. induction k as [|k IH]; intros j l E I; cbn [argv] in E; [injection E as <-; destruct I|].
  destruct (regv m _) as [u|] eqn:R; [|discriminate E]. destruct (argv m (S j) k) as [t|] eqn:A; [|discriminate E]. injection E as <-.
  destruct I as [<-|I]; [eapply regv_from; eassumption|eapply IH; eassumption].
Qed.
Lemma lifts_ops b m pi ids m' u x v d : lifts f bs b m pi ids m' -> In u ids -> f_insn f u = Some x -> In v (operand_values x) -> v_data v = VInsn d -> from m v d.
Proof.
  intros L I Hx V D. inversion L; subst; try (destruct I; fail); destruct I as [<-|[]];
    match goal with H : like f _ _ |- _ => rewrite (ops_sim _ _ (like_get _ _ _ H Hx)) in V end.
  - assert (V' : v = v1 \/ v = v2).
    { unfold operand_values in V. cbn in V. destruct V as [<-|[<-|V]]; auto. exfalso.
      match goal with C : bin_of _ = Some o |- _ => destruct (bin_alu _ _ C) as (a & _ & A & _) end. destruct o; discriminate A || destruct V. }
    destruct V' as [->| ->]; [eapply regv_from; eassumption|eapply srcv_from; eassumption].
  - assert (v = v0).
    { unfold operand_values in V. cbn in V. destruct V as [<-|V]; auto. exfalso.
      destruct H0 as [(_ & _ & -> & _)|(_ & _ & -> & _)]; [destruct (src_x _)|]; destruct V. }
    subst v0. eapply regv_from; eassumption.
  - destruct V.
  - cbn in V. destruct V as [<-|[]]. eapply regv_from; eassumption.
  - cbn in V. destruct V as [<-|[<-|[]]]; [|eapply regv_from; eassumption].
    destruct H0 as [(_ & ->)|(_ & K)]; [discriminate D|eapply regv_from; eassumption].
  - destruct V.
  - cbn in V. destruct V as [<-|[]]. eapply regv_from; eassumption.
  - assert (V' : v = v1 \/ v = v2).
    { unfold operand_values in V. cbn in V. destruct V as [<-|[<-|V]]; auto. exfalso.
      match goal with C : cond_of _ = Some o |- _ => destruct (cond_cmp _ _ C) as (a & _ & A & _) end. destruct o; discriminate A || destruct V. }
    destruct V' as [->| ->]; [eapply regv_from; eassumption|eapply srcv_from; eassumption].
  - assert (V' : In v vs).
    { unfold operand_values in V. cbn in V. apply in_app_or in V as [V|V]; auto. exfalso.
      match goal with C : _ \/ _ |- _ => destruct C as [(-> & _)|(-> & _)] end; destruct V. }
    eapply argv_from; eassumption.
Qed.
Lemma lifts_l_ops b m l ids m' : lifts_l f bs b m l ids m' -> forall u x v d, In u ids -> f_insn f u = Some x -> In v (operand_values x) -> v_data v = VInsn d ->
  precedes d u ids \/ from m v d.
Proof.
  induction 1 as [m m' E|m pi l i1 i2 mb m' H1 H2 IH]; intros u x v d I Hx V D; [destruct I|].
  apply in_app_or in I as [I|I]; [right; eapply lifts_ops; eassumption|].
  destruct (IH u x v d I Hx V D) as [(l1 & l2 & l3 & ->)|[->|(r & M)]].
  - left. exists (i1 ++ l1), l2, l3. now rewrite app_assoc.
  - right. now left.
  - destruct (lifts_vals bs s _ _ _ _ _ _ _ _ H1 M D) as [K|[K|K]]; [|right; now left|right; now right].
    left. apply in_split in K as (a1 & a2 & ->). apply in_split in I as (b1 & b2 & ->). exists a1, (a2 ++ b1), b2. now rewrite <- !app_assoc.
Qed.
(** Operations lifted instructions have. *)
Definition lifted_op (o : iop) : bool :=
  match o with
  | LOADIMM_EXTRA | STORERAW | LOADRAW | NEG | HTOLE | HTOBE | JA | RET | CALL | ECALL => true
  | _ => match alu_op_of o, cmp_op_of o with None, None => false | _, _ => true end
  end.
Lemma lifts_op b m pi ids m' u x : lifts f bs b m pi ids m' -> In u ids -> f_insn f u = Some x ->
  lifted_op (i_op x) = true /\ (i_op x = ECALL -> jmp_cls (pi_code pi) = true /\ opn (pi_code pi) = 8%Z /\ pi_src pi = 6%Z).
Proof.
  intros L I Hx. inversion L; subst; try (destruct I; fail); destruct I as [<-|[]];
    match goal with H : like f _ _ |- _ => rewrite (op_sim _ _ (like_get _ _ _ H Hx)) end; cbn; try (split; [reflexivity|discriminate]).
  - match goal with C : bin_of _ = Some _ |- _ => destruct (bin_alu _ _ C) as (a & _ & A & _) end. split; [|intros ->; discriminate A]. unfold lifted_op. rewrite A. destruct o; reflexivity.
  - destruct H0 as [(_ & _ & -> & _)|(_ & _ & -> & _)]; [destruct (src_x _)|]; split; try reflexivity; discriminate.
  - match goal with C : cond_of _ = Some _ |- _ => destruct (cond_cmp _ _ C) as (a & _ & A & _) end. split; [|intros ->; discriminate A]. unfold lifted_op. rewrite A. destruct o; reflexivity.
  - match goal with C : _ \/ _ |- _ => destruct C as [(-> & C)|(-> & _)] end; split; try reflexivity; [auto|discriminate].
Qed.
Lemma lifts_l_op b m l ids m' : lifts_l f bs b m l ids m' -> forall u x, In u ids -> f_insn f u = Some x ->
  lifted_op (i_op x) = true /\ (i_op x = ECALL -> exists pi, In pi l /\ jmp_cls (pi_code pi) = true /\ opn (pi_code pi) = 8%Z /\ pi_src pi = 6%Z).
Proof.
  induction 1 as [m m' E|m pi l i1 i2 mb m' H1 H2 IH]; intros u x I Hx; [destruct I|].
  apply in_app_or in I as [I|I].
  - destruct (lifts_op _ _ _ _ _ _ _ H1 I Hx) as [A B]. split; [exact A|]. intros O. exists pi. split; [now left|auto].
  - destruct (IH u x I Hx) as [A B]. split; [exact A|]. intros O. destruct (B O) as (q & Q & R). exists q. split; [now right|exact R].
Qed.

(** ** Values in registers have been computed on the way *)
Hypothesis Hlink : linked_ok f.
Hypothesis Hhas : forall i x, 7 <= i -> f_insn f i = Some x -> In i (insns_of f (i_parent x)).
Hypothesis Hge : forall b i, In i (insns_of f b) -> 7 <= i.
Hypothesis Hone : f_entry f = 1.
Hypothesis Hbase : forall i, 1 <= i < 7 -> exists l, f_insn f i = option_map (set_users l) (init_insns i).
Hypothesis Hlive : forall i, f_insn f i <> None <-> 1 <= i < f_ni f.

Lemma facts b pb : blk bs b = Some pb -> exists phs ids m, binv bs e dn s b pb phs ids m /\ lifts_l f bs b (e b) (pb_insns pb) ids m /\ insns_of f b = phs ++ ids.
Proof.
  intros B. destruct (iv_blk _ _ _ _ _ Hinv _ _ B) as (phs & ids & m & H). exists phs, ids, m. split; [exact H|]. split.
  - pose proof (bi_lifts _ _ _ _ _ _ _ _ _ H) as L. unfold done in L. now rewrite (iv_fill _ _ _ _ _ Hinv _ _ B (Hfill _ _ B)) in L.
  - unfold insns_of. now rewrite (bi_blk _ _ _ _ _ _ _ _ _ H).
Qed.
Lemma no_phi_1 pb phs ids m : blk bs 1 = Some pb -> binv bs e dn s 1 pb phs ids m -> phs = [].
Proof.
  intros B H. destruct phs as [|i phs]; [reflexivity|]. exfalso.
  destruct (bi_phs _ _ _ _ _ _ _ _ _ H i (or_introl eq_refl)) as (x & r & _ & _ & _ & _ & Hv).
  pose proof (bi_ge _ _ _ _ _ _ _ _ _ H i (or_introl eq_refl)) as G.
  rewrite (iv_e1 _ _ _ _ _ Hinv) in Hv. destruct ((1 <=? r) && (r <=? 5))%Z eqn:K; [|discriminate]. injection Hv as <-.
  unfold arg_id in G. apply andb_true_iff in K as [K1 K2]. lia.
Qed.
Definition placed_on (d : nat) (l : list nat) : Prop := forall c, In d (insns_of f c) -> In c l.
Lemma small_placed d l : d < 7 -> placed_on d l.
Proof. intros L c I. apply Hge in I. lia. Qed.
Lemma ids_placed d b l : In d (insns_of f b) -> In b l -> placed_on d l.
Proof. intros I J c K. destruct (Hlink b d I) as (x & Hx & P). destruct (Hlink c d K) as (y & Hy & Q). congruence. Qed.
Lemma ent_avail b q l r v d : rpath f (b :: q :: l) -> (forall r v d, regok r -> rdv s q r = Some v -> v_data v = VInsn d -> placed_on d (q :: l)) ->
  e b r = Some v -> v_data v = VInsn d -> placed_on d (q :: l) \/ (In d (insns_of f b) /\ exists x, f_insn f d = Some x /\ i_op x = PHI).
Proof.
  intros RP AV E D. inversion RP as [|? ? ? RQ G]; subst. destruct (goes_succ q b G) as (pq & c0 & BQ & -> & C).
  destruct (succ_blk' q pq c0 BQ C) as (pb & B). destruct (edge_sym p bs Heo q pq c0 pb BQ B C) as (q0 & -> & IP).
  assert (N1 : S c0 <> 1). { intros Q. rewrite Q in B. rewrite (Hentry _ B) in IP. destruct IP. }
  destruct (iv_ent _ _ _ _ _ Hinv _ _ _ _ B N1 E) as (R & K). destruct (single pb) as [q1|] eqn:SI.
  - destruct K as (_ & K). assert (q1 = q0). { unfold single in SI. destruct (pb_preds pb) as [|z [|]]; try discriminate. injection SI as ->. destruct IP as [->|[]]; auto. }
    subst q1. left. eapply AV; eassumption.
  - destruct K as (i & -> & x & k & Hx & O & PA & Bk & Ik & _). cbn in D. injection D as ->. right. split; [unfold insns_of; now rewrite Bk|]. eauto.
Qed.
Lemma avail l : rpath f l -> forall b l', l = b :: l' -> forall r v d, regok r -> rdv s b r = Some v -> v_data v = VInsn d -> placed_on d l.
Proof.
  assert (GEN : forall b l pb, blk bs b = Some pb -> (forall r v d, e b r = Some v -> v_data v = VInsn d -> placed_on d (b :: l)) ->
    forall r v d, regok r -> rdv s b r = Some v -> v_data v = VInsn d -> placed_on d (b :: l)).
  { intros b l0 pb B EN r v d R V D. destruct (facts b pb B) as (phs & ids & m & H & L & EI). rewrite (bi_rdv _ _ _ _ _ _ _ _ _ H r R) in V.
    destruct (lifts_l_vals bs s _ _ _ _ _ L r v d V D) as [K|[K|[r' K]]].
    - apply ids_placed with b; [rewrite EI; apply in_or_app; now right|now left].
    - apply small_placed. unfold sp_id in K. lia.
    - eapply EN; eassumption. }
  assert (E1 : forall r v d l, e 1 r = Some v -> v_data v = VInsn d -> placed_on d l).
  { intros r v d l0 K D. rewrite (iv_e1 _ _ _ _ _ Hinv) in K. destruct ((1 <=? r) && (r <=? 5))%Z eqn:G; [|discriminate]. injection K as <-.
    cbn in D. injection D as <-. apply small_placed. unfold arg_id. apply andb_true_iff in G as [G1 G2]. lia. }
  induction 1 as [|q l' c RP IH G]; intros b l0 Q; injection Q as <- <-.
  - rewrite Hone. destruct (blk bs 1) as [pb|] eqn:B.
    + apply (GEN 1 [] pb B). intros r v d K D. eapply E1; eassumption.
    + intros r v d R V D c I. exfalso. destruct (bo_entry _ _ Hbo) as (b0 & E0 & _). change (nth_error bs 0 = None) in B. congruence.
  - destruct (goes_succ q c G) as (pq & c0 & BQ & -> & C). destruct (succ_blk' q pq c0 BQ C) as (pb & B).
    apply (GEN (S c0) (q :: l') pb B). intros r v d K D.
    destruct (ent_avail (S c0) q l' r v d (rp_step _ _ _ _ RP G) (IH q l' eq_refl) K D) as [P|[I _]].
    + intros z Z. right. now apply P.
    + eapply ids_placed; [exact I|now left].
Qed.
Lemma lifted_strict_here : strict f.
Proof.
  assert (BLK : forall b i, In i (insns_of f b) -> exists pb, blk bs b = Some pb).
  { intros b i I. destruct (blk bs b) as [pb|] eqn:B; [eauto|]. unfold insns_of in I. rewrite (Hdead b B) in I. destruct I. }
  assert (PHIS : forall b i x pb, In i (insns_of f b) -> f_insn f i = Some x -> i_op x = PHI -> blk bs b = Some pb ->
    exists r, regok r /\ b <> 1 /\ complete s pb r (i_phi x)).
  { intros b i x pb I Hx O B. destruct (facts b pb B) as (phs & ids & m & H & L & EI). rewrite EI in I. apply in_app_or in I as [I|I].
    2:{ destruct (bi_ids _ _ _ _ _ _ _ _ _ H i I) as (y & Hy & NP & _). congruence. }
    destruct (bi_phs _ _ _ _ _ _ _ _ _ H i I) as (y & r & Hy & _ & PA & R & E). assert (N1 : b <> 1).
    { intros ->. rewrite (no_phi_1 pb phs ids m B H) in I. destruct I. }
    destruct (iv_ent _ _ _ _ _ Hinv _ _ _ _ B N1 E) as (_ & K). destruct (single pb) eqn:SI; [rewrite (bi_single _ _ _ _ _ _ _ _ _ H) in I by congruence; destruct I|].
    destruct K as (j & EJ & z & k & Hz & _ & _ & _ & _ & [[]|K]). injection EJ as <-. rewrite (Hseal _ _ B) in K. exists r. repeat split; auto; [apply R|apply R|]. congruence. }
  constructor.
  - intros b. destruct (blk bs b) as [pb|] eqn:B.
    + destruct (facts b pb B) as (phs & ids & m & H & L & EI). exists phs, ids. split; [exact EI|]. split.
      * intros i I. destruct (bi_phs _ _ _ _ _ _ _ _ _ H i I) as (x & r & Hx & O & _). exists x. auto.
      * intros i I (x & Hx & O). destruct (bi_ids _ _ _ _ _ _ _ _ _ H i I) as (y & Hy & NP & _). congruence.
    + exists [], []. unfold insns_of. rewrite (Hdead b B). split; [reflexivity|]. split; intros i [].
  - intros i I (x & Hx & O). rewrite Hone in I. destruct (BLK 1 i I) as (pb & B). destruct (PHIS 1 i x pb I Hx O B) as (r & _ & K & _). congruence.
  - intros b i x q l I Hx O RP G. destruct (BLK b i I) as (pb & B). destruct (PHIS b i x pb I Hx O B) as (r & R & N1 & C).
    destruct (goes_succ q b G) as (pq & c0 & BQ & -> & SU). destruct (edge_sym p bs Heo q pq c0 pb BQ B SU) as (q0 & -> & IP).
    destruct (complete_incoming s pb r x q0 C IP) as (v & IN & _). exists v. unfold incoming in IN. destruct (find _ (i_phi x)) as [[v' q']|] eqn:F; [|discriminate IN].
    injection IN as <-. apply find_some in F as [F Q]. cbn in Q. apply Nat.eqb_eq in Q. now subst q'.
  - intros b u x d c I Hx NP US DI. destruct (BLK b u I) as (pb & B). destruct (facts b pb B) as (phs & ids & m & H & L & EI). rewrite EI in I.
    apply in_app_or in I as [I|I]; [destruct (bi_phs _ _ _ _ _ _ _ _ _ H u I) as (y & _ & Hy & O & _); congruence|].
    assert (V : exists v, In v (operand_values x) /\ v_data v = VInsn d).
    { unfold uses in US. rewrite Hx in US. destruct (filter _ _) as [|v l0] eqn:F; [cbn in US; lia|]. assert (K : In v (v :: l0)) by now left. rewrite <- F in K.
      apply filter_In in K as [K Q]. exists v. split; [exact K|]. unfold is_use_of in Q. destruct (v_data v); try discriminate Q. apply Nat.eqb_eq in Q. now subst. }
    destruct V as (v & V & D). destruct (lifts_l_ops _ _ _ _ _ L u x v d I Hx V D) as [(l1 & l2 & l3 & EQ)|[K|(r & K)]].
    + left. assert (In d (insns_of f b)) by (rewrite EI, EQ; apply in_or_app; right; apply in_or_app; right; now left).
      destruct (Hlink b d H0) as (y & Hy & Q1). destruct (Hlink c d DI) as (z & Hz & Q2). split; [congruence|]. exists (phs ++ l1), l2, l3. rewrite EI, EQ. now rewrite app_assoc.
    + exfalso. apply Hge in DI. unfold sp_id in K. lia.
    + destruct (Nat.eq_dec b 1) as [->|N1].
      { exfalso. rewrite (iv_e1 _ _ _ _ _ Hinv) in K. destruct ((1 <=? r) && (r <=? 5))%Z eqn:G; [|discriminate]. injection K as <-.
        cbn in D. injection D as <-. apply Hge in DI. unfold arg_id in DI. apply andb_true_iff in G as [G1 G2]. lia. }
      destruct (in_dec Nat.eq_dec d phs) as [DP|DP].
      * left. assert (In d (insns_of f b)) by (rewrite EI; apply in_or_app; now left).
        destruct (Hlink b d H0) as (y & Hy & Q1). destruct (Hlink c d DI) as (z & Hz & Q2). split; [congruence|].
        rewrite EI. apply in_split in DP as (a1 & a2 & ->). apply in_split in I as (b1 & b2 & ->). exists a1, (a2 ++ b1), b2. now rewrite <- !app_assoc.
      * right. intros l RP. destruct l as [|q l].
        { inversion RP. subst b. congruence. }
        destruct (ent_avail b q l r v d RP (fun r v d => avail (q :: l) ltac:(inversion RP; assumption) q l eq_refl r v d) K D) as [P|[P (y & Hy & O)]]; [now apply P|].
        exfalso. rewrite EI in P. apply in_app_or in P as [P|P]; [contradiction|]. destruct (bi_ids _ _ _ _ _ _ _ _ _ H d P) as (z & Hz & NZ & _). congruence.
  - intros b u x v q d c I Hx O V D DI l RP. destruct (BLK b u I) as (pb & B). destruct (PHIS b u x pb I Hx O B) as (r & R & N1 & C).
    assert (RV : rdv s q r = Some v).
    { clear - C V. unfold complete in C. induction C as [|a q0 l0 ps [A Z] F IH]; [destruct V|]. destruct V as [->|V]; [cbn in A, Z; congruence|now apply IH]. }
    exact (avail (q :: l) RP q l eq_refl r v d R RV D c DI).
  - intros u x v r a Hx O V D. exfalso. assert (1 <= u < f_ni f) by (apply Hlive; congruence). destruct (le_lt_dec 7 u) as [G|G].
    + pose proof (Hhas u x G Hx) as I. destruct (BLK _ u I) as (pb & B). destruct (facts _ pb B) as (phs & ids & m & HH & L & EI). rewrite EI in I. apply in_app_or in I as [I|I].
      * destruct (bi_phs _ _ _ _ _ _ _ _ _ HH u I) as (y & _ & Hy & OY & _). congruence.
      * destruct (lifts_l_op _ _ _ _ _ L u x I Hx) as [K _]. rewrite O in K. discriminate K.
    + destruct (Hbase u ltac:(lia)) as (l & K). rewrite K in Hx. unfold init_insns in Hx. destruct (u =? 0); [discriminate Hx|]. destruct (u =? sp_id); [injection Hx as <-; discriminate O|].
      destruct (u <? 7); [injection Hx as <-; discriminate O|discriminate Hx].
Qed.

Lemma lifted_ops_here : (forall i x, f_insn f i = Some x -> i_op x = REG \/ i_op x = FUNCTIONARG \/ i_op x = PHI \/ lifted_op (i_op x) = true) /\
  ((forall j i, at_pos p j i -> b_code i = 0x85%Z -> b_src i <> 6%Z) -> forall i x, f_insn f i = Some x -> i_op x <> ECALL).
Proof.
  assert (BASE : forall u x, f_insn f u = Some x -> u < 7 -> i_op x = REG \/ i_op x = FUNCTIONARG).
  { intros u x Hx G. assert (1 <= u < f_ni f) by (apply Hlive; congruence). destruct (Hbase u ltac:(lia)) as (l & K). rewrite K in Hx. unfold init_insns in Hx. destruct (u =? 0); [discriminate Hx|]. destruct (u =? sp_id); [injection Hx as <-; auto|].
    destruct (u <? 7); [injection Hx as <-; auto|discriminate Hx]. }
  assert (MAIN : forall u x, f_insn f u = Some x -> 7 <= u -> i_op x = PHI \/
    lifted_op (i_op x) = true /\ (i_op x = ECALL -> exists pb pi, In pb bs /\ In pi (pb_insns pb) /\ jmp_cls (pi_code pi) = true /\ opn (pi_code pi) = 8%Z /\ pi_src pi = 6%Z)).
  { intros u x Hx G. pose proof (Hhas u x G Hx) as I. destruct (blk bs (i_parent x)) as [pb|] eqn:B; [|unfold insns_of in I; rewrite (Hdead _ B) in I; destruct I].
    destruct (facts _ pb B) as (phs & ids & m & HH & L & EI). rewrite EI in I. apply in_app_or in I as [I|I].
    - destruct (bi_phs _ _ _ _ _ _ _ _ _ HH u I) as (y & _ & Hy & OY & _). left. congruence.
    - right. destruct (lifts_l_op _ _ _ _ _ L u x I Hx) as [A E]. split; [exact A|]. intros O. destruct (E O) as (pi & P & R). destruct (blk_in bs _ _ B) as (Ib & _). eauto. }
  split.
  - intros u x Hx. destruct (le_lt_dec 7 u) as [G|G]; [destruct (MAIN u x Hx G) as [?|[? _]]; auto|destruct (BASE u x Hx G); auto].
  - intros NE u x Hx O. destruct (le_lt_dec 7 u) as [G|G]; [|destruct (BASE u x Hx G); congruence].
    destruct (MAIN u x Hx G) as [?|[_ K]]; [congruence|]. destruct (K O) as (pb & pi & Ib & Ip & JC & O8 & S6). destruct (bo_code _ _ Hbo pb Ib) as [Cd _].
    destruct (code_of_at _ _ _ pi Cd Ip) as (i & e1 & [(i' & A & SI & _ & _ & _ & EX)|(j & A & C24 & _ & _ & _ & EX)]); rewrite EX in JC, O8, S6; cbn in JC, O8, S6; [|discriminate JC].
    destruct SI as [-> |(_ & _ & ->)]; [|discriminate O8].
    apply (NE _ _ A); [|exact S6]. assert (CL : (b_code i mod 8 = 5 \/ b_code i mod 8 = 6)%Z) by (unfold jmp_cls, cls in JC; lia).
    destruct (wf_jmp _ W _ _ A CL) as [Q|[Q|[Q|Q]]]; [rewrite Q in O8; discriminate O8|..|]; try exact Q; try (rewrite Q in O8; discriminate O8).
    unfold two_way in Q. apply andb_true_iff in Q as [_ Q]. cbv zeta in Q. unfold opn in O8. rewrite O8 in Q. discriminate Q.
Qed.

(** ** Every successor edge can be taken *)
Lemma lifts_l_in b m l ids m' pi : lifts_l f bs b m l ids m' -> In pi l -> exists m1 i1 m2, lifts f bs b m1 pi i1 m2 /\ incl i1 ids.
Proof.
  induction 1 as [m m' E|m q l i1 i2 mb m' H1 H2 IH]; intros I; [destruct I|]. destruct I as [<-|I].
  - exists m, i1, mb. split; [exact H1|]. intros z Z. apply in_or_app. now left.
  - destruct (IH I) as (m1 & j & m2 & K & N). exists m1, j, m2. split; [exact K|]. intros z Z. apply in_or_app. right. now apply N.
Qed.
Lemma pos_inj c1 c2 p1 p2 : blk bs c1 = Some p1 -> blk bs c2 = Some p2 -> pb_start p1 = pb_start p2 -> c1 = c2.
Proof.
  destruct c1 as [|a]; [discriminate|]. destruct c2 as [|b]; [discriminate|]. cbn. intros H1 H2 E. f_equal.
  apply (proj1 (NoDup_nth_error (map pb_start bs)) (bo_once _ _ Hbo)).
  - rewrite map_length. apply nth_error_Some. congruence.
  - erewrite !map_nth_error by eassumption. now rewrite E.
Qed.
Lemma succ_goes b pb c : blk bs b = Some pb -> In c (pb_succs pb) -> SpecPass.goes f b (S c).
Proof.
  intros B C. destruct (facts b pb B) as (phs & ids & m & H & L & EI).
  destruct (blk_in bs _ _ B) as (Ib & _ & Nb). destruct (bo_code _ _ Hbo pb Ib) as [Cd Ne].
  destruct (pb_succs pb) as [|c1 l] eqn:SU; [destruct C|].
  assert (S1 : succs_of f b = S c1 :: map S l) by (unfold succs_of; rewrite (bi_blk _ _ _ _ _ _ _ _ _ H); cbn; now rewrite SU).
  destruct (Nat.eq_dec c c1) as [->|N]; [exact (go_next f b _ _ S1)|].
  destruct (succ_blk' b pb c B) as (pc & BC); [now rewrite SU|]. destruct (succ_blk' b pb c1 B) as (pc1 & BC1); [rewrite SU; now left|].
  assert (ND : pb_start pc <> pb_start pc1). { intros E. pose proof (pos_inj (S c) (S c1) pc pc1 BC BC1 E). congruence. }
  assert (Ls : pb_start pb < pb_end pb).
  { pose proof (code_of_le _ _ _ _ Cd). destruct (Nat.eq_dec (pb_start pb) (pb_end pb)) as [E|E]; [|lia].
    exfalso. apply Ne. rewrite E in Cd. inversion Cd; subst; auto; match goal with X : code_of _ _ _ _ |- _ => apply code_of_le in X; lia end. }
  destruct (code_of_last _ _ _ _ Cd Ls) as (l0 & x & i & E & Ai & Lx & Nz & Ee).
  assert (Lp : last_pos pb (pi_pos x)) by (exists l0, x; auto).
  pose proof (proj1 (eo_succ _ _ Heo _ c _ pc _ _ Nb BC Lp Ai)) as H1. pose proof (proj1 (eo_succ _ _ Heo _ c1 _ pc1 _ _ Nb BC1 Lp Ai)) as H2.
  rewrite SU in H1, H2. specialize (H1 C). specialize (H2 (or_introl eq_refl)).
  assert (TW : two_way (b_code i) = true /\ b_off i <> 0%Z /\ b_code i <> 5%Z).
  { unfold next_pcs in H1, H2. destruct (b_code i =? 5)%Z eqn:C5; [destruct H1 as [H1|[]], H2 as [H2|[]]; lia|]. apply Z.eqb_neq in C5.
    destruct (two_way (b_code i)) eqn:T.
    - split; [reflexivity|]. split; [|exact C5]. intros O. rewrite O in *. destruct H1 as [H1|[H1|[]]], H2 as [H2|[H2|[]]]; lia.
    - exfalso. destruct (b_code i =? 0x95)%Z; [destruct H1|]. destruct (b_code i =? 24)%Z; destruct H1 as [H1|[]], H2 as [H2|[]]; lia. }
  destruct TW as (TW & O0 & N5).
  assert (IX : In x (pb_insns pb)) by (rewrite E; apply in_or_app; right; now left).
  destruct (code_of_at _ _ _ x Cd IX) as (i' & e1 & PR). destruct (lifts_l_in _ _ _ _ _ _ L IX) as (m1 & i1 & m2 & LX & IN).
  assert (KX : i' = i /\ pi_code x = b_code i /\ pi_off x = b_off i).
  { destruct PR as [(j & A & SI & _ & _ & _ & EX)|(j & A & C24 & _)].
    - unfold at_pos in *. rewrite Ai in A. injection A as <-. split; [reflexivity|]. rewrite EX. cbn. destruct SI as [-> |(_ & K & _)]; [auto|contradiction].
    - unfold at_pos in *. rewrite Ai in A. injection A as <-. rewrite C24 in TW. discriminate TW. }
  destruct KX as (-> & CX & OX). rewrite <- CX in TW.
  assert (JC : (cls (pi_code x) = 5 \/ cls (pi_code x) = 6)%Z).
  { unfold two_way in TW. apply andb_true_iff in TW as [T _]. apply orb_true_iff in T as [T|T]; apply Z.eqb_eq in T; auto. }
  assert (JO : (1 <= opn (pi_code x) <= 7 \/ 10 <= opn (pi_code x) <= 13)%Z).
  { unfold two_way in TW. apply andb_true_iff in TW as [_ T]. cbv zeta in T. fold (opn (pi_code x)) in T. lia. }
  unfold next_pcs in H1. destruct (b_code i =? 5)%Z eqn:C5; [apply Z.eqb_eq in C5; contradiction|]. rewrite <- CX, TW in H1. rewrite <- OX in H1.
  inversion LX; subst; try (match goal with A : is_alu _ = true |- _ => unfold is_alu in A; lia end); try lia.
  - match goal with J : cond_of _ = Some o |- _ => destruct (cond_cmp _ _ J) as (a & _ & CM & _) end.
    match goal with K : like f i0 _ |- _ => destruct K as (z & Hz & SZ) end.
    assert (ZO : i_op z = o) by (rewrite (op_sim _ _ SZ); reflexivity).
    assert (ZT : i_bb1 z = t1 /\ i_bb2 z = t2).
    { unfold sim_i in SZ. destruct z; cbn in *. injection SZ as -> -> -> -> -> -> -> -> -> -> -> ->. auto. }
    destruct ZT as [Z1 Z2]. assert (II : In i0 (insns_of f b)) by (rewrite EI; apply in_or_app; right; apply IN; now left).
    match goal with X : bb_from bs (_ + 1) = Ok t1, Y : bb_from bs _ = Ok t2 |- _ =>
      destruct (bb_from_ok ar_table bs ar_agrees _ _ X) as (y1 & Y1 & Y1'); destruct (bb_from_ok ar_table bs ar_agrees _ _ Y) as (y2 & Y2 & Y2') end.
    destruct H1 as [H1|[H1|[]]].
    + assert (Q : t2 = S c) by (apply (pos_inj t2 (S c) y2 pc Y2 BC); lia). rewrite <- Q, <- Z2. eapply go_c2; [exact II|exact Hz|]. rewrite ZO. exact CM.
    + assert (Q : t1 = S c) by (apply (pos_inj t1 (S c) y1 pc Y1 BC); lia). rewrite <- Q, <- Z1. eapply go_c1; [exact II|exact Hz|]. rewrite ZO. exact CM.
Qed.
Lemma path_reachable n b : path bs n b -> reachable f b.
Proof.
  induction 1 as [|n b pb c P [l IH] B C].
  - exists []. rewrite <- Hone. constructor.
  - exists (b :: l). constructor; [exact IH|]. eapply succ_goes; eassumption.
Qed.
End Strict.

(** ** Lifted functions *)
Lemma finv_tidy bs f : finv bs f -> (forall i x, f_insn f i = Some x -> 1 <= i) -> tidy f.
Proof.
  intros F G. constructor; [|apply (fi_link bs f F)|apply (fi_once bs f F)|].
  - intros u d. split; [apply (fi_users bs f F)|]. destruct (in_dec Nat.eq_dec u (users_of f d)) as [I|I].
    + pose proof (proj1 (fi_users bs f F u d) I). pose proof (proj1 (NoDup_count_occ Nat.eq_dec _) (fi_unodup bs f F d) u). lia.
    + rewrite (proj1 (count_occ_not_In Nat.eq_dec _ _) I). lia.
  - intros u d U. unfold uses in U. destruct (f_insn f u) as [x|] eqn:Hx; [|lia]. exists x. split; [reflexivity|]. destruct (le_lt_dec 7 u) as [L|L]; [exact (fi_has bs f F u x L Hx)|].
    exfalso. destruct (fi_base bs f F u) as (l & K); [split; [exact (G _ _ Hx)|exact L]|]. rewrite K in Hx. unfold init_insns in Hx.
    destruct (u =? 0); [discriminate Hx|]. destruct (u =? sp_id); [injection Hx as <-; cbn in U; lia|]. destruct (u <? 7); [injection Hx as <-; cbn in U; lia|discriminate Hx].
Qed.
Lemma lifted_ok p m n f : wf_prog p -> (Z.of_nat (length p) <= 32768)%Z -> ~ jump_target p 0 -> all_reach p -> lift m n p = Ok f ->
  tidy f /\ strict f /\ (forall b, f_block f b <> None -> reachable f b) /\
  (forall i x, f_insn f i = Some x -> i_op x = REG \/ i_op x = FUNCTIONARG \/ i_op x = PHI \/ lifted_op (i_op x) = true) /\
  ((forall j i, at_pos p j i -> b_code i = 0x85%Z -> b_src i <> 6%Z) -> forall i x, f_insn f i = Some x -> i_op x <> ECALL).
Proof.
  intros W Len No0 Ra Hl. destruct (gen_bb_ok p W Len No0) as (bs & Hg & Hbo & Heo).
  assert (Hl' := Hl). unfold lift in Hl'. rewrite Hg in Hl'. cbn [bind] in Hl'.
  destruct (lift_blocks m n bs) as [s| | | |] eqn:Lb; try discriminate. injection Hl' as <-.
  destruct (main_filled p W No0 bs Hbo Heo m n s Ra Lb) as (e & dn & I & F & Sl).
  destruct (lift_finv p W Len No0 m n (l_f s) Hl) as (bs' & Hg' & _ & _ & Fi). rewrite Hg in Hg'. injection Hg' as <-.
  assert (De : forall b, blk bs b = None -> f_block (l_f s) b = None). { intros b K. pose proof (fi_blk bs _ Fi b) as Q. now rewrite K in Q. }
  split; [|split; [|split]].
  - apply (finv_tidy bs _ Fi). intros i x Hx. apply (fi_live bs _ Fi i). congruence.
  - eapply (lifted_strict_here p bs W Hbo Heo s e dn I F Sl (main_entry p No0 bs Hbo Heo) De); try apply Fi.
  - intros b NB. destruct (blk bs b) as [pb|] eqn:B; [|exfalso; apply NB; now apply De]. destruct (main_reach p W bs Hbo Heo Ra b pb B) as [k P].
    pose proof (path_reachable p bs Hbo Heo s e dn I F) as PR. refine (PR Sl (main_entry p No0 bs Hbo Heo) De (fi_has bs _ Fi) (fi_ge bs _ Fi) (fi_entry bs _ Fi) (fi_base bs _ Fi) (fi_live bs _ Fi) k b P).
  - pose proof (lifted_ops_here p bs W Hbo s e dn I F) as LO. exact (LO Sl (main_entry p No0 bs Hbo Heo) De (fi_has bs _ Fi) (fi_ge bs _ Fi) (fi_entry bs _ Fi) (fi_base bs _ Fi) (fi_live bs _ Fi)).
Qed.
