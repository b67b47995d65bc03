(** The shape of lifted functions: operands, ends of blocks, order of blocks. *)
From Coq Require Import ZArith List Bool Arith Lia Permutation.
From Verif Require Import SpecWord SpecIsa SpecFlat SpecCfg SpecLift SpecLiftOne SpecIr SpecEdit SpecSsa M_Base M_Ir M_Edit M_GenBB M_Lift
  L_Word L_Edit L_GenBB L_GenBBEx L_Lift L_LiftRead L_LiftFill L_LiftDfs L_LiftSim L_LiftRun L_LiftMain L_LiftSafe L_LiftTerm L_LiftAcc L_LiftProp L_LiftEx SpecPass SpecStrict SpecLayout L_LiftStrict.
Import ListNotations.
Open Scope nat_scope.

(** a number that stands in the program *)
Definition of_prog (p : list bpf_insn) (g : bpf_insn -> Z) (c : Z) : Prop := c = 0%Z \/ exists j i, at_pos p j i /\ c = g i.
(** what an operand of a lifted function is *)
Definition good_value (p : list bpf_insn) (f : func) (v : value) : Prop :=
  v_bi v = B_NONE /\
  match v_data v with
  | VConst c => v_ct v = A_32 /\ of_prog p b_imm c
  | VInsn d => d = sp_id \/ 2 <= d <= 6 \/ exists b y, In d (insns_of f b) /\ f_insn f d = Some y /\ is_void_op (i_op y) = false
  | _ => False
  end.

Section Shape.
Variables (p : list bpf_insn) (bs : list pblock).
Hypothesis W : wf_prog p.
Hypothesis Hbo : blocks_of p bs.
Hypothesis Heo : edges_of p bs.
Variable s : lst.
Variable e : nat -> regmap.
Variable dn : nat -> option (list pre_insn).
Hypothesis Hinv : inv bs e dn noX s.
Hypothesis Hfill : forall b pb, blk bs b = Some pb -> l_fill s b = true.
Hypothesis Hseal : forall b pb, blk bs b = Some pb -> l_seal s b = true.
Hypothesis Hentry : forall pb, blk bs 1 = Some pb -> pb_preds pb = [].
Notation f := (l_f s).
Hypothesis Hdead : forall b, blk bs b = None -> f_block f b = None.
Hypothesis Hreach : forall b pb, blk bs b = Some pb -> exists n, path bs n b.
Hypothesis Hone : f_entry f = 1.

Notation good := (good_value p f).
Definition mgood (m : regmap) : Prop := forall r v, m r = Some v -> good v.
Lemma good_const c : of_prog p b_imm c -> good (val_const32 c).
Proof. intros H. split; [reflexivity|]. split; [reflexivity|exact H]. Qed.
Definition pi_from (pi : pre_insn) : Prop := of_prog p b_imm (pi_imm pi) /\ of_prog p b_off (pi_off pi).
Lemma pre_from q0 e0 l pi : code_of p q0 e0 l -> In pi l -> pi_from pi.
Proof.
  intros C I. destruct (code_of_at p _ _ _ pi C I) as (i & e1 & [(i' & A & [-> |(_ & _ & ->)] & _ & _ & _ & ->)|(j & A & _ & _ & _ & _ & ->)]); split; cbn; try (now left); right; eauto.
Qed.
Lemma good_sp : good (val_insn sp_id).
Proof. split; [reflexivity|now left]. Qed.
Lemma good_placed b i x : In i (insns_of f b) -> f_insn f i = Some x -> is_void_op (i_op x) = false -> good (val_insn i).
Proof. intros I X V. split; [reflexivity|]. right. right. eauto. Qed.
Lemma regv_good m r v : mgood m -> regv m r = Some v -> good v.
Proof. unfold regv. intros M. destruct (r =? 10)%Z; [intros [= <-]; apply good_sp|apply M]. Qed.
Lemma srcv_good m pi v : mgood m -> pi_from pi -> srcv m pi = Some v -> good v.
Proof. unfold srcv. intros M (Pf & _). destruct (src_x _); [now apply regv_good|intros [= <-]; now apply good_const]. Qed.
Lemma argv_good m : mgood m -> forall k j l, argv m j k = Some l -> length l = k /\ forall v, In v l -> good v.
Proof.
  intros M. induction k as [|k IH]; intros j l H; cbn [argv] in H; [injection H as <-; split; [reflexivity|intros v []]|].
  destruct (regv m _) as [u|] eqn:R; [|discriminate H]. destruct (argv m (S j) k) as [t|] eqn:A; [|discriminate H]. injection H as <-.
  destruct (IH _ _ A) as (L & G). split; [cbn; now rewrite L|]. intros v [<-|I]; [eapply regv_good; eassumption|auto].
Qed.
Lemma wrote_good m r v m' : mgood m -> good v -> (forall x, m' x = wrote m r v x) -> mgood m'.
Proof. intros M G E x u H. rewrite E in H. unfold wrote in H. destruct (x =? r)%Z; [congruence|eapply M; exact H]. Qed.
Lemma same_good m m' : mgood m -> (forall x, m' x = m x) -> mgood m'.
Proof. intros M E x u H. rewrite E in H. eapply M; exact H. Qed.
Lemma like_get' i y x : like f i y -> f_insn f i = Some x -> sim_i x y.
Proof. intros (z & E & S) H. rewrite E in H. injection H as ->. exact S. Qed.
Lemma opv_ext x : i_op x <> PHI -> i_op x <> LOADRAW -> i_op x <> STORERAW -> operand_values x = i_vals x.
Proof. intros A B C. unfold operand_values. destruct (i_op x); try congruence; apply app_nil_r. Qed.
Lemma sim_fields x y : sim_i x y -> i_op x = i_op y /\ i_vals x = i_vals y /\ operand_values x = operand_values y /\ i_bb1 x = i_bb1 y /\ i_bb2 x = i_bb2 y /\ i_u x = i_u y.
Proof. unfold sim_i, operand_values. destruct x, y; cbn. intros E. injection E as -> -> -> -> -> -> -> -> -> -> -> ->. auto 10. Qed.
Lemma not_void o : In o [ADD; SUB; MUL; DIV; OR; AND; LSH; RSH; MOD; XOR; ARSH; NEG; HTOLE; HTOBE; LOADIMM_EXTRA; LOADRAW; CALL; ECALL] -> is_void_op o = false.
Proof. intros H. repeat (destruct H as [<-|H]; [reflexivity|]). destruct H. Qed.
Lemma bin_not_void c o : bin_of c = Some o -> is_void_op o = false.
Proof. unfold bin_of. intros H. repeat match type of H with (if ?b then _ else _) = _ => destruct b; [injection H as <-; reflexivity|] end. discriminate H. Qed.

(** the calls give as many arguments as the table says *)
Definition args_fit (x : insn) : Prop :=
  i_op x = CALL -> length (i_vals x) <= 5 /\ (0 <= i_u x)%Z /\
    exists a, nth_error helper_args (Z.to_nat (i_u x)) = Some a /\ (i_u x = 6%Z \/ a = Z.of_nat (length (i_vals x))).

(** what stands in the instructions *)
Definition stems (x : insn) : Prop :=
  (is_bin_alu_op (i_op x) = true -> length (i_vals x) = 2) /\
  (i_op x = LOADRAW \/ i_op x = STORERAW -> of_prog p b_off (a_off (i_addr x))).
Lemma lifts_stems b m pi ids m' : lifts f bs b m pi ids m' -> pi_from pi -> forall u x, In u ids -> f_insn f u = Some x -> stems x.
Proof.
  intros L (_ & Pf) u x I Hx. assert (NB : forall o, is_bin_alu_op o = true -> o <> LOADRAW /\ o <> STORERAW) by (intros o; destruct o; cbn; intros Q; try discriminate Q; split; discriminate).
  inversion L; subst; try (destruct I; fail); destruct I as [<-|[]];
    match goal with H : like f _ _ |- _ => pose proof (like_get' _ _ _ H Hx) as S; pose proof (sim_fields _ _ S) as (O & Vs & _); assert (AD := f_equal i_addr S) end; cbn in O, Vs, AD.
  - split; [intros _; now rewrite Vs|]. intros Q. destruct (bin_noext _ _ H0) as (N1 & N2 & N3). rewrite O in Q. destruct Q; congruence.
  - split; [|intros Q]; rewrite O in *; (destruct H0 as [(_ & _ & -> & _)|(_ & _ & -> & _)]; [destruct (src_x _)|]); (discriminate || (destruct Q; discriminate)).
  - split; [|intros Q]; rewrite O in *; [discriminate|destruct Q; discriminate].
  - split; [rewrite O; discriminate|]. intros _. rewrite AD. exact Pf.
  - split; [rewrite O; discriminate|]. intros _. rewrite AD. exact Pf.
  - split; [|intros Q]; rewrite O in *; [discriminate|destruct Q; discriminate].
  - split; [|intros Q]; rewrite O in *; [discriminate|destruct Q; discriminate].
  - destruct (cond_noext _ _ H0) as (N1 & N2 & N3). split; [intros _; now rewrite Vs|]. intros Q. rewrite O in Q. destruct Q; congruence.
  - split; [|intros Q]; rewrite O in *; (destruct H2 as [(-> & _)|(-> & _)]); (discriminate || (destruct Q; discriminate)).
Qed.
Lemma lifts_l_stems b m l ids m' : lifts_l f bs b m l ids m' -> (forall pi, In pi l -> pi_from pi) -> forall u x, In u ids -> f_insn f u = Some x -> stems x.
Proof.
  induction 1 as [m m' E|m pi l i1 i2 mb m' H1 H2 IH]; intros Pf u x I X; [destruct I|]. apply in_app_or in I as [I|I].
  - exact (lifts_stems _ _ _ _ _ H1 (Pf _ (or_introl eq_refl)) _ _ I X).
  - exact (IH (fun q Q => Pf q (or_intror Q)) u x I X).
Qed.

Lemma lifts_good b m pi ids m' : lifts f bs b m pi ids m' -> pi_from pi -> (forall i, In i ids -> In i (insns_of f b)) -> mgood m ->
  mgood m' /\ forall u x, In u ids -> f_insn f u = Some x -> (forall v, In v (operand_values x) -> good v) /\ args_fit x.
Proof.
  intros L Pf IN M. inversion L; subst.
  - destruct H4 as (y & Y & S). destruct (sim_fields _ _ S) as (O & V & OV & _). cbn in O, V. pose proof (bin_noext _ _ H0) as NE. split.
    + eapply wrote_good; [exact M| |eassumption]. eapply good_placed; [apply IN; now left|exact Y|]. rewrite O. eapply bin_not_void; eassumption.
    + intros u x [<-|[]] X. assert (x = y) by congruence. subst x. split.
      * destruct NE as (N1 & N2 & N3). rewrite opv_ext, V by congruence. intros v [<-|[<-|[]]]; [eapply regv_good|eapply srcv_good]; eassumption.
      * intros K. exfalso. rewrite O in K. rewrite K in H0. clear - H0. unfold bin_of in H0. repeat match type of H0 with (if ?b then _ else _) = _ => destruct b; [discriminate H0|] end. discriminate H0.
  - split; [|intros u x []]. eapply wrote_good; [exact M| |eassumption]. eapply srcv_good; eassumption.
  - destruct H3 as (y & Y & S). destruct (sim_fields _ _ S) as (O & V & OV & _). cbn in O, V.
    assert (No : In o [NEG; HTOLE; HTOBE]) by (destruct H0 as [(_ & _ & -> & _)|(_ & _ & -> & _)]; [destruct (src_x _)|]; cbn; auto). split.
    + eapply wrote_good; [exact M| |eassumption]. eapply good_placed; [apply IN; now left|exact Y|]. rewrite O. destruct No as [<-|[<-|[<-|[]]]]; reflexivity.
    + intros u0 x [<-|[]] X. assert (x = y) by congruence. subst x. split.
      * rewrite opv_ext, V by (rewrite O; destruct No as [<-|[<-|[<-|[]]]]; discriminate). intros v0 [<-|[]]. eapply regv_good; eassumption.
      * intros K. rewrite O in K. destruct No as [<-|[<-|[<-|[]]]]; discriminate K.
  - destruct H3 as (y & Y & S). destruct (sim_fields _ _ S) as (O & V & OV & _). cbn in O, V, OV. split.
    + eapply wrote_good; [exact M| |eassumption]. eapply good_placed; [apply IN; now left|exact Y|]. rewrite O. reflexivity.
    + intros u x [<-|[]] X. assert (x = y) by congruence. subst x. split; [rewrite OV; intros v []|]. intros K. congruence.
  - destruct H2 as (y & Y & S). destruct (sim_fields _ _ S) as (O & V & OV & _). cbn in O, V, OV. split.
    + eapply wrote_good; [exact M| |eassumption]. eapply good_placed; [apply IN; now left|exact Y|]. rewrite O. reflexivity.
    + intros u x [<-|[]] X. assert (x = y) by congruence. subst x. split; [|intros K; congruence]. rewrite OV. intros u [<-|[]]. eapply regv_good; eassumption.
  - destruct H2 as (y & Y & S). destruct (sim_fields _ _ S) as (O & V & OV & _). cbn in O, V, OV. split; [eapply same_good; eassumption|].
    intros u x [<-|[]] X. assert (x = y) by congruence. subst x. split; [|intros K; congruence]. rewrite OV. intros u [<-|[<-|[]]]; [|eapply regv_good; eassumption].
    destruct H0 as [(_ & ->)|(_ & K)]; [apply good_const, Pf|eapply regv_good; eassumption].
  - destruct H2 as (y & Y & S). destruct (sim_fields _ _ S) as (O & V & OV & _). cbn in O, V, OV. split; [eapply same_good; eassumption|].
    intros u x [<-|[]] X. assert (x = y) by congruence. subst x. split; [rewrite OV; intros v []|]. intros K. congruence.
  - destruct H2 as (y & Y & S). destruct (sim_fields _ _ S) as (O & V & OV & _). cbn in O, V, OV. split; [eapply same_good; eassumption|].
    intros u x [<-|[]] X. assert (x = y) by congruence. subst x. split; [|intros K; congruence]. rewrite OV. intros u [<-|[]]. eapply regv_good; eassumption.
  - destruct H5 as (y & Y & S). destruct (sim_fields _ _ S) as (O & V & OV & _). cbn in O, V. pose proof (cond_noext _ _ H0) as NE. split; [eapply same_good; eassumption|].
    intros u x [<-|[]] X. assert (x = y) by congruence. subst x. split.
    + destruct NE as (N1 & N2 & N3). rewrite opv_ext, V by congruence. intros v [<-|[<-|[]]]; [eapply regv_good|eapply srcv_good]; eassumption.
    + intros K. exfalso. rewrite O in K. rewrite K in H0. clear - H0. unfold cond_of in H0. repeat match type of H0 with (if ?b then _ else _) = _ => destruct b; [discriminate H0|] end. discriminate H0.
  - destruct H4 as (y & Y & S). destruct (sim_fields _ _ S) as (O & V & OV & _ & _ & U). cbn in O, V, U. destruct (argv_good m M _ _ _ H3) as (Ln & G).
    assert (No : o = CALL \/ o = ECALL) by (destruct H2 as [(-> & _)|(-> & _)]; auto). split.
    + eapply wrote_good; [exact M| |eassumption]. eapply good_placed; [apply IN; now left|exact Y|]. rewrite O. destruct No as [-> | ->]; reflexivity.
    + intros u x [<-|[]] X. assert (x = y) by congruence. subst x. split.
      * rewrite opv_ext, V by (rewrite O; destruct No as [-> | ->]; discriminate). exact G.
      * intros K. rewrite V, Ln, U. split; [assumption|]. split; [assumption|]. destruct H2 as [(E1 & _)|(_ & _ & K2)]; [congruence|exact K2].
Qed.
Lemma lifts_l_good b m l ids m' : lifts_l f bs b m l ids m' -> (forall pi, In pi l -> pi_from pi) -> (forall i, In i ids -> In i (insns_of f b)) -> mgood m ->
  mgood m' /\ forall u x, In u ids -> f_insn f u = Some x -> (forall v, In v (operand_values x) -> good v) /\ args_fit x.
Proof.
  induction 1 as [m m' E|m pi l i1 i2 mb m' H1 H2 IH]; intros Pf IN M.
  - split; [eapply same_good; eassumption|intros u x []].
  - destruct (lifts_good _ _ _ _ _ H1 (Pf _ (or_introl eq_refl)) (fun i I => IN i (in_or_app _ _ _ (or_introl I))) M) as (M1 & G1).
    destruct (IH (fun q Q => Pf q (or_intror Q)) (fun i I => IN i (in_or_app _ _ _ (or_intror I))) M1) as (M2 & G2). split; [exact M2|].
    intros u x I X. apply in_app_or in I as [I|I]; [exact (G1 u x I X)|exact (G2 u x I X)].
Qed.

Lemma facts' b pb : blk bs b = Some pb -> exists phs ids m, binv bs e dn s b pb phs ids m /\ lifts_l f bs b (e b) (pb_insns pb) ids m /\ insns_of f b = phs ++ ids.
Proof.
  intros B. destruct (iv_blk _ _ _ _ _ Hinv _ _ B) as (phs & ids & m & H). exists phs, ids, m. split; [exact H|]. split.
  - pose proof (bi_lifts _ _ _ _ _ _ _ _ _ H) as L. unfold done in L. now rewrite (iv_fill _ _ _ _ _ Hinv _ _ B (Hfill _ _ B)) in L.
  - unfold insns_of. now rewrite (bi_blk _ _ _ _ _ _ _ _ _ H).
Qed.
Lemma blk_from b pb pi : blk bs b = Some pb -> In pi (pb_insns pb) -> pi_from pi.
Proof. intros B I. destruct (blk_in bs _ _ B) as (Ib & _ & _). destruct (bo_code _ _ Hbo pb Ib) as [Cd _]. eapply pre_from; eassumption. Qed.
Lemma e1_good : mgood (e 1).
Proof.
  intros r v H. rewrite (iv_e1 _ _ _ _ _ Hinv) in H. destruct ((1 <=? r) && (r <=? 5))%Z eqn:K; [|discriminate H]. injection H as <-.
  apply andb_true_iff in K as [K1 K2]. apply Z.leb_le in K1, K2. split; [reflexivity|]. right. left. unfold arg_id. lia.
Qed.
Lemma path_good n b : path bs n b -> forall pb, blk bs b = Some pb -> mgood (e b) /\ forall r v, regok r -> rdv s b r = Some v -> good v.
Proof.
  assert (GEN : forall b pb, blk bs b = Some pb -> mgood (e b) -> mgood (e b) /\ forall r v, regok r -> rdv s b r = Some v -> good v).
  { clear b. intros b pb B E. split; [exact E|]. intros r v R V. destruct (facts' b pb B) as (phs & ids & m & H & L & EI). rewrite (bi_rdv _ _ _ _ _ _ _ _ _ H r R) in V.
    destruct (lifts_l_good _ _ _ _ _ L) as (M & _); [intros pi Ip; eapply blk_from; eassumption|intros i I; rewrite EI; apply in_or_app; now right|exact E|]. eapply M; exact V. }
  induction 1 as [|n b pb c P IH B C]; intros pb' B'.
  - apply (GEN 1 pb' B'). exact e1_good.
  - destruct (IH pb B) as (_ & RV). apply (GEN _ _ B').
    destruct (edge_sym p bs Heo b pb c pb' B B' C) as (q0 & -> & IP).
    assert (N1 : S c <> 1). { intros Q. rewrite Q in B'. rewrite (Hentry _ B') in IP. destruct IP. }
    intros r v E. destruct (iv_ent _ _ _ _ _ Hinv _ _ _ _ B' N1 E) as (R & K). destruct (single pb') as [q1|] eqn:SI.
    + destruct K as (_ & K). assert (q1 = q0). { unfold single in SI. destruct (pb_preds pb') as [|z [|]]; try discriminate. injection SI as ->. destruct IP as [->|[]]; auto. }
      subst q1. eapply RV; eassumption.
    + destruct K as (i & -> & x & k & Hx & O & PA & Bk & Ik & _). eapply good_placed; [|exact Hx|now rewrite O]. unfold insns_of. rewrite Bk. exact Ik.
Qed.
Lemma rdv_good b pb r v : blk bs b = Some pb -> regok r -> rdv s b r = Some v -> good v.
Proof. intros B. destruct (Hreach b pb B) as (n & P). now apply (path_good n b P pb B). Qed.
Lemma e_good b pb : blk bs b = Some pb -> mgood (e b).
Proof. intros B. destruct (Hreach b pb B) as (n & P). now apply (path_good n b P pb B). Qed.
Lemma no_phi_1' pb phs ids m : blk bs 1 = Some pb -> binv bs e dn s 1 pb phs ids m -> phs = [].
Proof.
  intros B H. destruct phs as [|i phs]; [reflexivity|]. exfalso.
  destruct (bi_phs _ _ _ _ _ _ _ _ _ H i (or_introl eq_refl)) as (x & r & _ & _ & _ & _ & Hv).
  pose proof (bi_ge _ _ _ _ _ _ _ _ _ H i (or_introl eq_refl)) as G.
  rewrite (iv_e1 _ _ _ _ _ Hinv) in Hv. destruct ((1 <=? r) && (r <=? 5))%Z eqn:K; [|discriminate]. injection Hv as <-.
  unfold arg_id in G. apply andb_true_iff in K as [K1 K2]. lia.
Qed.
Lemma has_blk b i : In i (insns_of f b) -> exists pb, blk bs b = Some pb.
Proof. intros I. destruct (blk bs b) as [pb|] eqn:B; [eauto|]. unfold insns_of in I. rewrite (Hdead b B) in I. destruct I. Qed.
Lemma phi_blocks b i x pb : In i (insns_of f b) -> f_insn f i = Some x -> i_op x = PHI -> blk bs b = Some pb ->
  exists r, regok r /\ b <> 1 /\ complete s pb r (i_phi x).
Proof.
  intros I Hx O B. destruct (facts' b pb B) as (phs & ids & m & H & L & EI). rewrite EI in I. apply in_app_or in I as [I|I].
  2:{ destruct (bi_ids _ _ _ _ _ _ _ _ _ H i I) as (y & Hy & NP & _). congruence. }
  destruct (bi_phs _ _ _ _ _ _ _ _ _ H i I) as (y & r & Hy & _ & PA & R & E). assert (N1 : b <> 1).
  { intros ->. rewrite (no_phi_1' pb phs ids m B H) in I. destruct I. }
  destruct (iv_ent _ _ _ _ _ Hinv _ _ _ _ B N1 E) as (_ & K). destruct (single pb) eqn:SI; [rewrite (bi_single _ _ _ _ _ _ _ _ _ H) in I by congruence; destruct I|].
  destruct K as (j & EJ & z & k & Hz & _ & _ & _ & _ & [[]|K]). injection EJ as <-. rewrite (Hseal _ _ B) in K. exists r. repeat split; auto; [apply R|apply R|]. congruence.
Qed.
Lemma phi_from b i x pb : In i (insns_of f b) -> f_insn f i = Some x -> i_op x = PHI -> blk bs b = Some pb -> map snd (i_phi x) = map S (pb_preds pb).
Proof.
  intros I X O B. destruct (phi_blocks b i x pb I X O B) as (r & _ & _ & C). unfold complete in C. induction C as [|q p0 l ps [A _] C IH]; cbn; congruence.
Qed.
Lemma no_phi_entry i x : In i (insns_of f 1) -> f_insn f i = Some x -> i_op x <> PHI.
Proof. intros I X O. destruct (has_blk 1 i I) as (pb & B). destruct (phi_blocks 1 i x pb I X O B) as (r & _ & N & _). congruence. Qed.
Hypothesis Hvals : forall i x, f_insn f i = Some x -> i_op x = PHI -> i_vals x = [].
Theorem operands_good b u x : In u (insns_of f b) -> f_insn f u = Some x -> (forall v, In v (operand_values x) -> good v) /\ args_fit x.
Proof.
  intros I X. destruct (has_blk b u I) as (pb & B). destruct (facts' b pb B) as (phs & ids & m & H & L & EI). assert (I' := I). rewrite EI in I'. apply in_app_or in I' as [J|J].
  - destruct (bi_phs _ _ _ _ _ _ _ _ _ H u J) as (y & r0 & Hy & O & _). assert (y = x) by congruence. subst y. split; [|intros K; congruence].
    destruct (phi_blocks b u x pb I X O B) as (r & R & N1 & C). intros v V. unfold operand_values in V. rewrite (Hvals u x X O), O in V. cbn in V.
    apply in_map_iff in V as ((v' & q) & <- & V). cbn. unfold complete in C.
    assert (K : exists p0, In p0 (pb_preds pb) /\ rdv s (S p0) r = Some v').
    { clear - C V. induction C as [|a p0 l ps [A Z] C IH]; [destruct V|]. destruct V as [->|V]; [exists p0; cbn in *; auto|destruct (IH V) as (p1 & P1 & Q1); exists p1; cbn; auto]. }
    destruct K as (p0 & Ip & K). destruct (blk bs (S p0)) as [pq|] eqn:BQ; [eapply rdv_good; eassumption|]. exfalso. exact (main_pred p bs Heo b pb p0 B Ip BQ).
  - destruct (lifts_l_good _ _ _ _ _ L) as (_ & G); [intros pi Ip; eapply blk_from; eassumption|intros i Ii; rewrite EI; apply in_or_app; now right|eapply e_good; exact B|]. exact (G u x J X).
Qed.

Theorem insns_stem b u x : In u (insns_of f b) -> f_insn f u = Some x -> stems x.
Proof.
  intros I X. destruct (has_blk b u I) as (pb & B). destruct (facts' b pb B) as (phs & ids & m & H & L & EI). rewrite EI in I. apply in_app_or in I as [J|J].
  - destruct (bi_phs _ _ _ _ _ _ _ _ _ H u J) as (y & r0 & Hy & O & _). assert (y = x) by congruence. subst y. split; rewrite O; [discriminate|intros [Q|Q]; discriminate Q].
  - exact (lifts_l_stems _ _ _ _ _ L (fun pi Ip => blk_from b pb pi B Ip) u x J X).
Qed.

(** calls stem from call instructions *)
Lemma lifts_call b m pi ids m' u x : lifts f bs b m pi ids m' -> In u ids -> f_insn f u = Some x -> i_op x = CALL ->
  jmp_cls (pi_code pi) = true /\ opn (pi_code pi) = 8%Z /\ pi_imm pi = i_u x.
Proof.
  intros L I Hx. inversion L; subst; try (destruct I; fail); destruct I as [<-|[]];
    match goal with H : like f _ _ |- _ => pose proof (sim_fields _ _ (like_get' _ _ _ H Hx)) as (O & _ & _ & _ & _ & U) end; rewrite O; cbn; try discriminate.
  - intros ->. exfalso. clear - H0. unfold bin_of in H0. repeat match type of H0 with (if ?b then _ else _) = _ => destruct b; [discriminate H0|] end. discriminate H0.
  - destruct H0 as [(_ & _ & -> & _)|(_ & _ & -> & _)]; [destruct (src_x _)|]; discriminate.
  - intros ->. exfalso. clear - H0. unfold cond_of in H0. repeat match type of H0 with (if ?b then _ else _) = _ => destruct b; [discriminate H0|] end. discriminate H0.
  - intros _. rewrite U. auto.
Qed.
Lemma lifts_l_call b m l ids m' : lifts_l f bs b m l ids m' -> forall u x, In u ids -> f_insn f u = Some x -> i_op x = CALL ->
  exists pi, In pi l /\ jmp_cls (pi_code pi) = true /\ opn (pi_code pi) = 8%Z /\ pi_imm pi = i_u x.
Proof.
  induction 1 as [m m' E|m pi l i1 i2 mb m' H1 H2 IH]; intros u x I Hx O; [destruct I|]. apply in_app_or in I as [I|I].
  - exists pi. split; [now left|]. exact (lifts_call _ _ _ _ _ _ _ H1 I Hx O).
  - destruct (IH u x I Hx O) as (q & Q & R). exists q. split; [now right|exact R].
Qed.
Theorem call_from b u x : In u (insns_of f b) -> f_insn f u = Some x -> i_op x = CALL -> exists j i, at_pos p j i /\ b_code i = 0x85%Z /\ b_imm i = i_u x.
Proof.
  intros I X O. destruct (has_blk b u I) as (pb & B). destruct (facts' b pb B) as (phs & ids & m & H & L & EI). rewrite EI in I. apply in_app_or in I as [J|J].
  { destruct (bi_phs _ _ _ _ _ _ _ _ _ H u J) as (y & r0 & Hy & O' & _). congruence. }
  destruct (lifts_l_call _ _ _ _ _ L u x J X O) as (pi & Ip & JC & O8 & U). destruct (blk_in bs _ _ B) as (Ib & _ & _). destruct (bo_code _ _ Hbo pb Ib) as [Cd _].
  destruct (code_of_at p _ _ _ pi Cd Ip) as (i & e1 & [(i' & A & SI & _ & _ & _ & EX)|(j & A & C24 & _ & _ & _ & EX)]); rewrite EX in JC, O8, U; cbn in JC, O8, U; [|discriminate JC].
  exists (pi_pos pi), i. split; [exact A|]. destruct SI as [-> |(TW & O0 & ->)]; [|discriminate O8]. split; [|exact U].
  assert (CL : (b_code i mod 8 = 5 \/ b_code i mod 8 = 6)%Z) by (unfold jmp_cls, cls in JC; lia).
  destruct (wf_jmp _ W _ _ A CL) as [Q|[Q|[Q|Q]]]; [rewrite Q in O8; discriminate O8|exact Q|rewrite Q in O8; discriminate O8|].
  unfold two_way in Q. apply andb_true_iff in Q as [_ Q]. cbv zeta in Q. unfold opn in O8. rewrite O8 in Q. discriminate Q.
Qed.

(** ** The end of a block *)
Definition ends (i : bpf_insn) : Prop := b_code i = 5%Z \/ b_code i = 0x95%Z \/ two_way (b_code i) = true.
Lemma cond_not_jmp o c : cond_of c = Some o -> is_cond_jmp_op o = true /\ is_jmp_op o = true.
Proof. unfold cond_of. intros H. repeat match type of H with (if ?b then _ else _) = _ => destruct b; [injection H as <-; split; reflexivity|] end. discriminate H. Qed.
Lemma bin_not_jmp o c : bin_of c = Some o -> is_jmp_op o = false.
Proof. unfold bin_of. intros H. repeat match type of H with (if ?b then _ else _) = _ => destruct b; [injection H as <-; reflexivity|] end. discriminate H. Qed.
(** the instructions made of one instruction of the program, seen from its end *)
Inductive end_of (pi : pre_insn) : list nat -> Prop :=
| eo_ja i x : f_insn f i = Some x -> i_op x = JA -> jmp_cls (pi_code pi) = true -> opn (pi_code pi) = 0%Z ->
    bb_from bs (Z.of_nat (pi_pos pi) + pi_off pi + 1) = Ok (i_bb1 x) -> end_of pi [i]
| eo_ret i x : f_insn f i = Some x -> i_op x = RET -> jmp_cls (pi_code pi) = true -> opn (pi_code pi) = 9%Z -> end_of pi [i]
| eo_cond i x o : f_insn f i = Some x -> i_op x = o -> is_cond_jmp_op o = true -> jmp_cls (pi_code pi) = true -> cond_of (opn (pi_code pi)) = Some o ->
    bb_from bs (Z.of_nat (pi_pos pi) + 1) = Ok (i_bb1 x) -> bb_from bs (Z.of_nat (pi_pos pi) + pi_off pi + 1) = Ok (i_bb2 x) -> end_of pi [i]
| eo_more ids : (jmp_cls (pi_code pi) = true -> opn (pi_code pi) = 8%Z) -> (forall i x, In i ids -> f_insn f i = Some x -> is_jmp_op (i_op x) = false) -> end_of pi ids.
Lemma lifts_end b m pi ids m' : lifts f bs b m pi ids m' -> end_of pi ids.
Proof.
  assert (AL : is_alu (pi_code pi) = true -> jmp_cls (pi_code pi) = true -> opn (pi_code pi) = 8%Z).
  { unfold is_alu, jmp_cls, cls. intros A B. exfalso. rewrite orb_true_iff, !Z.eqb_eq in A, B. lia. }
  assert (CL : forall z, cls (pi_code pi) = z -> z <> 5%Z -> z <> 6%Z -> jmp_cls (pi_code pi) = true -> opn (pi_code pi) = 8%Z).
  { intros z A N5 N6 B. exfalso. unfold jmp_cls in B. rewrite orb_true_iff, !Z.eqb_eq in B. lia. }
  assert (ONE : forall (i : nat) y x (P : insn -> Prop), f_insn f i = Some y -> P y -> In i [i] -> f_insn f i = Some x -> P x) by (intros; congruence).
  intros L. inversion L; subst.
  - destruct H4 as (y & Y & S). apply eo_more; [now apply AL|]. intros j x [<-|[]] X. assert (x = y) by congruence. subst x. rewrite (sim_op _ _ S). cbn. eapply bin_not_jmp; eassumption.
  - apply eo_more; [now apply AL|]. intros j x [].
  - destruct H3 as (y & Y & S). apply eo_more; [now apply AL|]. intros j x [<-|[]] X. assert (x = y) by congruence. subst x. rewrite (sim_op _ _ S). cbn.
    destruct H0 as [(_ & _ & -> & _)|(_ & _ & -> & _)]; [destruct (src_x _)|]; reflexivity.
  - destruct H3 as (y & Y & S). apply eo_more; [apply (CL _ H); lia|]. intros j x [<-|[]] X. assert (x = y) by congruence. subst x. rewrite (sim_op _ _ S). reflexivity.
  - destruct H2 as (y & Y & S). apply eo_more; [apply (CL _ H); lia|]. intros j x [<-|[]] X. assert (x = y) by congruence. subst x. rewrite (sim_op _ _ S). reflexivity.
  - destruct H2 as (y & Y & S). apply eo_more; [destruct H0 as [(H0 & _)|(H0 & _)]; apply (CL _ H0); lia|]. intros j x [<-|[]] X. assert (x = y) by congruence. subst x. rewrite (sim_op _ _ S). reflexivity.
  - destruct H2 as (y & Y & S). destruct (sim_fields _ _ S) as (O & _ & _ & B1 & _). cbn in O, B1. eapply eo_ja; eauto. now rewrite B1.
  - destruct H2 as (y & Y & S). eapply eo_ret; eauto. now rewrite (sim_op _ _ S).
  - destruct H5 as (y & Y & S). destruct (sim_fields _ _ S) as (O & _ & _ & B1 & B2 & _). cbn in O, B1, B2. destruct (cond_not_jmp _ _ H0). eapply eo_cond; eauto; congruence.
  - destruct H4 as (y & Y & S). apply eo_more; [intros _; assumption|]. intros j x [<-|[]] X. assert (x = y) by congruence. subst x. rewrite (sim_op _ _ S). cbn.
    destruct H2 as [(-> & _)|(-> & _)]; reflexivity.
Qed.
Lemma pre_ends q i e0 pi : pre_of p q i e0 pi -> jmp_cls (pi_code pi) = true -> opn (pi_code pi) <> 8%Z -> ends i.
Proof.
  intros [(i' & A & S & N24 & N0 & -> & ->)|(j & A & C24 & A2 & C0 & -> & ->)] JC N8; cbn [pi_code] in *; [|discriminate JC].
  destruct S as [-> |(TW & O0 & ->)]; [|now right; right].
  assert (CL : (b_code i mod 8 = 5 \/ b_code i mod 8 = 6)%Z) by (unfold jmp_cls, cls in JC; lia).
  destruct (wf_jmp _ W _ _ A CL) as [Q|[Q|[Q|Q]]]; unfold ends; auto. rewrite Q in N8. destruct (N8 eq_refl).
Qed.
Lemma pre_more q i e0 pi : pre_of p q i e0 pi -> (jmp_cls (pi_code pi) = true -> opn (pi_code pi) = 8%Z) -> ~ ends i.
Proof.
  intros [(i' & A & S & N24 & N0 & -> & ->)|(j & A & C24 & A2 & C0 & -> & ->)] H K; cbn [pi_code] in *.
  - destruct S as [-> |(TW & O0 & ->)]; [|discriminate (H eq_refl)]. destruct K as [K|[K|K]]; [rewrite K in H; discriminate (H eq_refl)|rewrite K in H; discriminate (H eq_refl)|].
    unfold two_way in K. apply andb_true_iff in K as [K1 K2]. cbv zeta in K2. unfold jmp_cls, cls in H. rewrite K1 in H. specialize (H eq_refl). unfold opn in H. rewrite H in K2. discriminate K2.
  - unfold ends in K. rewrite C24 in K. destruct K as [K|[K|K]]; discriminate K.
Qed.
(** only the last instruction of a block jumps *)
Lemma body_last b pb : blk bs b = Some pb -> forall l q ids mm m, code_of p q (pb_end pb) l -> pb_start pb <= q -> lifts_l f bs b mm l ids m ->
  (forall l1 i l2 x, ids = l1 ++ i :: l2 -> f_insn f i = Some x -> is_jmp_op (i_op x) = true -> l2 = []) /\
  (forall l0 x, l = l0 ++ [x] -> exists i0 e0 pre idx, pre_of p (pi_pos x) i0 e0 x /\ ids = pre ++ idx /\ end_of x idx /\ forall i y, In i pre -> f_insn f i = Some y -> is_jmp_op (i_op y) = false).
Proof.
  intros B. destruct (blk_in bs _ _ B) as (Ib & _ & _). induction l as [|pi l IH]; intros q ids mm m Hc Hq Hl.
  - inversion Hl; subst. split; [intros l1 i l2 x E; destruct l1; discriminate E|intros l0 x E; destruct l0; discriminate E].
  - inversion Hl as [|? ? ? i1 i2 m1 ? H1 H2]; subst. destruct (code_pre p _ _ _ _ Hc) as (bi & q' & Pr & Hc' & Pi & Lq).
    assert (Pq : pi_pos pi = q) by (destruct Pr as [(i' & _ & _ & _ & _ & _ & ->)|(j & _ & _ & _ & _ & _ & ->)]; reflexivity).
    pose proof (code_of_le _ _ _ _ Hc') as Le. destruct (IH q' i2 m1 m Hc' ltac:(lia) H2) as (IH1 & IH2). clear IH.
    assert (EN : ends bi -> l = [] /\ i2 = []).
    { intros E. assert (En : S q = pb_end pb) by (apply (bo_last _ _ Hbo pb q bi Ib Pi); [lia|exact E]).
      assert (l = []) by (inversion Hc'; subst; auto; match goal with X : code_of _ _ _ _ |- _ => apply code_of_le in X; lia end). subst l. split; [reflexivity|]. now inversion H2. }
    pose proof (lifts_end _ _ _ _ _ H1) as EO. split.
    + intros l1 i l2 x E X J. destruct EO as [j y Y O JC O0 Bf|j y Y O JC O9|j y o Y O CJ JC CO B1 B2|ids1 NJ NO].
      1-3: (destruct EN as (-> & ->); [eapply pre_ends; [exact Pr|exact JC|]; try (rewrite O0 || rewrite O9; discriminate); intros K; rewrite K in CO; discriminate CO|];
        cbn in E; destruct l1 as [|a l1]; [injection E as -> <-; reflexivity|]; destruct l1; discriminate E).
      assert (K : exists l1', l1 = ids1 ++ l1' /\ i2 = l1' ++ i :: l2).
      { clear - E X J NO. revert l1 E. induction ids1 as [|a r IH]; intros l1 E; cbn in E; [exists l1; auto|].
        destruct l1 as [|c l1]; cbn in E; injection E as -> E; [exfalso; rewrite (NO i x (or_introl eq_refl) X) in J; discriminate J|].
        destruct (IH (fun z y I => NO z y (or_intror I)) l1 E) as (l1' & -> & ->). exists l1'. auto. }
      destruct K as (l1' & _ & E2). exact (IH1 _ _ _ _ E2 X J).
    + intros l0 x E. destruct l0 as [|z l0]; cbn in E; injection E as -> E.
      * subst l. assert (i2 = []) as -> by now inversion H2. exists bi, q', [], i1. split; [now rewrite Pq|]. split; [now rewrite app_nil_r|]. split; [exact EO|]. intros i y [].
      * destruct (IH2 l0 x E) as (i0 & e0 & pre & idx & K1 & -> & K3 & K4). exists i0, e0, (i1 ++ pre), idx. split; [exact K1|]. split; [now rewrite app_assoc|]. split; [exact K3|].
        intros i y I Y. apply in_app_or in I as [I|I]; [|exact (K4 i y I Y)].
        destruct EO as [j w Yw O JC O0 Bf|j w Yw O JC O9|j w o Yw O CJ JC CO B1 B2|ids1 NJ NO]; [..|exact (NO i y I Y)];
          (destruct EN as (-> & _); [eapply pre_ends; [exact Pr|exact JC|]; try (rewrite O0 || rewrite O9; discriminate); intros K; rewrite K in CO; discriminate CO|destruct l0; discriminate E]).
Qed.
Theorem jump_last b l1 i l2 x : insns_of f b = l1 ++ i :: l2 -> f_insn f i = Some x -> is_jmp_op (i_op x) = true -> l2 = [].
Proof.
  intros E X J. destruct (has_blk b i) as (pb & B); [rewrite E; apply in_or_app; right; now left|]. destruct (facts' b pb B) as (phs & ids & m & H & L & EI).
  destruct (blk_in bs _ _ B) as (Ib & _ & _). destruct (bo_code _ _ Hbo pb Ib) as [Cd _]. destruct (body_last b pb B _ _ _ _ _ Cd (le_n _) L) as (K & _).
  rewrite E in EI. assert (Q : exists r, l1 = phs ++ r /\ ids = r ++ i :: l2).
  { assert (NP : forall j, In j phs -> j <> i) by (intros j I ->; destruct (bi_phs _ _ _ _ _ _ _ _ _ H i I) as (y & r & Y & O & _); assert (y = x) by congruence; subst y; rewrite O in J; discriminate J).
    clear - EI NP. revert l1 EI. induction phs as [|a r IH]; intros l1 E; cbn in E; [exists l1; auto|]. destruct l1 as [|c l1]; cbn in E; injection E as -> E; [destruct (NP a (or_introl eq_refl) eq_refl)|].
    destruct (IH (fun z I => NP z (or_intror I)) l1 E) as (q & -> & ->). exists q. auto. }
  destruct Q as (r & _ & Q). exact (K _ _ _ _ Q X J).
Qed.

(** ** Successors *)
Lemma pos_inj' c1 c2 p1 p2 : blk bs c1 = Some p1 -> blk bs c2 = Some p2 -> pb_start p1 = pb_start p2 -> c1 = c2.
Proof.
  destruct c1 as [|a]; [discriminate|]. destruct c2 as [|b]; [discriminate|]. cbn. intros H1 H2 E. f_equal.
  destruct (Nat.lt_trichotomy a b) as [L|[L|L]]; [|exact L|].
  - pose proof (bo_sorted _ _ Hbo _ _ _ _ H1 H2 L). lia.
  - pose proof (bo_sorted _ _ Hbo _ _ _ _ H2 H1 L). lia.
Qed.
Lemma next_index b pb c pc : blk bs b = Some pb -> blk bs c = Some pc -> pb_start pc = pb_end pb -> c = S b.
Proof.
  destruct b as [|a]; [discriminate|]. destruct c as [|d]; [discriminate|]. cbn [blk]. intros B C E. f_equal.
  assert (Ia : In pb bs) by (eapply nth_error_In; exact B). destruct (block_span p bs Hbo pb Ia) as (L & _).
  destruct (Nat.lt_trichotomy d (S a)) as [K|[K|K]]; [|exact K|].
  - exfalso. destruct (Nat.eq_dec d a) as [->|N]; [assert (pb = pc) by congruence; subst; lia|]. pose proof (bo_sorted _ _ Hbo _ _ _ _ C B ltac:(lia)). lia.
  - exfalso. destruct (nth_error bs (S a)) as [pd|] eqn:D; [|apply nth_error_None in D; assert (d < length bs) by (apply nth_error_Some; congruence); lia].
    pose proof (bo_sorted _ _ Hbo _ _ _ _ B D (Nat.lt_succ_diag_r a)). pose proof (bo_sorted _ _ Hbo _ _ _ _ D C K).
    assert (Bd : boundary p (pb_start pd)) by (apply (bo_start _ _ Hbo), in_map; eapply nth_error_In; exact D).
    pose proof (bo_inner _ _ Hbo pb _ Ia Bd). lia.
Qed.
Lemma succs_are b pb q i L : blk bs b = Some pb -> last_pos pb q -> at_pos p q i -> NoDup L -> (forall c, In c L -> exists pc, blk bs c = Some pc) ->
  (forall t, In t (next_pcs i (Z.of_nat q)) <-> exists c pc, In c L /\ blk bs c = Some pc /\ t = Z.of_nat (pb_start pc)) -> Permutation (succs_of f b) L.
Proof.
  intros B Lp A ND EX H. destruct (facts' b pb B) as (phs & ids & m & Hb & _). unfold succs_of. rewrite (bi_blk _ _ _ _ _ _ _ _ _ Hb). cbn [b_succs].
  destruct (blk_in bs _ _ B) as (Ib & _ & Nb). apply NoDup_Permutation.
  - apply FinFun.Injective_map_NoDup; [intros x y K; now injection K|apply (eo_nodup _ _ Heo pb Ib)].
  - exact ND.
  - intros c. split.
    + intros I. apply in_map_iff in I as (c0 & <- & I). destruct (blk bs (S c0)) as [pc|] eqn:C; [|destruct (main_succ p bs Heo b pb c0 B I C)].
      pose proof (proj1 (eo_succ _ _ Heo _ c0 _ pc _ _ Nb C Lp A) I) as K. apply H in K as (c' & pc' & I' & C' & E).
      assert (S c0 = c') by (eapply pos_inj'; eauto; lia). now subst c'.
    + intros I. destruct (EX c I) as (pc & C). destruct (blk_in bs _ _ C) as (_ & E & NC). rewrite E. apply in_map.
      apply (eo_succ _ _ Heo _ _ _ pc _ _ Nb NC Lp A). apply H. exists c, pc. auto.
Qed.
Lemma bb_from_blk t c : bb_from bs t = Ok c -> exists pc, blk bs c = Some pc /\ Z.of_nat (pb_start pc) = t.
Proof. intros H. destruct (bb_from_ok ar_table bs ar_agrees _ _ H) as (y & Y & Y'). eauto. Qed.
(** what stands at the end of a block, and where control goes from there *)
Theorem block_end b pb : blk bs b = Some pb ->
  (exists l i y, insns_of f b = l ++ [i] /\ f_insn f i = Some y /\
     ((is_cond_jmp_op (i_op y) = true /\ Permutation (succs_of f b) [i_bb1 y; i_bb2 y] /\ i_bb1 y = S b) \/
      (i_op y = JA /\ succs_of f b = [i_bb1 y]) \/ (i_op y = RET /\ succs_of f b = []))) \/
  ((forall i y, In i (insns_of f b) -> f_insn f i = Some y -> is_jmp_op (i_op y) = false) /\ succs_of f b = [S b]).
Proof.
  intros B. destruct (facts' b pb B) as (phs & ids & m & H & L & EI). destruct (blk_in bs _ _ B) as (Ib & Eb & Nb). destruct (bo_code _ _ Hbo pb Ib) as [Cd Ne].
  destruct (body_last b pb B _ _ _ _ _ Cd (le_n _) L) as (_ & K). destruct (block_span p bs Hbo pb Ib) as (Ls & _).
  destruct (code_of_last _ _ _ _ Cd Ls) as (l0 & x & i & E & Ai & Lx & Nz & Ee). destruct (K l0 x E) as (i0 & e0 & pre & idx & Pr & Ei & EO & NP).
  assert (Lp : last_pos pb (pi_pos x)) by (exists l0, x; auto).
  assert (Ia : i0 = i).
  { destruct Pr as [(j & A & _)|(j & A & _)]; unfold at_pos in *; congruence. }
  subst i0. assert (Hph : forall j y, In j phs -> f_insn f j = Some y -> is_jmp_op (i_op y) = false).
  { intros j y I Y. destruct (bi_phs _ _ _ _ _ _ _ _ _ H j I) as (z & r & Z & O & _). assert (z = y) by congruence. subst z. now rewrite O. }
  assert (PP : forall j j' : nat, Permutation [j] [j'] -> j = j') by (intros j j' Q; apply Permutation_length_1 in Q; exact Q).
  destruct EO as [j y Y O JC O0 Bf|j y Y O JC O9|j y o Y O CJ JC CO B1 B2|idx NJ NO].
  - left. exists (phs ++ pre), j, y. split; [rewrite EI, Ei; now rewrite app_assoc|]. split; [exact Y|]. right. left. split; [exact O|].
    destruct (bb_from_blk _ _ Bf) as (pc & C & Sc). assert (Q : Permutation (succs_of f b) [i_bb1 y]).
    { apply (succs_are b pb (pi_pos x) i [i_bb1 y] B Lp Ai); [repeat constructor; intros []|intros c [<-|[]]; eauto|].
      intros t. transitivity (t = Z.of_nat (pb_start pc)); [|split; [intros ->; exists (i_bb1 y), pc; cbn; auto|intros (c & pc' & [<-|[]] & C' & ->); congruence]].
      rewrite Sc. destruct Pr as [(i' & A & SI & N24 & N0 & _ & EX)|(j' & A & C24 & _ & _ & _ & EX)]; [|rewrite EX in JC; discriminate JC].
      rewrite EX in JC, O0. rewrite EX. cbn [pi_code pi_off pi_pos] in *. destruct SI as [-> |(TW & Of & ->)].
      - assert (C5 : b_code i = 5%Z).
        { assert (CL : (b_code i mod 8 = 5 \/ b_code i mod 8 = 6)%Z) by (unfold jmp_cls, cls in JC; lia).
          destruct (wf_jmp _ W _ _ A CL) as [Q|[Q|[Q|Q]]]; [exact Q|rewrite Q in O0; discriminate O0|rewrite Q in O0; discriminate O0|].
          unfold two_way in Q. apply andb_true_iff in Q as [_ Q]. cbv zeta in Q. unfold opn in O0. rewrite O0 in Q. discriminate Q. }
        unfold next_pcs. rewrite C5. cbn. lia.
      - unfold next_pcs. destruct (Z.eqb_spec (b_code i) 5) as [Q|_]; [rewrite Q in TW; discriminate TW|]. rewrite TW, Of. cbn. lia. }
    destruct (Permutation_length_1_inv (Permutation_sym Q)). reflexivity.
  - left. exists (phs ++ pre), j, y. split; [rewrite EI, Ei; now rewrite app_assoc|]. split; [exact Y|]. right. right. split; [exact O|].
    assert (Q : Permutation (succs_of f b) []).
    { apply (succs_are b pb (pi_pos x) i [] B Lp Ai); [constructor|intros c []|]. intros t. split; [|intros (c & pc & [] & _)]. intros T. exfalso.
      destruct Pr as [(i' & A & SI & N24 & N0 & _ & EX)|(j' & A & C24 & _ & _ & _ & EX)]; [|rewrite EX in JC; discriminate JC].
      rewrite EX in JC, O9. cbn [pi_code] in *. destruct SI as [-> |(TW & Of & ->)]; [|discriminate O9].
      assert (C9 : b_code i = 0x95%Z).
      { assert (CL : (b_code i mod 8 = 5 \/ b_code i mod 8 = 6)%Z) by (unfold jmp_cls, cls in JC; lia).
        destruct (wf_jmp _ W _ _ A CL) as [Q|[Q|[Q|Q]]]; [rewrite Q in O9; discriminate O9|rewrite Q in O9; discriminate O9|exact Q|].
        unfold two_way in Q. apply andb_true_iff in Q as [_ Q]. cbv zeta in Q. unfold opn in O9. rewrite O9 in Q. discriminate Q. }
      unfold next_pcs in T. rewrite C9 in T. exact T. }
    apply Permutation_sym, Permutation_nil in Q. exact Q.
  - left. exists (phs ++ pre), j, y. split; [rewrite EI, Ei; now rewrite app_assoc|]. split; [exact Y|]. left. split; [now rewrite O|].
    destruct (bb_from_blk _ _ B1) as (p1 & C1 & S1). destruct (bb_from_blk _ _ B2) as (p2 & C2 & S2).
    assert (N8 : opn (pi_code x) <> 8%Z) by (intros Q; rewrite Q in CO; discriminate CO). pose proof (pre_ends _ _ _ _ Pr JC N8) as En.
    assert (Eq : S (pi_pos x) = pb_end pb) by (apply (bo_last _ _ Hbo pb _ i Ib Ai); [lia|exact En]).
    assert (PX : pi_code x = b_code i /\ pi_off x = b_off i /\ two_way (b_code i) = true).
    { destruct Pr as [(i' & A & SI & N24 & N0 & _ & EX)|(j' & A & C24 & _ & _ & _ & EX)]; [|rewrite EX in JC; discriminate JC].
      rewrite EX in JC, CO |- *. cbn [pi_code pi_off] in *. destruct SI as [-> |(TW & Of & ->)]; [|discriminate CO]. split; [reflexivity|]. split; [reflexivity|].
      exact (two_way_of ar_table ar_agrees _ _ JC CO). }
    destruct PX as (P1 & P2 & TW). assert (IX : In x (pb_insns pb)) by (rewrite E; apply in_or_app; right; now left).
    pose proof (bo_off _ _ Hbo pb x Ib IX ltac:(now rewrite P1)) as Of.
    assert (NE : i_bb1 y <> i_bb2 y) by (intros Q; rewrite Q in C1; assert (p1 = p2) by congruence; subst p2; lia).
    split.
    + apply (succs_are b pb (pi_pos x) i _ B Lp Ai).
      * repeat constructor; [intros [Q|[]]; congruence|intros []].
      * intros c [<-|[<-|[]]]; eauto.
      * intros t. unfold next_pcs. destruct (Z.eqb_spec (b_code i) 5) as [Q|_]; [rewrite Q in TW; discriminate TW|]. rewrite TW. cbn [In]. split.
        { intros [<-|[<-|[]]]; [exists (i_bb2 y), p2|exists (i_bb1 y), p1]; cbn; (split; [auto|]); (split; [assumption|lia]). }
        { intros (c & pc & I & C & ->). cbn in I. destruct I as [<-|[<-|[]]]; [right; left; assert (pc = p1) by congruence|left; assert (pc = p2) by congruence]; subst pc; lia. }
    + eapply next_index; [exact B|exact C1|]. lia.
  - right. pose proof (pre_more _ _ _ _ Pr NJ) as NE. split.
    + intros j y I Y. rewrite EI, Ei in I. apply in_app_or in I as [I|I]; [exact (Hph j y I Y)|]. apply in_app_or in I as [I|I]; [exact (NP j y I Y)|exact (NO j y I Y)].
    + destruct (block_last p bs Hbo pb Ib) as (q & i2 & Lp2 & A2 & _ & _ & D).
      assert (q = pi_pos x). { destruct Lp2 as (l1 & x1 & E1 & <-). rewrite E in E1. apply app_inj_tail in E1 as (_ & ->). reflexivity. } subst q.
      assert (i2 = i) by (unfold at_pos in *; congruence). subst i2.
      assert (NX : next_pcs i (Z.of_nat (pi_pos x)) = [Z.of_nat (pb_end pb)]).
      { unfold next_pcs, ends in *. destruct (Z.eqb_spec (b_code i) 5) as [Q|_]; [tauto|]. destruct (two_way (b_code i)) eqn:TW; [tauto|].
        destruct (Z.eqb_spec (b_code i) 0x95) as [Q|_]; [tauto|]. destruct (Z.eqb_spec (b_code i) 24) as [Q|Q]; destruct D as [[D1 D2]|[D1 D2]]; try contradiction; f_equal; lia. }
      destruct (eo_total _ _ Heo pb _ i (Z.of_nat (pb_end pb)) Ib Lp Ai) as (pc & Ic & Sc); [rewrite NX; now left|].
      apply In_nth_error in Ic as (c & C). assert (SC : S c = S b) by (apply (next_index b pb (S c) pc B C); lia).
      assert (Q : Permutation (succs_of f b) [S c]).
      { apply (succs_are b pb (pi_pos x) i [S c] B Lp Ai); [repeat constructor; intros []|intros c' [<-|[]]; exists pc; exact C|].
        intros t. rewrite NX. split; [intros [<-|[]]; exists (S c), pc; split; [now left|split; [exact C|lia]]|]. intros (c' & pc' & [<-|[]] & C' & ->). left. cbn in C'. assert (pc' = pc) by congruence. subst pc'. lia. }
      rewrite SC in Q. destruct (Permutation_length_1_inv (Permutation_sym Q)). reflexivity.
Qed.
End Shape.
