(** Which lifted functions the program checker accepts. *)
From Coq Require Import ZArith List Bool Arith Lia Permutation.
From Verif Require Import SpecWord SpecIsa SpecFlat SpecCfg SpecLift SpecIr SpecEdit SpecSsa SpecOut M_Base M_Ir M_Edit M_GenBB M_Lift M_Layout M_Check
  L_Word L_Edit L_GenBB L_GenBBEx L_Lift L_LiftRead L_LiftFill L_LiftDfs L_LiftSim L_LiftRun L_LiftMain L_LiftSafe L_LiftProp L_LiftEx
  SpecPass SpecStrict SpecLayout L_Layout L_LiftStrict SpecPrep L_LiftShape L_LiftLay SpecCheck SpecAccept L_Check L_Accept.
From Verif Require Import SpecPass SpecIr SpecPrep SpecStrict.
Import ListNotations.
Open Scope nat_scope.

(** counts of operands and widths *)
Definition fit (x : insn) : Prop :=
  (forall n, SpecCheck.arity (i_op x) = Some n -> length (i_vals x) = n) /\
  (i_op x = ALLOC \/ i_op x = LOADRAW \/ i_op x = STORERAW -> i_vrt x <> VR_UNKNOWN) /\
  (forall o, alu_op_of (i_op x) = Some o -> width_of (i_alu x) <> None) /\
  (forall c, cmp_op_of (i_op x) = Some c -> width_of (i_alu x) <> None).
(** the parameters of swaps and calls *)
Definition told (x : insn) : Prop :=
  (i_op x = HTOBE \/ i_op x = HTOLE -> i_u x = 16%Z \/ i_u x = 32%Z \/ i_u x = 64%Z) /\ (i_op x = CALL -> i_u x <> 0%Z).
Definition pi_told (pi : pre_insn) : Prop :=
  (cls (pi_code pi) = 4 -> opn (pi_code pi) = 13 -> pi_imm pi = 16 \/ pi_imm pi = 32 \/ pi_imm pi = 64)%Z /\
  (jmp_cls (pi_code pi) = true -> opn (pi_code pi) = 8%Z -> pi_src pi <> 6%Z -> pi_imm pi <> 0%Z).
Lemma sim_more x y : sim_i x y -> i_op x = i_op y /\ i_vals x = i_vals y /\ i_u x = i_u y /\ i_vrt x = i_vrt y /\ i_alu x = i_alu y.
Proof. unfold sim_i. destruct x, y; cbn. intros E. injection E as -> -> -> -> -> -> -> -> -> -> -> ->. auto. Qed.
Lemma bin_arity c o : bin_of c = Some o -> SpecCheck.arity o = Some 2 /\ ~ In o [ALLOC; LOADRAW; STORERAW; HTOBE; HTOLE; CALL].
Proof. unfold bin_of. intros H. repeat match type of H with (if ?b then _ else _) = _ => destruct b; [injection H as <-; split; [reflexivity|cbn; intuition discriminate]|] end. discriminate H. Qed.
Lemma cond_arity c o : cond_of c = Some o -> SpecCheck.arity o = Some 2 /\ ~ In o [ALLOC; LOADRAW; STORERAW; HTOBE; HTOLE; CALL].
Proof. unfold cond_of. intros H. repeat match type of H with (if ?b then _ else _) = _ => destruct b; [injection H as <-; split; [reflexivity|cbn; intuition discriminate]|] end. discriminate H. Qed.
Lemma alu_w_ok c : width_of (alu_w c) <> None.
Proof. unfold alu_w. destruct (_ =? 4)%Z; discriminate. Qed.
Lemma jmp_w_ok c : width_of (jmp_w c) <> None.
Proof. unfold jmp_w. destruct (_ =? 5)%Z; discriminate. Qed.
Lemma ld_vrt_ok c : ld_vrt c <> VR_UNKNOWN.
Proof. unfold ld_vrt. destruct (szf c =? 0)%Z; [discriminate|]. destruct (szf c =? 1)%Z; [discriminate|]. destruct (szf c =? 2)%Z; discriminate. Qed.

Section Fit.
Variables (f : func) (bs : list pblock).
Lemma lifts_fit b m pi ids m' : lifts f bs b m pi ids m' -> forall u x, In u ids -> f_insn f u = Some x -> fit x /\ (pi_told pi -> told x).
Proof.
  intros L u x I X. inversion L; subst; try (destruct I; fail); destruct I as [<-|[]];
    match goal with H : like f _ _ |- _ => destruct H as (y & Y & S); assert (y = x) by congruence; subst y; destruct (sim_more _ _ S) as (O & V & U & R & A) end; cbn in O, V, U, R, A.
  - destruct (bin_arity _ _ H0) as (Ar & N). split; [|intros _]; unfold fit, told; rewrite O, ?V, ?A.
    + split; [intros n E; rewrite Ar in E; injection E as <-; reflexivity|]. split; [intros Q; destruct N; cbn; intuition auto|]. split; intros; apply alu_w_ok.
    + split; intros Q; destruct N; cbn; intuition auto.
  - destruct H0 as [(O13 & C4 & -> & -> & ->)|(O8 & SX & -> & -> & ->)].
    + split; [|intros (T1 & T2)]; unfold fit, told; rewrite O, ?V, ?A, ?U.
      * split; [intros n E; destruct (src_x _); injection E as <-; reflexivity|]. split; [intros Q; destruct (src_x _); intuition discriminate|]. split; intros o E; destruct (src_x _); discriminate E.
      * split; [intros _; now apply T1|]. intros Q. destruct (src_x _); discriminate Q.
    + split; [|intros _]; unfold fit, told; rewrite O, ?V.
      * split; [intros n E; injection E as <-; reflexivity|]. split; [intuition discriminate|]. split; intros o E; discriminate E.
      * split; intros Q; intuition discriminate.
  - split; [|intros _]; unfold fit, told; rewrite O.
    + split; [intros n E; discriminate E|]. split; [intuition discriminate|]. split; intros o E; discriminate E.
    + split; intros Q; intuition discriminate.
  - split; [|intros _]; unfold fit, told; rewrite O, ?V, ?R.
    + split; [intros n E; injection E as <-; reflexivity|]. split; [intros _; apply ld_vrt_ok|]. split; intros o E; discriminate E.
    + split; intros Q; intuition discriminate.
  - split; [|intros _]; unfold fit, told; rewrite O, ?V, ?R.
    + split; [intros n E; injection E as <-; reflexivity|]. split; [intros _; apply ld_vrt_ok|]. split; intros o E; discriminate E.
    + split; intros Q; intuition discriminate.
  - split; [|intros _]; unfold fit, told; rewrite O, ?V.
    + split; [intros n E; injection E as <-; reflexivity|]. split; [intuition discriminate|]. split; intros o E; discriminate E.
    + split; intros Q; intuition discriminate.
  - split; [|intros _]; unfold fit, told; rewrite O, ?V.
    + split; [intros n E; injection E as <-; reflexivity|]. split; [intuition discriminate|]. split; intros o E; discriminate E.
    + split; intros Q; intuition discriminate.
  - destruct (cond_arity _ _ H0) as (Ar & N). split; [|intros _]; unfold fit, told; rewrite O, ?V, ?A.
    + split; [intros n E; rewrite Ar in E; injection E as <-; reflexivity|]. split; [intros Q; destruct N; cbn; intuition auto|]. split; intros; apply jmp_w_ok.
    + split; intros Q; destruct N; cbn; intuition auto.
  - split; [|intros (T1 & T2)]; unfold fit, told; rewrite O, ?U.
    + destruct H2 as [(-> & _)|(-> & _)]; (split; [intros n E; discriminate E|]; split; [intuition discriminate|]; split; intros z E; discriminate E).
    + split; [intros Q; destruct H2 as [(-> & _)|(-> & _)]; intuition discriminate|]. intros Q. destruct H2 as [(-> & _)|(_ & S6 & _)]; [discriminate Q|]. now apply T2.
Qed.
Lemma lifts_l_fit b m l ids m' : lifts_l f bs b m l ids m' -> forall u x, In u ids -> f_insn f u = Some x -> fit x /\ ((forall pi, In pi l -> pi_told pi) -> told x).
Proof.
  induction 1 as [m m' E|m pi l i1 i2 mb m' H1 H2 IH]; intros u x I X; [destruct I|]. apply in_app_or in I as [I|I].
  - destruct (lifts_fit _ _ _ _ _ H1 _ _ I X) as (A & B). split; [exact A|]. intros T. apply B, T. now left.
  - destruct (IH u x I X) as (A & B). split; [exact A|]. intros T. apply B. intros q Q. apply T. now right.
Qed.
(** and conversely *)
Lemma lifts_told b m pi ids m' : lifts f bs b m pi ids m' -> (forall u x, In u ids -> f_insn f u = Some x -> told x) -> pi_told pi.
Proof.
  intros L T. assert (JC : forall z, cls (pi_code pi) = z -> z <> 5%Z -> z <> 6%Z -> jmp_cls (pi_code pi) = true -> False).
  { intros z A N5 N6 B. unfold jmp_cls in B. rewrite orb_true_iff, !Z.eqb_eq in B. lia. }
  assert (JA : is_alu (pi_code pi) = true -> jmp_cls (pi_code pi) = true -> False).
  { unfold is_alu, jmp_cls. intros A B. rewrite orb_true_iff, !Z.eqb_eq in A, B. lia. }
  assert (C4 : jmp_cls (pi_code pi) = true -> cls (pi_code pi) = 4%Z -> False). { intros A B. apply (JC 4%Z); auto; lia. }
  inversion L; subst; split; intros Q1 Q2; try (intros Q3).
  all: try (exfalso; now apply JA). all: try (exfalso; now apply C4). all: try (rewrite Q2 in *; discriminate). all: try lia.
  all: try (exfalso; eapply JC; [eassumption|lia|lia|assumption]).
  - destruct H0 as [(O13 & _ & -> & -> & ->)|(O8 & _)]; [|lia]. destruct H3 as (y & Y & S). destruct (sim_more _ _ S) as (O & V & U & _). cbn in O, U. destruct (T i y (or_introl eq_refl) Y) as (T1 & _). rewrite O, U in T1. apply T1. destruct (src_x _); auto.
  - exfalso. destruct H0 as [(C & _)|(C & _)]; eapply JC; try eassumption; lia.
  - destruct H2 as [(_ & S6)|(-> & _)]; [contradiction|]. destruct H4 as (y & Y & S). destruct (sim_more _ _ S) as (O & V & U & _). cbn in O, U. destruct (T i y (or_introl eq_refl) Y) as (_ & T2). rewrite O, U in T2. now apply T2.
Qed.
Lemma lifts_l_told b m l ids m' : lifts_l f bs b m l ids m' -> (forall u x, In u ids -> f_insn f u = Some x -> told x) -> forall pi, In pi l -> pi_told pi.
Proof.
  induction 1 as [m m' E|m pi l i1 i2 mb m' H1 H2 IH]; intros T q Q; [destruct Q|]. destruct Q as [<-|Q].
  - apply (lifts_told _ _ _ _ _ H1). intros u x I. apply T. apply in_or_app. now left.
  - apply IH; [|exact Q]. intros u x I. apply T. apply in_or_app. now right.
Qed.
End Fit.

Section Prog.
Variable p : list bpf_insn.
Hypothesis W : wf_prog p.
Lemma pre_told q i e pi : pre_of p q i e pi -> unobjectionable i -> pi_told pi.
Proof.
  intros [(i' & A & S & N24 & N0 & -> & ->)|(j & A & C24 & A2 & C0 & -> & ->)] (U1 & U2); unfold pi_told; cbn [pi_code pi_imm pi_src].
  - destruct S as [-> |(TW & O0 & ->)]; [|split; cbn; intros; discriminate]. split; [intros C O; now apply U1|]. intros JC O8 N6. apply U2; [|exact N6].
    assert (CL : (b_code i mod 8 = 5 \/ b_code i mod 8 = 6)%Z) by (unfold jmp_cls, cls in JC; lia).
    destruct (wf_jmp _ W _ _ A CL) as [Q|[Q|[Q|Q]]]; [rewrite Q in O8; discriminate O8|exact Q|rewrite Q in O8; discriminate O8|].
    unfold two_way in Q. apply andb_true_iff in Q as [_ Q]. cbv zeta in Q. unfold opn in O8. rewrite O8 in Q. discriminate Q.
  - split; cbn; intros; discriminate.
Qed.
Lemma told_pre q i e pi : pre_of p q i e pi -> pi_told pi -> unobjectionable i.
Proof.
  intros [(i' & A & S & N24 & N0 & -> & ->)|(j & A & C24 & A2 & C0 & -> & ->)] (U1 & U2); unfold unobjectionable; cbn [pi_code pi_imm pi_src] in *.
  - destruct S as [-> |(TW & O0 & ->)].
    + split; [intros C O; now apply U1|]. intros C N6. rewrite C in U2. now apply U2.
    + unfold two_way in TW. apply andb_true_iff in TW as [T1 T2]. apply orb_true_iff in T1. rewrite !Z.eqb_eq in T1. split; intros C; [lia|]. rewrite C in T2. discriminate T2.
  - rewrite C24. split; intros C; discriminate C.
Qed.
Lemma code_has q0 e0 l : code_of p q0 e0 l -> forall q i, q0 <= q < e0 -> at_pos p q i -> b_code i <> 0%Z -> exists pi e, In pi l /\ pre_of p q i e pi.
Proof.
  induction 1 as [|q0 e0 i i' l A B C D K IH|q0 e0 i j l A B C D K IH]; intros q i0 R P N; [lia| |].
  - destruct (Nat.eq_dec q q0) as [->|Nq].
    + assert (i0 = i) by (unfold at_pos in *; congruence). subst i0. eexists _, (S q0). split; [now left|]. left. exists i'. auto 10.
    + destruct (IH q i0) as (pi & e & I & Pr); auto; [lia|]. exists pi, e. split; [now right|exact Pr].
  - destruct (Nat.eq_dec q q0) as [->|Nq].
    + assert (i0 = i) by (unfold at_pos in *; congruence). subst i0. eexists _, (S (S q0)). split; [now left|]. right. exists j. auto 10.
    + destruct (Nat.eq_dec q (S q0)) as [->|Nq']; [exfalso; unfold at_pos in *; congruence|]. destruct (IH q i0) as (pi & e & I & Pr); auto; [lia|]. exists pi, e. split; [now right|exact Pr].
Qed.
End Prog.

Section Lifted.
Variables (p : list bpf_insn) (m n : nat) (f : func).
Hypothesis P : liftable p.
Hypothesis Hl : lift m n p = Ok f.
Lemma lift_code : exists bs, finv bs f /\ blocks_of p bs /\ edges_of p bs /\
  forall b, (exists pb, blk bs b = Some pb /\ exists phs ids m0 m1, insns_of f b = phs ++ ids /\ (forall i, In i phs -> exists x, f_insn f i = Some x /\ i_op x = PHI) /\ lifts_l f bs b m0 (pb_insns pb) ids m1) \/ (blk bs b = None /\ insns_of f b = []).
Proof.
  destruct P as [W Len No0 Ra]. destruct (gen_bb_ok p W Len No0) as (bs & Hg & Hbo & Heo).
  assert (Hl' := Hl). unfold lift in Hl'. rewrite Hg in Hl'. cbn [bind] in Hl'. destruct (lift_blocks m n bs) as [s| | | |] eqn:Lb; try discriminate. injection Hl' as E.
  destruct (main_filled p W No0 bs Hbo Heo m n s Ra Lb) as (e & dn & I & F & Sl).
  destruct (lift_finv p W Len No0 m n f Hl) as (bs' & Hg' & _ & _ & Fi). rewrite Hg in Hg'. injection Hg' as <-. subst f.
  exists bs. split; [exact Fi|]. split; [exact Hbo|]. split; [exact Heo|]. intros b. pose proof (fi_blk bs _ Fi b) as Q. destruct (blk bs b) as [pb|] eqn:B; [left|right; split; [reflexivity|unfold insns_of; now rewrite Q]].
  exists pb. split; [reflexivity|]. destruct (facts' bs s e dn I F b pb B) as (phs & ids & m0 & H & L & EI). exists phs, ids, (e b), m0. split; [exact EI|]. split; [|exact L].
  intros i Ii. destruct (bi_phs _ _ _ _ _ _ _ _ _ H i Ii) as (x & r & X & O & _). eauto.
Qed.
Lemma lift_fit b i x : In i (insns_of f b) -> f_insn f i = Some x -> fit x.
Proof.
  intros I X. destruct lift_code as (bs & Fi & _ & _ & C). destruct (C b) as [(pb & B & phs & ids & m0 & m1 & E & Ph & L)|(_ & E)]; [|rewrite E in I; destruct I]. rewrite E in I. apply in_app_or in I as [J|J].
  - destruct (Ph i J) as (y & Y & O). assert (y = x) by congruence. subst y. unfold fit. rewrite O, (L_LiftSafe.fi_phi bs f Fi i x X O). split; [intros k Q; injection Q as <-; reflexivity|]. split; [intuition discriminate|]. split; intros o Q; discriminate Q.
  - apply (lifts_l_fit f bs _ _ _ _ _ L i x J X).
Qed.
Lemma lift_told : (forall j i, at_pos p j i -> unobjectionable i) -> forall b i x, In i (insns_of f b) -> f_insn f i = Some x -> told x.
Proof.
  intros U b i x I X. destruct lift_code as (bs & Fi & Hbo & _ & C). destruct (C b) as [(pb & B & phs & ids & m0 & m1 & E & Ph & L)|(_ & E)]; [|rewrite E in I; destruct I]. rewrite E in I. apply in_app_or in I as [J|J].
  - destruct (Ph i J) as (y & Y & O). assert (y = x) by congruence. subst y. unfold told. rewrite O. split; intuition discriminate.
  - apply (lifts_l_fit f bs _ _ _ _ _ L i x J X). intros pi Ip. destruct (blk_in bs _ _ B) as (Ib & _ & _). destruct (bo_code _ _ Hbo pb Ib) as [Cd _].
    destruct (code_of_at p _ _ _ pi Cd Ip) as (bi & e1 & Pr). apply (pre_told p (lb_wf _ P) _ _ _ _ Pr). apply (U (pi_pos pi)). destruct Pr as [(i' & A & _)|(j & A & _)]; exact A.
Qed.
Lemma told_lift : (forall b i x, In i (insns_of f b) -> f_insn f i = Some x -> told x) -> forall j i, at_pos p j i -> unobjectionable i.
Proof.
  intros T j i A. destruct (Z.eq_dec (b_code i) 0) as [Z0|N0]; [unfold unobjectionable; rewrite Z0; split; intros Q; discriminate Q|].
  destruct lift_code as (bs & Fi & Hbo & Heo & C). pose proof P as [W Len No0 Ra]. destruct (reach_path p W bs Hbo Heo _ (Ra j i A N0)) as (_ & b & pb & q & i' & _ & B & Eq & R & A' & _).
  assert (q = j) by lia. subst q. destruct (blk_in bs _ _ B) as (Ib & _ & _). destruct (bo_code _ _ Hbo pb Ib) as [Cd Ne]. destruct (code_has p _ _ _ Cd j i R A N0) as (pi & e & Ip & Pr).
  apply (told_pre p _ _ _ _ Pr). destruct (C b) as [(pb' & B' & phs & ids & m0 & m1 & E & Ph & L)|(E & _)]; [|congruence].
  assert (pb' = pb) by congruence. subst pb'. apply (lifts_l_told f bs _ _ _ _ _ L); [|exact Ip]. intros u x Iu. apply (T b). rewrite E. apply in_or_app. now right.
Qed.
End Lifted.
