(** From the function given to the code generator to the generated code. *)
From Coq Require Import ZArith List Bool Arith Lia Permutation.
From Verif Require Import M_Base M_Ir M_Norm M_Edit M_Ra SpecWord SpecFlat SpecProg SpecNormCond SpecOut SpecSsa SpecIr SpecEdit SpecRa SpecPass SpecShift SpecVirt SpecStrict SpecPrep
  L_Edit L_Word L_Norm L_Prog L_Out L_RaProp L_Virt L_SsaOut L_VirtSame L_VirtWit L_Prep L_PrepStr L_PrepInv L_PrepFlow L_PrepAll L_PrepEnd L_PrepReady L_PrepInit L_PrepSsa L_PrepMain L_PrepAsg L_Chain L_LiftLay L_VirtCheck.
From Verif Require Import M_Ra SpecRa SpecVirt.
Import ListNotations.
Open Scope nat_scope.

(** ** The conditions of the normaliser *)
Lemma F2_in {A B} (R : A -> B -> Prop) l l' b : Forall2 R l l' -> In b l' -> exists a, In a l /\ R a b.
Proof. induction 1 as [|a c l l' H _ IH]; intros I; [destruct I|]. destruct I as [<-|I]; [exists a; split; [now left|exact H]|]. destruct (IH I) as (a' & I' & R'). exists a'. split; [now right|exact R']. Qed.
Lemma fill_id o v : no_hole v -> fill_val o v = v.
Proof. unfold no_hole, fill_val. destruct (v_data v); tauto. Qed.
Lemma fill_const o x v c : (- 2 ^ 15 <= o < 2 ^ 15)%Z -> encodable x -> In v (operand_values x) -> v_data (fill_val o v) = VConst c ->
  v_bi (fill_val o v) = B_NONE /\ v_ct (fill_val o v) = A_32 /\ s32_range c.
Proof.
  intros Ho G I. pose proof (ec_hole _ G v I) as H. unfold hole_ok in H. unfold fill_val, s32_range. destruct (v_data v) as [k|k|k|k|k|] eqn:D; intros E; rewrite ?D in E; try discriminate E.
  - injection E as <-. exact (ec_const _ G v k I D).
  - cbn in E |- *. injection E as <-. destruct H as (A & B & H). repeat (split; [assumption|]). lia.
  - cbn in E |- *. injection E as <-. destruct H as (A & B & H). repeat (split; [assumption|]). lia.
Qed.
Lemma assign_reg y p v : vp_spilled p = 0%Z -> i_alu y <> A_32 -> SpecNormCond.on_stack v = false -> (SpecNormCond.is_const v = true -> v_ct v = A_32) -> assign_ok y p v.
Proof.
  intros Z A O C. assert (Sp : stack_pos p = false) by (unfold stack_pos; rewrite Z; apply andb_false_r). unfold assign_ok. rewrite Sp, O. repeat split; try discriminate; auto.
  intros [Q|Q]; discriminate Q.
Qed.

(** A place in a register, or nowhere. *)
Definition off_stack (u : cgs) (d : nat) : Prop := exists e, c_ex u d = Some e /\ vp_spilled (x_pos e) = 0%Z.
Definition in_slot (u : cgs) (d : nat) : Prop := exists e, c_ex u d = Some e /\ vp_alloc (x_pos e) = true /\ (- 2 ^ 15 <= vp_spilled (x_pos e) < 0)%Z.
(** [z] is a variable with a slot *)
Definition slot_var (s u : cgs) (z : nat) : Prop := exists y, f_insn (c_f s) z = Some y /\ i_op y = ALLOC /\ i_vrt y = VR_64 /\ in_slot u z.
(** What is known about the instructions and the places. *)
Record writable (s u : cgs) (o : Z) : Prop := {
  wt_off : (- 2 ^ 15 <= o < 2 ^ 15)%Z;
  wt_enc : encodables s;
  wt_kinds : ops_are (fun k => k <> GETELEMPTR /\ k <> THROW) s;
  wt_plain : forall i x v, linked s i -> f_insn (c_f s) i = Some x -> In v (operand_values x) -> plain_data (v_data v);
  wt_raw : forall i x, linked s i -> f_insn (c_f s) i = Some x -> i_op x = LOADRAW \/ i_op x = STORERAW -> s16_range (a_off (fill_addr o (i_addr x)));
  wt_ex : forall i x, linked s i -> f_insn (c_f s) i = Some x -> exists e, c_ex u i = Some e /\ (x_dst e = None \/ x_dst e = Some i) /\
    (is_void_op (i_op x) = false -> i_op x <> CALL -> x_dst e = Some i);
  wt_val : forall i x v d, linked s i -> f_insn (c_f s) i = Some x -> i_op x <> LOAD -> i_op x <> STORE -> In v (operand_values x) -> v_data v = VInsn d -> off_stack u d;
  wt_res : forall i x e, linked s i -> f_insn (c_f s) i = Some x -> c_ex u i = Some e -> x_dst e = Some i -> if iop_eqb (i_op x) ALLOC then in_slot u i else vp_spilled (x_pos e) = 0%Z;
  wt_load : forall i x, linked s i -> f_insn (c_f s) i = Some x -> i_op x = LOAD -> i_alu x <> A_32 /\ a_ot (i_addr x) = O_CONST /\
    exists t z, i_vals x = [t] /\ v_data t = VInsn z /\ slot_var s u z;
  wt_store : forall i x, linked s i -> f_insn (c_f s) i = Some x -> i_op x = STORE -> i_alu x <> A_32 /\ a_ot (i_addr x) = O_CONST /\
    exists t v z, i_vals x = [t; v] /\ v_data t = VInsn z /\ slot_var s u z /\ forall d, v_data v = VInsn d -> off_stack u d }.

Section Codes.
Context (s u : cgs) (o : Z).
Hypothesis W : writable s u o.
Hypothesis Sa : sound_assignment s u.

Lemma seen_val i x v v' : linked s i -> f_insn (c_f s) i = Some x -> In v (operand_values x) -> fval u (fill_val o v) v' ->
  (exists c, v_data (fill_val o v) = VConst c /\ v' = fill_val o v /\ v_bi v' = B_NONE /\ v_ct v' = A_32 /\ s32_range c) \/
  (exists d e q, v_data v = VInsn d /\ c_ex u d = Some e /\ v_data v' = VFlat q /\ poseq q (x_pos e)).
Proof.
  intros L X I F. pose proof (wt_enc _ _ _ W i x L X) as G. pose proof (wt_plain _ _ _ W i x v L X I) as PD. destruct (v_data (fill_val o v)) as [c|c|c|d|q|] eqn:D.
  - left. exists c. assert (E : v' = fill_val o v) by (unfold fval in F; rewrite D in F; exact F). subst v'. destruct (fill_const o x v c (wt_off _ _ _ W) G I D) as (A & B & C). auto.
  - exfalso. unfold fill_val in D. destruct (v_data v) eqn:Dv; try discriminate D; congruence.
  - exfalso. unfold fill_val in D. destruct (v_data v) eqn:Dv; try discriminate D; congruence.
  - right. unfold fval in F. rewrite D in F. destruct F as (e & q & E & Dq & Pq). exists d, e, q. assert (v_data v = VInsn d) by (unfold fill_val in D; destruct (v_data v) eqn:Dv; cbn in D; try discriminate D; congruence). auto.
  - exfalso. unfold fill_val in D. destruct (v_data v) eqn:Dv; try discriminate D; try contradiction PD; congruence.
  - exfalso. unfold fill_val in D. destruct (v_data v) eqn:Dv; try discriminate D; try contradiction PD; congruence.
Qed.
Lemma seen_const bi i x v v' : linked s i -> f_insn (c_f s) i = Some x -> In v (operand_values x) -> (forall d, v_data v = VInsn d -> off_stack u d) -> fval u (fill_val o v) v' ->
  const_ok bi v' /\ narrow_const v' /\ SpecNormCond.on_stack v' = false /\ (SpecNormCond.is_const v' = true -> v' = fill_val o v /\ v_bi v' = B_NONE /\ v_ct v' = A_32) /\
  (forall q, v_data v' = VFlat q -> vp_spilled q = 0%Z).
Proof.
  intros L X I Of F. destruct (seen_val i x v v' L X I F) as [(c & D & Ev & A & B & C)|(d & e & q & D & E & Dq & Pq)].
  - assert (D' : v_data v' = VConst c) by congruence. unfold const_ok, narrow_const, SpecNormCond.on_stack, SpecNormCond.is_const. rewrite D', A, B. split; [exact C|]. split; [auto|]. split; [auto|]. split; [auto|]. intros q Q. discriminate Q.
  - destruct (Of d D) as (e' & E' & Z). rewrite E in E'. injection E' as <-. destruct Pq as (_ & _ & P3). rewrite Z in P3.
    unfold const_ok, narrow_const, SpecNormCond.on_stack, SpecNormCond.is_const. rewrite Dq, P3. rewrite andb_false_r. split; [unfold s16_range; lia|]. split; [discriminate|]. split; [auto|]. split; [discriminate|]. intros q' Q. injection Q as <-. exact P3.
Qed.
(** the variable of a load or store *)
Lemma seen_slot bi t t' z : v_data t = VInsn z -> fval u (fill_val o t) t' -> in_slot u z -> const_ok bi t' /\ SpecNormCond.on_stack t' = true /\ SpecNormCond.in_reg t' = false /\ SpecNormCond.is_const t' = false /\
  forall q, v_data t' = VFlat q -> stack_pos q = true.
Proof.
  intros D F (e & E & A & Z). unfold fval, fill_val in F. rewrite D in F. rewrite D in F. destruct F as (e' & q & E' & Dq & (P1 & P2 & P3)). rewrite E in E'. injection E' as <-.
  assert (Nz : (vp_spilled q =? 0)%Z = false) by (rewrite P3; apply Z.eqb_neq; lia).
  unfold const_ok, SpecNormCond.on_stack, SpecNormCond.in_reg, SpecNormCond.is_const, s16_range, stack_pos. rewrite Dq, Nz, P1, A. cbn. split; [lia|]. repeat (split; [reflexivity|]). intros q' Q. injection Q as <-. now rewrite P1, A, Nz.
Qed.
Lemma seen_ok bi i n : linked s i -> seen s u o i n -> norm_ok bi n.
Proof.
  intros L (x & X & Sh & Ot). pose proof (wt_enc _ _ _ W i x L X) as G. destruct (wt_kinds _ _ _ W i x L X) as (O4 & O5).
  destruct (wt_ex _ _ _ W i x L X) as (eu & Eu & Ds & Dd).
  pose proof (so_op _ _ _ _ _ Sh) as So. pose proof (so_vals _ _ _ _ _ Sh) as Sv. pose proof (so_alu _ _ _ _ _ Sh) as Sl. pose proof (so_addr _ _ _ _ _ Sh) as Sd. pose proof (so_vrt _ _ _ _ _ Sh) as Sr.
  unfold fill_insn in So, Sv, Sl, Sd, Sr. cbn [set_addr set_phi set_vals i_op i_vals i_alu i_addr i_vrt] in So, Sv, Sl, Sd, Sr.
  assert (SV : Forall2 (fun v v' => fval u (fill_val o v) v') (i_vals x) (i_vals (n_i n))).
  { clear - Sv. revert Sv. generalize (i_vals (n_i n)). induction (i_vals x) as [|a l IH]; intros l' H; inversion H; subst; constructor; auto. }
  assert (IV : forall v, In v (i_vals x) -> In v (operand_values x)) by (intros v I; unfold operand_values; apply in_or_app; now left).
  assert (PP : s16_range (vp_spilled (n_pos n)) /\ (i_op x <> ALLOC -> vp_spilled (n_pos n) = 0%Z)).
  { destruct Ds as [D|D]; [rewrite (so_none _ _ _ _ _ Sh eu Eu D); unfold s16_range; split; [lia|auto]|].
    destruct (so_pos _ _ _ _ _ Sh eu i Eu D) as (ed & Ed & (_ & _ & ->)). rewrite Eu in Ed. injection Ed as <-. pose proof (wt_res _ _ _ W i x eu L X Eu D) as R. destruct (iop_eqb (i_op x) ALLOC) eqn:Oa.
    - apply L_VirtCheck.iop_eqb_ok in Oa. destruct R as (e' & E' & _ & R). rewrite Eu in E'. injection E' as <-. unfold s16_range. split; [lia|]. intros K. contradiction.
    - rewrite R. split; [unfold s16_range; lia|auto]. }
  destruct PP as (PR & PZ).
  destruct (iop_eq_dec (i_op x) LOAD) as [OL|NL].
  { destruct (wt_load _ _ _ W i x L X OL) as (A & B & t & z & Ev & Dz & (y & Y & Oy & Ry & Sz)). rewrite Ev in SV. inversion SV as [|? t' ? r F0 SV1 Q0 Q1]; subst. inversion SV1; subst. rewrite <- Q1 in *.
    destruct (seen_slot bi t t' z Dz F0 Sz) as (K1 & K2 & K3 & K4 & K5). rewrite OL in Sr. cbn [iop_eqb orb] in Sr. change (iop_eqb LOAD LOAD || iop_eqb LOAD STORE) with true in Sr. cbv iota in Sr.
    assert (Rn : i_vrt (n_i n) = VR_64). { rewrite <- Ry. rewrite Ev in Sr. cbn [map] in Sr. apply (Sr (fill_val o t) [] eq_refl z y); [|exact Y|exact Oy]. unfold fill_val. rewrite Dz. exact Dz. }
    unfold norm_ok. cbv zeta. rewrite So, OL, <- Q1. split; [constructor; [exact K1|constructor]|]. split; [exact PR|]. split; [exact Rn|]. split; [now rewrite Sl|].
    assert (SP : stack_pos (n_pos n) = false) by (unfold stack_pos; rewrite PZ by congruence; apply andb_false_r).
    unfold assign_ok. rewrite SP, K2, K3, K4, Sl, Rn. repeat split; try discriminate; auto. intros _. rewrite Ot by (now rewrite OL). exact B. }
  destruct (iop_eq_dec (i_op x) STORE) as [OS|NS].
  { destruct (wt_store _ _ _ W i x L X OS) as (A & B & t & v & z & Ev & Dz & (y & Y & Oy & Ry & Sz) & Vo). pose proof SV as SV0. rewrite Ev in SV. inversion SV as [|? t' ? r F0 SV1 Q0 Q1]; subst. inversion SV1 as [|? v' ? r' F1 SV2 Q2 Q3]; subst. inversion SV2; subst. rewrite <- Q1 in *.
    destruct (seen_slot bi t t' z Dz F0 Sz) as (K1 & K2 & K3 & K4 & K5). assert (Iv : In v (operand_values x)) by (apply IV; rewrite Ev; right; now left).
    destruct (seen_const bi i x v v' L X Iv Vo F1) as (C1 & C2 & C3 & C4 & C5). rewrite OS in Sr. change (iop_eqb STORE LOAD || iop_eqb STORE STORE) with true in Sr. cbv iota in Sr.
    assert (Rn : i_vrt (n_i n) = VR_64). { rewrite <- Ry. rewrite Ev in Sr. cbn [map] in Sr. apply (Sr (fill_val o t) _ eq_refl z y); [|exact Y|exact Oy]. unfold fill_val. rewrite Dz. exact Dz. }
    unfold norm_ok. cbv zeta. rewrite So, OS, <- Q1. split; [constructor; [exact K1|constructor; [exact C1|constructor]]|]. split; [exact PR|]. split; [exact Rn|]. split; [now rewrite Sl|].
    intros q Dq. pose proof (K5 q Dq) as SP. unfold assign_ok. rewrite SP, Sl. repeat split; try discriminate; auto. intros _. rewrite Ot by (now rewrite OS). exact B. }
  assert (OF : forall v d, In v (operand_values x) -> v_data v = VInsn d -> off_stack u d) by (intros v d Iv D; exact (wt_val _ _ _ W i x v d L X NL NS Iv D)).
  assert (CV : forall v', In v' (i_vals (n_i n)) -> const_ok bi v' /\ narrow_const v' /\ SpecNormCond.on_stack v' = false /\ (SpecNormCond.is_const v' = true -> v_bi v' = B_NONE /\ v_ct v' = A_32)).
  { intros v' I. destruct (F2_in _ _ _ _ SV I) as (v & Iv & F). destruct (seen_const bi i x v v' L X (IV v Iv) (fun d => OF v d (IV v Iv)) F) as (A & B & C & D & _). repeat (split; [assumption|]). intros Q. apply (D Q). }
  unfold norm_ok. cbv zeta. split; [apply Forall_forall; intros v' I; apply (CV v' I)|]. split; [exact PR|]. rewrite So.
  assert (ADDR : i_op x = LOADRAW \/ i_op x = STORERAW -> (SpecNormCond.is_const (a_val (i_addr (n_i n))) = true -> exists c, v_data (a_val (i_addr x)) = VConst c) /\
    forall q, v_data (a_val (i_addr (n_i n))) = VFlat q -> s16_range (a_off (i_addr (n_i n)) + vp_spilled q)).
  { intros Q. destruct (Sd Q) as (D1 & D2 & D3).
    assert (IA : In (a_val (i_addr x)) (operand_values x)) by (unfold operand_values; apply in_or_app; right; destruct Q as [-> | ->]; now left).
    assert (F : fval u (fill_val o (a_val (i_addr x))) (a_val (i_addr (n_i n)))).
    { rewrite (fill_id o _ (ec_raw _ G Q _ IA)). unfold fill_addr in D3. destruct (a_ot (i_addr x)); exact D3. }
    destruct (seen_const bi i x _ _ L X IA (fun d => OF _ d IA) F) as (_ & _ & _ & D & Z). split.
    - intros K. destruct (D K) as (K' & _). rewrite (fill_id o _ (ec_raw _ G Q _ IA)) in K'. rewrite K' in K. unfold SpecNormCond.is_const in K. destruct (v_data (a_val (i_addr x))); try discriminate K. eauto.
    - intros q K. rewrite (Z q K), D1, Z.add_0_r. exact (wt_raw _ _ _ W i x L X Q). }
  assert (NZ : i_op x = ADD \/ i_op x = SUB -> i_alu (n_i n) = A_32 -> forall v', In v' (i_vals (n_i n)) -> nonzero_const bi v').
  { intros Q A v' I. rewrite Sl in A. destruct (F2_in _ _ _ _ SV I) as (v & Iv & F). destruct (ec_zero _ G Q A v Iv) as (Z1 & Z2).
    destruct (seen_val i x v v' L X (IV v Iv) F) as [(c & D & Ev & B & _)|(d & e1 & q & D & E1 & Dq & _)]; unfold nonzero_const; [|now rewrite Dq].
    rewrite (fill_id o v Z2) in *. subst v'. rewrite D. unfold const_val. rewrite B. intros ->. exact (Z1 D). }
  assert (SUBC : i_op x = SUB -> forall v0 v1, i_vals (n_i n) = [v0; v1] -> ~ (same_reg v0 (n_pos n) = true /\ same_reg v1 (n_pos n) = true)).
  { intros Q v0 v1 Ev (_ & S1). rewrite Ev in SV. inversion SV as [|a0 ? r0 ? F0 SV1 Q0]; subst. inversion SV1 as [|a1 ? r1 ? F1 SV2 Q1]; subst.
    assert (I1 : In a1 (operand_values x)) by (apply IV; rewrite <- Q0; right; now left).
    destruct (seen_val i x a1 v1 L X I1 F1) as [(c & D & Ev1 & _)|(d & e1 & q & D & E1 & Dq & (P1 & P2 & P3))]; unfold same_reg, SpecNormCond.in_reg in S1.
    - subst v1. rewrite D in S1. discriminate S1.
    - rewrite Dq in S1. rewrite !andb_true_iff in S1. destruct S1 as (((S1 & S2) & S3) & S4). unfold reg_pos in S3. rewrite andb_true_iff in S3. destruct S3 as (S3 & S5).
      assert (Di : x_dst eu = Some i) by (apply Dd; rewrite Q; [reflexivity|discriminate]).
      destruct (so_pos _ _ _ _ _ Sh eu i Eu Di) as (ed & Ed & (R1 & R2 & R3)). rewrite Eu in Ed. injection Ed as <-. apply Z.eqb_eq in S2, S5.
      refine (sa_alu s u Sa i x a1 d L X _ _ D _); [now rewrite Q|rewrite <- Q0; reflexivity|]. apply Z.eqb_eq in S4. exists (vp_reg q). split.
      + exists eu. repeat split; congruence.
      + exists e1. repeat split; congruence. }
  destruct (i_op x) eqn:Ox; try exact Logic.I; try contradiction; try (destruct (i_vals (n_i n)) as [|v0 [|v1 [|]]] eqn:Ev; exact Logic.I).
  all: try (destruct (i_vals (n_i n)) as [|v0 [|v1 [|]]] eqn:Ev; auto; fail).
  - destruct (i_vals (n_i n)) as [|v [|]] eqn:Ev; auto. split; [intros _; apply (CV v); now left|]. apply (ADDR ltac:(auto)).
  - destruct (ADDR ltac:(auto)) as (A1 & A2). split; [|exact A2]. destruct (SpecNormCond.is_const (a_val (i_addr (n_i n)))); [|reflexivity]. destruct (A1 eq_refl) as (c & Q). destruct (ec_load _ G Ox c Q).
  - destruct (i_vals (n_i n)) as [|v0 [|v1 [|]]] eqn:Ev; auto. intros A. split; apply (NZ ltac:(auto) A); cbn; auto.
  - destruct (i_vals (n_i n)) as [|v0 [|v1 [|]]] eqn:Ev; auto. split; [apply SUBC; auto|]. intros A. split; apply (NZ ltac:(auto) A); cbn; auto.
  - destruct (i_vals (n_i n)) as [|v [|]] eqn:Ev; auto. apply (CV v). now left.
  - destruct (i_vals (n_i n)) as [|v0 [|v1 [|]]] eqn:Ev; auto. intros C0 C1. destruct (CV v0 ltac:(now left)) as (_ & _ & _ & K0). destruct (CV v1 ltac:(right; now left)) as (_ & _ & _ & K1).
    destruct (K0 C0), (K1 C1). auto.
  - destruct (i_vals (n_i n)) as [|v [|]] eqn:Ev; auto. destruct (CV v ltac:(now left)) as (_ & _ & K1 & K2). apply assign_reg; auto; [apply PZ; discriminate|rewrite Sl; exact (ec_copy _ G Ox)|]. intros Q. apply (K2 Q).
Qed.
Lemma copied_ok bi b jv n : phi_at s b jv -> copied u o jv n -> norm_ok bi n.
Proof.
  intros (x & L & X & O & I) (C1 & (v' & C2 & C3) & C4 & (e & C5 & (_ & _ & C6))).
  assert (IV : In (snd jv) (operand_values x)) by (unfold operand_values; rewrite O; apply in_or_app; right; change (snd jv) with (fst (snd jv, b)); now apply in_map).
  assert (OF : forall d, v_data (snd jv) = VInsn d -> off_stack u d) by (intros d D; refine (wt_val _ _ _ W _ x _ d L X _ _ IV D); rewrite O; discriminate).
  destruct (seen_const bi _ x _ v' L X IV OF C3) as (A & B & C & D & _).
  destruct (wt_ex _ _ _ W _ x L X) as (e0 & E0 & _ & Di). specialize (Di ltac:(now rewrite O) ltac:(rewrite O; discriminate)). pose proof (wt_res _ _ _ W _ x e0 L X E0 Di) as Z. rewrite O in Z. change (iop_eqb PHI ALLOC) with false in Z. cbv iota in Z.
  rewrite C5 in E0. injection E0 as <-.
  unfold norm_ok. cbv zeta. rewrite C1, C2, C6, Z. split; [constructor; [exact A|constructor]|]. split; [unfold s16_range; split; reflexivity || discriminate|]. apply assign_reg; auto; congruence.
Qed.
Lemma painted_ok bi b nb : In b (c_reach s) -> painted s u o b nb -> Forall (norm_ok bi) nb.
Proof.
  intros Hb [(P & M & Z & LM & LC & LZ & cl & A1 & A2 & A3 & A4 & A5 & A6 & A7 & -> & A8 & _)].
  assert (K : forall l l', (forall i, In i l -> In i (M ++ Z)) -> Forall2 (seen s u o) l l' -> Forall (norm_ok bi) l').
  { intros l l' Hl F. apply Forall_forall. intros n I. destruct (F2_in _ _ _ _ F I) as (i & Ii & Se). refine (seen_ok bi i n _ Se).
    exists b. split; [exact Hb|]. rewrite A1. apply in_or_app. right. auto. }
  apply Forall_app. split; [refine (K M LM _ A5); intros i I; apply in_or_app; now left|]. apply Forall_app. split; [|refine (K Z LZ _ A6); intros i I; apply in_or_app; now right].
  apply Forall_forall. intros n I. destruct (F2_in _ _ _ _ A7 I) as (jv & Ij & C). rewrite Forall_forall in A8. exact (copied_ok bi b jv n (A8 jv Ij) C).
Qed.
End Codes.

(** Places in prepared functions. *)
Section Prepared.
Context (s u : cgs).
Hypothesis V : inv s.
Hypothesis AL : args_left s [].
Hypothesis Sa : sound_assignment s u.
Hypothesis Sg : same_function s u.
Hypothesis En : encodables s.
Hypothesis Op : ops_are (fun o => o <> ALLOC /\ o <> STORE /\ o <> LOAD /\ o <> GETELEMPTR /\ o <> THROW) s.

(** every place is a register *)
Lemma kept_pos v e : c_ex s v = Some e -> x_fin e = true -> exists e', c_ex u v = Some e' /\ x_pos e' = x_pos e.
Proof.
  intros E F. assert (Fx : fixed s v) by (exists e; auto). pose proof (sa_fixed s u Sa v Fx) as P. unfold position in P. rewrite E in P. cbn in P.
  destruct (c_ex u v) as [e'|]; [|discriminate P]. injection P as P. exists e'. auto.
Qed.
Lemma tracked_pos v : tracked s v -> exists e, c_ex u v = Some e /\ vp_spilled (x_pos e) = 0%Z.
Proof. intros T. destruct (sa_all s u Sa v T) as (r & (e & E & A & B & _) & _). eauto. Qed.
Lemma operand_pos i x v d : linked s i -> f_insn (c_f s) i = Some x -> In v (operand_values x) -> v_data v = VInsn d -> exists e, c_ex u d = Some e /\ vp_spilled (x_pos e) = 0%Z.
Proof.
  intros L X I D. destruct (n_ops s V i x v d L X I D) as [A|[->|[(A & _)|T]]].
  - destruct (no_arg s AL i x v d L X I D A).
  - destruct (n_sp s V) as (E & _). destruct (kept_pos _ _ E eq_refl) as (e' & E' & P). exists e'. rewrite P. auto.
  - apply In_nth_error in A as (k & K). destruct (n_regs s V) as (_ & _ & R). destruct (R k d K) as (E & _). destruct (kept_pos _ _ E eq_refl) as (e' & E' & P). exists e'. rewrite P. auto.
  - now apply tracked_pos.
Qed.
Lemma result_pos i e : linked s i -> c_ex s i = Some e -> x_dst e = Some i -> exists e', c_ex u i = Some e' /\ vp_spilled (x_pos e') = 0%Z.
Proof.
  intros L E D. destruct (x_fin e) eqn:F.
  - destruct (kept_pos _ _ E F) as (e' & E' & P). destruct (live_linked _ V _ L) as (b & x & _ & _ & X & _). destruct (n_ex s V i x L X) as (e0 & E0 & No). rewrite E in E0. injection E0 as <-.
    destruct (no_fix _ _ _ No F) as (_ & k & _ & Q). exists e'. rewrite P, Q. auto.
  - apply tracked_pos. split; [exact L|]. exists e. auto.
Qed.
Lemma same_user i e : c_ex s i = Some e -> exists e', c_ex u i = Some e' /\ x_dst e' = x_dst e.
Proof. intros E. destruct Sg as (_ & _ & _ & _ & K). specialize (K i). rewrite E in K. destruct (c_ex u i) as [e'|]; [|discriminate K]. injection K as K1 K2. eauto. Qed.
Lemma prep_writable : writable s u 0.
Proof.
  constructor; auto; try lia.
  - intros i x L X. destruct (Op i x L X) as (_ & _ & _ & A & B). auto.
  - intros i x v L X I. exact (n_vals s V i x v L X I).
  - intros i x L X Q. pose proof (ec_off _ (En i x L X) Q) as R. unfold fill_addr. destruct (a_ot (i_addr x)); cbn; rewrite ?Z.add_0_r, ?Z.sub_0_r; exact R.
  - intros i x L X. destruct (n_ex s V i x L X) as (e & E & No). destruct (same_user i e E) as (eu & Eu & Du). exists eu. split; [exact Eu|]. rewrite Du. split; [exact (dst_self s V i x e L X E)|exact (no_dst _ _ _ No)].
  - intros i x v d L X _ _ I D. exact (operand_pos i x v d L X I D).
  - intros i x e L X E D. destruct (Op i x L X) as (A & _). destruct (iop_eqb (i_op x) ALLOC) eqn:Oa; [apply L_VirtCheck.iop_eqb_ok in Oa; contradiction|].
    destruct (n_ex s V i x L X) as (e0 & E0 & No). destruct (same_user i e0 E0) as (eu & Eu & Du). rewrite E in Eu. injection Eu as <-. destruct (result_pos i e0 L E0 ltac:(congruence)) as (e' & E' & Z). rewrite E in E'. injection E' as <-. exact Z.
  - intros i x L X Q. destruct (Op i x L X) as (_ & _ & A & _). contradiction.
  - intros i x L X Q. destruct (Op i x L X) as (_ & A & _). contradiction.
Qed.
End Prepared.

(** ** The order of the blocks *)
Lemma flatten_ids t p : flatten t = Ok p -> map nb_id p = c_reach t.
Proof.
  unfold flatten. generalize (c_reach t). intros l. revert p. induction l as [|b l IH]; intros p H; cbn [omap] in H; [oks H; reflexivity|]. bo H nb E. bo H r Er. oks H. cbn [map]. rewrite (IH _ Er). f_equal.
  unfold flat_block in E. bo E x E1. bo E y E2. oks E. reflexivity.
Qed.
Lemma nodup_mid {A} (l1 : list A) : forall a l2 l1' l2', NoDup (l1 ++ a :: l2) -> l1 ++ a :: l2 = l1' ++ a :: l2' -> l2 = l2'.
Proof.
  induction l1 as [|x l1 IH]; intros a l2 [|y l1'] l2' N E; cbn in *.
  - congruence.
  - injection E as <- E. inversion N as [|? ? N1 _]; subst. destruct N1. apply in_or_app. right. now left.
  - injection E as -> E. inversion N as [|? ? N1 _]; subst. destruct N1. apply in_or_app. right. now left.
  - injection E as <- E. inversion N as [|? ? _ N2]; subst. eapply IH; eassumption.
Qed.
Lemma last_insn_snoc l n : last_insn (l ++ [n]) = Some n.
Proof. induction l as [|a l IH]; [reflexivity|]. cbn [app last_insn]. destruct (l ++ [n]) eqn:E; [destruct l; discriminate E|exact IH]. Qed.
Lemma F2_one {A B} (R : A -> B -> Prop) a l : Forall2 R [a] l -> exists b, l = [b] /\ R a b.
Proof. intros H. inversion H as [|? b ? r Rb H']; subst. inversion H'; subst. eauto. Qed.
Section Order.
Context (s u : cgs) (p : nprog) (o : Z).
Hypothesis Nr : NoDup (c_reach s).
Hypothesis Nj : forall b l1 i l2 x, In b (c_reach s) -> insns_of (c_f s) b = l1 ++ i :: l2 -> f_insn (c_f s) i = Some x -> is_jmp_op (i_op x) = true -> l2 = [].
Hypothesis Nt : forall j x, linked s j -> f_insn (c_f s) j = Some x -> i_op x <> THROW.
Hypothesis Ids : map nb_id p = c_reach s.
Hypothesis Pt : forall b nb, lookup p b = Some nb -> painted s u o b (nb_insns nb).
Hypothesis OC : forall b i x, In i (insns_of (c_f s) b) -> f_insn (c_f s) i = Some x -> is_cond_jmp_op (i_op x) = true -> follows (c_reach s) b (i_bb1 x).
Hypothesis OO : forall b c, In b (c_reach s) -> (forall i x, In i (insns_of (c_f s) b) -> f_insn (c_f s) i = Some x -> is_jmp_op (i_op x) = false) -> next_of s b = Some c -> follows (c_reach s) b c.

Lemma order_nd : NoDup (map nb_id p).
Proof. rewrite Ids. exact Nr. Qed.
Lemma follows_hd pre b post c : p = pre ++ b :: post -> follows (c_reach s) (nb_id b) c -> hd_id post = Some c.
Proof.
  intros E (l1 & l2 & F). rewrite <- Ids, E, map_app in F. cbn [map] in F. pose proof order_nd as N. rewrite E, map_app in N. cbn [map] in N.
  apply (nodup_mid _ _ _ _ _ N) in F. destruct post as [|c0 post]; [discriminate F|]. injection F as <- _. reflexivity.
Qed.
Lemma jump_end b l1 i l2 x : In b (c_reach s) -> insns_of (c_f s) b = l1 ++ i :: l2 -> f_insn (c_f s) i = Some x -> is_jmp_op (i_op x) = true ->
  (forall k, S k = ends_at s b -> ~ jump_at s b k) -> False.
Proof.
  intros Hb E X J H. pose proof (Nj b l1 i l2 x Hb E X J) as ->. apply (H (length l1)); [unfold ends_at; rewrite E, app_length; cbn; lia|].
  exists i, x. split; [|auto]. unfold insn_at. rewrite E, nth_error_app2 by lia. now rewrite Nat.sub_diag.
Qed.
Theorem order_layout : layout_ok (next_of s) p.
Proof.
  split; [exact order_nd|]. intros pre b post E. assert (Ib : In b p) by (rewrite E; apply in_or_app; right; now left). pose proof (lookup_self _ _ order_nd Ib) as Lb.
  assert (Hb : In (nb_id b) (c_reach s)) by (rewrite <- Ids; now apply in_map).
  destruct (Pt _ _ Lb) as [(P & M & Z & LM & LC & LZ & cl & A1 & A2 & A3 & A4 & A5 & A6 & A7 & A8 & _)].
  assert (NJ : forall n, In n (LM ++ LC) -> is_jmp_op (i_op (n_i n)) = true -> False).
  { intros n I J. apply in_app_or in I as [I|I].
    - destruct (F2_in _ _ _ _ A5 I) as (i & Ii & (x & X & Sh & _)). pose proof (so_op _ _ _ _ _ Sh) as So. change (i_op (fill_insn o x)) with (i_op x) in So. rewrite So in J.
      apply in_split in Ii as (M1 & M2 & EM). assert (EE : insns_of (c_f s) (nb_id b) = (P ++ M1) ++ i :: (M2 ++ Z)) by (rewrite A1, EM, <- !app_assoc; reflexivity).
      pose proof (Nj _ _ _ _ _ Hb EE X J) as K. apply app_eq_nil in K as (-> & ->). destruct A4 as [(_ & K)|(j & y & K & _)]; [|discriminate K]. exact (jump_end _ _ _ _ _ Hb EE X J K).
    - destruct (F2_in _ _ _ _ A7 I) as (jv & _ & (C & _)). rewrite C in J. discriminate J. }
  split.
  - intros l1 n l2 En C. destruct (L_LiftLay.cond_jmp _ C) as (J & _).
    assert (Il : In n (LM ++ LC) \/ In n LZ). { rewrite app_assoc in A8. apply in_app_or. rewrite <- A8, En. apply in_or_app. right. now left. }
    destruct Il as [I|I]; [destruct (NJ n I J)|]. destruct A4 as [(-> & _)|(j & x & -> & X & Jx)]; [destruct LZ; [destruct I|inversion A6]|].
    destruct (F2_one _ _ _ A6) as (n' & Q & Se). rewrite Q in I, A8. destruct I as [<-|[]].
    assert (l2 = []) as ->.
    { destruct l2 as [|n2 l2] using rev_ind; [reflexivity|]. exfalso. rewrite app_assoc in A8. rewrite En in A8. change (n' :: l2 ++ [n2]) with ((n' :: l2) ++ [n2]) in A8. rewrite app_assoc in A8. apply app_inj_tail in A8 as (A8 & _).
      apply (NJ n'); [|exact J]. rewrite <- A8. apply in_or_app. right. now left. }
    split; [reflexivity|]. destruct Se as (x' & X' & Sh & _). rewrite X in X'. injection X' as <-. pose proof (so_op _ _ _ _ _ Sh) as So. destruct (so_bb _ _ _ _ _ Sh) as (Sb & _).
    change (i_op (fill_insn o x)) with (i_op x) in So. change (i_bb1 (fill_insn o x)) with (i_bb1 x) in Sb. rewrite Sb. apply (follows_hd pre b post _ E). apply (OC (nb_id b) j x); [|exact X|now rewrite <- So].
    rewrite A1. apply in_or_app. right. apply in_or_app. right. now left.
  - intros Oe t Ht. apply (follows_hd pre b post _ E). apply OO; [exact Hb| |exact Ht]. destruct A4 as [(-> & K)|(j & x & -> & X & Jx)].
    + intros i x I X. destruct (is_jmp_op (i_op x)) eqn:J; [|reflexivity]. exfalso. apply in_split in I as (k1 & k2 & EE). exact (jump_end _ _ _ _ _ Hb EE X J K).
    + exfalso. destruct (F2_one _ _ _ A6) as (n' & Q & (x' & X' & Sh & _)). rewrite Q in A8. rewrite X in X'. injection X' as <-. unfold ends_open in Oe. rewrite A8, app_assoc, last_insn_snoc in Oe.
      pose proof (so_op _ _ _ _ _ Sh) as So. change (i_op (fill_insn o x)) with (i_op x) in So. rewrite So in Oe.
      assert (Lj : linked s j) by (exists (nb_id b); split; [exact Hb|rewrite A1; apply in_or_app; right; apply in_or_app; right; now left]). pose proof (Nt j x Lj X) as NT.
      destruct (i_op x); try discriminate Jx; try discriminate Oe; contradiction.
Qed.
End Order.

(** ** The whole back end *)
Section Whole.
Context (f : func) (reach : list nat) (sp : nat) (args : list nat) (d : nat) (s0 s : cgs).
Hypothesis C : compilable f reach sp args d.
Hypothesis I0 : init_cg f reach sp args = Ok s0.
Hypothesis Pr : prepare s0 = Ok s.
Let P := cp_prep _ _ _ _ _ C.
Let T := init_spec _ _ _ _ _ P I0.
Let St := steps _ _ _ _ _ _ P I0 Pr.

Lemma back_inv : inv s.
Proof. exact (sd_inv _ _ St). Qed.
Lemma back_enc : encodables s.
Proof. apply (sd_enc _ _ St). intros i x L X. destruct (linked_insn _ _ _ _ _ P T _ _ L X) as (X' & Pi). exact (cp_enc _ _ _ _ _ C i x Pi X'). Qed.
Lemma back_ops : ops_are (fun o => o <> ALLOC /\ o <> STORE /\ o <> LOAD /\ o <> GETELEMPTR /\ o <> THROW) s.
Proof.
  apply (main_ops _ _ _ _ _ _ P I0 Pr); [repeat split; discriminate|]. intros i x Pi X. destruct (sg_ops _ _ (cp_straight _ _ _ _ _ C) i x Pi X) as (A & B & D). destruct (cp_basic _ _ _ _ _ C i x Pi X). auto.
Qed.
Lemma back_fit : all_fit s.
Proof.
  destruct (main_head _ _ _ _ _ _ P I0 Pr) as (_ & _ & _ & Ho & _). unfold all_fit. rewrite Ho. split; [lia|]. intros i x L X. pose proof (back_enc i x L X) as G.
  assert (K : forall v, In v (operand_values x) -> value_fits 0 v). { intros v I. pose proof (ec_hole _ G v I) as H. unfold hole_ok in H. unfold value_fits. destruct (v_data v); auto; lia. }
  constructor.
  - intros v I. apply K. unfold operand_values. apply in_or_app. now left.
  - intros O e I. apply K. unfold operand_values. rewrite O. apply in_or_app. right. now apply in_map.
  - intros O. split; [intros v I; apply (ec_raw _ G O); unfold operand_values; apply in_or_app; now left|]. split; [apply (ec_raw _ G O); unfold operand_values; apply in_or_app; right; destruct O as [-> | ->]; now left|].
    pose proof (ec_off _ G O) as R. unfold s16_range in R. destruct (a_ot (i_addr x)); [exact Logic.I|rewrite Z.add_0_r; exact R|rewrite Z.sub_0_r; exact R].
Qed.
Lemma back_old b i x : In i (insns_of (c_f s) b) -> f_insn (c_f s) i = Some x -> i_op x <> ASSIGN -> In i (insns_of f b) /\ exists y, f_insn f i = Some y /\ i_op x = i_op y /\ i_bb1 x = i_bb1 y.
Proof.
  intros I X O. destruct (sd_new _ _ St b i I) as [K|(y & Y & Oy)]; [|congruence]. rewrite (in_list _ _ _ _ _ T) in K. split; [exact K|].
  assert (Pi : placed_in f reach i) by (exists b; split; [exact (proj2 (proj2 (pp_reach _ _ _ _ P)) _ _ K)|exact K]).
  destruct (placed_insn _ _ _ _ P _ Pi) as (y & Y). exists y. split; [exact Y|]. destruct (sd_same _ _ St i y (old_insn _ _ _ _ _ P T _ _ Y)) as (x' & X' & A & B & _). rewrite X in X'. injection X' as <-. auto.
Qed.
Lemma back_cond b i x : In i (insns_of (c_f s) b) -> f_insn (c_f s) i = Some x -> is_cond_jmp_op (i_op x) = true -> follows (c_reach s) b (i_bb1 x).
Proof.
  intros I X J. destruct (back_old b i x I X) as (I' & y & Y & A & B); [intros Q; rewrite Q in J; discriminate J|]. rewrite A in J. rewrite B. destruct (main_head _ _ _ _ _ _ P I0 Pr) as (-> & _).
  exact (io_cond _ _ (cp_order _ _ _ _ _ C) b i y I' Y J).
Qed.
Lemma back_open b c : In b (c_reach s) -> (forall i x, In i (insns_of (c_f s) b) -> f_insn (c_f s) i = Some x -> is_jmp_op (i_op x) = false) -> next_of s b = Some c -> follows (c_reach s) b c.
Proof.
  destruct (main_head _ _ _ _ _ _ P I0 Pr) as (Hr & _). rewrite Hr. intros Hb H N. unfold next_of in N. rewrite (proj1 (main_flow _ _ _ _ _ _ P I0 Pr b)) in N. refine (io_open _ _ (cp_order _ _ _ _ _ C) b c Hb _ N).
  intros i x I X. destruct (sd_same _ _ St i x (old_insn _ _ _ _ _ P T _ _ X)) as (y & Y & A & _). rewrite <- A. apply (H i y); [|exact Y]. apply (sd_in _ _ St). now rewrite (in_list _ _ _ _ _ T).
Qed.
Lemma back_empty : empties_below s d.
Proof.
  intros i x w n L X O I. destruct (n_phi s back_inv i x L X O) as (_ & _ & K). specialize (K w n I). destruct (main_head _ _ _ _ _ _ P I0 Pr) as (Hr & _). rewrite Hr in K.
  assert (G : forall b k, few_empty f b k -> shallow s b k).
  { intros b0 k0 F. induction F as [b k F|b k _ IH].
    - apply sh_full. intros E. destruct (insns_of f b) as [|j r] eqn:Ef; [contradiction|]. assert (Ij : In j (insns_of (c_f s) b)) by (apply (sd_in _ _ St); rewrite (in_list _ _ _ _ _ T), Ef; now left). rewrite E in Ij. destruct Ij.
    - apply sh_empty. intros q Iq. rewrite (proj2 (main_flow _ _ _ _ _ _ P I0 Pr b)) in Iq. now apply IH. }
  apply G. exact (cp_empty _ _ _ _ _ C n K).
Qed.
Lemma back_start : start s (f_entry f) /\ phi_free s (f_entry f) /\ hd_error (c_reach s) = Some (f_entry f).
Proof.
  pose proof (io_entry _ _ (cp_order _ _ _ _ _ C)) as E. destruct reach as [|b r] eqn:Er; [discriminate E|]. injection E as ->. apply (main_start _ _ _ _ _ _ P I0 Pr (f_entry f) r); auto.
  destruct (preds_of f (f_entry f)) as [|q l] eqn:Ep; [reflexivity|exfalso]. assert (Iq : In q (preds_of f (f_entry f))) by (rewrite Ep; now left).
  pose proof (SpecPrep.pp_entry _ _ _ _ P) as (Ie & _). pose proof (pp_preds _ _ _ _ P _ _ Ie Iq) as Hq. destruct (pp_goes _ _ _ _ P _ _ Hq (fk_edge _ _ (cp_flow _ _ _ _ _ C) _ _ Ie Iq)) as (_ & N & _). now apply N.
Qed.

Theorem back_assign fuel om os t t1 eps u : length reach < fuel -> d < fuel -> orders om -> orders os ->
  analysis fuel s = Ok t -> length (c_all t) < fuel -> pre_spill fuel om os t = Ok (t1, ([], eps)) -> assign t1 = Ok u ->
  sound_assignment s u /\ same_function s u.
Proof.
  intros L Ld Om Os A La Ps As. split; [|exact (sf_round _ _ _ _ _ _ _ _ A Ps As)]. unfold assign in As. bo As u0 Co.
  destruct (main_ready _ _ _ _ _ _ P I0 Pr) as (R & Ti & _ & Oo). specialize (Oo (cp_second _ _ _ _ _ C)). destruct (main_head _ _ _ _ _ _ P I0 Pr) as (Hr & _).
  destruct (assignment_coalesced fuel d om os s t t1 _ u0 R Ti Oo back_empty (main_strict _ _ _ _ _ _ P I0 Pr (cp_strict _ _ _ _ _ C) (cp_flow _ _ _ _ _ C)) ltac:(now rewrite Hr) Ld Om Os A La Ps Co
    (main_copies_ok _ _ _ _ _ _ P I0 Pr (cp_straight _ _ _ _ _ C) (cp_nocopy _ _ _ _ _ C))
    ltac:(intros i a b; apply (main_merge _ _ _ _ _ _ P I0 Pr (cp_straight _ _ _ _ _ C) (cp_nocopy _ _ _ _ _ C) (cp_sp _ _ _ _ _ C)))) as (u' & Cu & Sa).
  rewrite As in Cu. injection Cu as <-. exact Sa.
Qed.
Theorem back_code w ar u v p fuel code bi n prev m t z t' : sound_assignment s u -> same_function s u -> apart ar s u ->
  ssa_out u = Ok v -> flatten v = Ok p -> cg_norm fuel p = Ok code -> (Z.of_nat (length code) <= 2 ^ 15)%Z ->
  few_args w ar -> enough_args ar f reach -> st_ok m -> begins sp args m t ->
  srun w bi (fill 0 f) n prev (f_entry f) t = Some (ORet z t') ->
  exists m', code_returns w code m z m' /\ SpecWord.mem m' = s_mem t' /\ ncall m' = s_nc t'.
Proof.
  intros Sa Sg Ap So Fl Cg Le Fa Ea Ok0 Bg Ru. destruct (main_ready _ _ _ _ _ _ P I0 Pr) as (R & _ & Sh & _). destruct (main_head _ _ _ _ _ _ P I0 Pr) as (Hr & _ & _ & Ho & _).
  assert (Ids : map nb_id p = c_reach s) by (rewrite (flatten_ids _ _ Fl), (ssa_out_reach _ _ So); apply Sg).
  assert (Nd : NoDup (map nb_id p)) by (rewrite Ids; apply (n_reach s back_inv)).
  assert (Pt : forall b nb, lookup p b = Some nb -> painted s u 0 b (nb_insns nb)).
  { intros b nb Lk. destruct (out_painted s u v p R Sh Sg Sa back_fit So Fl) as (u1 & X & K). destruct (lookup_in _ _ _ Lk) as (In1 & Q). destruct (K b) as (nb' & Lk' & Pn); [rewrite <- Ids, <- Q; now apply in_map|].
    rewrite Lk in Lk'. injection Lk' as <-. rewrite Ho in Pn. exact (painted_ext _ _ _ _ _ _ X Pn). }
  assert (No : exists p1, normalize p = Ok p1) by (unfold cg_norm in Cg; bo Cg p1 E1; eauto). destruct No as (p1 & No).
  destruct (counts_exist p1) as (bb & Ct); [rewrite (ids1 _ _ No); exact Nd|].
  destruct (main_run _ _ _ _ _ _ P I0 Pr w ar 0%Z bi bb n prev m t z t' (cp_straight _ _ _ _ _ C) Fa Ea Ok0 Bg Ru) as (q & Rv & Qm & Qn).
  destruct back_start as (S1 & S2 & S3). rewrite <- Qm, <- Qn.
  refine (exit_code w ar s u v p p1 code bb fuel n prev (f_entry f) m z q R Sh Sg Sa Ap Fa back_fit So Fl S1 S2 S3 _ No Ct _ Cg Le Ok0 _).
  - exact (order_layout s u p 0%Z (proj1 (n_reach s back_inv)) (fun b l1 i l2 x _ => n_jump s back_inv b l1 i l2 x) (fun j x Lj Xj => proj2 (proj2 (proj2 (proj2 (back_ops j x Lj Xj))))) Ids Pt back_cond back_open).
  - intros k Ik. refine (painted_ok s u 0%Z (prep_writable s u back_inv _ Sa Sg back_enc back_ops) Sa _ _ _ _ (Pt _ _ (lookup_self _ _ Nd Ik))).
    + apply (main_steps _ _ _ _ _ _ P I0 Pr).
    + rewrite <- Ids. now apply in_map.
  - now rewrite Ho.
Qed.
End Whole.
