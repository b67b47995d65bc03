(** Preparing a function for register allocation: what a changed call does. *)
From Coq Require Import ZArith List Bool Arith Lia Permutation.
From Verif Require Import M_Base M_Ir M_Norm M_Edit M_Ra SpecWord SpecFlat SpecProg SpecSsa SpecIr SpecEdit SpecRa SpecPass SpecShift SpecVirt
  L_Edit L_Uses L_Hist L_Ctor L_Ins L_PassPhi L_Sim L_RaGraph L_Word L_Virt L_Prep L_PrepStr L_PrepInv L_PrepCall.
From Verif Require Import SpecSpill SpecRa SpecVirt.
Import ListNotations.
Open Scope nat_scope.

Lemma nth_lset_ne l : forall k j v, j <> k -> nth j (lset l k v) 0%Z = nth j l 0%Z.
Proof. induction l as [|a l IH]; intros [|k] [|j] v N; cbn; auto; try congruence; apply IH; lia. Qed.
Lemma rget_rset_ten m k z : (1 <= k <= 5)%Z -> rget (rset m k z) 10 = rget m 10.
Proof. intros K. unfold rget, rset. cbn [regs]. apply nth_lset_ne. lia. Qed.

(** a value that does not depend on R0..R9 *)
Lemma veval_free s bi q m v : (forall d, v_data v = VInsn d -> exists e, c_ex s d = Some e /\ (x_fin e = false \/ x_pos e = mkPos true 0 10 0)) ->
  rget m 10 = rget (v_st q) 10 -> veval s bi (mkV (v_env q) m) v = veval s bi q v.
Proof.
  intros H T. unfold veval. destruct (v_data v) eqn:D; try reflexivity.
  - unfold evalv. now rewrite D.
  - destruct (H _ eq_refl) as (e & X & Q). rewrite X. cbn [obind]. destruct (x_fin e) eqn:F; [|reflexivity]. destruct Q as [Q|Q]; [discriminate|].
    unfold evalv. cbn [placed_at v_data]. rewrite Q. cbn [vp_alloc vp_spilled vp_reg v_st]. now rewrite T.
Qed.
Lemma hexec_assign Rg w bi s j o u bb v q : hexec Rg w bi s j (fill_insn o (set_users u (build bb (K_assign v)))) q =
  let? a := veval s bi q (fill_val o v) in vnext (vwr s q j a).
Proof. reflexivity. Qed.
Lemma op_call x : iop_eqb (i_op x) CALL = true <-> i_op x = CALL.
Proof. destruct (i_op x); cbn; split; congruence. Qed.

Lemma call_this s t i x l1 l2 A τ N Rg w o : inv s -> linked s i -> f_insn (c_f s) i = Some x -> i_op x = CALL -> called s t i x l1 l2 A τ N ->
  forall bi q q' r, hrel (aug s) τ q q' -> hexec Rg w bi (aug s) i (fill_insn o x) q = Some r ->
  exists r', hbody Rg w bi (aug t) o q' (seq (f_ni (c_f s)) (length (i_vals x)) ++ [i] ++ A) = Some r' /\ hres (aug s) τ r r'.
Proof.
  intros V L X O C bi q q' r H Hx. pose proof (cl_ext _ _ _ _ _ _ _ _ _ C) as E. pose proof (ext_edit _ _ _ _ _ _ _ _ _ _ _ V E) as ED.
  destruct (n_ex _ V _ _ L X) as (e & Xe & No). set (n := f_ni (c_f s)) in *.
  destruct (cl_call _ _ _ _ _ _ _ _ _ C) as (y & Y & Oy & Vy & Uy). destruct (cl_ex _ _ _ _ _ _ _ _ _ C) as (ey & Xey & Dy).
  assert (OPS : forall v d, In v (i_vals x) -> v_data v = VInsn d -> exists e, c_ex (aug s) d = Some e /\ (x_fin e = false \/ x_pos e = mkPos true 0 10 0)).
  { intros v d I D. destruct (n_ops _ V i x v d L X) as [Q|[->|[(_ & Q)|(_ & e' & Q & F & _)]]]; auto.
    - unfold operand_values. apply in_or_app; now left.
    - destruct (n_args _ V) as (_ & _ & R). destruct (R _ Q) as (Q0 & _). exists (ex0 d ASSIGN). split; [now apply aug_arg|]. now left.
    - destruct (n_sp _ V) as (Q & _). eexists. split; [exact (aug_ex _ _ _ Q)|]. now right.
    - congruence.
    - exists e'. split; [now apply aug_ex|]. now left. }
  assert (USE : forall v d, In v (i_vals x) -> v_data v = VInsn d -> used (aug s) d).
  { intros v d I D. exists i, x, v. split; [exact L|]. split; [exact X|]. split; [|exact D]. unfold operand_values. apply in_or_app; now left. }
  (* the copies of the arguments *)
  assert (ARGS : forall vs m0, (forall j, nth_error (i_vals x) (m0 + j) = nth_error vs j) -> forall a, evs (aug s) bi q (map (fill_val o) vs) = Some a ->
    forall m, rget m 10 = rget (v_st q) 10 -> hbody Rg w bi (aug t) o (mkV (v_env q') m) (seq (n + m0) (length vs)) = Some (VNext (mkV (v_env q') (set_args m0 m a)))).
  { induction vs as [|v vs IH]; intros m0 Hv a Ha m Tm; cbn [map evs] in Ha; cbn [length seq hbody].
    - injection Ha as <-. reflexivity.
    - destruct (veval (aug s) bi q (fill_val o v)) as [z|] eqn:Ez; [|discriminate]. cbn [obind] in Ha.
      destruct (evs (aug s) bi q (map (fill_val o) vs)) as [a'|] eqn:Ea; [|discriminate]. cbn [obind] in Ha. injection Ha as <-.
      assert (Q : nth_error (i_vals x) m0 = Some v) by (specialize (Hv 0); now rewrite Nat.add_0_r in Hv).
      assert (Lm : m0 < length (i_vals x)) by (apply nth_error_Some; congruence). pose proof (n_few _ V _ _ L X O) as Few.
      assert (Iv : In v (i_vals x)) by (eapply nth_error_In; eauto).
      assert (In (n + m0) (seq n (length (i_vals x)) ++ A)) as J by (apply in_or_app; left; apply in_seq; lia).
      destruct (x_copy _ _ _ _ _ _ _ _ _ _ _ E _ J) as ((u & F) & _). destruct (cl_arg _ _ _ _ _ _ _ _ _ C _ _ Q) as (Sv & Xz). fold n in Sv, Xz.
      cbn [aug c_f with_ex]. rewrite F. cbn [obind].
      assert (Ev : veval (aug t) bi (mkV (v_env q') m) (fill_val o (N (n + m0))) = Some z).
      { rewrite veval_free.
        - refine (eval_h _ _ _ _ _ _ _ ED bi q q' _ _ z H (vsim_fill _ o _ _ Sv) _ Ez). intros d D. apply fill_data in D. exact (USE _ _ Iv D).
        - intros d D. apply fill_data in D. destruct (vsim_data _ _ _ _ Sv D) as (d0 & D0 & ->). destruct (OPS _ _ Iv D0) as (e0 & X0 & Q0).
          destruct (ed_ex _ _ _ _ _ _ _ ED _ _ X0) as (e' & X' & F' & P'). exists e'. split; [exact X'|]. destruct (x_fin e0) eqn:Fe; [|left; congruence].
          destruct Q0 as [?|Q0]; [discriminate|]. right. rewrite P' by reflexivity. exact Q0.
        - now rewrite (hr_st _ _ _ _ H). }
      assert (Hex : hexec Rg w bi (aug t) (n + m0) (fill_insn o (set_users u (build (i_parent x) (K_assign (N (n + m0)))))) (mkV (v_env q') m)
                    = Some (VNext (mkV (v_env q') (rset m (Z.of_nat (S m0)) z)))).
      { rewrite hexec_assign, Ev. cbn [obind].
        assert (XA : c_ex (aug t) (n + m0) = Some (ex_fix (n + m0) (Z.of_nat (S m0)))) by (apply aug_ex; exact Xz).
        unfold vwr. rewrite XA. cbn [obind]. cbn [ex_fix set_pos set_fin x_dst ex0 is_void_op is_jmp_op orb]. cbn. unfold vput. rewrite XA. cbn [obind x_fin ex_fix set_pos set_fin x_pos v_st v_env].
        unfold wr. cbn [vp_alloc vp_spilled vp_reg]. replace (is_wreg (Z.of_nat (S m0))) with true; [reflexivity|]. symmetry. unfold is_wreg. apply andb_true_iff. split; apply Z.leb_le; lia. }
      rewrite Hex. cbn [obind set_args]. replace (S (n + m0)) with (n + S m0) by lia.
      apply IH.
      + intros j. specialize (Hv (S j)). rewrite <- Nat.add_succ_comm in Hv. exact Hv.
      + reflexivity.
      + rewrite rget_rset_ten by lia. exact Tm. }
  (* the call and the copy of its result *)
  assert (REST : forall q1, v_env q1 = v_env q' -> forall q2, v_st q2 = call_helper w (i_u x) (v_st q1) ->
    (forall d, d <> i -> v_env q2 d = v_env q d) -> (used s i -> v_env q2 i = Some (u64 (rget (v_st q2) 0)) \/ v_env q2 i = None) ->
    exists r', hbody Rg w bi (aug t) o q1 (i :: A) = Some r' /\ hres (aug s) τ (VNext q2) r').
  { intros q1 Q1 q2 Q2 Q3 Q4. cbn [hbody]. cbn [aug c_f with_ex]. rewrite Y. cbn [obind]. assert (XA : c_ex (aug t) i = Some ey) by (apply aug_ex; exact Xey).
    assert (Hv : hexec Rg w bi (aug t) i (fill_insn o y) q1 = Some (VNext (mkV (v_env q1) (v_st q2)))).
    { rewrite hexec_op by (change (i_op (fill_insn o y)) with (i_op y); rewrite Oy; discriminate). unfold hexec0. replace (i_op (fill_insn o y)) with CALL by (symmetry; exact Oy). cbn [iop_eqb iop_eq_dec]. change (iop_eqb CALL CALL) with true. cbv iota. rewrite XA. cbn [obind]. rewrite Dy.
      unfold vexec. replace (i_op (fill_insn o y)) with CALL by (symmetry; exact Oy). replace (i_vals (fill_insn o y)) with (@nil value) by (cbn; now rewrite Vy).
      replace (i_u (fill_insn o y)) with (i_u x) by (symmetry; exact Uy). rewrite Q2. reflexivity. }
    rewrite Hv. cbn [obind].
    assert (LT : forall d, used s d -> d < n).
    { intros d (u & z & v & Lu & Z & Iv & D). exact (use_target _ _ _ _ _ V Z Iv D). }
    destruct (cl_res _ _ _ _ _ _ _ _ _ C) as [(-> & T & NU)|(c & a & -> & Ec & T & Ra & Nc & Xc)].
    - cbn [hbody]. eexists. split; [reflexivity|]. constructor; cbn [v_st v_env]; [reflexivity|]. intros d z U Z.
      assert (Nd : d <> i) by (intros ->; exact (NU U)). rewrite Q3 in Z by auto. rewrite Q1. exact (hr_env _ _ _ _ H _ _ U Z).
    - cbn [hbody]. assert (In c (seq n (length (i_vals x)) ++ [c])) as J by (apply in_or_app; right; now left).
      destruct (x_copy _ _ _ _ _ _ _ _ _ _ _ E _ J) as ((u & F) & _). rewrite Nc in F. cbn [aug c_f with_ex]. rewrite F. cbn [obind].
      destruct (n_regs _ V) as (_ & _ & R). destruct (R _ _ Ra) as (Xa & NLa & za & Za & _).
      assert (Na : a <> i) by (intros ->; contradiction).
      assert (XAa : c_ex (aug t) a = Some (ex_reg a (Z.of_nat 0))). { apply aug_ex. rewrite (x_ex _ _ _ _ _ _ _ _ _ _ _ E); auto. apply (f_lt _ V). congruence. }
      assert (XAc : c_ex (aug t) c = Some (ex0 c ASSIGN)) by (apply aug_ex; exact Xc).
      match goal with |- exists r', (let? t0 := hexec Rg w bi (aug t) c ?I ?Q in _) = _ /\ _ =>
        assert (Hex : hexec Rg w bi (aug t) c I Q = Some (VNext (mkV (eupd (v_env q1) c (u64 (rget (v_st q2) 0))) (v_st q2)))) end.
      { rewrite hexec_assign. unfold veval. cbn [fill_val v_data val_insn]. rewrite XAa. cbn [obind ex_reg x_fin x_pos].
        unfold evalv. cbn [v_data placed_at vp_alloc vp_spilled vp_reg v_st]. cbn [Z.eqb]. change (is_reg (Z.of_nat 0)) with true. cbn [obind]. change (Z.of_nat 0) with 0%Z.
        unfold vwr. rewrite XAc. cbn [obind ex0 x_dst]. cbn. unfold vput. rewrite XAc. cbn [obind ex0 x_fin]. reflexivity. }
      change (c_f (aug t)) with (c_f t) in *. cbn [hbody obind] in Hex |- *. rewrite Hex. cbn [obind]. eexists. split; [reflexivity|].
      constructor; cbn [v_st v_env]; [reflexivity|]. intros d z U Z. rewrite T. unfold ren. destruct (Nat.eqb_spec d i) as [->|Nd].
      + unfold eupd. rewrite Nat.eqb_refl. destruct (Q4 U) as [K|K]; congruence.
      + rewrite Q3 in Z by auto. unfold eupd. specialize (LT _ U). destruct (Nat.eqb_spec d c) as [->|_]; [lia|].
        rewrite Q1. pose proof (hr_env _ _ _ _ H _ _ U Z) as K. rewrite T in K. unfold ren in K. destruct (Nat.eqb_spec d i); [contradiction|]. exact K. }
  assert (FM : i_vals (fill_insn o x) = map (fill_val o) (i_vals x)) by reflexivity.
  rewrite hexec_op in Hx by (change (i_op (fill_insn o x)) with (i_op x); rewrite O; discriminate). unfold hexec0 in Hx. replace (i_op (fill_insn o x)) with CALL in Hx by (symmetry; exact O). change (iop_eqb CALL CALL) with true in Hx. cbn [iop_eqb] in Hx. rewrite (aug_ex _ _ _ Xe) in Hx. cbn [obind] in Hx.
  destruct (no_call _ _ _ No O) as [Dx|(Dx & Vx)]; rewrite Dx in Hx.
  - rewrite FM in Hx. destruct (evs (aug s) bi q (map (fill_val o) (i_vals x))) as [a|] eqn:Ea; [|discriminate]. cbn [obind] in Hx. injection Hx as <-.
    rewrite hbody_app. pose proof (ARGS (i_vals x) 0 ltac:(intros; reflexivity) a Ea (v_st q) eq_refl) as HA. rewrite Nat.add_0_r in HA.
    replace (hbody Rg w bi (aug t) o q' (seq n (length (i_vals x)))) with (Some (VNext (mkV (v_env q') (set_args 0 (v_st q) a)))).
    2: { rewrite <- HA. rewrite <- (hr_st _ _ _ _ H). now destruct q'. }
    cbn [obind app]. apply REST; cbn [v_st v_env]; auto.
    + intros d Nd. unfold eupd. destruct (Nat.eqb_spec d i); [contradiction|reflexivity].
    + intros _. left. unfold eupd. now rewrite Nat.eqb_refl.
  - rewrite Vx in *. cbn [length seq app]. unfold vexec in Hx. replace (i_op (fill_insn o x)) with CALL in Hx by (symmetry; exact O). rewrite FM in Hx. cbn [map] in Hx.
    replace (i_u (fill_insn o x)) with (i_u x) in Hx by reflexivity. injection Hx as <-.
    apply REST; cbn [v_st v_env]; auto.
    + now rewrite (hr_st _ _ _ _ H).
    + intros (u & z & v & Lu & Z & Iv & D). exfalso. destruct (n_ops _ V _ _ _ _ Lu Z Iv D) as [Q|[Q|[(Q & _)|(_ & e' & Q & _ & D')]]].
      * destruct (n_args _ V) as (_ & _ & R). destruct (R _ Q) as (_ & NL & _). contradiction.
      * destruct (n_sp _ V) as (_ & _ & NL & _). subst i. contradiction.
      * apply In_nth_error in Q as (k & K). destruct (n_regs _ V) as (_ & _ & R). destruct (R _ _ K) as (_ & NL & _). contradiction.
      * congruence.
Qed.
