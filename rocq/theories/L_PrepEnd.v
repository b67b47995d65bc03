(** Preparing a function for register allocation: the function that comes out. *)
From Coq Require Import ZArith List Bool Arith Lia Permutation.
From Verif Require Import M_Base M_Ir M_Norm M_Edit M_Ra SpecWord SpecFlat SpecProg SpecSsa SpecIr SpecEdit SpecRa SpecPass SpecShift SpecVirt
  L_Edit L_Uses L_Hist L_Ctor L_Ins L_PassPhi L_PassAlloc L_Sim L_RaGraph L_Word L_Virt L_Prep L_PrepStr L_PrepInv L_PrepCall L_PrepThis L_PrepArg L_PrepConst L_PrepAll.
From Verif Require Import SpecSpill SpecRa SpecVirt.
Import ListNotations.
Open Scope nat_scope.

Section End.
Context (s : cgs).
Hypothesis V : inv s.
Hypothesis CL : calls_left s [].
Hypothesis AL : args_left s [].

Lemma no_arg u x v d : linked s u -> f_insn (c_f s) u = Some x -> In v (operand_values x) -> v_data v = VInsn d -> ~ In d (c_args s).
Proof. intros L X I D A. pose proof (use_some _ _ _ _ _ X I D) as P. rewrite (AL d u A) in P; [lia|tauto]. Qed.
Lemma aug_same d : ~ In d (c_args s) -> c_ex (aug s) d = c_ex s d.
Proof. intros N. cbn. destruct (c_ex s d); [reflexivity|]. destruct (M_Ra.mem d (c_args s)) eqn:Q; [|reflexivity]. apply mem_In in Q. contradiction. Qed.
Lemma veval_same bi q v : (forall d, v_data v = VInsn d -> ~ In d (c_args s)) -> veval (aug s) bi q v = veval s bi q v.
Proof. intros H. unfold veval. destruct (v_data v) eqn:D; try reflexivity. now rewrite aug_same by auto. Qed.
Lemma vput_same q d z : ~ In d (c_args s) -> vput (aug s) q d z = vput s q d z.
Proof. intros H. unfold vput. now rewrite aug_same. Qed.
Lemma linked_not_arg j : linked s j -> ~ In j (c_args s).
Proof. intros L A. destruct (n_args _ V) as (_ & _ & R). destruct (R _ A) as (_ & N & _). contradiction. Qed.
Lemma vwr_same q j z : linked s j -> vwr (aug s) q j z = vwr s q j z.
Proof.
  intros L. unfold vwr. rewrite aug_same by now apply linked_not_arg. destruct (live_linked _ V _ L) as (b & x & _ & _ & X & _). destruct (n_ex _ V _ _ L X) as (e & Xe & No).
  rewrite Xe. cbn [obind]. destruct (x_dst e) as [d|] eqn:D; [|reflexivity]. assert (d = j) as ->; [|apply vput_same; now apply linked_not_arg].
  destruct (is_void_op (i_op x)) eqn:Vo; [rewrite (no_void _ _ _ No Vo) in D; discriminate|].
  destruct (iop_eq_dec (i_op x) CALL) as [O|O]; [destruct (no_call _ _ _ No O) as [Q|(Q & _)]; congruence|]. rewrite (no_dst _ _ _ No Vo O) in D. congruence.
Qed.
Lemma vaddr_same bi q a : (forall d, v_data (a_val a) = VInsn d -> ~ In d (c_args s)) -> vaddr (aug s) bi q a = vaddr s bi q a.
Proof. intros H. unfold vaddr. destruct (a_ot a); try reflexivity. destruct (v_data (a_val a)) eqn:D; try reflexivity. now rewrite aug_same by auto. Qed.

Lemma exec_end w bi o i x q : linked s i -> f_insn (c_f s) i = Some x -> hexec0 w bi (aug s) i (fill_insn o x) q = vexec w bi s i (fill_insn o x) q.
Proof.
  intros L X.
  assert (VX : vexec w bi (aug s) i (fill_insn o x) q = vexec w bi s i (fill_insn o x) q).
  { assert (FV : forall v d, In v (map (fill_val o) (i_vals x)) -> v_data v = VInsn d -> ~ In d (c_args s)).
    { intros v d I D. apply in_map_iff in I as (v0 & <- & I). apply fill_data in D. apply (no_arg i x v0 d L X); auto. unfold operand_values. apply in_or_app. now left. }
    assert (FA : i_op x = LOADRAW \/ i_op x = STORERAW -> forall d, v_data (a_val (fill_addr o (i_addr x))) = VInsn d -> ~ In d (c_args s)).
    { intros O d D. apply (no_arg i x (a_val (i_addr x)) d L X).
      - unfold operand_values. apply in_or_app. right. destruct O as [-> | ->]; now left.
      - unfold fill_addr in D. destruct (a_ot (i_addr x)); exact D. }
    unfold vexec. change (i_op (fill_insn o x)) with (i_op x). change (i_vals (fill_insn o x)) with (map (fill_val o) (i_vals x)).
    change (i_addr (fill_insn o x)) with (fill_addr o (i_addr x)). change (c_f (aug s)) with (c_f s).
    destruct (map (fill_val o) (i_vals x)) as [|v1 [|v2 [|v3 r]]]; destruct (i_op x) eqn:O;
      rewrite ?vaddr_same by (apply FA; auto); rewrite ?(veval_same bi q v1) by (intros d D; apply (FV v1 d); cbn; auto);
      rewrite ?(veval_same bi q v2) by (intros d D; apply (FV v2 d); cbn; auto);
      try reflexivity;
      repeat match goal with
      | |- obind ?e _ = obind ?e _ => destruct e eqn:?; cbn [obind]; try reflexivity
      | |- vnext (vwr _ _ _ _) = _ => now rewrite vwr_same
      | |- (if ?c then _ else _) = (if ?c then _ else _) => destruct c; try reflexivity
      | |- (match alu_op_of ?c with _ => _ end) = _ => destruct (alu_op_of c); try reflexivity
      | |- (match cmp_op_of ?c with _ => _ end) = _ => destruct (cmp_op_of c); try reflexivity
      end; auto.
    all: try (rewrite vwr_same by exact L; reflexivity). 
    all: try match goal with H : variable _ ?v = Some ?p |- _ => rewrite vput_same; [reflexivity|] end.
    all: try match goal with |- match v_data ?v with _ => _ end = _ => destruct (v_data v) eqn:D; try reflexivity; rewrite aug_same by (apply (FV _ _ (or_intror (or_introl eq_refl)) D)); destruct (c_ex s i0); [|reflexivity]; cbn [obind];
           match goal with |- (if ?c then _ else _) = _ => destruct c; [|reflexivity] end; destruct (veval s bi q v1); [|reflexivity]; cbn [obind]; now rewrite vwr_same by exact L end.
    all: try match goal with H : variable _ ?v = Some ?p |- ~ In (fst ?p) _ => unfold variable in H; destruct (v_data v) eqn:D; try discriminate H; destruct (f_insn (c_f s) i0); [|discriminate H]; cbn [obind] in H;
           destruct (iop_eqb _ _); [|discriminate H]; destruct (vr_bytes _); [|discriminate H]; cbn [obind] in H; injection H as <-; apply (FV _ _ (or_introl eq_refl) D) end. }
  unfold hexec0. destruct (iop_eqb (i_op (fill_insn o x)) CALL) eqn:O; [|exact VX].
  assert (Oc : i_op x = CALL) by (change (i_op (fill_insn o x)) with (i_op x) in O; now apply op_call).
  destruct (n_ex _ V _ _ L X) as (e & Xe & No). rewrite (aug_ex _ _ _ Xe). cbn [obind]. destruct (CL _ _ _ L X Oc Xe) as [D|[]]. now rewrite D.
Qed.
Lemma quiet_end Rg bi o i x q : linked s i -> f_insn (c_f s) i = Some x -> quiet Rg bi (aug s) (fill_insn o x) q = quiet Rg bi s (fill_insn o x) q.
Proof.
  intros L X. unfold quiet. change (i_op (fill_insn o x)) with (i_op x). change (i_addr (fill_insn o x)) with (fill_addr o (i_addr x)). change (i_vrt (fill_insn o x)) with (i_vrt x).
  assert (FA : i_op x = LOADRAW \/ i_op x = STORERAW -> vaddr (aug s) bi q (fill_addr o (i_addr x)) = vaddr s bi q (fill_addr o (i_addr x))).
  { intros O. apply vaddr_same. intros d D. apply (no_arg i x (a_val (i_addr x)) d L X).
    - unfold operand_values. apply in_or_app. right. destruct O as [-> | ->]; now left.
    - unfold fill_addr in D. destruct (a_ot (i_addr x)); exact D. }
  destruct (i_op x); auto; rewrite FA by auto; reflexivity.
Qed.
Lemma body_end Rg w bi o l : forall q, (forall j, In j l -> linked s j) -> hbody Rg w bi (aug s) o q l = gbody Rg w bi s o q l.
Proof.
  induction l as [|i l IH]; intros q Ll; [reflexivity|]. cbn [hbody gbody]. change (c_f (aug s)) with (c_f s). destruct (f_insn (c_f s) i) as [x|] eqn:X; [|reflexivity]. cbn [obind].
  unfold hexec. rewrite (exec_end w bi o i x q (Ll i (or_introl eq_refl)) X), (quiet_end Rg bi o i x q (Ll i (or_introl eq_refl)) X). destruct (quiet _ _ _ _ _); [|reflexivity]. destruct (vexec _ _ _ _ _ _) as [[q'| |]|]; try reflexivity. cbn [obind]. apply IH. intros j J. apply Ll. now right.
Qed.
Lemma incoming_in x p v : incoming x p = Some v -> exists b, In (v, b) (i_phi x).
Proof. unfold incoming. destruct (find _ _) as [[v' b]|] eqn:F; [|discriminate]. cbn. intros H. injection H as <-. apply find_some in F as (F & _). eauto. Qed.
Lemma phis_end bi o prev q0 l : forall q, (forall j, In j l -> linked s j) -> vphis bi (aug s) o prev q0 q l = vphis bi s o prev q0 q l.
Proof.
  induction l as [|i l IH]; intros q Ll; [reflexivity|]. cbn [vphis]. change (c_f (aug s)) with (c_f s). destruct (f_insn (c_f s) i) as [x|] eqn:X; [|reflexivity]. cbn [obind].
  destruct (iop_eqb (i_op x) PHI) eqn:O; [|reflexivity]. destruct (incoming x prev) as [v|] eqn:I; [|reflexivity]. cbn [obind].
  rewrite veval_same.
  - destruct (veval s bi q0 (fill_val o v)); [|reflexivity]. cbn [obind]. rewrite vwr_same by (apply Ll; now left). destruct (vwr s q i z); [|reflexivity]. cbn [obind]. apply IH. intros j J. apply Ll. now right.
  - intros d D. apply fill_data in D. apply incoming_in in I as (b & I). apply (no_arg i x v d (Ll i (or_introl eq_refl)) X); auto. unfold operand_values. apply in_or_app. right.
    assert (i_op x = PHI) as -> by (destruct (i_op x); cbn in O; congruence). apply in_map_iff. exists (v, b). auto.
Qed.
Lemma block_end Rg w bi o prev b q : In b (c_reach s) -> hblock Rg w bi (aug s) o prev b q = gblock Rg w bi s o prev b q.
Proof.
  intros Hb. unfold hblock, gblock. change (c_f (aug s)) with (c_f s). destruct (f_block (c_f s) b) as [k|] eqn:B; [|reflexivity]. cbn [obind].
  assert (Ll : forall j, In j (b_insns k) -> linked s j) by (intros j J; exists b; split; [auto|]; unfold insns_of; now rewrite B).
  rewrite phis_end by exact Ll. destruct (vphis _ _ _ _ _ _ _) as [[l q1]|] eqn:P; [|reflexivity]. cbn [obind]. rewrite body_end; [reflexivity|]. intros j J. apply Ll. exact (vphis_incl _ _ _ _ _ _ _ _ _ P j J).
Qed.
Lemma run_end Rg w bi o n : forall prev b q, In b (c_reach s) -> hrun Rg w bi (aug s) o n prev b q = grun Rg w bi s o n prev b q.
Proof.
  induction n as [|n IH]; intros prev b q Hb; [reflexivity|]. cbn [hrun grun]. rewrite block_end by exact Hb. destruct (gblock Rg w bi s o prev b q) as [[q'|c q'|z q']|] eqn:Bk; try reflexivity. cbn [obind].
  apply IH. rewrite <- block_end in Bk by exact Hb. apply hblock_leads in Bk. apply (n_leads _ V b c Hb Bk).
Qed.
End End.
