(** Preparing a function for register allocation: the result is fit for the allocator. *)
From Coq Require Import ZArith List Bool Arith Lia Permutation.
From Verif Require Import M_Base M_Ir M_Norm M_Edit M_Ra SpecWord SpecFlat SpecProg SpecSsa SpecIr SpecEdit SpecRa SpecPass SpecShift SpecVirt
  L_Edit L_Uses L_Hist L_Ctor L_Ins L_PassPhi L_PassAlloc L_Sim L_RaGraph L_Word L_Virt L_Prep L_PrepStr L_PrepInv L_PrepCall L_PrepThis L_PrepArg L_PrepConst L_PrepAll L_PrepEnd.
From Verif Require Import SpecRa SpecVirt.
Import ListNotations.
Open Scope nat_scope.

Section Ready.
Context (s : cgs).
Hypothesis V : inv s.
Hypothesis CL : calls_left s [].
Hypothesis AL : args_left s [].

Lemma dst_self i x e : linked s i -> f_insn (c_f s) i = Some x -> c_ex s i = Some e -> x_dst e = None \/ x_dst e = Some i.
Proof.
  intros L X Xe. destruct (n_ex _ V _ _ L X) as (e' & Xe' & No). assert (e' = e) as -> by congruence.
  destruct (is_void_op (i_op x)) eqn:Vo; [left; exact (no_void _ _ _ No Vo)|]. destruct (iop_eq_dec (i_op x) CALL) as [O|O]; [|right; exact (no_dst _ _ _ No Vo O)].
  destruct (no_call _ _ _ No O) as [Q|(Q & _)]; auto.
Qed.
Lemma read_ok i x v : linked s i -> f_insn (c_f s) i = Some x -> i_op x <> ASSIGN -> In v (operand_values x) -> readable s (v_data v).
Proof.
  intros L X O I. pose proof (n_vals _ V _ _ _ L X I) as P. unfold plain_data, readable in *. destruct (v_data v) eqn:D; auto.
  destruct (n_ops _ V _ _ _ _ L X I D) as [A|[->|[(_ & Q)|T]]]; [|right|contradiction|auto].
  - destruct (no_arg _ AL _ _ _ _ L X I D A).
  - destruct (n_sp _ V) as (Xs & _). exists (ex_reg (c_sp s) 10). split; [exact Xs|]. repeat split. right. reflexivity.
Qed.
Lemma prep_ready : ready s.
Proof.
  destruct (n_regs _ V) as (R1 & R2 & R3). constructor.
  - exact R1.
  - exact R2.
  - intros k r K. destruct (R3 _ _ K) as (X & _). exists (ex_reg r (Z.of_nat k)). split; [exact X|]. repeat split.
  - intros r I. apply In_nth_error in I as (k & K). now destruct (R3 _ _ K) as (_ & N & _).
  - destruct (n_sp _ V) as (_ & A & B & _). auto.
  - destruct (n_reach _ V) as (A & B). split; [exact A|]. intros b Hb. specialize (B b Hb). destruct (f_block (c_f s) b); [eauto|congruence].
  - exact (n_preds _ V).
  - intros b _. apply (td_once _ (n_tidy _ V)).
  - intros b i Hb Hi. destruct (td_linked _ (n_tidy _ V) _ _ Hi) as (x & X & P). assert (L : linked s i) by (exists b; auto). destruct (n_ex _ V _ _ L X) as (e & Xe & No).
    exists x, e. split; [exact X|]. split; [exact P|]. split; [exact Xe|]. split; [exact (dst_self _ _ _ L X Xe)|]. split; [apply (no_vr _ _ _ No)|].
    destruct (x_fin e) eqn:F.
    + destruct (no_fix _ _ _ No F) as (_ & k & Lk & Q). rewrite Q. split; [reflexivity|]. intros _. right. unfold assignable. cbn [vp_reg]. lia.
    + rewrite (no_free _ _ _ No F). split; [reflexivity|discriminate].
  - intros d u L. split.
    + intros I. assert (U : 0 < uses (c_f s) u d). { destruct (td_users _ (n_tidy _ V) u d) as (_ & Q). apply (count_occ_In Nat.eq_dec) in I. lia. }
      split; [|exact U]. destruct (td_placed _ (n_tidy _ V) _ _ U) as (x & X & I2). exists (i_parent x). split; [exact (n_all _ V _ _ I2)|exact I2].
    + intros (_ & U). unfold reads in U. destruct (td_users _ (n_tidy _ V) u d) as (Q & _). exact (Q U).
  - intros i x e L X Xe J. destruct (n_ex _ V _ _ L X) as (e' & Xe' & No). assert (e' = e) as -> by congruence. apply (no_void _ _ _ No). unfold is_void_op. now rewrite J.
  - intros i x L X O. destruct (n_phi _ V _ _ L X O) as (A & _ & B). split; [exact A|]. split; [|exact B]. destruct (n_ex _ V _ _ L X) as (e & Xe & No). exists e. split; [exact Xe|]. apply (no_dst _ _ _ No); rewrite O; [reflexivity|discriminate].
Qed.
Lemma prep_tidy : SpecRa.tidy s.
Proof.
  split.
  - intros v e Xe. destruct (n_dom _ V _ _ Xe) as [I|[->|L]]; auto. right. right. destruct (n_sp _ V) as (Xs & _). rewrite Xs in Xe. injection Xe as <-. repeat split.
  - intros v e Xe F. destruct (n_dom _ V _ _ Xe) as [I|[->|L]].
    + apply In_nth_error in I as (k & K). destruct (n_regs _ V) as (_ & _ & R3). destruct (R3 _ _ K) as (X & _). rewrite X in Xe. injection Xe as <-. reflexivity.
    + destruct (n_sp _ V) as (Xs & _). rewrite Xs in Xe. injection Xe as <-. reflexivity.
    + destruct (live_linked _ V _ L) as (b & x & _ & _ & X & _). destruct (n_ex _ V _ _ L X) as (e' & Xe' & No). assert (e' = e) as -> by congruence. now rewrite (no_free _ _ _ No F).
Qed.
Lemma fin_op i x : linked s i -> f_insn (c_f s) i = Some x -> is_void_op (i_op x) = false -> i_op x <> CALL -> i_op x <> ASSIGN -> tracked s i.
Proof.
  intros L X Vo Nc Na. split; [exact L|]. destruct (n_ex _ V _ _ L X) as (e & Xe & No). exists e. split; [exact Xe|]. split; [|exact (no_dst _ _ _ No Vo Nc)].
  destruct (x_fin e) eqn:F; [|reflexivity]. destruct (no_fix _ _ _ No F) as (Q & _). contradiction.
Qed.
Lemma prep_shape : shape s.
Proof.
  constructor.
  - intros b k i x Hb A X J. unfold insn_at, ends_at in *. apply nth_error_split in A as (l1 & l2 & Q & Lk). rewrite (n_jump _ V _ _ _ _ _ Q X J) in Q. rewrite Q, app_length. cbn. lia.
  - intros b c Hb Ld. destruct (n_leads _ V _ _ Hb Ld) as (A & _ & B). auto.
  - intros i x L X O. destruct (n_phi _ V _ _ L X O) as (_ & A & _). split; [apply (fin_op i x L X); rewrite O; [reflexivity|discriminate|discriminate]|]. split; [exact A|].
    intros w n I. apply (read_ok i x w L X); [rewrite O; discriminate|]. unfold operand_values. rewrite O. apply in_or_app. right. apply in_map_iff. exists (w, n). auto.
  - intros i [H|H]; [exact (f_lt _ V _ H)|]. destruct (c_ex s i) as [e|] eqn:Q; [|congruence]. exact (ex_lt _ V _ _ Q).
  - intros i x v d X I D. exact (use_target s i x v d V X I D).
  - intros i x e L X Xe O. destruct (n_ex _ V _ _ L X) as (e' & Xe' & No). assert (e' = e) as -> by congruence. destruct O as [O|[O|[O|[]]]]; [apply (no_void _ _ _ No); rewrite <- O; reflexivity|apply (no_void _ _ _ No); rewrite <- O; reflexivity|].
    destruct (CL _ _ _ L X (eq_sym O) Xe) as [Q|[]]. exact Q.
  - intros i x v L X O Q. apply (read_ok i x v L X); [rewrite O; discriminate|]. apply in_or_app. left. destruct (i_vals x); [discriminate Q|]. cbn in Q. injection Q as ->. now left.
  - intros i x e X O Xe F. exfalso. destruct (n_dom _ V _ _ Xe) as [I|[->|L]].
    + apply In_nth_error in I as (k & K). destruct (n_regs _ V) as (_ & _ & R3). destruct (R3 _ _ K) as (_ & _ & y & Y & Oy). rewrite Y in X. injection X as ->. rewrite Oy in O. destruct O; discriminate.
    + destruct (n_sp _ V) as (_ & _ & _ & y & Y & O1 & O2). rewrite Y in X. injection X as ->. destruct O; contradiction.
    + destruct (n_ex _ V _ _ L X) as (e' & Xe' & No). assert (e' = e) as -> by congruence. destruct (no_fix _ _ _ No F) as (Q & _). rewrite Q in O. destruct O; discriminate.
Qed.
Lemma alu_props o : is_bin_alu_op o = true -> is_void_op o = false /\ o <> CALL /\ o <> ASSIGN.
Proof. destruct o; cbn; intros H; try discriminate H; repeat split; discriminate. Qed.
Lemma prep_operands : alu_ok s -> operands_ok s.
Proof.
  intros H i x L X O. destruct (alu_props _ O) as (A & B & C). split; [exact (fin_op i x L X A B C)|]. destruct (H _ _ L X O) as (v & Q & P). exists v. split; [exact Q|]. intros d D.
  assert (I : In v (operand_values x)) by (apply in_or_app; left; now apply nth_error_In in Q). destruct (P d D) as (P1 & P2).
  destruct (n_ops _ V _ _ _ _ L X I D) as [Aa|[->|[(_ & Qa)|T]]]; [destruct (no_arg _ AL _ _ _ _ L X I D Aa)|congruence|contradiction|]. destruct T as (T1 & e & Xe & _ & De). split; [exact T1|]. split; [exists e; auto|exact P2].
Qed.
End Ready.
