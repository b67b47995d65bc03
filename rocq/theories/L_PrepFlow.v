(** Preparing a function for register allocation: values stay computed before they are used, and the
    copies that are added connect a fixed register with a value. *)
From Coq Require Import ZArith List Bool Arith Lia Permutation.
From Verif Require Import M_Base M_Ir M_Norm M_Edit M_Ra SpecWord SpecFlat SpecProg SpecSsa SpecIr SpecEdit SpecRa SpecPass SpecShift SpecVirt SpecStrict
  L_Edit L_Uses L_Hist L_Ctor L_Ins L_PassPhi L_Sim L_RaGraph L_Virt L_Prep L_PrepStr L_PrepInv.
From Verif Require Import SpecRa SpecVirt.
Import ListNotations.
Open Scope nat_scope.

(** paths from the entry along the recorded predecessors, last block first *)
Inductive ppath (s : cgs) : list nat -> Prop :=
| pp_entry : ppath s [f_entry (c_f s)]
| pp_step b l c : ppath s (b :: l) -> In c (c_reach s) -> In b (preds_of (c_f s) c) -> ppath s (c :: b :: l).
Record computed (s : cgs) : Prop := {
  cm_use : forall b u x v d c, In u (insns_of (c_f s) b) -> f_insn (c_f s) u = Some x -> i_op x <> PHI -> In v (operand_values x) -> v_data v = VInsn d ->
    In d (insns_of (c_f s) c) -> (c = b /\ precedes d u (insns_of (c_f s) b)) \/ forall l, ppath s (b :: l) -> In c l;
  cm_phi : forall b u x v q d c, In u (insns_of (c_f s) b) -> f_insn (c_f s) u = Some x -> i_op x = PHI -> In (v, q) (i_phi x) -> v_data v = VInsn d ->
    In d (insns_of (c_f s) c) -> forall l, ppath s (q :: l) -> In c (q :: l) }.
(** a copy connects a fixed register with a value *)
Definition copies_fit (s : cgs) : Prop :=
  forall i x, linked s i -> f_insn (c_f s) i = Some x -> i_op x = ASSIGN -> i_vals x <> [] /\
    forall v d, In v (operand_values x) -> v_data v = VInsn d -> (fixed s i <-> ~ In d (c_regs s)).
(** the frame pointer is neither copied nor passed to a function *)
Definition sp_alone (s : cgs) : Prop :=
  forall i x v, linked s i -> f_insn (c_f s) i = Some x -> i_op x = ASSIGN \/ i_op x = CALL -> In v (operand_values x) -> v_data v <> VInsn (c_sp s).

Lemma ppath_entry s l : ppath s l -> In (f_entry (c_f s)) l.
Proof. induction 1; [now left|now right]. Qed.
Lemma precedes_mid d u l1 x l2 y : In d l1 -> In u l2 -> precedes d u (l1 ++ x ++ l2 ++ y).
Proof. intros D U. apply in_split in D as (a & b & ->). apply in_split in U as (c & e & ->). exists a, (b ++ x ++ c), (e ++ y). repeat (rewrite <- ?app_assoc; cbn [app]). reflexivity. Qed.
Lemma precedes_pair d u l1 l2 : In d l1 -> In u l2 -> precedes d u (l1 ++ l2).
Proof. intros D U. pose proof (precedes_mid d u l1 [] l2 [] D U) as H. cbn [app] in H. now rewrite app_nil_r in H. Qed.
Lemma precedes_sub d u x l y : precedes d u l -> precedes d u (x ++ l ++ y).
Proof. intros (a & b & c & ->). exists (x ++ a), b, (c ++ y). repeat (rewrite <- ?app_assoc; cbn [app]). reflexivity. Qed.
Lemma precedes_cut d u l1 l2 : precedes d u (l1 ++ l2) -> precedes d u l1 \/ precedes d u l2 \/ (In d l1 /\ In u l2).
Proof.
  intros (a & b & c & Q). revert a Q. induction l1 as [|x l1 IH]; intros a Q; [right; left; cbn in Q; rewrite Q; exists a, b, c; reflexivity|].
  destruct a as [|y a]; cbn in Q; injection Q as <- Q.
  - assert (I : In u (l1 ++ l2)) by (rewrite Q; apply in_or_app; right; now left). apply in_app_or in I as [I|I]; [left|right; right; split; [now left|auto]].
    apply in_split in I as (e & g & ->). exists [], e, g. reflexivity.
  - destruct (IH a Q) as [(a' & b' & c' & ->)|[H|(H1 & H2)]]; [left; exists (x :: a'), b', c'; reflexivity|right; now left|right; right; split; [now right|auto]].
Qed.
(** inserting keeps the order *)
Lemma precedes_ins d u l1 x l2 : precedes d u (l1 ++ l2) -> precedes d u (l1 ++ x ++ l2).
Proof.
  intros H. apply precedes_cut in H as [H|[H|(H1 & H2)]].
  - pose proof (precedes_sub d u [] l1 (x ++ l2) H) as Q. exact Q.
  - pose proof (precedes_sub d u (l1 ++ x) l2 [] H) as Q. rewrite app_nil_r, <- app_assoc in Q. exact Q.
  - apply precedes_pair; [auto|]. apply in_or_app. now right.
Qed.
Lemma precedes_irr d l : NoDup l -> ~ precedes d d l.
Proof. intros N (a & b & c & ->). apply NoDup_remove_2 in N. apply N. rewrite !in_app_iff. right. right. now left. Qed.

Section Flow.
Context (s t : cgs) (τ : nat -> nat) (i bb : nat) (l1 B M A l2 : list nat) (N : nat -> value).
Hypothesis V : inv s.
Hypothesis E : ext s t τ i bb l1 B M A l2 N.

Lemma flow_path l : ppath t l -> ppath s l.
Proof.
  destruct (x_cfg _ _ _ _ _ _ _ _ _ _ _ E) as (Ce & _ & _ & Cp). destruct (x_rest _ _ _ _ _ _ _ _ _ _ _ E) as (Rh & _).
  induction 1 as [|b l c H IH Hc Hp]; [rewrite Ce; constructor|]. rewrite Rh in Hc. rewrite Cp in Hp. now constructor.
Qed.
Lemma flow_order d u b : precedes d u (insns_of (c_f s) b) -> precedes d u (insns_of (c_f t) b).
Proof.
  rewrite (x_list _ _ _ _ _ _ _ _ _ _ _ E). destruct (Nat.eqb_spec b bb) as [->|]; [|auto]. rewrite (x_from _ _ _ _ _ _ _ _ _ _ _ E). intros H.
  apply (precedes_ins d u l1 B). rewrite app_assoc in H |- *. now apply precedes_ins.
Qed.
Lemma not_new d : d < f_ni (c_f s) -> ~ In d (B ++ A).
Proof. intros L I. apply (new_ge _ _ _ _ _ _ _ _ _ _ _ E) in I. lia. Qed.
Lemma was d c : d < f_ni (c_f s) -> In d (insns_of (c_f t) c) -> In d (insns_of (c_f s) c).
Proof. intros L I. apply (list_of _ _ _ _ _ _ _ _ _ _ _ E) in I as [(_ & I)|I]; [destruct (not_new _ L I)|exact I]. Qed.
Lemma new_in d c : In d (B ++ A) -> In d (insns_of (c_f t) c) -> c = bb.
Proof.
  intros I J. apply (list_of _ _ _ _ _ _ _ _ _ _ _ E) in J as [(Q & _)|J]; [exact Q|]. exfalso. apply (new_not_linked _ _ _ _ _ _ _ _ _ _ _ V E d I). exists c. split; [exact (n_all _ V _ _ J)|exact J].
Qed.
Lemma op_lt u x v d : f_insn (c_f s) u = Some x -> In v (operand_values x) -> v_data v = VInsn d -> linked s u -> d < f_ni (c_f s).
Proof.
  intros X I D L. destruct (n_ops _ V _ _ _ _ L X I D) as [Q|[->|[(Q & _)|(Q & _)]]].
  - destruct (n_args _ V) as (_ & _ & R). destruct (R _ Q) as (_ & _ & y & Y & _). apply (f_lt _ V). congruence.
  - destruct (n_sp _ V) as (X0 & _). exact (ex_lt _ V _ _ X0).
  - destruct (n_regs _ V) as (_ & _ & R). apply In_nth_error in Q as (k & K). destruct (R _ _ K) as (X0 & _). exact (ex_lt _ V _ _ X0).
  - exact (linked_lt _ V _ Q).
Qed.
Lemma M_in : M = [i] -> In i (insns_of (c_f s) bb).
Proof. intros ->. rewrite (x_from _ _ _ _ _ _ _ _ _ _ _ E). apply in_or_app. right. now left. Qed.
Lemma in_new_block j : In j (B ++ A) -> In j (insns_of (c_f t) bb).
Proof. intros I. apply (list_of _ _ _ _ _ _ _ _ _ _ _ E). now left. Qed.
Lemma ND : NoDup (insns_of (c_f s) bb).
Proof. apply (td_once _ (n_tidy _ V)). Qed.

(** an operand of an old instruction, seen after the edit *)
Lemma old_use : computed s -> forall b u x v d0 c, In u (insns_of (c_f s) b) -> f_insn (c_f s) u = Some x -> i_op x <> PHI -> In v (operand_values x) -> v_data v = VInsn d0 ->
  In (τ d0) (insns_of (c_f t) c) -> (c = b /\ precedes (τ d0) u (insns_of (c_f t) b)) \/ forall l, ppath t (b :: l) -> In c l.
Proof.
  intros C b u x v d0 c Hu X O I D Hd. assert (Lu : linked s u) by (exists b; split; [exact (n_all _ V _ _ Hu)|exact Hu]).
  pose proof (op_lt _ _ _ _ X I D Lu) as Ld. destruct (x_tau _ _ _ _ _ _ _ _ _ _ _ E d0) as [T|(-> & J & _)].
  - rewrite T in *. destruct (cm_use _ C _ _ _ _ _ _ Hu X O I D (was _ _ Ld Hd)) as [(-> & P)|P]; [left; split; [auto|now apply flow_order]|right].
    intros l Pl. apply P, flow_path, Pl.
  - pose proof (new_in _ _ J Hd) as ->. destruct (i_cases _ _ _ _ _ _ _ _ _ _ _ V E) as [(Q & Ia & NL)|(Q & L)].
    + destruct (x_M _ _ _ _ _ _ _ _ _ _ _ E) as [(_ & Q1 & QA & Qb & _ & _)|(Q' & _)]; [|congruence]. destruct (Nat.eq_dec b bb) as [->|Nb].
      * left. split; [auto|]. rewrite (x_list _ _ _ _ _ _ _ _ _ _ _ E), Nat.eqb_refl. rewrite (x_from _ _ _ _ _ _ _ _ _ _ _ E) in Hu. rewrite Q, Q1, QA in *. cbn [app] in *. rewrite app_nil_r in J. now apply precedes_pair.
      * right. intros l Pl. apply flow_path in Pl. apply ppath_entry in Pl. rewrite <- Qb in Pl. destruct Pl as [->|Pl]; [contradiction|exact Pl].
    + destruct (cm_use _ C _ _ _ _ _ _ Hu X O I D (M_in Q)) as [(Qb & P)|P]; [|right; intros l Pl; apply P, flow_path, Pl]. subst b. left. split; [auto|].
      rewrite (x_list _ _ _ _ _ _ _ _ _ _ _ E), Nat.eqb_refl. pose proof ND as Nd. rewrite (x_from _ _ _ _ _ _ _ _ _ _ _ E), Q in P, Nd.
      assert (U2 : In u l2).
      { apply precedes_cut in P as [P|[P|(P & _)]].
        - exfalso. destruct P as (a & b & e & P). apply NoDup_remove_2 in Nd. apply Nd. rewrite P, !in_app_iff. left. right. now left.
        - cbn [app] in P. destruct P as (a & b & e & P). destruct a as [|y a]; cbn in P; [injection P as P; rewrite P; apply in_or_app; right; now left|].
          exfalso. injection P as P1 P. apply NoDup_remove_2 in Nd. apply Nd. rewrite P, !in_app_iff. right. right. now left.
        - exfalso. apply NoDup_remove_2 in Nd. apply Nd. apply in_or_app. now left. }
      apply in_app_or in J as [J|J].
      * pose proof (precedes_sub (τ i) u l1 (B ++ M ++ A ++ l2) []) as G. rewrite app_nil_r in G. apply G. apply precedes_pair; [auto|]. rewrite !in_app_iff. tauto.
      * pose proof (precedes_sub (τ i) u (l1 ++ B ++ M) (A ++ l2) []) as G. rewrite app_nil_r in G. rewrite <- !app_assoc in G. apply G. now apply precedes_pair.
Qed.

Lemma flow_computed : computed s -> computed t.
Proof.
  intros C. constructor.
  - intros b u y v' d c Hu Y O Iv D Hd. destruct (insn_cases _ _ _ _ _ _ _ _ _ _ _ E _ _ Y) as [(J & k & ->)|[(Nu & x & X & K)|(-> & x & X & K)]].
    + pose proof (new_in _ _ J Hu) as ->. unfold operand_values in Iv. cbn in Iv. destruct Iv as [<-|[]].
      destruct (x_src _ _ _ _ _ _ _ _ _ _ _ E _ _ J D) as [(R & _)|(JB & Q & _ & x & v & d0 & X & Oc & Iv & D0 & ->)].
      * exfalso. destruct (n_regs _ V) as (_ & _ & R'). apply In_nth_error in R as (k' & K'). destruct (R' _ _ K') as (X0 & NL & _). pose proof (was _ _ (ex_lt _ V _ _ X0) Hd) as H. apply NL. exists c. split; [exact (n_all _ V _ _ H)|exact H].
      * destruct (old_use C bb i x v d0 c (M_in Q) X ltac:(rewrite Oc; discriminate) Iv D0 Hd) as [(-> & P)|P]; [|now right].
        (* the operand comes before the call *)
        assert (Ld : d0 < f_ni (c_f s)) by (exact (op_lt _ _ _ _ X Iv D0 (M_linked _ _ _ _ _ _ _ _ _ _ _ E Q))).
        assert (CS : forall c, In d0 (insns_of (c_f s) c) -> (c = bb /\ precedes d0 i (insns_of (c_f s) bb)) \/ forall l, ppath s (bb :: l) -> In c l).
        { intros c H. exact (cm_use _ C _ _ _ _ _ _ (M_in Q) X ltac:(rewrite Oc; discriminate) Iv D0 H). }
        destruct (x_tau _ _ _ _ _ _ _ _ _ _ _ E d0) as [T|(-> & J' & _)].
        -- rewrite T in *. destruct (CS _ (was _ _ Ld Hd)) as [(_ & P')|P']; [|right; intros l Pl; apply P', flow_path, Pl]. left. split; [auto|].
           rewrite (x_list _ _ _ _ _ _ _ _ _ _ _ E), Nat.eqb_refl. pose proof ND as Nd. rewrite (x_from _ _ _ _ _ _ _ _ _ _ _ E), Q in P', Nd.
           apply precedes_pair; [|apply in_or_app; now left]. apply precedes_cut in P' as [P'|[P'|(P' & _)]]; [| |exact P'].
           ++ exfalso. destruct P' as (a & b & e & P'). apply NoDup_remove_2 in Nd. apply Nd. rewrite P'. rewrite !in_app_iff. left. right. right. apply in_or_app. right. now left.
           ++ exfalso. destruct P' as (a & b & e & P'). destruct a as [|y a]; cbn [app] in P'; injection P' as P1 P'.
              ** apply NoDup_remove_2 in Nd. apply Nd. rewrite P', !in_app_iff. right. right. now left.
              ** apply NoDup_remove_2 in Nd. apply Nd. rewrite P', !in_app_iff. right. right. right. apply in_or_app. right. now left.
        -- destruct (CS _ (M_in Q)) as [(_ & P')|P']; [destruct (precedes_irr _ _ ND P')|right; intros l Pl; apply P', flow_path, Pl].
    + assert (Lu : u < f_ni (c_f s)) by (apply (f_lt _ V); congruence). destruct (isim_ops _ _ _ _ K Iv) as (v & I & S0). destruct (vsim_data _ _ _ _ S0 D) as (d0 & D0 & ->).
      apply (old_use C b u x v d0 c (was _ _ Lu Hu) X); auto. rewrite <- (proj1 (is_rest _ _ _ K)). exact O.
    + assert (Lu : i < f_ni (c_f s)) by (apply (f_lt _ V); congruence). destruct (x_i _ _ _ _ _ _ _ _ _ _ _ E _ X) as (y' & Y' & _ & Op). rewrite Y in Y'. injection Y' as <-.
      destruct (Op _ Iv) as [(v & I & S0)|(Q & d' & D' & JB & _)].
      * destruct (vsim_data _ _ _ _ S0 D) as (d0 & D0 & ->). apply (old_use C b i x v d0 c (was _ _ Lu Hu) X); auto. rewrite <- (proj1 K). exact O.
      * rewrite D in D'. injection D' as <-. assert (J : In d (B ++ A)) by (apply in_or_app; now left). pose proof (new_in _ _ J Hd) as ->.
        assert (b = bb) as ->. { pose proof (was _ _ Lu Hu) as H1. pose proof (M_in Q) as H2. destruct (td_linked _ (n_tidy _ V) _ _ H1) as (x1 & X1 & P1). destruct (td_linked _ (n_tidy _ V) _ _ H2) as (x2 & X2 & P2). congruence. }
        left. split; [auto|]. rewrite (x_list _ _ _ _ _ _ _ _ _ _ _ E), Nat.eqb_refl, Q. pose proof (precedes_sub d i l1 (B ++ [i] ++ A ++ l2) []) as G. rewrite app_nil_r in G. apply G. apply precedes_pair; [auto|now left].
  - intros b u y v' q d c Hu Y O Iv D Hd l Pl. destruct (insn_cases _ _ _ _ _ _ _ _ _ _ _ E _ _ Y) as [(J & k & ->)|[(Nu & x & X & K)|(-> & x & X & K)]]; [discriminate O| |].
    + assert (Lu : u < f_ni (c_f s)) by (apply (f_lt _ V); congruence). pose proof (was _ _ Lu Hu) as Hu'. rewrite (proj1 (is_rest _ _ _ K)) in O.
      assert (P : exists v, In (v, q) (i_phi x) /\ vsim τ v v').
      { pose proof (is_phi _ _ _ K O) as F. clear -F Iv. induction F as [|[a p] [a' p'] la lb (Q1 & Q2) F IH]; [destruct Iv|]. destruct Iv as [Iv|Iv]; [|destruct (IH Iv) as (v & I & S); exists v; split; [now right|auto]].
        injection Iv as -> ->. cbn in Q1, Q2. subst. exists a. split; [now left|auto]. }
      destruct P as (v & Ip & S0). destruct (vsim_data _ _ _ _ S0 D) as (d0 & D0 & ->). apply flow_path in Pl.
      assert (Io : In v (operand_values x)). { unfold operand_values. rewrite O. apply in_or_app. right. apply in_map_iff. exists (v, q). auto. }
      assert (Lk : linked s u) by (exists b; split; [exact (n_all _ V _ _ Hu')|exact Hu']). pose proof (op_lt _ _ _ _ X Io D0 Lk) as Ld.
      destruct (x_tau _ _ _ _ _ _ _ _ _ _ _ E d0) as [T|(-> & J & _)].
      * rewrite T in *. exact (cm_phi _ C _ _ _ _ _ _ _ Hu' X O Ip D0 (was _ _ Ld Hd) _ Pl).
      * pose proof (new_in _ _ J Hd) as ->. destruct (i_cases _ _ _ _ _ _ _ _ _ _ _ V E) as [(Q & Ia & NL)|(Q & L)].
        -- destruct (x_M _ _ _ _ _ _ _ _ _ _ _ E) as [(_ & _ & _ & Qb & _ & _)|(Q' & _)]; [|congruence]. rewrite Qb. exact (ppath_entry _ _ Pl).
        -- exact (cm_phi _ C _ _ _ _ _ _ _ Hu' X O Ip D0 (M_in Q) _ Pl).
    + exfalso. assert (Lu : i < f_ni (c_f s)) by (apply (f_lt _ V); congruence). pose proof (was _ _ Lu Hu) as Hu'. rewrite (proj1 K) in O.
      destruct (x_M _ _ _ _ _ _ _ _ _ _ _ E) as [(_ & _ & _ & _ & Ia & _)|(Q' & x' & X' & O' & _)]; [|congruence].
      destruct (n_args _ V) as (_ & _ & R). destruct (R _ Ia) as (_ & NL & _). apply NL. exists b. split; [exact (n_all _ V _ _ Hu')|exact Hu'].
Qed.

Lemma fixed_old j : linked s j -> (fixed t j <-> fixed s j).
Proof.
  intros L. unfold fixed. destruct (Nat.eq_dec j i) as [->|Nj].
  - destruct (x_exi _ _ _ _ _ _ _ _ _ _ _ E) as [->|(_ & -> & _)]; [tauto|]. destruct (c_ex s i) as [e|]; cbn; [|tauto]. split; intros (e' & Q & F); injection Q as <-; eauto.
  - rewrite (x_ex _ _ _ _ _ _ _ _ _ _ _ E) by (auto; exact (linked_lt _ V _ L)). tauto.
Qed.
Lemma reg_tau d : In (τ d) (c_regs s) <-> In d (c_regs s).
Proof.
  destruct (x_tau _ _ _ _ _ _ _ _ _ _ _ E d) as [->|(-> & J & _)]; [tauto|]. split; intros R; exfalso; [|exact (i_not_reg _ _ _ _ _ _ _ _ _ _ _ V E R)].
  destruct (n_regs _ V) as (_ & _ & R'). apply In_nth_error in R as (k' & K'). destruct (R' _ _ K') as (X0 & _). apply (ex_lt _ V) in X0. exact (not_new _ X0 J).
Qed.
Lemma sp_tau d : τ d = c_sp s -> d = c_sp s.
Proof. destruct (x_tau _ _ _ _ _ _ _ _ _ _ _ E d) as [->|(-> & J & _)]; [auto|]. intros Q. rewrite Q in J. destruct (n_sp _ V) as (X0 & _). apply (ex_lt _ V) in X0. destruct (not_new _ X0 J). Qed.
Lemma old_linked j : linked t j -> j < f_ni (c_f s) -> linked s j.
Proof. intros L Lt. apply (linked_t _ _ _ _ _ _ _ _ _ _ _ E) in L as [J|L]; [destruct (not_new _ Lt J)|exact L]. Qed.

Lemma flow_copies : copies_fit s -> copies_fit t.
Proof.
  intros C j y L Y O. split.
  { destruct (insn_cases _ _ _ _ _ _ _ _ _ _ _ E _ _ Y) as [(J & k & ->)|[(Nu & x & X & K)|(-> & x & X & K)]]; [discriminate| |].
    - assert (Lj : linked s j) by (apply old_linked; [auto|apply (f_lt _ V); congruence]). rewrite (proj1 (is_rest _ _ _ K)) in O. destruct (C _ _ Lj X O) as (Q & _).
      pose proof (is_vals _ _ _ K) as F. destruct F; [contradiction|discriminate].
    - assert (Lj : linked s i) by (apply old_linked; [auto|apply (f_lt _ V); congruence]). rewrite (proj1 K) in O. destruct (x_op _ _ _ _ _ _ _ _ _ _ _ E _ Lj X O). }
  intros v' d Iv D. destruct (x_rest _ _ _ _ _ _ _ _ _ _ _ E) as (_ & -> & _).
  destruct (insn_cases _ _ _ _ _ _ _ _ _ _ _ E _ _ Y) as [(J & k & ->)|[(Nu & x & X & K)|(-> & x & X & K)]].
  - unfold operand_values in Iv. cbn in Iv. destruct Iv as [<-|[]]. destruct (x_src _ _ _ _ _ _ _ _ _ _ _ E _ _ J D) as [(R & X)|(JB & Q & (k' & Xf) & x & v & d0 & X & Oc & Iv & D0 & ->)].
    + split; [|tauto]. intros (e & Xe & F). rewrite X in Xe. injection Xe as <-. discriminate F.
    + rewrite reg_tau. split; [|intros _; exists (ex_fix j k'); auto]. intros _ R. destruct (n_ops _ V _ _ _ _ (M_linked _ _ _ _ _ _ _ _ _ _ _ E Q) X Iv D0) as [Qa|[->|[(_ & Qo)|(Ql & _)]]].
      * destruct (n_args _ V) as (_ & _ & R'). destruct (R' _ Qa) as (Xa & _). destruct (n_regs _ V) as (_ & _ & R2). apply In_nth_error in R as (k2 & K2). destruct (R2 _ _ K2) as (X2 & _). congruence.
      * now apply (n_sp _ V) in R.
      * congruence.
      * destruct (n_regs _ V) as (_ & _ & R2). apply In_nth_error in R as (k2 & K2). destruct (R2 _ _ K2) as (_ & NL & _). contradiction.
  - assert (Lj : linked s j) by (apply old_linked; [auto|apply (f_lt _ V); congruence]). destruct (isim_ops _ _ _ _ K Iv) as (v & I & S0). destruct (vsim_data _ _ _ _ S0 D) as (d0 & D0 & ->).
    rewrite (proj1 (is_rest _ _ _ K)) in O. rewrite reg_tau, fixed_old by auto. exact (proj2 (C _ _ Lj X O) _ _ I D0).
  - assert (Lj : linked s i) by (apply old_linked; [auto|apply (f_lt _ V); congruence]). rewrite (proj1 K) in O. destruct (x_op _ _ _ _ _ _ _ _ _ _ _ E _ Lj X O).
Qed.
Lemma flow_sp : sp_alone s -> sp_alone t.
Proof.
  intros C j y v' L Y O Iv D. destruct (x_rest _ _ _ _ _ _ _ _ _ _ _ E) as (_ & _ & Rs & _). rewrite Rs in D.
  destruct (insn_cases _ _ _ _ _ _ _ _ _ _ _ E _ _ Y) as [(J & k & ->)|[(Nu & x & X & K)|(-> & x & X & K)]].
  - unfold operand_values in Iv. cbn in Iv. destruct Iv as [<-|[]]. destruct (x_src _ _ _ _ _ _ _ _ _ _ _ E _ _ J D) as [(R & X)|(JB & Q & _ & x & v & d0 & X & Oc & Iv & D0 & T)].
    + now apply (n_sp _ V) in R.
    + symmetry in T. apply sp_tau in T. subst d0. exact (C _ _ _ (M_linked _ _ _ _ _ _ _ _ _ _ _ E Q) X (or_intror Oc) Iv D0).
  - assert (Lj : linked s j) by (apply old_linked; [auto|apply (f_lt _ V); congruence]). destruct (isim_ops _ _ _ _ K Iv) as (v & I & S0). destruct (vsim_data _ _ _ _ S0 D) as (d0 & D0 & T).
    symmetry in T. apply sp_tau in T. subst d0. rewrite (proj1 (is_rest _ _ _ K)) in O. exact (C _ _ _ Lj X O I D0).
  - assert (Lj : linked s i) by (apply old_linked; [auto|apply (f_lt _ V); congruence]). rewrite (proj1 K) in O.
    destruct (x_i _ _ _ _ _ _ _ _ _ _ _ E _ X) as (y' & Y' & _ & Op). rewrite Y in Y'. injection Y' as <-. destruct (Op _ Iv) as [(v & I & S0)|(Q & d' & D' & JB & _)].
    + destruct (vsim_data _ _ _ _ S0 D) as (d0 & D0 & T). symmetry in T. apply sp_tau in T. subst d0. exact (C _ _ _ Lj X O I D0).
    + rewrite D in D'. injection D' as <-. destruct (n_sp _ V) as (X0 & _). apply (ex_lt _ V) in X0. apply (not_new _ X0). apply in_or_app. now left.
Qed.
End Flow.

(** ** Values computed before use are not live at the start *)
Section Live.
Context (s : cgs).
Hypothesis R : ready s.
Hypothesis C : computed s.
Lemma nth_precedes d u k (l : list nat) : NoDup l -> nth_error l k = Some u -> precedes d u l -> exists m, m < k /\ nth_error l m = Some d.
Proof.
  intros N K (a & b & c & Q). assert (Ku : nth_error l (length a + S (length b)) = Some u).
  { rewrite Q, nth_error_app2 by lia. replace (length a + S (length b) - length a) with (S (length b)) by lia. cbn. rewrite nth_error_app2 by lia. now rewrite Nat.sub_diag. }
  assert (k = length a + S (length b)) as -> by (apply (proj1 (NoDup_nth_error l) N); [apply nth_error_Some; congruence|congruence]).
  exists (length a). split; [lia|]. rewrite Q, nth_error_app2 by lia. now rewrite Nat.sub_diag.
Qed.
Lemma live_behind v c p : In c (c_reach s) -> In v (insns_of (c_f s) c) -> defines s v v -> live s v p -> forall l, ppath s (fst p :: l) ->
  In c l \/ (c = fst p /\ exists m, m < snd p /\ nth_error (insns_of (c_f s) c) m = Some v).
Proof.
  intros Hc Hv Dv. induction 1 as [b k i Hb Hi U NP|b p x w L X O Iw U|b k i Hb Hi ND _ IH|b e He Hp _ IH]; intros l Pl; cbn [fst snd] in *.
  - assert (Ib : In i (insns_of (c_f s) b)) by (eapply nth_error_In; exact Hi). destruct (use_inv _ _ _ U) as (x & w & X & Iw & D).
    destruct (cm_use _ C b i x w v c Ib X ltac:(intros O; apply NP; eauto) Iw D Hv) as [(-> & P)|P]; [right|left; auto]. split; [auto|].
    exact (nth_precedes _ _ _ _ (rd_once _ R _ Hb) Hi P).
  - destruct L as (b' & Hb' & Ib'). assert (D : v_data w = VInsn v). { unfold is_use_of in U. destruct (v_data w); try discriminate. apply Nat.eqb_eq in U. now subst. }
    destruct (cm_phi _ C b' p x w b v c Ib' X O Iw D Hv _ Pl) as [->|P]; [right|now left]. split; [auto|]. apply In_nth_error in Hv as (m & K). exists m. split; [|auto].
    unfold ends_at. apply nth_error_Some. congruence.
  - destruct (IH l Pl) as [P|(-> & m & Lm & K)]; [now left|right]. split; [auto|]. exists m. split; [|auto]. destruct (Nat.eq_dec m k) as [->|]; [|lia].
    unfold insn_at in Hi. rewrite K in Hi. injection Hi as <-. contradiction.
  - destruct (IH (b :: l)) as [[->|P]|(-> & m & Lm & _)]; [now constructor| |now left|lia]. right. split; [auto|]. apply In_nth_error in Hv as (m & K). exists m. split; [|auto].
    unfold ends_at. apply nth_error_Some. congruence.
Qed.
Lemma computed_strict : (forall b, In b (c_reach s) -> exists l, ppath s (b :: l)) -> strict s.
Proof.
  intros Rc v b (L & e & X & _ & D) (Hb & Hp) Lv. destruct L as (c & Hc & Hv). assert (Q : b = f_entry (c_f s)).
  { destruct (Rc _ Hb) as (l & Pl). inversion Pl as [|a l' c' _ _ Hi]; subst; [reflexivity|]. rewrite Hp in Hi. destruct Hi. }
  subst b. destruct (live_behind v c _ Hc Hv ltac:(exists e; auto) Lv [] (pp_entry s)) as [[]|(_ & m & Lm & _)]. cbn in Lm. lia.
Qed.
End Live.
