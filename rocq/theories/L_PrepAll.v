(** Preparing a function for register allocation: all the edits together. *)
From Coq Require Import ZArith List Bool Arith Lia Permutation.
From Verif Require Import M_Base M_Ir M_Norm M_Edit M_Ra SpecWord SpecFlat SpecProg SpecSsa SpecIr SpecEdit SpecRa SpecPass SpecShift SpecVirt SpecStrict SpecPrep
  L_Edit L_Uses L_Hist L_Ctor L_Ins L_PassPhi L_PassAlloc L_Sim L_RaGraph L_Word L_Virt L_Prep L_PrepStr L_PrepInv L_PrepCall L_PrepThis L_PrepArg L_PrepConst L_PrepFlow.
From Verif Require Import SpecSpill SpecRa SpecVirt.
Import ListNotations.
Open Scope nat_scope.

Definition same_head (s t : cgs) : Prop :=
  c_reach t = c_reach s /\ c_regs t = c_regs s /\ c_sp t = c_sp s /\ c_args t = c_args s /\ c_off t = c_off s /\ c_all t = c_all s /\ f_entry (c_f t) = f_entry (c_f s).
Definition runs_kept (s t : cgs) : Prop :=
  forall Rg w o bi n prev q z q2, starts s q -> st_ok (v_st q) -> hrun Rg w bi (aug s) o n prev (f_entry (c_f s)) q = Some (VDone z q2) ->
    exists q2', hrun Rg w bi (aug t) o n prev (f_entry (c_f t)) q = Some (VDone z q2') /\ v_st q2' = v_st q2.
(** the second operand of an arithmetic instruction *)
Definition alu_ok (s : cgs) : Prop :=
  forall i x, linked s i -> f_insn (c_f s) i = Some x -> is_bin_alu_op (i_op x) = true ->
    exists v, nth_error (i_vals x) 1 = Some v /\ forall d, v_data v = VInsn d -> d <> c_sp s /\ d <> i.
Definition calls_left (s : cgs) (l : list nat) : Prop :=
  forall j x e, linked s j -> f_insn (c_f s) j = Some x -> i_op x = CALL -> c_ex s j = Some e -> x_dst e = None \/ In j l.
Definition args_left (s : cgs) (l : list nat) : Prop := forall a u, In a (c_args s) -> ~ In a l -> uses (c_f s) u a = 0.

(** the operations of the function *)
Definition ops_are (Q : iop -> Prop) (s : cgs) : Prop := forall i x, linked s i -> f_insn (c_f s) i = Some x -> Q (i_op x).
Definition encodables (s : cgs) : Prop := forall i x, linked s i -> f_insn (c_f s) i = Some x -> encodable x.
Record stepped (s t : cgs) : Prop := {
  sd_inv : inv t;
  sd_head : same_head s t;
  sd_link : forall j, linked s j -> linked t j;
  sd_alu : alu_ok s -> alu_ok t;
  sd_runs : runs_kept s t;
  sd_flow : forall b, succs_of (c_f t) b = succs_of (c_f s) b /\ preds_of (c_f t) b = preds_of (c_f s) b;
  sd_comp : computed s -> computed t;
  sd_copy : copies_fit s -> copies_fit t;
  sd_sp : sp_alone s -> sp_alone t;
  sd_ops : forall Q : iop -> Prop, Q ASSIGN -> ops_are Q s -> ops_are Q t;
  sd_in : forall b j, In j (insns_of (c_f s) b) -> In j (insns_of (c_f t) b);
  sd_enc : encodables s -> encodables t;
  sd_same : forall j x, f_insn (c_f s) j = Some x -> exists y, f_insn (c_f t) j = Some y /\ i_op y = i_op x /\ i_bb1 y = i_bb1 x /\ i_bb2 y = i_bb2 x;
  sd_new : forall b j, In j (insns_of (c_f t) b) -> In j (insns_of (c_f s) b) \/ exists y, f_insn (c_f t) j = Some y /\ i_op y = ASSIGN;
  sd_phis : SpecInstr.phis_first (c_f s) -> SpecInstr.phis_first (c_f t) }.
Lemma stepped_refl s : inv s -> stepped s s.
Proof. intros V. constructor; auto; [repeat split| |eauto]. intros Rg w o bi n prev q z q2 _ _ R. eauto. Qed.
Lemma stepped_trans s t u : stepped s t -> stepped t u -> stepped s u.
Proof.
  intros [A1 A2 A3 A4 A5 A6 A7 A8 A9 A10 A11 A12 A13 A14 A15] [B1 B2 B3 B4 B5 B6 B7 B8 B9 B10 B11 B12 B13 B14 B15]. constructor; auto.
  - unfold same_head in *. intuition congruence.
  - intros Rg w o bi n prev q z q2 St Ok R. destruct (A5 _ _ _ _ _ _ _ _ _ St Ok R) as (q2' & R' & E). assert (St' : starts t q).
    { intros d a D. destruct A2 as (_ & _ & _ & -> & _). exact (St d a D). }
    destruct (B5 _ _ _ _ _ _ _ _ _ St' Ok R') as (q3 & R3 & E3). exists q3. split; [exact R3|congruence].
  - intros b. destruct (A6 b), (B6 b). split; congruence.
  - intros j x X. destruct (A13 j x X) as (y & Y & O1 & O2 & O3). destruct (B13 j y Y) as (z & Z & P1 & P2 & P3). exists z. repeat split; congruence.
  - intros b j I. destruct (B14 b j I) as [K|K]; [|now right]. destruct (A14 b j K) as [K'|(y & Y & O)]; [now left|]. right. destruct (B13 j y Y) as (z & Z & P1 & _). exists z. split; congruence.
Qed.

Lemma F2_nth {X Y} (R : X -> Y -> Prop) l l' : Forall2 R l l' -> forall k a, nth_error l k = Some a -> exists b, nth_error l' k = Some b /\ R a b.
Proof. induction 1 as [|a b l l' H _ IH]; intros [|k] c Q; cbn in *; try discriminate; [injection Q as <-; eauto|eauto]. Qed.
Section Of.
Context (s t : cgs) (τ : nat -> nat) (i bb : nat) (l1 B M A l2 : list nat) (N : nat -> value).
Hypothesis V : inv s.
Hypothesis E : ext s t τ i bb l1 B M A l2 N.
Lemma ext_head : same_head s t.
Proof. destruct (x_rest _ _ _ _ _ _ _ _ _ _ _ E) as (? & ? & ? & ? & ? & ?). repeat split; auto. apply (x_cfg _ _ _ _ _ _ _ _ _ _ _ E). Qed.
Lemma ext_link j : linked s j -> linked t j.
Proof. intros L. apply (linked_t _ _ _ _ _ _ _ _ _ _ _ E). now right. Qed.
Lemma ext_sp : τ (c_sp s) = c_sp s.
Proof. destruct (x_tau _ _ _ _ _ _ _ _ _ _ _ E (c_sp s)) as [Q|(Q & _)]; [exact Q|]. destruct (i_not_sp _ _ _ _ _ _ _ _ _ _ _ V E). now symmetry. Qed.
Lemma ext_flow b : succs_of (c_f t) b = succs_of (c_f s) b /\ preds_of (c_f t) b = preds_of (c_f s) b.
Proof. destruct (x_cfg _ _ _ _ _ _ _ _ _ _ _ E) as (_ & _ & Q1 & Q2). auto. Qed.
Lemma ext_ops (Q : iop -> Prop) : Q ASSIGN -> ops_are Q s -> ops_are Q t.
Proof.
  intros Qa H j y L Y. apply (linked_t _ _ _ _ _ _ _ _ _ _ _ E) in L. destruct (insn_cases _ _ _ _ _ _ _ _ _ _ _ E _ _ Y) as [(I & u & ->)|[(Nj & x & X & S)|(-> & x & X & S)]]; [exact Qa| |].
  - rewrite (proj1 (is_rest _ _ _ S)). apply (H j x); [|exact X]. destruct L as [L|L]; [exfalso; apply (new_ge _ _ _ _ _ _ _ _ _ _ _ E) in L; assert (j < f_ni (c_f s)) by (apply (f_lt _ V); congruence); lia|exact L].
  - rewrite (proj1 S). apply (H i x); [|exact X]. destruct L as [L|L]; [exfalso; apply (new_ge _ _ _ _ _ _ _ _ _ _ _ E) in L; assert (i < f_ni (c_f s)) by (apply (f_lt _ V); congruence); lia|exact L].
Qed.
Lemma ext_alu : (forall y, linked s i -> f_insn (c_f t) i = Some y -> is_bin_alu_op (i_op y) = true ->
    exists v, nth_error (i_vals y) 1 = Some v /\ forall d, v_data v = VInsn d -> d <> c_sp s /\ d <> i) -> alu_ok s -> alu_ok t.
Proof.
  intros Hi H j y L Y O. rewrite (proj1 (proj2 (proj2 ext_head))). apply (linked_t _ _ _ _ _ _ _ _ _ _ _ E) in L. destruct (insn_cases _ _ _ _ _ _ _ _ _ _ _ E _ _ Y) as [(I & u & ->)|[(Nj & x & X & S)|(-> & x & X & S)]].
  - discriminate O.
  - assert (Lj : linked s j) by (destruct L as [L|L]; [exfalso; apply (new_ge _ _ _ _ _ _ _ _ _ _ _ E) in L; assert (j < f_ni (c_f s)) by (apply (f_lt _ V); congruence); lia|exact L]).
    destruct (is_rest _ _ _ S) as (Eo & _). rewrite Eo in O. destruct (H _ _ Lj X O) as (v & Q & P).
    destruct (F2_nth _ _ _ (is_vals _ _ _ S) _ _ Q) as (v' & Q' & Sv). exists v'. split; [exact Q'|]. intros d D. destruct (vsim_data _ _ _ _ Sv D) as (d0 & D0 & ->).
    destruct (P _ D0) as (P1 & P2). destruct (x_tau _ _ _ _ _ _ _ _ _ _ _ E d0) as [->|(-> & I & _)]; [auto|]. apply (new_ge _ _ _ _ _ _ _ _ _ _ _ E) in I. split.
    + intros Q0. destruct (n_sp _ V) as (Xs & _). apply (ex_lt _ V) in Xs. lia.
    + intros Q0. assert (j < f_ni (c_f s)) by (apply (f_lt _ V); congruence). lia.
  - destruct L as [L|L]; [exfalso; apply (new_ge _ _ _ _ _ _ _ _ _ _ _ E) in L; assert (i < f_ni (c_f s)) by (apply (f_lt _ V); congruence); lia|].
    exact (Hi y L Y O).
Qed.
Lemma ext_in b j : In j (insns_of (c_f s) b) -> In j (insns_of (c_f t) b).
Proof.
  intros I. rewrite (x_list _ _ _ _ _ _ _ _ _ _ _ E). destruct (Nat.eqb_spec b bb) as [->|]; [|exact I].
  rewrite (x_from _ _ _ _ _ _ _ _ _ _ _ E) in I. rewrite !in_app_iff in *. tauto.
Qed.
Lemma ext_same j x : f_insn (c_f s) j = Some x -> exists y, f_insn (c_f t) j = Some y /\ i_op y = i_op x /\ i_bb1 y = i_bb1 x /\ i_bb2 y = i_bb2 x.
Proof.
  intros X. destruct (Nat.eq_dec j i) as [->|Nj].
  - destruct (x_i _ _ _ _ _ _ _ _ _ _ _ E _ X) as (y & Y & K & _). exists y. unfold kept_rest in K. split; [exact Y|]. tauto.
  - destruct (x_old _ _ _ _ _ _ _ _ _ _ _ E _ _ Nj X) as (y & Y & S). exists y. split; [exact Y|]. pose proof (is_rest _ _ _ S). tauto.
Qed.
Lemma ext_new b j : In j (insns_of (c_f t) b) -> In j (insns_of (c_f s) b) \/ exists y, f_insn (c_f t) j = Some y /\ i_op y = ASSIGN.
Proof.
  intros I. rewrite (x_list _ _ _ _ _ _ _ _ _ _ _ E) in I. destruct (Nat.eqb_spec b bb) as [->|]; [|now left].
  assert (K : In j (l1 ++ M ++ l2) \/ In j (B ++ A)) by (rewrite !in_app_iff in *; tauto). destruct K as [K|K]; [left; now rewrite (x_from _ _ _ _ _ _ _ _ _ _ _ E)|right].
  destruct (x_copy _ _ _ _ _ _ _ _ _ _ _ E _ K) as ((u & Y) & _). eexists. split; [exact Y|reflexivity].
Qed.
Lemma ext_not_phi x : f_insn (c_f s) i = Some x -> i_op x <> PHI.
Proof.
  intros X. destruct (x_M _ _ _ _ _ _ _ _ _ _ _ E) as [(_ & _ & _ & _ & Ia & _)|(_ & y & Y & O & _)]; [|congruence].
  destruct (n_args _ V) as (_ & _ & RA). destruct (RA _ Ia) as (_ & _ & y & Y & O & _). congruence.
Qed.
Lemma ext_phi_old j : SpecEdit.is_phi (c_f t) j -> SpecEdit.is_phi (c_f s) j /\ ~ In j (B ++ A) /\ j <> i.
Proof.
  intros (y & Y & O). destruct (insn_cases _ _ _ _ _ _ _ _ _ _ _ E _ _ Y) as [(I & u & ->)|[(Nj & x & X & S)|(-> & x & X & S)]]; [discriminate O| |].
  - assert (j < f_ni (c_f s)) by (apply (f_lt _ V); congruence). split; [exists x; split; [exact X|]; now rewrite (proj1 (is_rest _ _ _ S)) in O|]. split; [|exact Nj]. intros I. apply (new_ge _ _ _ _ _ _ _ _ _ _ _ E) in I. lia.
  - exfalso. rewrite (proj1 S) in O. exact (ext_not_phi _ X O).
Qed.
Lemma ext_phi_new j : SpecEdit.is_phi (c_f s) j -> SpecEdit.is_phi (c_f t) j.
Proof. intros (x & X & O). destruct (ext_same j x X) as (y & Y & Q & _). exists y. split; congruence. Qed.
Lemma cut_left (p : nat) : forall L R L1 L2, L ++ R = L1 ++ p :: L2 -> ~ In p R -> exists r, L = L1 ++ p :: r.
Proof.
  induction L as [|a L IH]; intros R L1 L2 Q Nn; cbn in Q; [subst R; destruct Nn; apply in_or_app; right; now left|].
  destruct L1 as [|c L1]; cbn in Q; injection Q as -> Q; [now exists L|]. destruct (IH _ _ _ Q Nn) as (r & ->). now exists r.
Qed.
Lemma ext_phis : SpecInstr.phis_first (c_f s) -> SpecInstr.phis_first (c_f t).
Proof.
  intros PF b L1 p L2 Q Ph j J. pose proof ext_not_phi as NP. destruct (ext_phi_old p Ph) as (Ps & Np & Ni). apply ext_phi_new. rewrite (x_list _ _ _ _ _ _ _ _ _ _ _ E) in Q. destruct (Nat.eqb_spec b bb) as [->|]; [|exact (PF b L1 p L2 Q Ps j J)].
  pose proof (x_from _ _ _ _ _ _ _ _ _ _ _ E) as F. rewrite in_app_iff in Np.
  destruct (x_M _ _ _ _ _ _ _ _ _ _ _ E) as [(-> & -> & -> & -> & _)|(-> & _)].
  - exfalso. cbn [app] in *. assert (I : In p l2). { assert (I : In p (B ++ l2)) by (rewrite Q; apply in_or_app; right; now left). apply in_app_or in I. tauto. }
    destruct (n_entry _ V) as (_ & Pf). destruct l2 as [|h r]; [destruct I|]. apply (Pf h r F). destruct I as [->|I]; [exact Ps|]. apply in_split in I as (r1 & r2 & ->). apply (PF _ (h :: r1) p r2 F Ps). now left.
  - destruct (cut_left p l1 (B ++ [i] ++ A ++ l2) L1 L2 Q) as (r & ->).
    + rewrite !in_app_iff. intros [I|[[I|[]]|[I|I]]]; [tauto|congruence|tauto|]. apply in_split in I as (r1 & r2 & ->). assert (Pi : SpecEdit.is_phi (c_f s) i).
      { apply (PF bb (l1 ++ i :: r1) p r2); [rewrite F, <- app_assoc; reflexivity|exact Ps|]. apply in_or_app. right. now left. }
      destruct Pi as (x & X & O). exact (NP _ X O).
    + refine (PF bb L1 p (r ++ [i] ++ l2) _ Ps j J). rewrite F, <- app_assoc. reflexivity.
Qed.
Lemma vsim_const v v' c : vsim τ v v' -> v_data v' = VConst c -> v' = v.
Proof. unfold vsim. destruct (v_data v); auto. intros Q1 Q2. congruence. Qed.
Lemma vsim_hole v v' : vsim τ v v' -> no_hole v -> no_hole v'.
Proof. unfold vsim, no_hole. intros Q H. destruct (v_data v) eqn:D; try (subst v'; rewrite D; exact H). now rewrite Q. Qed.
Lemma vsim_hok v v' : vsim τ v v' -> hole_ok v -> hole_ok v'.
Proof. unfold vsim, hole_ok. intros Q H. destruct (v_data v) eqn:D; try (subst v'; rewrite D; exact H). now rewrite Q. Qed.
Lemma plain_opv x : i_op x = ADD \/ i_op x = SUB -> operand_values x = i_vals x.
Proof. unfold operand_values. intros [O|O]; rewrite O; apply app_nil_r. Qed.
Lemma ext_enc : encodables s -> encodables t.
Proof.
  intros H j y L Y. apply (linked_t _ _ _ _ _ _ _ _ _ _ _ E) in L.
  assert (LI : M = [i] -> linked s i).
  { intros ->. exists bb. split; [exact (x_bb _ _ _ _ _ _ _ _ _ _ _ E)|]. rewrite (x_from _ _ _ _ _ _ _ _ _ _ _ E). apply in_or_app. right. now left. }
  destruct (insn_cases _ _ _ _ _ _ _ _ _ _ _ E _ _ Y) as [(I & u & ->)|[(Nj & x & X & S)|(-> & x & X & S)]].
  - assert (OV : operand_values (set_users u (build bb (K_assign (N j)))) = [N j]) by reflexivity.
    assert (K : (exists d, v_data (N j) = VInsn d) \/ exists x, encodable x /\ In (N j) (operand_values x)).
    { destruct (x_lit _ _ _ _ _ _ _ _ _ _ _ E _ I) as [K|(Q & x & X & K)]; [now left|right]. exists x. split; [exact (H _ _ (LI Q) X)|exact K]. }
    constructor; rewrite ?OV; cbn [i_op set_users build set_op set_vals]; try discriminate.
    + intros v c [<-|[]] D. destruct K as [(d & K)|(x & K & Kv)]; [congruence|]. exact (ec_const _ K _ _ Kv D).
    + intros v [<-|[]]. destruct K as [(d & K)|(x & K & Kv)]; [unfold hole_ok; now rewrite K|]. exact (ec_hole _ K _ Kv).
    + intros [Q|Q]; discriminate Q.
    + intros [Q|Q]; discriminate Q.
  - assert (Lj : linked s j) by (destruct L as [L|L]; [exfalso; apply (new_ge _ _ _ _ _ _ _ _ _ _ _ E) in L; assert (j < f_ni (c_f s)) by (apply (f_lt _ V); congruence); lia|exact L]).
    pose proof (H _ _ Lj X) as G. destruct (is_rest _ _ _ S) as (Eo & _ & Ea & _). constructor; rewrite ?Eo.
    + intros v c Iv D. destruct (isim_ops _ _ _ _ S Iv) as (v0 & I0 & S0). pose proof (vsim_const _ _ _ S0 D); subst v. exact (ec_const _ G _ _ I0 D).
    + intros v Iv. destruct (isim_ops _ _ _ _ S Iv) as (v0 & I0 & S0). exact (vsim_hok _ _ S0 (ec_hole _ G _ I0)).
    + intros Q v Iv. destruct (isim_ops _ _ _ _ S Iv) as (v0 & I0 & S0). exact (vsim_hole _ _ S0 (ec_raw _ G Q _ I0)).
    + rewrite Ea. apply (ec_copy _ G).
    + rewrite Ea. intros Q A32 v Iv. rewrite <- (plain_opv y) in Iv by now rewrite Eo. destruct (isim_ops _ _ _ _ S Iv) as (v0 & I0 & S0). rewrite (plain_opv x Q) in I0. destruct (ec_zero _ G Q A32 _ I0) as (Z1 & Z2). split; [|exact (vsim_hole _ _ S0 Z2)]. intros D. pose proof (vsim_const _ _ _ S0 D); subst v. exact (Z1 D).
    + intros Q. destruct (is_addr _ _ _ S Q) as (_ & -> & _). exact (ec_off _ G Q).
    + intros Q c D. destruct (is_addr _ _ _ S (or_introl Q)) as (Sa & _). rewrite (vsim_const _ _ _ Sa D) in D. exact (ec_load _ G Q c D).
  - assert (Li : linked s i) by (destruct L as [L|L]; [exfalso; apply (new_ge _ _ _ _ _ _ _ _ _ _ _ E) in L; assert (i < f_ni (c_f s)) by (apply (f_lt _ V); congruence); lia|exact L]).
    pose proof (H _ _ Li X) as G. destruct S as (Eo & _ & Ea & _). destruct (x_raw _ _ _ _ _ _ _ _ _ _ _ E _ Li X) as (R1 & R2).
    destruct (x_i _ _ _ _ _ _ _ _ _ _ _ E _ X) as (y' & Y' & _ & OV). rewrite Y in Y'. injection Y' as <-. constructor; rewrite ?Eo.
    + intros v c Iv D. destruct (OV _ Iv) as [(v0 & I0 & S0)|(_ & d & D' & _)]; [|congruence]. pose proof (vsim_const _ _ _ S0 D); subst v. exact (ec_const _ G _ _ I0 D).
    + intros v Iv. destruct (OV _ Iv) as [(v0 & I0 & S0)|(_ & d & D' & _)]; [|unfold hole_ok; now rewrite D']. exact (vsim_hok _ _ S0 (ec_hole _ G _ I0)).
    + intros [Q|Q]; contradiction.
    + rewrite Ea. apply (ec_copy _ G).
    + rewrite Ea. intros Q A32 v Iv. rewrite <- (plain_opv y) in Iv by now rewrite Eo. destruct (OV _ Iv) as [(v0 & I0 & S0)|(_ & d & D' & _)]; [|unfold no_hole; rewrite D'; split; [discriminate|exact Logic.I]]. rewrite (plain_opv x Q) in I0. destruct (ec_zero _ G Q A32 _ I0) as (Z1 & Z2). split; [|exact (vsim_hole _ _ S0 Z2)]. intros D. pose proof (vsim_const _ _ _ S0 D); subst v. exact (Z1 D).
    + intros [Q|Q]; contradiction.
    + intros Q. contradiction.
Qed.
End Of.

(** ** Calls *)
Lemma change_call_step s i t l : inv s -> linked s i -> change_call_one s i = Ok t -> calls_left s (i :: l) -> stepped s t /\ calls_left t l.
Proof.
  intros V L H CL. destruct (live_linked _ V _ L) as (bb & x & Hbb & Hi & X & PB). destruct (iop_eq_dec (i_op x) CALL) as [O|O].
  - destruct (change_call_one_spec _ _ _ _ V L X O H) as (l1 & l2 & A & τ & N & C). pose proof (cl_ext _ _ _ _ _ _ _ _ _ C) as E. split.
    + constructor.
      * exact (ext_inv _ _ _ _ _ _ _ _ _ _ _ V E).
      * exact (ext_head _ _ _ _ _ _ _ _ _ _ _ E).
      * exact (ext_link _ _ _ _ _ _ _ _ _ _ _ E).
      * apply (ext_alu _ _ _ _ _ _ _ _ _ _ _ V E). intros y _ Y Oy. destruct (cl_call _ _ _ _ _ _ _ _ _ C) as (y' & Y' & O' & _). rewrite Y in Y'. injection Y' as <-. rewrite O' in Oy. discriminate Oy.
      * intros Rg w o bi n prev q z q2 St Ok R. refine (ext_run _ _ _ _ _ _ _ _ _ _ _ V E Rg w o bi n prev q z q2 _ _ St R); [|discriminate].
        intros _ bi0 x0 q0 q0' r X0 Hr Hx. rewrite X in X0. injection X0 as <-. exact (call_this _ _ _ _ _ _ _ _ _ Rg w o V L X O C bi0 q0 q0' r Hr Hx).
      * exact (ext_flow _ _ _ _ _ _ _ _ _ _ _ E).
      * exact (flow_computed _ _ _ _ _ _ _ _ _ _ _ V E).
      * exact (flow_copies _ _ _ _ _ _ _ _ _ _ _ V E).
      * exact (flow_sp _ _ _ _ _ _ _ _ _ _ _ V E).
      * exact (ext_ops _ _ _ _ _ _ _ _ _ _ _ V E).
      * exact (ext_in _ _ _ _ _ _ _ _ _ _ _ E).
      * exact (ext_enc _ _ _ _ _ _ _ _ _ _ _ V E).
      * exact (ext_same _ _ _ _ _ _ _ _ _ _ _ E).
      * exact (ext_new _ _ _ _ _ _ _ _ _ _ _ E).
      * exact (ext_phis _ _ _ _ _ _ _ _ _ _ _ V E).
    + intros j y e Lj Y Oy Xj. apply (linked_t _ _ _ _ _ _ _ _ _ _ _ E) in Lj. destruct (Nat.eq_dec j i) as [->|Nj].
      * left. destruct (cl_ex _ _ _ _ _ _ _ _ _ C) as (e' & X' & D). congruence.
      * destruct (insn_cases _ _ _ _ _ _ _ _ _ _ _ E _ _ Y) as [(I & u & ->)|[(_ & z & Z & S)|(-> & _)]]; [discriminate Oy| |contradiction].
        assert (Lt : j < f_ni (c_f s)) by (apply (f_lt _ V); congruence). destruct Lj as [Lj|Lj]; [apply (new_ge _ _ _ _ _ _ _ _ _ _ _ E) in Lj; lia|].
        rewrite (x_ex _ _ _ _ _ _ _ _ _ _ _ E) in Xj by auto. destruct (is_rest _ _ _ S) as (Eo & _). rewrite Eo in Oy. destruct (CL _ _ _ Lj Z Oy Xj) as [?|[?|?]]; auto. congruence.
  - unfold change_call_one in H. rewrite (proj2 (get_insn_ok _ _ _) X) in H. cbn [bind] in H. replace (iop_eqb (i_op x) CALL) with false in H by (symmetry; destruct (i_op x); cbn; congruence). injection H as <-.
    split; [now apply stepped_refl|]. intros j y e Lj Y Oy Xj. destruct (CL _ _ _ Lj Y Oy Xj) as [?|[<-|?]]; auto. congruence.
Qed.
Lemma change_call_fold l : forall s t, inv s -> (forall j, In j l -> linked s j) -> ofold change_call_one s l = Ok t -> calls_left s l -> stepped s t /\ calls_left t [].
Proof.
  induction l as [|i l IH]; intros s t V Ll H CL; cbn [ofold] in H.
  - injection H as <-. split; [now apply stepped_refl|exact CL].
  - bo H s1 H1. destruct (change_call_step _ _ _ _ V (Ll i (or_introl eq_refl)) H1 CL) as (S1 & C1).
    destruct (IH s1 t (sd_inv _ _ S1) ltac:(intros j J; apply (sd_link _ _ S1), Ll; now right) H C1) as (S2 & C2). split; [exact (stepped_trans _ _ _ S1 S2)|exact C2].
Qed.
Lemma reach_list s l : inv s -> insns_in (c_f s) (c_reach s) = Ok l -> forall j, In j l <-> linked s j.
Proof. intros V H j. apply insns_in_spec in H. subst l. rewrite in_flat_map. unfold linked. firstorder. Qed.
Lemma change_call_all s t : inv s -> change_call s = Ok t -> stepped s t /\ calls_left t [].
Proof.
  intros V H. unfold change_call in H. bo H l Hl. pose proof (reach_list _ _ V Hl) as RL. apply (change_call_fold l); auto; [intros j J; now apply RL|].
  intros j x e L _ _ _. right. now apply RL.
Qed.

(** ** Arguments *)
Lemma calls_ext s t τ i bb l1 B M A l2 N : inv s -> ext s t τ i bb l1 B M A l2 N -> (forall x, linked s i -> f_insn (c_f s) i = Some x -> i_op x <> CALL) -> calls_left s [] -> calls_left t [].
Proof.
  intros V E Hi CL j y e Lj Y Oy Xj. apply (linked_t _ _ _ _ _ _ _ _ _ _ _ E) in Lj.
  destruct (insn_cases _ _ _ _ _ _ _ _ _ _ _ E _ _ Y) as [(I & u & ->)|[(Nj & z & Z & S)|(-> & z & Z & S)]]; [discriminate Oy| |].
  - assert (Lt : j < f_ni (c_f s)) by (apply (f_lt _ V); congruence). destruct Lj as [Lj|Lj]; [apply (new_ge _ _ _ _ _ _ _ _ _ _ _ E) in Lj; lia|].
    rewrite (x_ex _ _ _ _ _ _ _ _ _ _ _ E) in Xj by auto. destruct (is_rest _ _ _ S) as (Eo & _). rewrite Eo in Oy. exact (CL _ _ _ Lj Z Oy Xj).
  - assert (Lt : i < f_ni (c_f s)) by (apply (f_lt _ V); congruence). destruct Lj as [Lj|Lj]; [apply (new_ge _ _ _ _ _ _ _ _ _ _ _ E) in Lj; lia|].
    destruct S as (Eo & _). rewrite Eo in Oy. destruct (Hi _ Lj Z Oy).
Qed.
Lemma change_arg_step s k a t l : inv s -> nth_error (c_args s) k = Some a -> change_arg s (k, a) = Ok t -> calls_left s [] -> args_left s (a :: l) ->
  stepped s t /\ calls_left t [] /\ args_left t l.
Proof.
  intros V Ka H CL AL. destruct (change_arg_spec _ _ _ _ V Ka H) as [(-> & Z)|(r & N & E & Nn & Rr & Xn & Z & Uo)].
  - split; [now apply stepped_refl|]. split; [exact CL|]. intros a' u Ia Na. destruct (Nat.eq_dec a a') as [<-|Ne]; [apply Z|]. apply AL; auto. intros [?|?]; auto.
  - pose proof (nth_error_In _ _ Ka) as Ia. destruct (n_args _ V) as (_ & _ & RA).
    split; [|split].
    + constructor.
      * exact (ext_inv _ _ _ _ _ _ _ _ _ _ _ V E).
      * exact (ext_head _ _ _ _ _ _ _ _ _ _ _ E).
      * exact (ext_link _ _ _ _ _ _ _ _ _ _ _ E).
      * apply (ext_alu _ _ _ _ _ _ _ _ _ _ _ V E). intros y La. destruct (RA _ Ia) as (_ & NL & _). contradiction.
      * intros Rg w o bi n prev q z q2 St Ok R. refine (ext_run _ _ _ _ _ _ _ _ _ _ _ V E Rg w o bi n prev q z q2 _ _ St R); [discriminate|].
        intros _. exact (arg_pre s t k a r N Rg w o _ q V Ka E Nn Rr Xn St Ok).
      * exact (ext_flow _ _ _ _ _ _ _ _ _ _ _ E).
      * exact (flow_computed _ _ _ _ _ _ _ _ _ _ _ V E).
      * exact (flow_copies _ _ _ _ _ _ _ _ _ _ _ V E).
      * exact (flow_sp _ _ _ _ _ _ _ _ _ _ _ V E).
      * exact (ext_ops _ _ _ _ _ _ _ _ _ _ _ V E).
      * exact (ext_in _ _ _ _ _ _ _ _ _ _ _ E).
      * exact (ext_enc _ _ _ _ _ _ _ _ _ _ _ V E).
      * exact (ext_same _ _ _ _ _ _ _ _ _ _ _ E).
      * exact (ext_new _ _ _ _ _ _ _ _ _ _ _ E).
      * exact (ext_phis _ _ _ _ _ _ _ _ _ _ _ V E).
    + apply (calls_ext _ _ _ _ _ _ _ _ _ _ _ V E); [|exact CL]. intros x La. destruct (RA _ Ia) as (_ & NL & _). contradiction.
    + intros a' u Ia' Na'. destruct (x_rest _ _ _ _ _ _ _ _ _ _ _ E) as (_ & _ & _ & Ra & _). rewrite Ra in Ia'. destruct (Nat.eq_dec a' a) as [->|Ne]; [apply Z|].
      destruct (RA _ Ia') as (Xa' & _ & x' & X' & _). rewrite Uo; auto.
      * apply AL; auto. intros [?|?]; auto.
      * apply (f_lt _ V). congruence.
      * intros I. apply In_nth_error in I as (k' & K'). destruct (n_regs _ V) as (_ & _ & R). destruct (R _ _ K') as (Q & _). congruence.
Qed.
Lemma change_arg_fold l : forall k s t, inv s -> (forall j a, nth_error l j = Some a -> nth_error (c_args s) (k + j) = Some a) ->
  ofold change_arg s (combine (seq k (length l)) l) = Ok t -> calls_left s [] -> args_left s l -> stepped s t /\ calls_left t [] /\ args_left t [].
Proof.
  induction l as [|a l IH]; intros k s t V Hl H CL AL; cbn [length seq combine ofold] in H.
  - injection H as <-. split; [now apply stepped_refl|auto].
  - bo H s1 H1. pose proof (Hl 0 a eq_refl) as Ka. rewrite Nat.add_0_r in Ka. destruct (change_arg_step _ _ _ _ _ V Ka H1 CL AL) as (S1 & C1 & A1).
    destruct (IH (S k) s1 t (sd_inv _ _ S1)) as (S2 & C2 & A2); auto.
    + intros j b Hj. destruct (sd_head _ _ S1) as (_ & _ & _ & -> & _). specialize (Hl (S j) b Hj). now rewrite Nat.add_succ_r in Hl.
    + split; [exact (stepped_trans _ _ _ S1 S2)|auto].
Qed.
Lemma change_args_all s t : inv s -> change_fun_arg s = Ok t -> calls_left s [] -> stepped s t /\ calls_left t [] /\ args_left t [].
Proof. intros V H CL. unfold change_fun_arg in H. apply (change_arg_fold (c_args s) 0 s t V); auto. intros a u I Ni. contradiction. Qed.

(** ** Arrays: there are none *)
Lemma spill_array_none s t : inv s -> spill_array s = Ok t -> t = s.
Proof.
  intros V H. unfold spill_array in H. bo H l Hl. pose proof (reach_list _ _ V Hl) as RL. clear Hl. revert H RL. 
  assert (G : forall l, (forall j, In j l -> linked s j) -> forall t, ofold spill_array_one s l = Ok t -> t = s).
  { clear l. induction l as [|i l IH]; intros Ll t0 H; cbn [ofold] in H; [now injection H as <-|]. bo H s1 H1. assert (s1 = s) as ->.
    { destruct (live_linked _ V _ (Ll i (or_introl eq_refl))) as (b & x & _ & _ & X & _). unfold spill_array_one in H1. rewrite (proj2 (get_insn_ok _ _ _) X) in H1. cbn [bind] in H1.
      pose proof (n_arr _ V _ _ (Ll i (or_introl eq_refl)) X) as NA. replace (iop_eqb (i_op x) ALLOCARRAY) with false in H1 by (symmetry; destruct (i_op x); cbn; congruence). now injection H1 as <-. }
    apply IH; auto. intros j J. apply Ll. now right. }
  intros H RL. apply (G l); auto. intros j J. now apply RL.
Qed.

(** ** Constants *)
Lemma const_step s i x k v s1 m f : inv s -> linked s i -> f_insn (c_f s) i = Some x -> two_op (i_op x) = true -> nth_error (i_vals x) k = Some v -> is_const v = true ->
  (is_bin_alu_op (i_op x) = true -> k = 0) ->
  cg_create s i (K_assign v) P_FRONT = Ok (s1, m) -> change_value (c_f s1) i (SVal k) (val_insn m) = Ok f -> calls_left s [] -> args_left s [] ->
  stepped s (with_f f s1) /\ calls_left (with_f f s1) [] /\ args_left (with_f f s1) [].
Proof.
  intros V L X T Q C K0 Ec Ef CL AL. destruct (const_one _ _ _ _ _ _ _ _ V L X T Q C Ec Ef) as (l1 & l2 & E & Xn & Y & Uo). split; [|split].
  - constructor.
    + exact (ext_inv _ _ _ _ _ _ _ _ _ _ _ V E).
    + exact (ext_head _ _ _ _ _ _ _ _ _ _ _ E).
    + exact (ext_link _ _ _ _ _ _ _ _ _ _ _ E).
    + intros H. apply (ext_alu _ _ _ _ _ _ _ _ _ _ _ V E); [|exact H]. intros y _ Y' Oy. destruct Y as (u & Y). cbn [c_f with_f] in Y'. rewrite Y in Y'. injection Y' as <-.
      cbn in Oy. destruct (H _ _ L X Oy) as (v' & Q' & P). exists v'. split; [|exact P]. cbn [i_vals set_users set_vals]. rewrite (K0 Oy). destruct (i_vals x); [discriminate Q'|exact Q'].
    + intros Rg w o bi n prev q z q2 St Ok R. refine (ext_run _ _ _ _ _ _ _ _ _ _ _ V E Rg w o bi n prev q z q2 _ _ St R); [|discriminate].
      intros _ bi0 x0 q0 q0' r X0 Hr Hx. rewrite X in X0. injection X0 as <-. exact (const_this _ _ _ _ _ _ _ _ Rg w o V L X T Q C E Xn Y bi0 q0 q0' r Hr Hx).
    + exact (ext_flow _ _ _ _ _ _ _ _ _ _ _ E).
    + exact (flow_computed _ _ _ _ _ _ _ _ _ _ _ V E).
    + exact (flow_copies _ _ _ _ _ _ _ _ _ _ _ V E).
    + exact (flow_sp _ _ _ _ _ _ _ _ _ _ _ V E).
    + exact (ext_ops _ _ _ _ _ _ _ _ _ _ _ V E).
    + exact (ext_in _ _ _ _ _ _ _ _ _ _ _ E).
    + exact (ext_enc _ _ _ _ _ _ _ _ _ _ _ V E).
    + exact (ext_same _ _ _ _ _ _ _ _ _ _ _ E).
    + exact (ext_new _ _ _ _ _ _ _ _ _ _ _ E).
    + exact (ext_phis _ _ _ _ _ _ _ _ _ _ _ V E).
  - apply (calls_ext _ _ _ _ _ _ _ _ _ _ _ V E); [|exact CL]. intros x0 _ X0. rewrite X in X0. injection X0 as <-. apply (two_op_not _ T).
  - intros a u Ia _. destruct (x_rest _ _ _ _ _ _ _ _ _ _ _ E) as (_ & _ & _ & Ra & _). rewrite Ra in Ia. cbn [c_f with_f]. rewrite Uo; [apply AL; auto|].
    destruct (n_args _ V) as (_ & _ & RA). destruct (RA _ Ia) as (_ & _ & x' & X' & _). apply (f_lt _ V). congruence.
Qed.
Lemma spill_const_step s i t : inv s -> linked s i -> spill_const_one s i = Ok t -> calls_left s [] -> args_left s [] -> stepped s t /\ calls_left t [] /\ args_left t [].
Proof.
  intros V L H CL AL. destruct (live_linked _ V _ L) as (bb & x & Hbb & Hi & X & PB). unfold spill_const_one in H. rewrite (proj2 (get_insn_ok _ _ _) X) in H. cbn [bind] in H.
  destruct (is_bin_alu_op (i_op x)) eqn:Ba.
  - assert (NJ : is_cond_jmp_op (i_op x) = false) by (destruct (i_op x); try discriminate Ba; reflexivity).
    assert (T : two_op (i_op x) = true) by (unfold two_op; now rewrite Ba).
    bo H s1 H1. replace t with s1. 2: { destruct (i_vals x) as [|v1 [|v0 [|]]]; try (now injection H). rewrite NJ in H. cbn [andb] in H. now injection H. }
    clear H. destruct (negb (is_commutative_op (i_op x))); cbn [andb] in H1; [|injection H1 as <-; split; [now apply stepped_refl|auto]].
    destruct (i_vals x) as [|v r] eqn:Vs; [discriminate H1|]. destruct (is_const v) eqn:C; [|injection H1 as <-; split; [now apply stepped_refl|auto]].
    bo H1 c Ec. destruct c as [s2 m]. cbn [fst snd] in H1. unfold in_func in H1. bo H1 f Ef. injection H1 as <-.
    refine (const_step s i x 0 v s2 m f V L X T _ C _ Ec Ef CL AL); [now rewrite Vs|auto].
  - cbn [andb bind] in H. destruct (i_vals x) as [|v1 [|v0 [|]]] eqn:Vs; try (injection H as <-; split; [now apply stepped_refl|auto]).
    destruct (is_cond_jmp_op (i_op x) && is_const v0 && is_const v1) eqn:Q; [|injection H as <-; split; [now apply stepped_refl|auto]].
    apply andb_true_iff in Q as (Q & C1). apply andb_true_iff in Q as (J & C0).
    bo H c Ec. destruct c as [s2 m]. cbn [fst snd] in H. unfold in_func in H. bo H f Ef. injection H as <-.
    refine (const_step s i x 1 v0 s2 m f V L X _ _ C0 _ Ec Ef CL AL); [unfold two_op; now rewrite J, orb_true_r|now rewrite Vs|congruence].
Qed.
Lemma spill_const_fold l : forall s t, inv s -> (forall j, In j l -> linked s j) -> ofold spill_const_one s l = Ok t -> calls_left s [] -> args_left s [] ->
  stepped s t /\ calls_left t [] /\ args_left t [].
Proof.
  induction l as [|i l IH]; intros s t V Ll H CL AL; cbn [ofold] in H.
  - injection H as <-. split; [now apply stepped_refl|auto].
  - bo H s1 H1. destruct (spill_const_step _ _ _ V (Ll i (or_introl eq_refl)) H1 CL AL) as (S1 & C1 & A1).
    destruct (IH s1 t (sd_inv _ _ S1) ltac:(intros j J; apply (sd_link _ _ S1), Ll; now right) H C1 A1) as (S2 & C2 & A2). split; [exact (stepped_trans _ _ _ S1 S2)|auto].
Qed.

Theorem prepare_steps s t : inv s -> prepare s = Ok t -> stepped s t /\ calls_left t [] /\ args_left t [].
Proof.
  intros V H. unfold prepare in H. bo H s1 H1. bo H s2 H2. bo H s3 H3.
  destruct (change_call_all _ _ V H1) as (S1 & C1). destruct (change_args_all _ _ (sd_inv _ _ S1) H2 C1) as (S2 & C2 & A2).
  rewrite (spill_array_none _ _ (sd_inv _ _ S2) H3) in *. clear H3.
  unfold spill_const in H. bo H l Hl. pose proof (reach_list _ _ (sd_inv _ _ S2) Hl) as RL.
  destruct (spill_const_fold l s2 t (sd_inv _ _ S2) ltac:(intros j J; now apply RL) H C2 A2) as (S3 & C3 & A3). split; [|auto].
  exact (stepped_trans _ _ _ S1 (stepped_trans _ _ _ S2 S3)).
Qed.
