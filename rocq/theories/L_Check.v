(** The program checker establishes what [SpecCheck] says. *)
From Verif Require Import SpecWord SpecIsa SpecFlat SpecSsa SpecIr SpecEdit SpecPass SpecCheck.
From Verif Require Import M_Base M_Ir M_Edit M_Ra M_Pass M_Check L_Edit L_Uses L_Sim L_PassDce L_PassAlloc L_PassThrow.
Open Scope nat_scope.

Lemma oall_ok {A} (F : A -> outcome unit) l u : oall F l = Ok u -> forall a, In a l -> exists v, F a = Ok v.
Proof.
  induction l as [|b l IH]; intros E a I; [destruct I|]. cbn [oall] in E. apply bind_ok in E as (v & Ev & E).
  destruct I as [<-|I]; [eauto|apply IH; assumption].
Qed.
Lemma assert_ok b u : assert b = Ok u -> b = true.
Proof. unfold assert. destruct b; [reflexivity|discriminate]. Qed.
Lemma ieq a b : iop_eqb a b = true <-> a = b.
Proof. unfold iop_eqb. destruct (iop_eq_dec a b); split; congruence. Qed.
Lemma each_ok f reach P u : each_insn f reach P = Ok u -> forall b i, In b reach -> In i (insns_of f b) -> exists v, P b i = Ok v.
Proof.
  intros E b i B I. destruct (oall_ok _ _ _ E b B) as (v & Ev). apply bind_ok in Ev as (k & Hk & Ev). apply get_block_ok in Hk.
  unfold insns_of in I. rewrite Hk in I. exact (oall_ok _ _ _ Ev i I).
Qed.
Lemma existsb_uses f u x i : f_insn f u = Some x -> existsb (refers i) (operands x) = true -> 0 < uses f u i.
Proof.
  intros Hx E. apply existsb_exists in E as (v & V & R). unfold uses. rewrite Hx. rewrite operands_spec in V. rewrite refers_is_use in R.
  assert (In v (filter (is_use_of i) (operand_values x))) as J by (apply filter_In; auto).
  destruct (filter (is_use_of i) (operand_values x)); [destruct J|cbn; lia].
Qed.
Lemma uses_exists f u x i : f_insn f u = Some x -> 0 < uses f u i -> exists v, In v (operands x) /\ val_target v = Some i.
Proof.
  intros Hx P. unfold uses in P. rewrite Hx in P. destruct (filter (is_use_of i) (operand_values x)) as [|v l] eqn:F; [cbn in P; lia|].
  assert (In v (filter (is_use_of i) (operand_values x))) as J by (rewrite F; now left). apply filter_In in J as [J U].
  exists v. rewrite operands_spec. split; [exact J|]. rewrite <- refers_is_use in U. now apply refers_iff.
Qed.
Lemma users_use_ok f i u : users_use f i = Ok u -> forall v, In v (users_of f i) -> 0 < uses f v i.
Proof.
  intros E v V. unfold users_use in E. apply bind_ok in E as (x & Hx & E). apply get_insn_ok in Hx. unfold users_of in V. rewrite Hx in V.
  destruct (oall_ok _ _ _ E v V) as (w & Ew). apply bind_ok in Ew as (y & Hy & Ew). apply assert_ok in Ew. apply get_insn_ok in Hy.
  eapply existsb_uses; eassumption.
Qed.
Lemma operands_ok f i u d : operands_registered f i = Ok u -> 0 < uses f i d -> In i (users_of f d).
Proof.
  intros E P. unfold operands_registered in E. apply bind_ok in E as (x & Hx & E). apply get_insn_ok in Hx.
  destruct (uses_exists f i x d Hx P) as (v & V & T). destruct (oall_ok _ _ _ E v V) as (w & Ew). rewrite T in Ew.
  apply bind_ok in Ew as (y & Hy & Ew). apply get_insn_ok in Hy. apply assert_ok in Ew. apply existsb_exists in Ew as (z & Z & Q).
  apply Nat.eqb_eq in Q. subst z. unfold users_of. now rewrite Hy.
Qed.
Lemma phis_first_ok f : forall l b u, phis_first f b l = Ok u ->
  (b = false -> forall i, In i l -> ~ is_phi f i) /\
  exists phs ids, l = phs ++ ids /\ (forall i, In i phs -> is_phi f i) /\ (forall i, In i ids -> ~ is_phi f i).
Proof.
  induction l as [|i l IH]; intros b u E; cbn [phis_first] in E.
  - split; [intros _ i []|]. exists [], []. repeat split; intros i [].
  - apply bind_ok in E as (x & Hx & E). apply get_insn_ok in Hx. destruct (iop_eqb (i_op x) PHI) eqn:P.
    + apply bind_ok in E as (v & Ev & E). apply assert_ok in Ev. subst b. split; [discriminate|].
      destruct (IH _ _ E) as (_ & phs & ids & -> & A & B). exists (i :: phs), ids. split; [reflexivity|]. split; [|exact B].
      intros j [<-|J]; [|exact (A j J)]. apply ieq in P. exists x. auto.
    + destruct (IH _ _ E) as (N & _). specialize (N eq_refl).
      assert (K : forall j, In j (i :: l) -> ~ is_phi f j).
      { intros j [<-|J]; [|exact (N j J)]. intros (y & Hy & O). rewrite Hx in Hy. injection Hy as <-. rewrite O in P. discriminate. }
      split; [intros _; exact K|]. exists [], (i :: l). split; [reflexivity|]. split; [intros j []|exact K].
Qed.
Lemma term_op f i x : f_insn f i = Some x -> is_terminator f i <-> is_jmp_op (i_op x) = true.
Proof.
  intros Hx. unfold is_terminator. split.
  - intros (y & Hy & T). rewrite Hx in Hy. injection Hy as <-. cbn in T. repeat (destruct T as [<-|T]; [reflexivity|]). destruct T.
  - intros J. exists x. split; [exact Hx|]. destruct (i_op x); try discriminate J; cbn; tauto.
Qed.
Lemma any_jump_ok f l : forall j, any_jump f l = Ok j -> (j = true <-> exists i x, In i l /\ f_insn f i = Some x /\ is_jmp_op (i_op x) = true).
Proof.
  induction l as [|i l IH]; intros j E; cbn [any_jump] in E.
  - injection E as <-. split; [discriminate|]. intros (i & x & [] & _).
  - apply bind_ok in E as (x & Hx & E). apply bind_ok in E as (t & Et & E). apply get_insn_ok in Hx. injection E as <-.
    rewrite orb_true_iff, (IH t Et). split.
    + intros [J|(k & y & K & R)]; [exists i, x; cbn; auto|exists k, y; cbn; tauto].
    + intros (k & y & [<-|K] & Hy & J); [left; congruence|right; exists k, y; auto].
Qed.
Lemma list_eqb_ok l m : list_eqb l m = true -> l = m.
Proof. unfold list_eqb. destruct (list_eq_dec Nat.eq_dec l m); [auto|discriminate]. Qed.
Lemma imp_ok a b : negb a || b = true -> a = true -> b = true.
Proof. intros E A. rewrite A in E. exact E. Qed.

Section Checked.
Variables (f : func) (reach : list nat) (sp : nat) (args : list nat) (u : unit).
Hypothesis OK : prog_check f reach sp args = Ok u.

Lemma parts : exists a b c, check_insns f reach = Ok a /\ check_phis f reach = Ok b /\ check_users f reach sp args = Ok c /\ check_jumping f reach = Ok u.
Proof.
  unfold prog_check in OK. apply bind_ok in OK as (a & A & E). apply bind_ok in E as (b & B & E). apply bind_ok in E as (c & C & E). eauto 8.
Qed.
Lemma one_ok b i x : In b reach -> In i (insns_of f b) -> f_insn f i = Some x -> exists v, check_one f b i = Ok v.
Proof. intros B I _. destruct parts as (a & _ & _ & A & _). exact (each_ok _ _ _ _ A b i B I). Qed.

Lemma users_good b i : In b reach -> In i (insns_of f b) ->
  (forall v, In v (users_of f i) -> 0 < uses f v i) /\ (forall d, 0 < uses f i d -> In i (users_of f d)).
Proof.
  intros B I. destruct parts as (_ & _ & c & _ & _ & C & _). unfold check_users in C. apply bind_ok in C as (c1 & C1 & C). apply bind_ok in C as (c2 & C2 & C).
  destruct (each_ok _ _ _ _ C b i B I) as (v & E). apply bind_ok in E as (w & E1 & E2). split.
  - eapply users_use_ok, E1.
  - intros d. eapply operands_ok, E2.
Qed.
Lemma special_good i : In i (sp :: args) -> forall v, In v (users_of f i) -> 0 < uses f v i.
Proof.
  intros I. destruct parts as (_ & _ & c & _ & _ & C & _). unfold check_users in C. apply bind_ok in C as (c1 & C1 & C). apply bind_ok in C as (c2 & C2 & C).
  destruct I as [<-|I]; [eapply users_use_ok, C2|]. destruct (oall_ok _ _ _ C1 i I) as (v & E). eapply users_use_ok, E.
Qed.

Lemma jump_good b : In b reach -> exists k v, f_block f b = Some k /\ check_block f b = Ok v.
Proof.
  intros B. destruct parts as (_ & _ & _ & _ & _ & _ & D). destruct (oall_ok _ _ _ D b B) as (v & E). pose proof E as E'. unfold check_block in E.
  apply bind_ok in E as (k & Hk & _). apply get_block_ok in Hk. eauto.
Qed.

Lemma good_block b : In b reach -> block_good f b.
Proof.
  intros B. destruct (jump_good b B) as (k & v & Hk & E). unfold check_block in E.
  rewrite (proj2 (get_block_ok _ _ _) Hk) in E. cbn [bind] in E.
  apply bind_ok in E as (e1 & EP & E). apply bind_ok in E as (e2 & ES & E). apply bind_ok in E as (e3 & EJ & E). apply bind_ok in E as (j & AJ & E).
  apply assert_ok in E.
  assert (IN : insns_of f b = b_insns k) by (unfold insns_of; now rewrite Hk).
  assert (SU : succs_of f b = b_succs k) by (unfold succs_of; now rewrite Hk).
  assert (PR : preds_of f b = b_preds k) by (unfold preds_of; now rewrite Hk).
  destruct parts as (a & p & c & PA & PP & PC & PJ).
  assert (LINK : forall i, In i (insns_of f b) -> exists x w, f_insn f i = Some x /\ i_parent x = b /\ check_one f b i = Ok w).
  { intros i I. destruct (each_ok _ _ _ _ PA b i B I) as (w & W). pose proof W as W'. unfold check_one in W'. apply bind_ok in W' as (x & Hx & W').
    apply get_insn_ok in Hx. apply bind_ok in W' as (z & Z & _). apply assert_ok, Nat.eqb_eq in Z. eauto. }
  assert (FIELDS : forall i x, In i (insns_of f b) -> f_insn f i = Some x ->
    (forall n, arity (i_op x) = Some n -> length (i_vals x) = n) /\
    (i_op x = LOAD \/ i_op x = STORE -> exists v r a y, i_vals x = v :: r /\ v_data v = VInsn a /\ f_insn f a = Some y /\ i_op y = ALLOC) /\
    (is_bin_alu_op (i_op x) || is_cond_jmp_op (i_op x) = true -> valid_alu (i_alu x) = true) /\
    forallb (fun v => match v_data v with VConst _ => valid_alu (v_ct v) | _ => true end) (operands x) = true).
  { intros i x I Hx. destruct (LINK i I) as (x' & w & Hx' & _ & W). assert (x' = x) by congruence. subst x'. unfold check_one in W.
    rewrite (proj2 (get_insn_ok _ _ _) Hx) in W. cbn [bind] in W.
    apply bind_ok in W as (w1 & _ & W). apply bind_ok in W as (w2 & W2 & W). apply bind_ok in W as (w3 & W3 & W).
    apply bind_ok in W as (w4 & _ & W). apply bind_ok in W as (w5 & W5 & W). apply bind_ok in W as (ba & BA & W). apply bind_ok in W as (w6 & W6 & W).
    apply bind_ok in W as (bb & _ & W). apply bind_ok in W as (w7 & _ & W). apply bind_ok in W as (w8 & _ & W).
    apply bind_ok in W as (w9 & W9 & W). apply bind_ok in W as (w10 & _ & W).
    apply assert_ok in W2, W3, W5, W6, W9, W. split; [|split; [|split; [|exact W]]].
    - intros n A. destruct (i_op x); cbn in A; try discriminate A; injection A as <-; cbn in W2, W3, W5; apply Nat.eqb_eq; assumption.
    - intros O. assert (is_one_of [STORE; LOAD] (i_op x) = true) as Q by (destruct O as [-> | ->]; reflexivity). rewrite Q in BA. subst ba.
      unfold value_is in BA. destruct (i_vals x) as [|v0 r]; cbn in BA; [discriminate BA|].
      destruct (val_target v0) as [d|] eqn:T; [|discriminate BA]. apply bind_ok in BA as (y & Hy & BA). injection BA as BA.
      apply get_insn_ok in Hy. apply ieq in BA. exists v0, r, d, y. split; [reflexivity|]. split; [|auto].
      unfold val_target in T. destruct (v_data v0); try discriminate T. congruence.
    - apply imp_ok, W9. }
  constructor.
  - congruence.
  - intros i I. destruct (LINK i I) as (x & _ & Hx & P & _). eauto.
  - intros q Q. rewrite PR in Q. destruct (oall_ok _ _ _ EP q Q) as (w & W). apply bind_ok in W as (y & Hy & W). apply get_block_ok in Hy.
    apply assert_ok, existsb_exists in W as (z & Z & T). apply Nat.eqb_eq in T. subst z. unfold succs_of. now rewrite Hy.
  - intros q Q. rewrite SU in Q. destruct (oall_ok _ _ _ ES q Q) as (w & W). apply bind_ok in W as (y & Hy & W). apply get_block_ok in Hy.
    apply assert_ok, existsb_exists in W as (z & Z & T). apply Nat.eqb_eq in T. subst z. unfold preds_of. now rewrite Hy.
  - destruct (oall_ok _ _ _ PP b B) as (w & W). rewrite (proj2 (get_block_ok _ _ _) Hk) in W. cbn [bind] in W. rewrite IN.
    exact (proj2 (phis_first_ok f _ _ _ W)).
  - intros i x I Hx T. apply (term_op f i x Hx) in T. destruct (LINK i I) as (x' & _ & Hx' & P & _). assert (x' = x) by congruence. subst x'.
    rewrite IN in I. destruct (oall_ok _ _ _ EJ i I) as (w & W). unfold check_jump in W. rewrite (proj2 (get_insn_ok _ _ _) Hx) in W.
    cbn [bind] in W. rewrite T, P in W. rewrite (proj2 (get_block_ok _ _ _) Hk) in W. cbn [bind] in W.
    apply bind_ok in W as (z & Z & W). apply assert_ok in Z. split.
    + rewrite IN. destruct (rev (b_insns k)) as [|q r] eqn:R; [discriminate Z|]. apply Nat.eqb_eq in Z. subst q.
      exists (rev r). rewrite <- (rev_involutive (b_insns k)), R. reflexivity.
    + rewrite SU. unfold targets. destruct (i_op x); try discriminate T; cbn in W; apply assert_ok in W;
        try (apply Nat.eqb_eq in W; destruct (b_succs k); [reflexivity|discriminate W]); apply list_eqb_ok; exact W.
  - intros N. apply orb_true_iff in E as [E|E].
    + exfalso. apply (any_jump_ok f _ _ AJ) in E as (i & x & I & Hx & J). rewrite <- IN in I. apply (N i I). apply (term_op f i x Hx), J.
    + rewrite SU. apply Nat.eqb_eq in E. destruct (b_succs k) as [|c0 [|c1 r]]; try discriminate E. eauto.
  - intros i w I. exact (proj1 (users_good b i B I) w).
  - intros i d I. exact (proj2 (users_good b i B I) d).
  - intros i x n I Hx. exact (proj1 (FIELDS i x I Hx) n).
  - intros i x I Hx. exact (proj1 (proj2 (FIELDS i x I Hx))).
  - intros i x I Hx. destruct (FIELDS i x I Hx) as (_ & _ & V & C). split; [|split].
    + intros o O. assert (valid_alu (i_alu x) = true) as Q by (apply V; destruct (i_op x); try discriminate O; reflexivity).
      destruct (i_alu x); [discriminate Q|discriminate|discriminate].
    + intros o O. assert (valid_alu (i_alu x) = true) as Q by (apply V; destruct (i_op x); try discriminate O; reflexivity).
      destruct (i_alu x); [discriminate Q|discriminate|discriminate].
    + intros v0 c0 I0 D K. rewrite <- operands_spec in I0. rewrite forallb_forall in C. specialize (C v0 I0). rewrite D, K in C. discriminate C.
Qed.
End Checked.

(** In an accepted function control goes only to listed successors. *)
Lemma good_goes f b c : block_good f b -> goes f b c -> In c (succs_of f b) .
Proof.
  intros G [i x I Hx O|i x o I Hx O|i x o I Hx O|d l S].
  - assert (T : is_terminator f i) by (apply (term_op f i x Hx); rewrite O; reflexivity).
    destruct (bg_term _ _ G i x I Hx T) as [_ ->]. unfold targets. rewrite O. now left.
  - assert (T : is_terminator f i) by (apply (term_op f i x Hx); destruct (i_op x); try discriminate O; reflexivity).
    destruct (bg_term _ _ G i x I Hx T) as [_ ->]. unfold targets. destruct (i_op x); try discriminate O; now left.
  - assert (T : is_terminator f i) by (apply (term_op f i x Hx); destruct (i_op x); try discriminate O; reflexivity).
    destruct (bg_term _ _ G i x I Hx T) as [_ ->]. unfold targets. destruct (i_op x); try discriminate O; right; now left.
  - rewrite S. now left.
Qed.
