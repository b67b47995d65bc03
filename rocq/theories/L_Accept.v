(** What the program checker accepts, exactly. *)
From Coq Require Import ZArith List Bool Arith Lia.
From Verif Require Import SpecWord SpecIsa SpecFlat SpecSsa SpecIr SpecEdit SpecPass SpecCheck SpecAccept.
From Verif Require Import M_Base M_Ir M_Edit M_Ra M_Pass M_Check L_Edit L_Uses L_Sim L_PassDce L_PassAlloc L_PassThrow L_Check.
Import ListNotations.
Open Scope nat_scope.

Lemma oall_all {A} (F : A -> outcome unit) l : (forall a, In a l -> F a = Ok tt) -> oall F l = Ok tt.
Proof. induction l as [|a l IH]; intros H; [reflexivity|]. cbn [oall]. rewrite (H a (or_introl eq_refl)). cbn [bind]. apply IH. intros b B. apply H. now right. Qed.
Lemma imp_b a b : (a = true -> b = true) -> negb a || b = true.
Proof. destruct a; auto. Qed.
Lemma one_of l o : is_one_of l o = true -> In o l.
Proof. unfold is_one_of. intros H. apply existsb_exists in H as (a & A & E). apply ieq in E. now subst a. Qed.
Lemma each_all f reach P : (forall b, In b reach -> f_block f b <> None) -> (forall b i, In b reach -> In i (insns_of f b) -> P b i = Ok tt) -> each_insn f reach P = Ok tt.
Proof.
  intros EX H. apply oall_all. intros b B. unfold get_block. pose proof (EX b B) as N. pose proof (H b) as K. unfold insns_of in K. destruct (f_block f b) as [k|]; [|congruence]. cbn [bind]. apply oall_all. intros i I. now apply K.
Qed.
Lemma refers_uses f u x i : f_insn f u = Some x -> 0 < uses f u i -> existsb (refers i) (operands x) = true.
Proof. intros X U. destruct (uses_exists f u x i X U) as (v & V & T). apply existsb_exists. exists v. split; [exact V|]. now apply refers_iff. Qed.
Lemma users_all f i : f_insn f i <> None -> (forall u, In u (users_of f i) -> 0 < uses f u i) -> users_use f i = Ok tt.
Proof.
  intros N H. unfold users_use, get_insn. unfold users_of in H. destruct (f_insn f i) as [x|]; [|congruence]. cbn [bind]. apply oall_all. intros u U. specialize (H u U).
  destruct (f_insn f u) as [y|] eqn:Y; [|unfold uses in H; rewrite Y in H; lia]. cbn [bind]. now rewrite (refers_uses f u y i Y H).
Qed.
Lemma registered f i : f_insn f i <> None -> (forall d, 0 < uses f i d -> In i (users_of f d)) -> operands_registered f i = Ok tt.
Proof.
  intros N H. unfold operands_registered, get_insn. destruct (f_insn f i) as [x|] eqn:X; [|congruence]. cbn [bind]. apply oall_all. intros v V. destruct (val_target v) as [d|] eqn:T; [|reflexivity].
  assert (U : 0 < uses f i d). { apply (existsb_uses f i x d X). apply existsb_exists. exists v. split; [exact V|]. now apply refers_iff. }
  specialize (H d U). unfold users_of in H. destruct (f_insn f d) as [y|]; [|destruct H]. cbn [bind]. assert (E : existsb (Nat.eqb i) (i_users y) = true) by (apply existsb_exists; exists i; split; [exact H|apply Nat.eqb_refl]). now rewrite E.
Qed.
Lemma phis_all f : forall phs ids, (forall i, In i phs -> is_phi f i) -> (forall i, In i ids -> ~ is_phi f i /\ f_insn f i <> None) -> phis_first f true (phs ++ ids) = Ok tt.
Proof.
  assert (B : forall a ids, (forall i, In i ids -> ~ is_phi f i /\ f_insn f i <> None) -> phis_first f a ids = Ok tt).
  { intros a ids. revert a. induction ids as [|i l IH]; intros a H; [reflexivity|]. cbn [phis_first]. destruct (H i (or_introl eq_refl)) as (N & L). unfold get_insn. destruct (f_insn f i) as [x|] eqn:X; [|congruence]. cbn [bind].
    destruct (iop_eqb (i_op x) PHI) eqn:O; [destruct N; exists x; split; [exact X|now apply ieq]|]. apply IH. intros j J. apply H. now right. }
  induction phs as [|i l IH]; intros ids P N; [now apply B|]. cbn [app phis_first]. destruct (P i (or_introl eq_refl)) as (x & X & O). unfold get_insn. rewrite X. cbn [bind]. rewrite O. cbn. apply IH; auto. intros j J. apply P. now right.
Qed.
Lemma any_jump_all f l : (forall i, In i l -> f_insn f i <> None) -> exists j, any_jump f l = Ok j.
Proof.
  induction l as [|i l IH]; intros H; [now exists false|]. cbn [any_jump]. unfold get_insn. pose proof (H i (or_introl eq_refl)) as N. destruct (f_insn f i) as [x|]; [|congruence]. cbn [bind]. destruct IH as (j & ->); [intros k K; apply H; now right|]. cbn [bind]. eauto.
Qed.
Lemma list_eqb_refl l : list_eqb l l = true.
Proof. unfold list_eqb. destruct (list_eq_dec Nat.eq_dec l l); congruence. Qed.

Section Accept.
Variables (f : func) (reach : list nat) (sp : nat) (args : list nat).
Hypothesis G : forall b, In b reach -> block_good f b.
Hypothesis K : forall b, In b reach -> block_known f b.
Hypothesis Ba : bases_good f (sp :: args).
Lemma ac_live b i : In b reach -> In i (insns_of f b) -> f_insn f i <> None.
Proof. intros B I. destruct (bg_linked _ _ (G b B) i I) as (x & -> & _). discriminate. Qed.
Lemma ac_one b i : In b reach -> In i (insns_of f b) -> check_one f b i = Ok tt.
Proof.
  intros B I. destruct (bg_linked _ _ (G b B) i I) as (x & X & P). unfold check_one, get_insn. rewrite X. cbn [bind].
  assert (AR := fun n => bg_arity _ _ (G b B) i x n I X). destruct (bg_width _ _ (G b B) i x I X) as (W1 & W2 & W3).
  assert (E1 : (i_parent x =? b) = true) by now apply Nat.eqb_eq.
  assert (E2 : negb (is_one_of [LOADRAW; ALLOC; JA; PHI; ALLOCARRAY; THROW] (i_op x)) || (length (i_vals x) =? 0) = true).
  { apply imp_b. intros O. apply one_of in O. apply Nat.eqb_eq. apply AR. cbn in O. destruct O as [<-|[<-|[<-|[<-|[<-|[<-|[]]]]]]]; reflexivity. }
  assert (E3 : negb (is_one_of [STORERAW; LOAD; RET; NEG; HTOBE; HTOLE] (i_op x)) || (length (i_vals x) =? 1) = true).
  { apply imp_b. intros O. apply one_of in O. apply Nat.eqb_eq. apply AR. cbn in O. destruct O as [<-|[<-|[<-|[<-|[<-|[<-|[]]]]]]]; reflexivity. }
  assert (E4 : negb (is_one_of [HTOBE; HTOLE] (i_op x)) || ((i_u x =? 16) || (i_u x =? 32) || (i_u x =? 64))%Z = true).
  { apply imp_b. intros O. apply one_of in O. rewrite !orb_true_iff, !Z.eqb_eq. assert (Q : i_op x = HTOBE \/ i_op x = HTOLE) by (cbn in O; destruct O as [<-|[<-|[]]]; auto). destruct (bk_swap _ _ (K b B) i x I X Q) as [Z|[Z|Z]]; auto. }
  assert (E5 : negb (iop_eqb (i_op x) STORE || is_bin_alu_op (i_op x) || is_cond_jmp_op (i_op x) || iop_eqb (i_op x) GETELEMPTR) || (length (i_vals x) =? 2) = true).
  { apply imp_b. intros O. apply Nat.eqb_eq. apply AR. destruct (i_op x); try discriminate O; reflexivity. }
  rewrite E1, E2, E3, E4, E5. cbn [assert bind].
  assert (E6 : (if is_one_of [STORE; LOAD] (i_op x) then value_is f x 0 ALLOC else Ok true) = Ok true).
  { destruct (is_one_of [STORE; LOAD] (i_op x)) eqn:O; [|reflexivity]. apply one_of in O. assert (Q : i_op x = LOAD \/ i_op x = STORE) by (cbn in O; destruct O as [<-|[<-|[]]]; auto).
    destruct (bg_cells _ _ (G b B) i x I X Q) as (v & r & a & y & V & D & Y & Oy). unfold value_is, val_target, get_insn. rewrite V. cbn [nth_error]. rewrite D, Y. cbn [bind]. now rewrite Oy. }
  assert (E7 : (if iop_eqb (i_op x) GETELEMPTR then value_is f x 1 ALLOCARRAY else Ok true) = Ok true).
  { destruct (iop_eqb (i_op x) GETELEMPTR) eqn:O; [|reflexivity]. apply ieq in O. destruct (bk_elem _ _ (K b B) i x I X O) as (v & a & y & V & D & Y & Oy).
    unfold value_is, val_target, get_insn. rewrite V, D, Y. cbn [bind]. now rewrite Oy. }
  rewrite E6. cbn [assert bind]. rewrite E7. cbn [assert bind].
  assert (E8 : negb (iop_eqb (i_op x) CALL) || negb (i_u x =? 0)%Z = true).
  { apply imp_b. intros O. apply ieq in O. apply negb_true_iff, Z.eqb_neq. exact (bk_call _ _ (K b B) i x I X O). }
  assert (E9 : negb (is_bin_alu_op (i_op x) || is_cond_jmp_op (i_op x)) || valid_alu (i_alu x) = true).
  { apply imp_b. intros O. destruct (i_alu x) eqn:Al; try reflexivity. exfalso. destruct (i_op x); try discriminate O; cbn in W1, W2; try (eapply W1; reflexivity); eapply W2; reflexivity. }
  assert (E10 : negb (is_one_of [ALLOC; LOADRAW; STORERAW] (i_op x)) || valid_vr (i_vrt x) = true).
  { apply imp_b. intros O. apply one_of in O. assert (Q : i_op x = ALLOC \/ i_op x = LOADRAW \/ i_op x = STORERAW) by (cbn in O; destruct O as [<-|[<-|[<-|[]]]]; auto). pose proof (bk_size _ _ (K b B) i x I X Q). destruct (i_vrt x); congruence || reflexivity. }
  rewrite E8, E9, E10. cbn [assert bind].
  assert (E11 : forallb (fun v => match v_data v with VConst _ => valid_alu (v_ct v) | _ => true end) (operands x) = true).
  { apply forallb_forall. intros v V. rewrite operands_spec in V. destruct (v_data v) as [c| | | | |] eqn:D; try reflexivity. pose proof (W3 v c V D). destruct (v_ct v); congruence || reflexivity. }
  now rewrite E11.
Qed.
Lemma ac_jump b i k : In b reach -> f_block f b = Some k -> In i (b_insns k) -> check_jump f b i = Ok tt.
Proof.
  intros B Hk I. assert (IN : insns_of f b = b_insns k) by (unfold insns_of; now rewrite Hk). assert (SU : succs_of f b = b_succs k) by (unfold succs_of; now rewrite Hk). rewrite <- IN in I.
  destruct (bg_linked _ _ (G b B) i I) as (x & X & P). unfold check_jump, get_insn, get_block. rewrite X. cbn [bind]. destruct (is_jmp_op (i_op x)) eqn:J; [|reflexivity]. rewrite P, Hk. cbn [bind].
  destruct (bg_term _ _ (G b B) i x I X (proj2 (term_op f i x X) J)) as ((l & L) & T). rewrite <- IN, L, rev_app_distr. cbn [rev app]. rewrite Nat.eqb_refl. cbn [assert bind]. rewrite <- SU, T.
  unfold targets. destruct (i_op x); try discriminate J; cbn [iop_eqb iop_eq_dec is_cond_jmp_op]; cbn; rewrite ?list_eqb_refl; reflexivity.
Qed.
Lemma ac_block b : In b reach -> check_block f b = Ok tt.
Proof.
  intros B. unfold check_block, get_block. pose proof (bg_exists _ _ (G b B)) as N. destruct (f_block f b) as [k|] eqn:Hk; [|congruence]. cbn [bind].
  assert (IN : insns_of f b = b_insns k) by (unfold insns_of; now rewrite Hk). assert (SU : succs_of f b = b_succs k) by (unfold succs_of; now rewrite Hk). assert (PR : preds_of f b = b_preds k) by (unfold preds_of; now rewrite Hk).
  rewrite (oall_all _ (b_preds k)).
  2:{ intros q Q. rewrite <- PR in Q. apply (bg_preds _ _ (G b B)) in Q. unfold succs_of in Q. destruct (f_block f q) as [y|]; [|destruct Q]. cbn [bind]. assert (E : existsb (Nat.eqb b) (b_succs y) = true) by (apply existsb_exists; exists b; split; [exact Q|apply Nat.eqb_refl]). now rewrite E. }
  cbn [bind]. rewrite (oall_all _ (b_succs k)).
  2:{ intros q Q. rewrite <- SU in Q. apply (bg_succs _ _ (G b B)) in Q. unfold preds_of in Q. destruct (f_block f q) as [y|]; [|destruct Q]. cbn [bind]. assert (E : existsb (Nat.eqb b) (b_preds y) = true) by (apply existsb_exists; exists b; split; [exact Q|apply Nat.eqb_refl]). now rewrite E. }
  cbn [bind]. rewrite (oall_all _ (b_insns k)); [|intros i I; eapply ac_jump; eassumption]. cbn [bind].
  destruct (any_jump_all f (b_insns k)) as (j & J); [intros i I; apply (ac_live b i B); now rewrite IN|]. rewrite J. cbn [bind]. pose proof (any_jump_ok f _ j J) as Q. destruct j; [reflexivity|].
  destruct (bg_fall _ _ (G b B)) as (c & C). { intros i I T. rewrite IN in I. assert (false = true); [|discriminate]. apply Q. destruct T as (x & X & T). exists i, x. split; [exact I|]. split; [exact X|]. apply (term_op f i x X). now exists x. }
  rewrite SU in C. rewrite C. reflexivity.
Qed.
Theorem accepts : prog_check f reach sp args = Ok tt.
Proof.
  assert (EX : forall b, In b reach -> f_block f b <> None) by (intros b B; exact (bg_exists _ _ (G b B))).
  unfold prog_check, check_insns, check_phis, check_users, check_jumping.
  rewrite each_all; [|exact EX|exact ac_one]. cbn [bind].
  rewrite oall_all. 2:{ intros b B. destruct (bg_phis _ _ (G b B)) as (phs & ids & E & P & N). unfold get_block. pose proof (EX b B) as Nb. pose proof (ac_live b) as Lv. unfold insns_of in E, Lv. destruct (f_block f b) as [k|]; [|congruence]. cbn [bind].
    rewrite E. apply phis_all; [exact P|]. intros i I. split; [now apply N|]. apply Lv; [exact B|]. rewrite E. apply in_or_app. now right. }
  cbn [bind]. rewrite (oall_all _ args). 2:{ intros i I. apply users_all; apply Ba; now right. }
  cbn [bind]. rewrite users_all; [|apply Ba; now left|apply Ba; now left]. cbn [bind].
  rewrite each_all; [|exact EX|]. 2:{ intros b i B I. rewrite users_all; [|now apply (ac_live b)|intros u U; exact (bg_users _ _ (G b B) i u I U)]. cbn [bind]. apply registered; [now apply (ac_live b)|]. intros d U. exact (bg_operands _ _ (G b B) i d I U). }
  cbn [bind]. apply oall_all. exact ac_block.
Qed.
End Accept.

Lemma val_def v d : val_target v = Some d -> v_data v = VInsn d.
Proof. unfold val_target. destruct (v_data v); intros E; try discriminate E. congruence. Qed.
Lemma knows f reach sp args u : prog_check f reach sp args = Ok u -> forall b, In b reach -> block_known f b.
Proof.
  intros OK b B.
  assert (F : forall i x, In i (insns_of f b) -> f_insn f i = Some x ->
    (is_one_of [HTOBE; HTOLE] (i_op x) = true -> ((i_u x =? 16) || (i_u x =? 32) || (i_u x =? 64))%Z = true) /\
    (iop_eqb (i_op x) CALL = true -> negb (i_u x =? 0)%Z = true) /\ (is_one_of [ALLOC; LOADRAW; STORERAW] (i_op x) = true -> valid_vr (i_vrt x) = true) /\
    (iop_eqb (i_op x) GETELEMPTR = true -> value_is f x 1 ALLOCARRAY = Ok true)).
  { intros i x I X. destruct (one_ok f reach sp args u OK b i x B I X) as (w & W). unfold check_one in W. rewrite (proj2 (get_insn_ok _ _ _) X) in W. cbn [bind] in W.
    apply bind_ok in W as (w1 & _ & W). apply bind_ok in W as (w2 & W2 & W). apply bind_ok in W as (w3 & W3 & W).
    apply bind_ok in W as (w4 & W4 & W). apply bind_ok in W as (w5 & W5 & W). apply bind_ok in W as (ba & BA & W). apply bind_ok in W as (w6 & W6 & W).
    apply bind_ok in W as (bb & BB & W). apply bind_ok in W as (w7 & W7 & W). apply bind_ok in W as (w8 & W8 & W).
    apply bind_ok in W as (w9 & W9 & W). apply bind_ok in W as (w10 & W10 & W). apply assert_ok in W4, W7, W8, W10. subst bb.
    split; [now apply imp_ok|]. split; [now apply imp_ok|]. split; [now apply imp_ok|]. intros Q. now rewrite Q in BB. }
  constructor.
  - intros i x I X O. destruct (F i x I X) as (A & _). assert (Q : is_one_of [HTOBE; HTOLE] (i_op x) = true) by (destruct O as [-> | ->]; reflexivity). specialize (A Q). rewrite !orb_true_iff, !Z.eqb_eq in A. tauto.
  - intros i x I X O. destruct (F i x I X) as (_ & A & _). assert (Q : iop_eqb (i_op x) CALL = true) by now rewrite O. specialize (A Q). now apply negb_true_iff, Z.eqb_neq in A.
  - intros i x I X O. destruct (F i x I X) as (_ & _ & A & _). assert (Q : is_one_of [ALLOC; LOADRAW; STORERAW] (i_op x) = true) by (destruct O as [-> |[-> | ->]]; reflexivity). specialize (A Q). intros E. rewrite E in A. discriminate A.
  - intros i x I X O. destruct (F i x I X) as (_ & _ & _ & A). assert (Q : iop_eqb (i_op x) GETELEMPTR = true) by now rewrite O. specialize (A Q). unfold value_is in A.
    destruct (nth_error (i_vals x) 1) as [v|]; [|discriminate A]. destruct (val_target v) as [d|] eqn:T; [|discriminate A]. unfold get_insn in A. destruct (f_insn f d) as [y|] eqn:Y; [|discriminate A]. cbn [bind] in A. injection A as A.
    exists v, d, y. split; [reflexivity|]. split; [now apply val_def|]. split; [exact Y|now apply ieq].
Qed.
Theorem check_exact f reach sp args : prog_check f reach sp args = Ok tt <->
  (forall b, In b reach -> block_good f b /\ block_known f b) /\ bases_good f (sp :: args).
Proof.
  split.
  - intros OK. split; [intros b B; split; [exact (good_block f reach sp args tt OK b B)|exact (knows f reach sp args tt OK b B)]|].
    intros i I. split; [|exact (special_good f reach sp args tt OK i I)].
    destruct (parts f reach sp args tt OK) as (_ & _ & c & _ & _ & C & _). unfold check_users in C. apply bind_ok in C as (c1 & C1 & C). apply bind_ok in C as (c2 & C2 & C).
    assert (E : exists v, users_use f i = Ok v) by (destruct I as [<-|I]; [eauto|exact (oall_ok _ _ _ C1 i I)]). destruct E as (v & E). unfold users_use, get_insn in E. destruct (f_insn f i); [discriminate|discriminate E].
  - intros (H & Ba). apply accepts; [intros b B; apply H, B|intros b B; apply H, B|exact Ba].
Qed.
