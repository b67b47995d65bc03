(** The analyses, colouring and coalescing leave the function as it is. *)
From Coq Require Import ZArith List Bool Arith Lia.
From Verif Require Import M_Base M_Ir M_Edit M_Ra SpecIr SpecRa SpecVirt L_Edit L_RaGraph L_Frame.
From Verif Require Import SpecVirt.
Import ListNotations.
Open Scope nat_scope.

Lemma sf_refl s : same_function s s.
Proof. repeat split. Qed.
Lemma sf_trans s t u : same_function s t -> same_function t u -> same_function s u.
Proof.
  intros (A & B & C & D & E) (A' & B' & C' & D' & E'). unfold same_function. split; [congruence|]. split; [congruence|]. split; [congruence|]. split; [congruence|]. intros v. now rewrite E'.
Qed.
Lemma sf_put s i e e' : c_ex s i = Some e -> x_dst e' = x_dst e -> x_fin e' = x_fin e -> same_function s (put_ex s i e').
Proof.
  intros X D F. unfold same_function. repeat (split; [reflexivity|]). intros v. unfold put_ex, with_ex, upd. cbn [c_ex]. destruct (Nat.eqb_spec v i) as [->|N]; [|reflexivity].
  rewrite X. cbn. congruence.
Qed.
Lemma sf_all l s : same_function s (with_all l s). Proof. repeat split. Qed.
Lemma sf_seo l s : same_function s (with_seo l s). Proof. repeat split. Qed.
Lemma sf_ofold {A} (g : cgs -> A -> outcome cgs) : (forall s a t, g s a = Ok t -> same_function s t) ->
  forall l s t, ofold g s l = Ok t -> same_function s t.
Proof.
  intros G. induction l as [|a r IH]; intros s t H; cbn [ofold] in H; [oks H; apply sf_refl|]. bo H s1 E. exact (sf_trans _ _ _ (G _ _ _ E) (IH _ _ H)).
Qed.
Lemma sf_ofold2 {A B} (g : cgs * B -> A -> outcome (cgs * B)) : (forall s a t, g s a = Ok t -> same_function (fst s) (fst t)) ->
  forall l s t, ofold g s l = Ok t -> same_function (fst s) (fst t).
Proof.
  intros G. induction l as [|a r IH]; intros s t H; cbn [ofold] in H; [oks H; apply sf_refl|]. bo H s1 E. exact (sf_trans _ _ _ (G _ _ _ E) (IH _ _ H)).
Qed.
Ltac sfput := match goal with E : get_ex ?s ?i = Ok _ |- _ => apply get_ex_ok in E; eapply sf_put; [exact E| |]; reflexivity end.

Lemma sf_adj s a b t : add_adj s a b = Ok t -> same_function s t.
Proof. unfold add_adj. intros H. bo H e E. oks H. sfput. Qed.
Lemma sf_conf s a b t : make_conflict s a b = Ok t -> same_function s t.
Proof.
  unfold make_conflict. intros H. destruct (a =? b); [discriminate H|]. bo H r1 E1. destruct r1 as [r1|]; [|oks H; apply sf_refl]. bo H r2 E2.
  destruct r2 as [r2|]; [|oks H; apply sf_refl]. bo H s1 E. exact (sf_trans _ _ _ (sf_adj _ _ _ _ E) (sf_adj _ _ _ _ H)).
Qed.
Lemma sf_in s i v t : add_in s i v = Ok t -> same_function s t.
Proof. unfold add_in. intros H. bo H e E. oks H. sfput. Qed.
Lemma sf_out s i v t : add_out s i v = Ok t -> same_function s t.
Proof. unfold add_out. intros H. bo H e E. oks H. sfput. Qed.
Lemma sf_walk v : forall l s t, walk_out s v l = Ok t -> same_function s (fst t).
Proof.
  induction l as [|i r IH]; intros s t H; cbn [walk_out] in H; [oks H; apply sf_refl|]. bo H s1 E1. apply sf_out in E1. bo H e E.
  destruct (x_dst e) as [d|].
  - destruct (d =? v); [oks H; exact E1|]. bo H s2 E2. bo H s3 E3. apply sf_conf in E2. apply sf_in in E3. eauto using sf_trans.
  - bo H s3 E3. apply sf_in in E3. eauto using sf_trans.
Qed.
Lemma sf_block v : forall fuel s n t, live_out_block fuel v s n = Ok t -> same_function (fst s) (fst t).
Proof.
  induction fuel as [|k IH]; intros s n t H; cbn [live_out_block] in H; [discriminate H|]. destruct s as [s M]. destruct (M_Ra.mem n M); [oks H; apply sf_refl|].
  bo H b B. bo H r R. apply sf_walk in R. destruct (snd r).
  - exact (sf_trans _ _ _ R (sf_ofold2 _ IH _ _ _ H)).
  - oks H. exact R.
Qed.
Lemma sf_user fuel v s u t : live_user fuel v s u = Ok t -> same_function (fst s) (fst t).
Proof.
  unfold live_user. intros H. bo H x X. destruct (iop_eqb (i_op x) PHI).
  - destruct (phi_uses v x) as [|a l]; [discriminate H|]. exact (sf_ofold2 _ (sf_block v fuel) _ _ _ H).
  - unfold live_in_stmt in H. destruct s as [s M]. bo H y Y. bo H b B. bo H s1 E1. apply sf_in in E1. destruct (index_of u (b_insns b)); [|discriminate H].
    bo H r R. apply sf_walk in R. pose proof (sf_trans _ _ _ E1 R) as K. destruct (snd r).
    + exact (sf_trans _ _ _ K (sf_ofold2 _ (sf_block v fuel) _ _ _ H)).
    + oks H. exact K.
Qed.
Lemma sf_var fuel s v t : live_var fuel s v = Ok t -> same_function s t.
Proof.
  unfold live_var. intros H. bo H e E. destruct (x_dst e) as [d|]; [|oks H; apply sf_refl]. destruct (x_fin e); [oks H; apply sf_refl|].
  destruct (negb (d =? v)); [discriminate H|]. bo H x X. bo H r R. oks H. eapply sf_trans; [apply sf_all|]. exact (sf_ofold2 _ (sf_user fuel v) _ _ _ R).
Qed.
Lemma sf_clean1 s i t : clean_one s i = Ok t -> same_function s t.
Proof. unfold clean_one. intros H. destruct (c_ex s i) as [e|] eqn:E; [|discriminate H]. oks H. eapply sf_put; [exact E| |]; reflexivity. Qed.
Lemma sf_clean s t : clean s = Ok t -> same_function s t.
Proof.
  unfold clean. intros H. bo H s1 E. bo H l L. eapply sf_trans; [apply (sf_all [])|]. eapply sf_trans.
  - refine (sf_ofold _ _ _ _ _ E). clear. intros s a t H. eapply sf_trans; [apply sf_all|]. exact (sf_clean1 _ _ _ H).
  - exact (sf_ofold _ sf_clean1 _ _ _ H).
Qed.
Lemma sf_phi v : forall fuel s n t, phi_conflict fuel v s n = Ok t -> same_function s t.
Proof.
  induction fuel as [|k IH]; intros s n t H; cbn [phi_conflict] in H; [discriminate H|]. bo H b B. destruct (rev (b_insns b)) as [|z l].
  - exact (sf_ofold _ IH _ _ _ H).
  - bo H x X. bo H e E. refine (sf_ofold _ _ _ _ _ H). clear. intros s a t H. destruct (a =? v); [oks H; apply sf_refl|]. exact (sf_conf _ _ _ _ H).
Qed.
Lemma sf_conflict1 fuel s i t : conflict_one fuel s i = Ok t -> same_function s t.
Proof.
  unfold conflict_one. intros H. bo H x X. bo H s1 E1. bo H s2 E2.
  assert (K1 : same_function s s1).
  { destruct (iop_eqb (i_op x) PHI); [|oks E1; apply sf_refl]. exact (sf_ofold _ (sf_phi i fuel) _ _ _ E1). }
  assert (K2 : same_function s1 s2).
  { destruct (iop_eqb (i_op x) CALL); [|oks E2; apply sf_refl]. bo E2 e E. refine (sf_ofold _ _ _ _ _ E2). clear. intros s v t H. destruct (M_Ra.mem v (x_out e)); [|oks H; apply sf_refl].
    unfold caller_constraint in H. refine (sf_ofold _ _ _ _ _ H). clear. intros s k t H. bo H r R. exact (sf_conf _ _ _ _ H). }
  pose proof (sf_trans _ _ _ K1 K2) as K. destruct (is_bin_alu_op (i_op x)); [|oks H; exact K].
  destruct (nth_error (i_vals x) 1) as [v|]; [|discriminate H]. destruct (val_target v); [|oks H; exact K]. exact (sf_trans _ _ _ K (sf_conf _ _ _ _ H)).
Qed.
Lemma sf_analysis fuel s t : analysis fuel s = Ok t -> same_function s t.
Proof.
  unfold analysis, liveness, conflicts. intros H. bo H s1 E1. apply sf_clean in E1. bo H s2 E2. bo E2 l L. apply (sf_ofold _ (sf_var fuel)) in E2.
  bo H s3 E3. bo H l' L'. apply (sf_ofold _ (sf_conflict1 fuel)) in H. apply sf_ofold in E3; [|clear; intros s a t H; exact (sf_conf _ _ _ _ H)]. eauto using sf_trans.
Qed.
Lemma sf_mcs om : forall n s l t, mcs_loop om n s l = Ok t -> same_function s t.
Proof.
  induction n as [|k IH]; intros s l t H; cbn [mcs_loop] in H; [oks H; apply sf_refl|]. bo H m M. destruct m as [v|]; [|discriminate H]. bo H e E. bo H s2 E2.
  eapply sf_trans; [apply sf_seo|]. eapply sf_trans; [|exact (IH _ _ _ H)]. refine (sf_ofold _ _ _ _ _ E2). clear. intros s a t H. unfold bump in H.
  destruct (M_Ra.mem a l); [|oks H; apply sf_refl]. bo H e E. oks H. sfput.
Qed.
Lemma sf_incw s v t : inc_w s v = Ok t -> same_function s t.
Proof. unfold inc_w. intros H. bo H e E. oks H. sfput. Qed.
Lemma sf_cliques : forall l earlier s t, cliques earlier s l = Ok t -> same_function s (fst t).
Proof.
  induction l as [|v r IH]; intros earlier s t H; cbn [cliques] in H; [oks H; apply sf_refl|]. bo H q Q. bo H t' T. oks H. cbn [fst]. eapply sf_trans; [|exact (IH _ _ _ T)].
  unfold clique_of in Q. bo Q s1 E1. bo Q e E. apply sf_incw in E1. eapply sf_trans; [exact E1|]. change s1 with (fst (s1, [v])). refine (sf_ofold2 _ _ _ _ _ Q). clear.
  intros s a t H. destruct (M_Ra.mem a earlier); [|oks H; apply sf_refl]. bo H s2 E2. oks H. exact (sf_incw _ _ _ E2).
Qed.
Lemma sf_pre fuel om os s t x : pre_spill fuel om os s = Ok (t, x) -> same_function s t.
Proof.
  unfold pre_spill, mcs. intros H. bo H s1 E1. bo H q Q. bo H r R. oks H. eapply sf_trans; [apply (sf_seo [])|]. eapply sf_trans; [exact (sf_mcs _ _ _ _ _ E1)|].
  exact (sf_cliques _ _ _ _ Q).
Qed.
Lemma sf_color s t : coloring s = Ok t -> same_function s t.
Proof.
  unfold coloring. apply sf_ofold. clear. intros s v t H. unfold color_one in H. bo H e E. destruct (vp_alloc (x_pos e)); [oks H; apply sf_refl|]. bo H used U.
  destruct (free_color used); [|discriminate H]. oks H. sfput.
Qed.
Lemma sf_change s v r t : change_reg s v r = Ok t -> same_function s t.
Proof. unfold change_reg. intros H. bo H e E. oks H. sfput. Qed.
Lemma sf_coal s t : coalescing s = Ok t -> same_function s t.
Proof.
  unfold coalescing. intros H. bo H l L. refine (sf_ofold _ _ _ _ _ H). clear. intros s i t H. unfold coalesce_insn in H. bo H p P. destruct p as [[a b]|]; [|oks H; apply sf_refl].
  unfold coalesce in H. bo H e1 E1. bo H e2 E2. destruct (_ && _)%bool; [|oks H; apply sf_refl]. bo H u1 U1. bo H us U.
  destruct (x_fin e1); [|destruct (x_fin e2)].
  - bo H c C. destruct c; [oks H; apply sf_refl|exact (sf_change _ _ _ _ H)].
  - bo H c C. destruct c; [oks H; apply sf_refl|exact (sf_change _ _ _ _ H)].
  - destruct (free_color us); [|oks H; apply sf_refl]. bo H s1 E. exact (sf_trans _ _ _ (sf_change _ _ _ _ E) (sf_change _ _ _ _ H)).
Qed.
(** the last round of the allocation loop *)
Lemma sf_round fuel om os s s1 s2 x u : analysis fuel s = Ok s1 -> pre_spill fuel om os s1 = Ok (s2, x) -> assign s2 = Ok u -> same_function s u.
Proof.
  unfold assign. intros A B H. bo H s3 C. apply sf_analysis in A. apply sf_pre in B. apply sf_color in C. apply sf_coal in H. eauto using sf_trans.
Qed.
