(** Whole programs: normalisation, translation, relocation and synthesis together. *)
From Verif Require Import M_Base M_Ir M_Norm SpecWord SpecIsa SpecFlat SpecNormCond SpecProg L_Word L_Norm L_Trans.
Open Scope Z_scope.

(** ** Lists of outcomes *)
Lemma omap_app {A B} (f : A -> outcome B) l1 l2 r : omap f (l1 ++ l2) = Ok r ->
  exists r1 r2, omap f l1 = Ok r1 /\ omap f l2 = Ok r2 /\ r = r1 ++ r2.
Proof.
  revert r. induction l1 as [|a l1 IH]; intros r H; cbn [app omap] in *.
  - exists [], r. auto.
  - apply bind_ok in H. destruct H as [x [E H]]. apply bind_ok in H. destruct H as [y [E2 H]].
    apply Ok_inj in H. subst r. destruct (IH _ E2) as (r1 & r2 & H1 & H2 & ->).
    exists (x :: r1), r2. cbn [omap]. rewrite E, H1. cbn. auto.
Qed.
Lemma omap_cons {A B} (f : A -> outcome B) a l r : omap f (a :: l) = Ok r ->
  exists x r', f a = Ok x /\ omap f l = Ok r' /\ r = x :: r'.
Proof.
  cbn [omap]. intros H. apply bind_ok in H. destruct H as [x [E H]]. apply bind_ok in H. destruct H as [y [E2 H]].
  apply Ok_inj in H. subst r. eauto.
Qed.
Lemma omap_Forall2 {A B} (f : A -> outcome B) l r : omap f l = Ok r <-> Forall2 (fun a b => f a = Ok b) l r.
Proof.
  revert r. induction l as [|a l IH]; intros r.
  - cbn [omap]. split; [intros [= <-]; constructor|inversion 1; reflexivity].
  - split.
    + intros H. apply omap_cons in H. destruct H as (x & r' & H1 & H2 & ->). constructor; auto. apply IH. exact H2.
    + inversion 1 as [|? b ? r' H1 H2]; subst. cbn [omap]. rewrite H1. cbn [bind]. apply IH in H2. rewrite H2. reflexivity.
Qed.
Lemma oflat_cons {A B} (f : A -> outcome (list B)) a l r : oflat f (a :: l) = Ok r ->
  exists x r', f a = Ok x /\ oflat f l = Ok r' /\ r = x ++ r'.
Proof.
  cbn [oflat]. intros H. apply bind_ok in H. destruct H as [x [E H]]. apply bind_ok in H. destruct H as [y [E2 H]].
  apply Ok_inj in H. subst r. eauto.
Qed.

(** ** Execution preserves well-formed states *)
Definition res_st (r : fres) : st := match r with FNext s | FJmp _ s | FRet _ s => s end.
Lemma fexec_ok w bi n s r : st_ok s -> fexec w bi n s = Some r -> st_ok (res_st r).
Proof.
  intros O X. destruct n as [x d]. unfold fexec in X. cbn [n_i n_pos] in X.
  destruct (i_op x); destruct (i_vals x) as [|v0 [|v1 [|]]]; try discriminate X; cbn [alu_op_of cmp_op_of] in X;
    repeat match type of X with
    | obind ?e _ = Some _ => destruct e eqn:?; [|discriminate X]; cbn [obind] in X
    | next ?e = Some _ => destruct e eqn:?; [|discriminate X]; cbn [next obind] in X
    | (if ?b then _ else _) = Some _ => destruct b eqn:?; [|discriminate X]
    | match ?e with _ => _ end = Some _ => destruct e eqn:?; try discriminate X
    end; try (apply Some_inj in X; subst r; cbn [res_st]);
    try exact O; try (eapply wr_ok; eauto; fail); try (apply rset_ok; exact O); try (apply call_ok; exact O); try exact O.
Qed.
Lemma fseq_ok w bi l s r : st_ok s -> fseq w bi l s = Some r -> st_ok (res_st r).
Proof.
  revert s. induction l as [|n l IH]; intros s O X; cbn [fseq] in X.
  - apply Some_inj in X. subst r. exact O.
  - destruct (fexec w bi n s) as [q|] eqn:E; [|discriminate]. cbn [obind] in X.
    pose proof (fexec_ok _ _ _ _ _ O E) as Oq.
    destruct q; [apply (IH _ Oq X)| |]; apply Some_inj in X; subst r; exact Oq.
Qed.

(** ** Executed instructions can be translated *)
Fixpoint trsafe (w : world) (bi : bconst -> Z) (l : list ninsn) (s : st) : Prop :=
  match l with
  | [] => True
  | n :: r => tr_ok bi n /\ forall s', fexec w bi n s = Some (FNext s') -> trsafe w bi r s'
  end.
Lemma trsafe_forall w bi l s : Forall (tr_ok bi) l -> trsafe w bi l s.
Proof. intros H. revert s. induction H; intros s; cbn [trsafe]; auto. Qed.
Lemma trsafe_app w bi l1 l2 s : trsafe w bi l1 s ->
  (forall s', fseq w bi l1 s = Some (FNext s') -> trsafe w bi l2 s') -> trsafe w bi (l1 ++ l2) s.
Proof.
  revert s. induction l1 as [|n l1 IH]; intros s H1 H2; cbn [app].
  - apply H2. reflexivity.
  - destruct H1 as [T H1]. split; [exact T|]. intros s' X. apply IH; [apply H1; exact X|].
    intros s2 Y. apply H2. rewrite (fseq_cons _ _ _ _ _ _ X). exact Y.
Qed.

(** Conditional jumps only at the end. *)
Definition cond_last (l : list ninsn) : Prop :=
  forall l1 n l2, l = l1 ++ n :: l2 -> is_cond_jmp_op (i_op (n_i n)) = true -> l2 = [].
Lemma cond_last_tl n l : cond_last (n :: l) -> cond_last l.
Proof. intros H l1 m l2 E C. apply (H (n :: l1) m l2); [rewrite E; reflexivity|exact C]. Qed.
Lemma cond_last_app l1 l2 : Forall (fun n => is_cond_jmp_op (i_op (n_i n)) = false) l1 -> cond_last l2 -> cond_last (l1 ++ l2).
Proof.
  intros H. induction H as [|n l1 Hn _ IH]; intros Hl; cbn [app]; [exact Hl|].
  intros a m b E C. destruct a as [|a0 a]; cbn [app] in E; injection E as -> E.
  - congruence.
  - eapply IH; eauto.
Qed.

(** What normalisation does to jumps. *)
Lemma normalize_assign_nojmp n l : normalize_assign n = Ok l -> is_cond_jmp_op (i_op (n_i n)) = false ->
  Forall (fun n => is_cond_jmp_op (i_op (n_i n)) = false) l.
Proof.
  unfold normalize_assign. intros N C. apply bind_ok in N. destruct N as [t0 [_ N]].
  destruct (vtype_pos (n_pos n)).
  - destruct (_ && _ && _) in N; apply Ok_inj in N; subst l; repeat constructor. cbn [n_i].
    destruct (vt_eqb t0 T_STACK), (vt_eqb t0 T_CONST && _); cbn; auto.
  - destruct (_ && _ && _) in N; apply Ok_inj in N; subst l; repeat constructor. cbn [n_i].
    destruct (vt_eqb t0 T_STACK), (vt_eqb t0 T_CONST && _); cbn; auto.
  - destruct (_ && _ && _) in N; apply Ok_inj in N; subst l; repeat constructor. cbn [n_i].
    destruct (vt_eqb t0 T_STACK), (vt_eqb t0 T_CONST && _); cbn; auto.
  - apply bind_ok in N. destruct N as [? [_ N]]. apply Ok_inj in N; subst l. repeat constructor.
Qed.
Lemma normalize_alu_nojmp n l : normalize_alu n = Ok l -> is_bin_alu_op (i_op (n_i n)) = true ->
  Forall (fun n => is_cond_jmp_op (i_op (n_i n)) = false) l.
Proof.
  unfold normalize_alu. intros N C.
  apply bind_ok in N. destruct N as [t0 [_ N]]. apply bind_ok in N. destruct N as [t1 [_ N]].
  apply bind_ok in N. destruct N as [? [_ N]]. apply bind_ok in N. destruct N as [r [E N]].
  destruct r as [[[[[pre o] v0] v1] u0] u1].
  assert (P : Forall (fun n => is_cond_jmp_op (i_op (n_i n)) = false) pre /\ is_cond_jmp_op o = false).
  { assert (Co : is_cond_jmp_op (i_op (n_i n)) = false) by (destruct (i_op (n_i n)); cbn in *; congruence).
    destruct (_ && _) in E.
    - destruct (is_commutative_op _); [|destruct (iop_eqb _ SUB); [|discriminate]]; apply Ok_inj in E; inversion E; subst; repeat constructor; auto.
    - apply Ok_inj in E. inversion E; subst. auto. }
  destruct P as [P1 P2].
  apply bind_ok in N. destruct N as [? [_ N]]. apply bind_ok in N. destruct N as [? [_ N]].
  assert (Fin : forall v, is_cond_jmp_op (i_op (n_i (mkN (set_val_k 1 v1 (set_val_k 0 v (set_op o (n_i n)))) (n_pos n)))) = false) by (intros; exact P2).
  assert (Lc : is_cond_jmp_op (i_op (n_i (load_const v0 (n_pos n)))) = false) by (unfold load_const; destruct (v_ct v0); reflexivity).
  destruct u0, u1; try discriminate N;
    first [ apply bind_ok in N; destruct N as [l0 [E0 N]]; apply Ok_inj in N; subst l;
            apply Forall_app; split; [exact P1|]; apply Forall_app; split;
            [eapply normalize_assign_nojmp; [exact E0|reflexivity]|repeat constructor; auto]
          | destruct (_ =? _) in N; apply Ok_inj in N; subst l; apply Forall_app; split; auto
          | apply Ok_inj in N; subst l; apply Forall_app; split; auto ].
Qed.
Lemma normalize_nojmp n l : normalize_one n = Ok l -> is_cond_jmp_op (i_op (n_i n)) = false ->
  Forall (fun n => is_cond_jmp_op (i_op (n_i n)) = false) l.
Proof.
  unfold normalize_one. intros N C.
  destruct (i_op (n_i n)) eqn:Ho; cbn [is_bin_alu_op is_cond_jmp_op opnum Nat.leb Nat.ltb andb] in *; try discriminate.
  all: try (apply Ok_inj in N; subst l; constructor; [rewrite Ho; reflexivity|constructor]).
  all: try (eapply normalize_alu_nojmp; [exact N|rewrite Ho; reflexivity]).
  - unfold normalize_getelemptr in N.
    apply bind_ok in N. destruct N as [t0 [_ N]]. apply bind_ok in N. destruct N as [t1 [_ N]].
    apply bind_ok in N. destruct N as [? [_ N]]. apply bind_ok in N. destruct N as [? [_ N]].
    destruct t0.
    + apply Ok_inj in N; subst l; repeat constructor.
    + destruct (_ =? _) in N; apply Ok_inj in N; subst l; repeat constructor.
    + apply bind_ok in N. destruct N as [? [_ N]].
      destruct (_ <? _) in N; (eapply normalize_alu_nojmp; [exact N|reflexivity]).
    + apply Ok_inj in N; subst l; repeat constructor.
  - eapply normalize_assign_nojmp; [exact N|reflexivity].
  - eapply normalize_assign_nojmp; [exact N|reflexivity].
  - unfold normalize_stackoff in N. apply bind_ok in N. destruct N as [t [_ N]].
    destruct (vt_eqb t T_STACK); apply Ok_inj in N; subst l; constructor; auto; cbn; rewrite Ho; reflexivity.
  - unfold normalize_stackoff in N. apply bind_ok in N. destruct N as [t [_ N]].
    destruct (vt_eqb t T_STACK); apply Ok_inj in N; subst l; constructor; auto; cbn; rewrite Ho; reflexivity.
  - unfold normalize_unary in N. apply bind_ok in N. destruct N as [t [_ N]]. apply bind_ok in N. destruct N as [? [_ N]].
    destruct t; try discriminate; try (destruct (_ =? _) in N); apply Ok_inj in N; subst l; repeat constructor; cbn; rewrite Ho; reflexivity.
  - unfold normalize_unary in N. apply bind_ok in N. destruct N as [t [_ N]]. apply bind_ok in N. destruct N as [? [_ N]].
    destruct t; try discriminate; try (destruct (_ =? _) in N); apply Ok_inj in N; subst l; repeat constructor; cbn; rewrite Ho; reflexivity.
  - unfold normalize_unary in N. apply bind_ok in N. destruct N as [t [_ N]]. apply bind_ok in N. destruct N as [? [_ N]].
    destruct t; try discriminate; try (destruct (_ =? _) in N); apply Ok_inj in N; subst l; repeat constructor; cbn; rewrite Ho; reflexivity.
  - unfold normalize_ret in N. destruct (i_vals (n_i n)).
    + apply Ok_inj in N; subst l. constructor; auto. rewrite Ho. reflexivity.
    + apply bind_ok in N. destruct N as [t [_ N]]. apply bind_ok in N. destruct N as [? [_ N]].
      apply Ok_inj in N; subst l. repeat constructor. cbn. rewrite Ho. reflexivity.
  - eapply normalize_assign_nojmp; [exact N|rewrite Ho; reflexivity].
Qed.
Lemma swap_jmp_cond o o' : swap_jmp o = Some o' -> is_cond_jmp_op o' = true.
Proof. destruct o; cbn; intros [= <-]; reflexivity. Qed.
(** A conditional jump becomes nothing, an unconditional jump or a conditional jump with the same
    targets. *)
Lemma normalize_cond_shape n l : normalize_one n = Ok l -> is_cond_jmp_op (i_op (n_i n)) = true ->
  l = [] \/ exists m, l = [m] /\ (is_cond_jmp_op (i_op (n_i m)) = true -> i_bb1 (n_i m) = i_bb1 (n_i n)).
Proof.
  intros N C.
  assert (N' : normalize_cond_jmp n = Ok l).
  { unfold normalize_one in N. destruct (i_op (n_i n)); cbn in C; try discriminate; exact N. }
  clear N. unfold normalize_cond_jmp in N'.
  apply bind_ok in N'. destruct N' as [t0 [_ N]]. apply bind_ok in N. destruct N as [t1 [_ N]].
  destruct (vt_eqb t0 T_CONST).
  - destruct (vt_eqb t1 T_CONST).
    + destruct (iop_eqb _ JNE); [|discriminate]. destruct (negb _); apply Ok_inj in N; subst l; auto.
      right. eexists. split; [reflexivity|]. cbn. discriminate.
    + destruct (swap_jmp _) eqn:Sw; [|discriminate]. apply Ok_inj in N; subst l.
      right. eexists. split; [reflexivity|]. reflexivity.
  - apply Ok_inj in N; subst l. right. exists n. auto.
Qed.

(** ** Normalisation of a block body *)
Definition last_nt (l : list ninsn) : option nat :=
  match last_insn l with Some n => not_taken (n_i n) | None => None end.
Lemma last_insn_cons n l : l <> [] -> last_insn (n :: l) = last_insn l.
Proof. destruct l; [congruence|reflexivity]. Qed.
Lemma last_insn_app l1 l2 : l2 <> [] -> last_insn (l1 ++ l2) = last_insn l2.
Proof.
  intros H. induction l1 as [|n l1 IH]; [reflexivity|]. cbn [app]. rewrite last_insn_cons; [exact IH|].
  destruct l1; cbn; [exact H|discriminate].
Qed.

Theorem normalize_body w bi l : forall l1 s r,
  Forall (norm_ok bi) l -> cond_last l -> oflat normalize_one l = Ok l1 -> st_ok s -> fseq w bi l s = Some r ->
  exists r', fseq w bi l1 s = Some r' /\ agrees (last_nt l) r r' /\ trsafe w bi l1 s.
Proof.
  induction l as [|n l IH]; intros l1 s r K Cl N O X.
  - cbn [oflat] in N. apply Ok_inj in N. subst l1. exists r. cbn [fseq] in *. split; [exact X|]. split; [left; reflexivity|exact I].
  - inversion K as [|? ? Kn Kl]; subst. apply oflat_cons in N. destruct N as (x & rest & N1 & N2 & ->).
    cbn [fseq] in X. destruct (fexec w bi n s) as [q|] eqn:E; [|discriminate]. cbn [obind] in X.
    destruct (normalize_one_good w bi n s x q Kn N1 O E) as [[q' [F A]] T].
    rewrite fseq_app, F. cbn [obind].
    destruct (is_cond_jmp_op (i_op (n_i n))) eqn:Cn.
    + (* the last instruction *)
      assert (l = []) by (apply (Cl [] n l eq_refl Cn)). subst l.
      cbn [oflat] in N2. apply Ok_inj in N2. subst rest.
      assert (Lt : last_nt [n] = not_taken (n_i n)) by reflexivity. rewrite Lt.
      assert (r = q) as ->.
      { destruct q; cbn [fseq] in X; apply Some_inj in X; auto. }
      exists q'. split; [destruct q'; reflexivity|]. split; [exact A|].
      rewrite app_nil_r. apply trsafe_forall. exact T.
    + assert (q' = q).
      { destruct A as [A|(f & s0 & Ft & _)]; [auto|]. unfold not_taken in Ft. rewrite Cn in Ft. discriminate. }
      subst q'. destruct q as [s'|b s'|v s'].
      * pose proof (fexec_ok _ _ _ _ _ O E) as O'. cbn [res_st] in O'.
        destruct (IH rest s' r Kl (cond_last_tl _ _ Cl) N2 O' X) as (r' & F' & A' & T').
        exists r'. split; [exact F'|]. split.
        -- destruct l as [|m l'].
           ++ cbn [oflat] in N2. apply Ok_inj in N2. subst rest. cbn [fseq] in F', X. left. congruence.
           ++ unfold last_nt in *. rewrite last_insn_cons by discriminate. exact A'.
        -- apply trsafe_app; [apply trsafe_forall; exact T|]. intros s2 Y. rewrite F in Y. apply Some_inj in Y.
           injection Y as <-. exact T'.
      * exists (FJmp b s'). split; [reflexivity|]. apply Some_inj in X. subst r. split; [left; reflexivity|].
        apply trsafe_app; [apply trsafe_forall; exact T|]. intros s2 Y. rewrite F in Y. discriminate.
      * exists (FRet v s'). split; [reflexivity|]. apply Some_inj in X. subst r. split; [left; reflexivity|].
        apply trsafe_app; [apply trsafe_forall; exact T|]. intros s2 Y. rewrite F in Y. discriminate.
Qed.

(** Conditional jumps are still last, with the same not-taken target. *)
Lemma normalize_cond_last l : forall l1, cond_last l -> oflat normalize_one l = Ok l1 ->
  cond_last l1 /\
  (forall n, last_insn l1 = Some n -> is_cond_jmp_op (i_op (n_i n)) = true -> last_nt l = Some (i_bb1 (n_i n))).
Proof.
  induction l as [|n l IH]; intros l1 Cl N.
  - cbn [oflat] in N. apply Ok_inj in N. subst l1. split; [intros [|? ?] ? ? E; discriminate|]. cbn. discriminate.
  - apply oflat_cons in N. destruct N as (x & rest & N1 & N2 & ->).
    destruct (is_cond_jmp_op (i_op (n_i n))) eqn:Cn.
    + assert (l = []) by (apply (Cl [] n l eq_refl Cn)). subst l.
      cbn [oflat] in N2. apply Ok_inj in N2. subst rest. rewrite app_nil_r.
      destruct (normalize_cond_shape _ _ N1 Cn) as [->|(m & -> & Hm)].
      * split; [intros [|? ?] ? ? E; discriminate|]. cbn. discriminate.
      * split.
        -- intros [|? [|? ?]] ? ? E; cbn in E; try discriminate. injection E as -> <-. auto.
        -- cbn. intros n0 [= <-] C0. unfold last_nt. cbn [last_insn]. unfold not_taken. rewrite Cn. f_equal. symmetry. auto.
    + destruct (IH rest (cond_last_tl _ _ Cl) N2) as [H1 H2].
      pose proof (normalize_nojmp _ _ N1 Cn) as Fx.
      split; [apply cond_last_app; assumption|].
      intros m Lm Cm. destruct rest as [|r0 rest].
      * rewrite app_nil_r in Lm.
        assert (In m x).
        { clear -Lm. induction x as [|a x IH]; [discriminate|]. destruct x; cbn in Lm; [injection Lm as ->; left; auto|].
          right. apply IH. exact Lm. }
        rewrite Forall_forall in Fx. rewrite (Fx _ H) in Cm. discriminate.
      * rewrite last_insn_app in Lm by discriminate. unfold last_nt in *. destruct l as [|m' l'].
        -- cbn [oflat] in N2. discriminate.
        -- rewrite last_insn_cons by discriminate. apply H2; auto.
Qed.

(** ** Built-in constants *)
Lemma insn_cnt_number b : insn_cnt b = insn_number b.
Proof.
  unfold insn_cnt, insn_number. induction (nb_insns b) as [|n l IH]; [reflexivity|]. cbn [filter fold_right].
  destruct (i_op (n_i n)) eqn:Ho; cbn [iop_eqb]; rewrite <- IH;
    try (match goal with |- context [iop_eqb ?a ?b] => change (iop_eqb a b) with false end;
         match goal with |- context [iop_eqb ?a ?b] => change (iop_eqb a b) with false end; cbn [orb negb length]; lia).
  - reflexivity.
  - reflexivity.
Qed.
Lemma find_lookup p id : find_nb p id = lookup p id.
Proof.
  unfold find_nb. induction p as [|b p IH]; [reflexivity|]. cbn [find lookup].
  destruct (Nat.eqb (nb_id b) id); [reflexivity|exact IH].
Qed.
Lemma critical_loop_chain p k : forall b cnt c, critical_loop k p b cnt = Ok c ->
  exists z, chain_number p b z /\ c = cnt - insn_number b + z.
Proof.
  induction k as [|k IH]; intros b cnt c H; [discriminate|]. cbn [critical_loop] in H.
  assert (Stop : (forall q, nb_preds b <> [q]) -> Ok cnt = Ok c -> exists z, chain_number p b z /\ c = cnt - insn_number b + z).
  { intros Hq E. apply Ok_inj in E. subst c. exists (insn_number b). split; [apply chain_stop; exact Hq|lia]. }
  destruct (nb_preds b) as [|q [|q2 r]] eqn:P.
  - apply Stop; [intros q; discriminate|exact H].
  - rewrite find_lookup in H. destruct (lookup p q) as [b'|] eqn:L; [|discriminate].
    destruct (nb_counter b') eqn:Ct.
    + apply Ok_inj in H. subst c. exists (insn_number b). split; [eapply chain_counter; eauto|lia].
    + destruct (IH _ _ _ H) as (z & Hz & ->). exists (insn_number b + z).
      split; [eapply chain_more; eauto|]. rewrite insn_cnt_number. lia.
  - apply Stop; [intros q'; discriminate|exact H].
Qed.

(** Replacing built-in constants does not change the meaning. *)
Definition same_kind (bi : bconst -> Z) (v v' : value) : Prop :=
  v_ct v' = v_ct v /\ v_bi v' = v_bi v /\
  match v_data v with
  | VConst c => exists c', v_data v' = VConst c' /\ (v_bi v = B_NONE -> c' = c) /\ (v_bi v <> B_NONE -> c' = bi (v_bi v))
  | d => v_data v' = d
  end.
Lemma replace_val_kind fuel p b bi v v' : counts p bi -> In b p ->
  replace_val fuel p b v = Ok v' -> same_kind (bi (nb_id b)) v v'.
Proof.
  intros Ct Hb H. destruct (Ct b Hb) as [B1 B2]. unfold replace_val in H. unfold same_kind.
  destruct (v_data v) eqn:D; try (apply Ok_inj in H; subst v'; rewrite D; auto; fail).
  destruct (v_bi v) eqn:Bv.
  - apply Ok_inj in H; subst v'. rewrite Bv. split; [reflexivity|]. split; [reflexivity|]. exists c. rewrite D.
    split; [reflexivity|]. split; congruence.
  - apply Ok_inj in H; subst v'. cbn [v_ct v_bi v_data]. split; [reflexivity|]. split; [exact Bv || auto|].
    exists (insn_cnt b). split; [reflexivity|]. split; [congruence|]. intros _. rewrite B1. apply insn_cnt_number.
  - apply bind_ok in H. destruct H as [c0 [E H]]. apply Ok_inj in H; subst v'. cbn [v_ct v_bi v_data].
    split; [reflexivity|]. split; [exact Bv || auto|]. exists c0. split; [reflexivity|]. split; [congruence|]. intros _.
    destruct (critical_loop_chain _ _ _ _ _ E) as (z & Hz & ->). rewrite (B2 z Hz), insn_cnt_number. lia.
Qed.
Lemma kind_evalv bi s v v' : same_kind bi v v' -> evalv bi s v' = evalv bi s v.
Proof.
  intros [K1 [K2 K3]]. unfold evalv. destruct (v_data v) eqn:D.
  - destruct K3 as (c' & -> & H1 & H2). f_equal. f_equal. unfold const_val. rewrite K2. destruct (v_bi v); auto.
  - rewrite K3. reflexivity.
  - rewrite K3. reflexivity.
  - rewrite K3. reflexivity.
  - rewrite K3. reflexivity.
  - rewrite K3. reflexivity.
Qed.
Lemma kind_const_val bi v v' c : same_kind bi v v' -> v_data v = VConst c ->
  exists c', v_data v' = VConst c' /\ const_val bi v' c' = const_val bi v c.
Proof.
  intros [K1 [K2 K3]] D. rewrite D in K3. destruct K3 as (c' & D' & H1 & H2). exists c'. split; [exact D'|].
  unfold const_val. rewrite K2. destruct (v_bi v); auto.
Qed.
Lemma kind_addr bi s v v' off ot : same_kind bi v v' ->
  addr_of bi s (mkAddr v' off ot) = addr_of bi s (mkAddr v off ot).
Proof.
  intros K. unfold addr_of. cbn [a_ot a_val a_off]. destruct ot; auto. destruct (v_data v) eqn:D.
  - destruct (kind_const_val _ _ _ _ K D) as (c' & -> & ->). reflexivity.
  - destruct K as [_ [_ K]]. rewrite D in K. rewrite K. reflexivity.
  - destruct K as [_ [_ K]]. rewrite D in K. rewrite K. reflexivity.
  - destruct K as [_ [_ K]]. rewrite D in K. rewrite K. reflexivity.
  - destruct K as [_ [_ K]]. rewrite D in K. rewrite K. reflexivity.
  - destruct K as [_ [_ K]]. rewrite D in K. rewrite K. reflexivity.
Qed.
Lemma kind_resolved bi v v' : same_kind bi v v' -> resolved bi v'.
Proof.
  intros [K1 [K2 K3]]. unfold resolved. destruct (v_data v) eqn:D; try (rewrite K3; exact I).
  destruct K3 as (c' & -> & H1 & H2). rewrite K2. auto.
Qed.
Lemma kind_const_ok bi v v' : same_kind bi v v' -> const_ok bi v -> const_ok bi v'.
Proof.
  intros [K1 [K2 K3]] C. unfold const_ok in *. destruct (v_data v) eqn:D; try (rewrite K3; exact C).
  destruct K3 as (c' & -> & H1 & H2). rewrite K1, K2. destruct (v_bi v); auto. rewrite (H1 eq_refl). exact C.
Qed.
Lemma kind_is_const bi v v' : same_kind bi v v' -> is_const v' = is_const v.
Proof.
  intros [K1 [K2 K3]]. unfold is_const. destruct (v_data v) eqn:D; try (rewrite K3; reflexivity).
  destruct K3 as (c' & -> & _). reflexivity.
Qed.
Lemma kind_in_reg bi v v' : same_kind bi v v' -> in_reg v' = in_reg v.
Proof.
  intros [K1 [K2 K3]]. unfold in_reg. destruct (v_data v) eqn:D; try (rewrite K3; reflexivity).
  destruct K3 as (c' & -> & _). reflexivity.
Qed.
Lemma kind_narrow bi v v' : same_kind bi v v' -> narrow_const v -> narrow_const v'.
Proof. intros K N H. rewrite (kind_is_const _ _ _ K) in H. destruct K as [-> _]. apply N. exact H. Qed.
Lemma kind_nonzero bi v v' : same_kind bi v v' -> nonzero_const bi v -> nonzero_const bi v'.
Proof.
  intros K N. unfold nonzero_const in *. destruct (v_data v) eqn:D.
  - destruct (kind_const_val _ _ _ _ K D) as (c' & -> & ->). exact N.
  - destruct K as [_ [_ K]]. rewrite D in K. rewrite K. exact I.
  - destruct K as [_ [_ K]]. rewrite D in K. rewrite K. exact I.
  - destruct K as [_ [_ K]]. rewrite D in K. rewrite K. exact I.
  - destruct K as [_ [_ K]]. rewrite D in K. rewrite K. exact I.
  - destruct K as [_ [_ K]]. rewrite D in K. rewrite K. exact I.
Qed.

(** The instruction after replacement. *)
Definition same_insn (bi : bconst -> Z) (n n' : ninsn) : Prop :=
  n_pos n' = n_pos n /\ i_op (n_i n') = i_op (n_i n) /\ Forall2 (same_kind bi) (i_vals (n_i n)) (i_vals (n_i n')) /\
  i_vrt (n_i n') = i_vrt (n_i n) /\ i_alu (n_i n') = i_alu (n_i n) /\ i_bb1 (n_i n') = i_bb1 (n_i n) /\
  i_bb2 (n_i n') = i_bb2 (n_i n) /\ i_u (n_i n') = i_u (n_i n) /\ i_ity (n_i n') = i_ity (n_i n) /\
  i_imm64 (n_i n') = i_imm64 (n_i n) /\ a_off (i_addr (n_i n')) = a_off (i_addr (n_i n)) /\
  a_ot (i_addr (n_i n')) = a_ot (i_addr (n_i n)) /\
  (i_op (n_i n) = LOADRAW \/ i_op (n_i n) = STORERAW -> same_kind bi (a_val (i_addr (n_i n))) (a_val (i_addr (n_i n')))).
Lemma replace_insn_same fuel p b bi n n' : counts p bi -> In b p ->
  replace_insn fuel p b n = Ok n' -> same_insn (bi (nb_id b)) n n'.
Proof.
  intros Ct Hb H. unfold replace_insn in H.
  apply bind_ok in H. destruct H as [vs [E H]]. apply bind_ok in H. destruct H as [ph [_ H]].
  assert (Fv : Forall2 (same_kind (bi (nb_id b))) (i_vals (n_i n)) vs).
  { apply omap_Forall2 in E. clear -E Ct Hb. induction E; constructor; auto. eapply replace_val_kind; eauto. }
  destruct (iop_eqb (i_op (n_i n)) LOADRAW || iop_eqb (i_op (n_i n)) STORERAW) eqn:Q.
  - apply bind_ok in H. destruct H as [a [Ea H]]. apply Ok_inj in H. subst n'.
    assert (Np : iop_eqb (i_op (n_i n)) PHI = false).
    { unfold iop_eqb in *. destruct (iop_eq_dec (i_op (n_i n)) PHI) as [e|]; auto. rewrite e in Q. discriminate. }
    rewrite Np. unfold same_insn. cbn. do 12 (split; [solve [reflexivity|exact Fv]|]).
    intros _. eapply replace_val_kind; eauto.
  - apply Ok_inj in H. subst n'.
    unfold same_insn. destruct (iop_eqb (i_op (n_i n)) PHI); cbn; do 12 (split; [solve [reflexivity|exact Fv]|]);
      (intros [e|e]; rewrite e in Q; discriminate).
Qed.

Lemma same_fexec w bi n n' s : same_insn bi n n' -> fexec w bi n' s = fexec w bi n s.
Proof.
  destruct n as [x d], n' as [x' d']. unfold same_insn. cbn [n_i n_pos].
  intros (-> & Ho & Fv & Hr & Ha & H1 & H2 & Hu & Hi & Hm & Hof & Hot & Had).
  unfold fexec. cbn [n_i n_pos]. rewrite Ho, Hr, Ha, H1, H2, Hu, Hi, Hm.
  assert (Ad : i_op x = LOADRAW \/ i_op x = STORERAW -> addr_of bi s (i_addr x') = addr_of bi s (i_addr x)).
  { intros Q. specialize (Had Q). destruct (i_addr x) as [v o t], (i_addr x') as [v' o' t']. cbn [a_val a_off a_ot] in *. subst.
    apply kind_addr. exact Had. }
  inversion Fv as [E1 E2|v0 v0' l l' K0 Fv1 E1 E2].
  - destruct (i_op x); try reflexivity. rewrite Ad by auto. reflexivity.
  - inversion Fv1 as [E3 E4|v1 v1' l1 l1' K1 Fv2 E3 E4].
    + rewrite !(kind_evalv _ _ _ _ K0). destruct (i_op x); try reflexivity; rewrite Ad by auto; reflexivity.
    + inversion Fv2 as [E5 E6|v2 v2' l2 l2' K2 Fv3 E5 E6].
      * assert (Da : (v_data v1' = v_data v1 \/ exists c c', v_data v1 = VConst c /\ v_data v1' = VConst c')).
        { destruct K1 as [_ [_ K1]]. destruct (v_data v1) eqn:D; auto. destruct K1 as (c' & -> & _). eauto. }
        assert (Db : (v_data v0' = v_data v0 \/ exists c c', v_data v0 = VConst c /\ v_data v0' = VConst c')).
        { destruct K0 as [_ [_ K0]]. destruct (v_data v0) eqn:D; auto. destruct K0 as (c' & -> & _). eauto. }
        rewrite !(kind_evalv _ _ _ _ K0), !(kind_evalv _ _ _ _ K1).
        destruct (i_op x); try reflexivity; try (rewrite Ad by auto; reflexivity).
        -- destruct Da as [->|(c & c' & -> & ->)]; reflexivity.
        -- destruct Db as [->|(c & c' & -> & ->)]; reflexivity.
      * destruct (i_op x); try reflexivity; rewrite Ad by auto; reflexivity.
Qed.
Lemma same_tr_ok bi n n' : same_insn bi n n' -> tr_ok bi n -> tr_ok bi n' /\ resolved_insn bi n'.
Proof.
  destruct n as [x d], n' as [x' d']. unfold same_insn, resolved_insn, tr_ok. cbn [n_i n_pos].
  intros (-> & Ho & Fv & Hr & Ha & H1 & H2 & Hu & Hi & Hm & Hof & Hot & Had) (C & Nr & K).
  split.
  - rewrite Ho, Ha, Hr. split; [|split].
    + clear -Fv C. induction Fv; [constructor|]. inversion C; subst. constructor; auto. eapply kind_const_ok; eauto.
    + intros Q v E. specialize (Nr Q).
      inversion Fv as [E1 E2|v0 v0' l l' K0 Fv1 E1 E2]; rewrite <- E1, <- E2 in *; [discriminate|].
      inversion Fv1 as [E3 E4|v1 v1' l1 l1' K1 Fv2 E3 E4]; subst; [discriminate|].
      cbn [nth_error] in *. injection E as <-. eapply kind_narrow; eauto.
    + inversion Fv as [E1 E2|v0 v0' l l' K0 Fv1 E1 E2]; rewrite <- E1 in K.
      * destruct (i_op x); try exact K. rewrite (kind_is_const _ _ _ (Had (or_introl eq_refl))). exact K.
      * inversion Fv1 as [E3 E4|v1 v1' l1 l1' K1 Fv2 E3 E4]; subst.
        -- destruct (i_op x); try exact K.
           ++ intros Q. eapply kind_narrow; eauto.
           ++ rewrite (kind_is_const _ _ _ (Had (or_introl eq_refl))). exact K.
           ++ rewrite (kind_in_reg _ _ _ K0). destruct K as [Ka Kb]. split; [exact Ka|]. eapply kind_narrow; eauto.
        -- inversion Fv2 as [E5 E6|v2 v2' l2 l2' K2 Fv3 E5 E6]; subst.
           ++ destruct (i_op x); try exact K; try (rewrite (kind_is_const _ _ _ (Had (or_introl eq_refl))); exact K).
              intros Q. eapply kind_nonzero; eauto.
           ++ destruct (i_op x); try exact K; try (rewrite (kind_is_const _ _ _ (Had (or_introl eq_refl))); exact K).
  - clear -Fv. induction Fv; constructor; auto. eapply kind_resolved; eauto.
Qed.

(** ** Jumps *)
Lemma jump_lands w bi bp n s c c' t s' prog ipos :
  tr_ok bi n -> resolved_insn bi n -> translate_one n = Ok c -> relocate_one bp ipos (n, c) = Ok c' ->
  st_ok s -> fexec w bi n s = Some (FJmp t s') -> code_at prog ipos (encs c') ->
  s' = s /\ exists pc, isa_run w prog 1 ipos s = INext pc s /\ slots_list c = 1 /\
    ((exists T, pos_of bp t = Some T /\ pc = ipos + 1 + s16 (T - ipos - 1)) \/
     (is_cond_jmp_op (i_op (n_i n)) = true /\ t = i_bb1 (n_i n) /\ pc = ipos + 1)).
Proof.
  intros Tr Rs T Rl O X Cd. destruct n as [x d]. unfold resolved_insn in Rs. cbn [n_i] in *.
  unfold relocate_one in Rl. cbn [fst snd n_i] in Rl.
  destruct (iop_eqb (i_op x) JA) eqn:Ja.
  - unfold iop_eqb in Ja. destruct (iop_eq_dec (i_op x) JA) as [Ho|]; [|discriminate].
    unfold translate_one in T. cbn [n_i] in T. rewrite Ho in T. apply Ok_inj in T. subst c.
    destruct (pos_of bp (i_bb1 x)) as [tg|] eqn:P; [|discriminate]. apply Ok_inj in Rl. subst c'.
    unfold fexec in X. cbn [n_i n_pos] in X. rewrite Ho in X.
    destruct (i_vals x) as [|v0 [|v1 [|]]]; try discriminate X.
    assert (i_bb1 x = t /\ s = s') as [<- <-] by (split; congruence). split; [reflexivity|].
    exists (ipos + 1 + s16 (tg - ipos - 1)). rewrite isa_run_one.
    cbn [encs flat_map enc set_off p_wide p_op p_dst p_src p_off p_imm app] in Cd. apply step_at in Cd.
    split; [|split; [reflexivity|left; eauto]].
    unfold isa_step. rewrite Cd. cbn [b_code]. change (5 mod 8) with 5. cbv iota beta. unfold isa_jmp. cbn [b_code b_off].
    change (5 / 16) with 0. change (Z.odd (5 / 8)) with false. reflexivity.
  - destruct (is_cond_jmp_op (i_op x)) eqn:Cj.
    2:{ (* other instructions do not jump *)
      exfalso. unfold fexec in X. cbn [n_i n_pos] in X.
      destruct (i_op x); cbn in Cj; try discriminate; try (cbn in Ja; discriminate);
        destruct (i_vals x) as [|v0 [|v1 [|]]]; try discriminate X; cbn [alu_op_of cmp_op_of] in X;
      repeat match type of X with
      | obind ?e _ = Some _ => destruct e eqn:?; [|discriminate X]; cbn [obind] in X
      | next ?e = Some _ => destruct e eqn:?; [|discriminate X]; cbn [next obind] in X
      | (if ?b then _ else _) = Some _ => destruct b eqn:?; [|discriminate X]
      | match ?e with _ => _ end = Some _ => destruct e eqn:?; try discriminate X
      end; try discriminate X. }
    destruct (cond_cmp _ Cj) as [cm Hc].
    assert (exists v0 v1, i_vals x = [v0; v1]) as (v0 & v1 & Hv).
    { unfold fexec in X. cbn [n_i n_pos] in X. destruct (i_op x); cbn in Cj; try discriminate;
      destruct (i_vals x) as [|v0 [|v1 [|]]]; try discriminate X; eauto. }
    rewrite (fexec_jmp w bi x d s cm v0 v1 Hc Hv) in X.
    destruct (width_of (i_alu x)) as [wd|] eqn:Wd; [|discriminate X]. cbn [obind] in X.
    destruct (evalv bi s v0) as [a|] eqn:E0; [|discriminate X]. cbn [obind] in X.
    destruct (evalv bi s v1) as [b|] eqn:E1; [|discriminate X]. cbn [obind] in X.
    assert (Ht : t = if cmp_fn cm wd a b then i_bb2 x else i_bb1 x) by congruence.
    assert (s' = s) as -> by congruence. split; [reflexivity|]. clear X.
    assert (T' : tr_cond_jmp (mkN x d) = Ok c).
    { unfold translate_one in T. cbn [n_i] in T. destruct (i_op x); cbn in Cj; try discriminate; exact T. }
    clear T. unfold tr_cond_jmp in T'. cbn [n_i] in T'. unfold vt_k, val_k in T'. rewrite Hv in T'. cbn [nth_error nth] in T'.
    destruct (vtype v0) as [t0| | | |] eqn:T0; try discriminate. cbn [bind] in T'.
    destruct (vtype v1) as [t1| | | |] eqn:T1; try discriminate. cbn [bind] in T'.
    destruct t0; try discriminate.
    destruct (vtype_reg_eval _ _ _ _ E0 T0) as [R0 [Ea _]].
    destruct Tr as [C _]. cbn [n_i] in C. rewrite Hv in C, Rs.
    assert (C1 : const_ok bi v1) by (inversion C as [|? ? ? C']; inversion C'; assumption).
    assert (Rs1 : resolved bi v1) by (inversion Rs as [|? ? ? C']; inversion C'; assumption).
    (* the jump after relocation, in both addressing forms *)
    assert (Fin : forall nib xx src imm off tg,
      (xx = 0 \/ xx = 1) -> cmp_of nib = Some cm -> 0 < nib <= 13 -> nib <> 8 -> nib <> 9 -> nib <> 4 ->
      (xx = 1 -> is_reg src = true) -> cmp_fn cm wd a (if xx =? 1 then rget s src else imm) = cmp_fn cm wd a b ->
      fetch prog ipos = Some (mkBpf (16 * nib + 8 * xx + jmp_cls wd) (reg_of v0) src off imm) ->
      pos_of bp (i_bb2 x) = Some tg -> off = s16 (tg - ipos - 1) ->
      exists pc, isa_run w prog 1 ipos s = INext pc s /\
       ((exists T, pos_of bp t = Some T /\ pc = ipos + 1 + s16 (T - ipos - 1)) \/ (true = true /\ t = i_bb1 x /\ pc = ipos + 1))).
    { intros nib xx src imm off tg Hx Hn Rn N8 N9 N4 Rsrc Hcmp F P Hoff. rewrite isa_run_one.
      rewrite (step_jmp w prog ipos s _ _ _ _ _ _ _ Hx F).
      destruct (code_fields nib xx (jmp_cls wd)) as [_ [Q1 Q2]]; [destruct wd; cbn; lia|exact Hx|].
      unfold isa_jmp. cbn [b_code b_dst b_src b_off b_imm]. rewrite Q1, Q2, R0.
      assert ((nib =? 0) = false /\ (nib =? 8) = false /\ (nib =? 9) = false /\ (nib =? 4) = false) as (-> & -> & -> & ->)
        by (rewrite !Z.eqb_neq; lia).
      cbn [negb orb]. rewrite Hn. cbn [option_map]. rewrite Ea in Hcmp.
      assert ((xx =? 1) && negb (is_reg src) = false) as ->.
      { destruct Hx as [-> | ->]; cbn; [reflexivity|]. rewrite Rsrc by reflexivity. reflexivity. }
      rewrite Hcmp, <- Ea. eexists. split; [reflexivity|].
      destruct (cmp_fn cm wd a b).
      - left. exists tg. rewrite Ht. split; [exact P|]. rewrite Hoff. reflexivity.
      - right. rewrite Ht. auto. }
    destruct t1; try discriminate.
    + apply bind_ok in T'. destruct T' as [cc [A T']]. apply Ok_inj in T'. subst c.
      destruct (jmp_nib _ _ _ Hc A) as (nib & -> & Hn & Rn & N8 & N9 & N4).
      destruct (vtype_reg_eval _ _ _ _ E1 T1) as [R1 [Eb _]].
      destruct (pos_of bp (i_bb2 x)) as [tg|] eqn:P; [|discriminate]. apply Ok_inj in Rl. subst c'.
      cbn [encs flat_map enc set_off p_wide p_op p_dst p_src p_off p_imm app] in Cd.
      rewrite !reg_mod16 in Cd by assumption. apply step_at in Cd. rewrite (jmp_class_w _ _ Wd) in Cd.
      replace (16 * nib + jmp_cls wd + 8) with (16 * nib + 8 * 1 + jmp_cls wd) in Cd by lia.
      destruct (Fin nib 1 _ _ _ tg (or_intror eq_refl) Hn Rn N8 N9 N4 (fun _ => R1) ltac:(cbn; rewrite Eb; reflexivity) Cd eq_refl eq_refl) as (pc & H1 & H2).
      exists pc. split; [exact H1|]. split; [reflexivity|exact H2].
    + assert (K32 : v_ct v1 <> A_64) by (intros Q; rewrite Q in T'; discriminate).
      assert (Ic : is_const v1 = true) by (eapply vtype_const_is; eauto).
      assert (K : v_ct v1 = A_32).
      { unfold const_ok in C1. unfold is_const in Ic. destruct (v_data v1); try discriminate.
        destruct (v_bi v1), (v_ct v1); try contradiction; congruence. }
      rewrite K in T'. apply bind_ok in T'. destruct T' as [cc [A T']]. apply Ok_inj in T'. subst c.
      destruct (jmp_nib _ _ _ Hc A) as (nib & -> & Hn & Rn & N8 & N9 & N4).
      pose proof (const_d_range bi v1 C1 Rs1 Ic K) as Rg.
      pose proof (eval_resolved bi s v1 b Rs1 E1 Ic) as Eb.
      destruct (pos_of bp (i_bb2 x)) as [tg|] eqn:P; [|discriminate]. apply Ok_inj in Rl. subst c'.
      cbn [encs flat_map enc set_off p_wide p_op p_dst p_src p_off p_imm app] in Cd.
      rewrite reg_mod16 in Cd by assumption. change (0 mod 16) with 0 in Cd. apply step_at in Cd. rewrite (jmp_class_w _ _ Wd) in Cd.
      replace (16 * nib + jmp_cls wd) with (16 * nib + 8 * 0 + jmp_cls wd) in Cd by lia.
      destruct (Fin nib 0 0 (s32 (const_d v1)) _ tg (or_introl eq_refl) Hn Rn N8 N9 N4 ltac:(discriminate)
                  ltac:(cbn; rewrite Eb, cmp_fn_u64_r, s32_small by exact Rg; reflexivity) Cd eq_refl eq_refl) as (pc & H1 & H2).
      exists pc. split; [exact H1|]. split; [reflexivity|exact H2].
Qed.

(** ** A block of translated instructions *)
Lemma relocate_one_slots bp ipos i c : relocate_one bp ipos i = Ok c -> slots_list c = slots_list (snd i).
Proof.
  unfold relocate_one. intros H.
  assert (Q : forall b, match snd i with
     | [t] => match pos_of bp b with Some target => Ok [set_off (s16 (target - ipos - 1)) t] | None => UB end
     | _ => Crit end = Ok c -> slots_list c = slots_list (snd i)).
  { intros b E. destruct (snd i) as [|t [|]]; try discriminate. destruct (pos_of bp b); [|discriminate].
    apply Ok_inj in E. subst c. reflexivity. }
  destruct (iop_eqb _ JA); [eapply Q; exact H|]. destruct (is_cond_jmp_op _); [eapply Q; exact H|].
  apply Ok_inj in H. subst c. reflexivity.
Qed.
Lemma slots_list_app a b : slots_list (a ++ b) = slots_list a + slots_list b.
Proof. induction a; cbn [app slots_list]; [lia|]. rewrite IHa. lia. Qed.
Lemma encs_app a b : encs (a ++ b) = encs a ++ encs b.
Proof. unfold encs. apply flat_map_app. Qed.
Lemma relocate_insns_slots bp l : forall ipos c, relocate_insns bp ipos l = Ok c -> slots_list c = slots_insns l.
Proof.
  induction l as [|i l IH]; intros ipos c H; cbn [relocate_insns slots_insns] in *.
  - apply Ok_inj in H. subst c. reflexivity.
  - apply bind_ok in H. destruct H as [a [Ea H]]. apply bind_ok in H. destruct H as [b [Eb H]]. apply Ok_inj in H. subst c.
    rewrite slots_list_app, (relocate_one_slots _ _ _ _ Ea), (IH _ _ Eb). reflexivity.
Qed.
Lemma relocate_blocks_slots bp t : forall ipos c, relocate_blocks bp ipos t = Ok c -> slots_list c = total_slots t.
Proof.
  induction t as [|b t IH]; intros ipos c H; cbn [relocate_blocks total_slots fold_right] in *.
  - apply Ok_inj in H. subst c. reflexivity.
  - apply bind_ok in H. destruct H as [x [Ex H]]. apply bind_ok in H. destruct H as [y [Ey H]]. apply Ok_inj in H. subst c.
    rewrite slots_list_app, (relocate_insns_slots _ _ _ _ Ex), (IH _ _ Ey). reflexivity.
Qed.
Lemma slots_insns_nonneg l : 0 <= slots_insns l.
Proof. induction l as [|i l IH]; cbn [slots_insns]; [lia|]. pose proof (slots_list_nonneg (snd i)). lia. Qed.

(** Where execution of a block arrives. *)
Definition lands (w : world) (bp : list (nat * Z)) (prog : list bpf_insn) (ipos : Z) (l : list tinsn) (s : st) (r : fres) : Prop :=
  match r with
  | FNext s' => exists k, isa_run w prog k ipos s = INext (ipos + slots_insns l) s'
  | FRet v s' => exists k, isa_run w prog k ipos s = IExit v s'
  | FJmp t s' => exists k pc, isa_run w prog k ipos s = INext pc s' /\
      (pos_of bp t = Some pc \/
       (pc = ipos + slots_insns l /\ exists n, last_insn (map fst l) = Some n /\
          is_cond_jmp_op (i_op (n_i n)) = true /\ i_bb1 (n_i n) = t))
  end.

Lemma block_sim w bi bp prog : 
  forall l l2 s ipos c r,
  Forall2 (same_insn bi) l2 (map fst l) -> trsafe w bi l2 s -> cond_last l2 ->
  Forall (fun i => translate_one (fst i) = Ok (snd i)) l ->
  relocate_insns bp ipos l = Ok c -> code_at prog ipos (encs c) ->
  (forall t T p, pos_of bp t = Some T -> ipos <= p < ipos + slots_insns l -> - 2 ^ 15 <= T - p - 1 < 2 ^ 15) ->
  st_ok s -> fseq w bi l2 s = Some r -> lands w bp prog ipos l s r.
Proof.
  induction l as [|i l IH]; intros l2 s ipos c r Sm Ts Cl Tr Rl Cd Rg O X.
  - inversion Sm; subst. cbn [fseq] in X. apply Some_inj in X. subst r. exists 0%nat. cbn. f_equal. lia.
  - cbn [map] in Sm. inversion Sm as [|n0 n1 l2' ? Hn Sm']; subst. clear Sm.
    cbn [trsafe] in Ts. destruct Ts as [T0 Ts]. destruct (same_tr_ok _ _ _ Hn T0) as [T1 Rs].
    inversion Tr as [|? ? Ti Tl]; subst.
    cbn [relocate_insns] in Rl. apply bind_ok in Rl. destruct Rl as [ca [Ea Rl]]. apply bind_ok in Rl. destruct Rl as [cb [Eb Rl]].
    apply Ok_inj in Rl. subst c. rewrite encs_app in Cd. apply code_at_app in Cd. destruct Cd as [Ca Cb].
    rewrite encs_length, (relocate_one_slots _ _ _ _ Ea) in Cb.
    cbn [fseq] in X. destruct (fexec w bi n0 s) as [q|] eqn:E; [|discriminate]. cbn [obind] in X.
    pose proof (fexec_ok _ _ _ _ _ O E) as Oq.
    rewrite <- (same_fexec w bi _ _ s Hn) in E.
    pose proof (slots_list_nonneg (snd i)) as P1. pose proof (slots_insns_nonneg l) as P2.
    assert (Op : i_op (n_i (fst i)) = i_op (n_i n0)) by (destruct Hn as (_ & H & _); exact H).
    destruct q as [s1|t s1|v s1].
    + assert (Nj : i_op (n_i (fst i)) <> JA).
      { intros Q. unfold fexec in E. rewrite Q in E. destruct (i_vals (n_i (fst i))) as [|? [|? []]]; discriminate E. }
      assert (Nc : is_cond_jmp_op (i_op (n_i (fst i))) = false).
      { destruct (is_cond_jmp_op (i_op (n_i (fst i)))) eqn:Cj; auto. exfalso.
        destruct (cond_cmp _ Cj) as [cm Hc]. destruct (fst i) as [x d]. cbn [n_i] in *.
        assert (exists v0 v1, i_vals x = [v0; v1]) as (v0 & v1 & Hv).
        { unfold fexec in E. cbn [n_i n_pos] in E. destruct (i_op x); cbn in Cj; try discriminate;
          destruct (i_vals x) as [|v0 [|v1 [|]]]; try discriminate E; eauto. }
        rewrite (fexec_jmp w bi x d s cm v0 v1 Hc Hv) in E.
        destruct (width_of _), (evalv bi s v0), (evalv bi s v1); cbn [obind] in E; discriminate E. }
      assert (Ec : ca = snd i).
      { unfold relocate_one in Ea. destruct (iop_eqb (i_op (n_i (fst i))) JA) eqn:Q.
        - unfold iop_eqb in Q. destruct (iop_eq_dec _ JA); congruence.
        - rewrite Nc in Ea. apply Ok_inj in Ea. congruence. }
      subst ca.
      pose proof (translate_one_runs w bi (fst i) s (snd i) (FNext s1) prog ipos T1 Rs Ti O E Ca Nj Nc) as R1.
      cbn [runs] in R1.
      assert (L : lands w bp prog (ipos + slots_list (snd i)) l s1 r).
      { apply (IH l2' s1 _ cb r); auto.
        - eapply cond_last_tl; eauto.
        - intros t T p HT Hp. apply Rg with (t := t); auto. cbn [slots_insns]. lia. }
      unfold lands in *. destruct r as [s2|t s2|v s2].
      * destruct L as [k L]. exists (length (snd i) + k)%nat. rewrite isa_run_add, R1, L. cbn [slots_insns]. f_equal. lia.
      * destruct L as (k & pc & L & D). exists (length (snd i) + k)%nat, pc. rewrite isa_run_add, R1, L. split; [reflexivity|].
        destruct D as [D|(-> & n & Ln & Cn & Bn)]; [left; exact D|right]. split; [cbn [slots_insns]; lia|].
        exists n. split; [|auto]. cbn [map]. rewrite last_insn_cons; auto. destruct l; [discriminate|discriminate].
      * destruct L as [k L]. exists (length (snd i) + k)%nat. rewrite isa_run_add, R1, L. reflexivity.
    + apply Some_inj in X. subst r.
      destruct i as [n c]. cbn [fst snd] in *.
      destruct (jump_lands w bi bp n s c ca t s1 prog ipos T1 Rs Ti Ea O E Ca) as [-> (pc & R1 & Sl & D)].
      exists 1%nat, pc. split; [exact R1|].
      destruct D as [(T & HT & ->)|(Cn & -> & ->)].
      * left. rewrite HT. f_equal. rewrite s16_small; [lia|]. apply (Rg t T ipos HT). cbn [slots_insns snd]. lia.
      * right. assert (l = []).
        { assert (l2' = []) by (apply (Cl [] n0 l2' eq_refl); congruence). subst l2'. inversion Sm' as [E1 E2|]. destruct l; [reflexivity|discriminate]. }
        subst l. cbn [slots_insns snd]. split; [lia|]. exists n. split; [reflexivity|auto].
    + apply Some_inj in X. subst r.
      assert (Ret : i_op (n_i (fst i)) <> JA /\ is_cond_jmp_op (i_op (n_i (fst i))) = false).
      { split.
        - intros Q. unfold fexec in E. rewrite Q in E. destruct (i_vals (n_i (fst i))) as [|? [|? []]]; discriminate E.
        - destruct (is_cond_jmp_op (i_op (n_i (fst i)))) eqn:Cj; auto. exfalso.
          destruct (cond_cmp _ Cj) as [cm Hc]. destruct (fst i) as [x d]. cbn [n_i] in *.
          assert (exists v0 v1, i_vals x = [v0; v1]) as (v0 & v1 & Hv).
          { unfold fexec in E. cbn [n_i n_pos] in E. destruct (i_op x); cbn in Cj; try discriminate;
            destruct (i_vals x) as [|v0 [|v1 [|]]]; try discriminate E; eauto. }
          rewrite (fexec_jmp w bi x d s cm v0 v1 Hc Hv) in E.
          destruct (width_of _), (evalv bi s v0), (evalv bi s v1); cbn [obind] in E; discriminate E. }
      destruct Ret as [Nj Nc].
      assert (Ec : ca = snd i).
      { unfold relocate_one in Ea. destruct (iop_eqb (i_op (n_i (fst i))) JA) eqn:Q.
        - unfold iop_eqb in Q. destruct (iop_eq_dec _ JA); congruence.
        - rewrite Nc in Ea. apply Ok_inj in Ea. congruence. }
      subst ca.
      pose proof (translate_one_runs w bi (fst i) s (snd i) (FRet v s1) prog ipos T1 Rs Ti O E Ca Nj Nc) as R1.
      exists (length (snd i)). exact R1.
Qed.

(** ** Whole programs *)
Lemma total_slots_app a b : total_slots (a ++ b) = total_slots a + total_slots b.
Proof. unfold total_slots. induction a; cbn [app fold_right]; [lia|]. rewrite IHa. lia. Qed.
Lemma total_slots_nonneg a : 0 <= total_slots a.
Proof. unfold total_slots. induction a as [|b a IH]; cbn [fold_right]; [lia|]. pose proof (slots_insns_nonneg (snd b)). lia. Qed.
Lemma pos_of_at t1 b t2 : forall i, NoDup (map fst (t1 ++ b :: t2)) ->
  pos_of (block_pos (t1 ++ b :: t2) i) (fst b) = Some (i + total_slots t1).
Proof.
  unfold pos_of. induction t1 as [|a t1 IH]; intros i N; cbn [app block_pos find].
  - cbn [fst]. rewrite Nat.eqb_refl. cbn. f_equal. lia.
  - cbn [fst]. destruct (Nat.eqb_spec (fst a) (fst b)) as [e|].
    + exfalso. cbn [app map] in N. inversion N as [|? ? N1 _]. apply N1. rewrite map_app. apply in_or_app. right. left. auto.
    + rewrite IH by (cbn [app map] in N; inversion N; assumption).
      change (total_slots (a :: t1)) with (slots_insns (snd a) + total_slots t1). f_equal. lia.
Qed.
Lemma pos_of_range t : forall i x T, pos_of (block_pos t i) x = Some T -> i <= T <= i + total_slots t.
Proof.
  unfold pos_of. induction t as [|a t IH]; intros i x T H; cbn [block_pos find] in H; [discriminate|].
  change (total_slots (a :: t)) with (slots_insns (snd a) + total_slots t).
  pose proof (slots_insns_nonneg (snd a)). pose proof (total_slots_nonneg t).
  cbn [fst] in H. destruct (Nat.eqb (fst a) x).
  - cbn in H. apply Some_inj in H. lia.
  - apply IH in H. lia.
Qed.
Lemma relocate_blocks_app bp t1 b t2 : forall i l, relocate_blocks bp i (t1 ++ b :: t2) = Ok l ->
  exists l1 c l2, relocate_insns bp (i + total_slots t1) (snd b) = Ok c /\ l = l1 ++ c ++ l2 /\ slots_list l1 = total_slots t1.
Proof.
  induction t1 as [|a t1 IH]; intros i l H; cbn [app relocate_blocks] in H; apply bind_ok in H; destruct H as [x [Ex H]];
    apply bind_ok in H; destruct H as [y [Ey H]]; apply Ok_inj in H; subst l.
  - exists [], x, y. cbn. rewrite Z.add_0_r. auto.
  - destruct (IH _ _ Ey) as (l1 & c & l2 & H1 & -> & H2).
    change (total_slots (a :: t1)) with (slots_insns (snd a) + total_slots t1).
    exists (x ++ l1), c, l2. rewrite Z.add_assoc. split; [exact H1|]. split; [rewrite app_assoc; reflexivity|].
    rewrite slots_list_app, H2, (relocate_insns_slots _ _ _ _ Ex). reflexivity.
Qed.

Lemma fseq_next_last w bi l : forall s s', fseq w bi l s = Some (FNext s') ->
  match last_insn l with
  | Some n => exists s0, fexec w bi n s0 = Some (FNext s')
  | None => True
  end.
Proof.
  induction l as [|n l IH]; intros s s' X; [exact I|]. cbn [fseq] in X.
  destruct (fexec w bi n s) as [q|] eqn:E; [|discriminate]. cbn [obind] in X. destruct q; try discriminate X.
  destruct l as [|m l].
  - cbn [fseq] in X. apply Some_inj in X. cbn [last_insn]. exists s. congruence.
  - rewrite last_insn_cons by discriminate. eapply IH; eauto.
Qed.
Lemma fexec_next_open w bi n s s' : fexec w bi n s = Some (FNext s') ->
  iop_eqb (i_op (n_i n)) JA || iop_eqb (i_op (n_i n)) RET || is_cond_jmp_op (i_op (n_i n)) = false.
Proof.
  intros E. destruct n as [x d]. unfold fexec in E. cbn [n_i n_pos] in *.
  destruct (i_op x); try reflexivity; exfalso; destruct (i_vals x) as [|v0 [|v1 [|]]]; try discriminate E;
  cbn [alu_op_of cmp_op_of] in E;
  repeat match type of E with
  | obind ?e _ = Some _ => destruct e eqn:?; [|discriminate E]; cbn [obind] in E
  | next ?e = Some _ => destruct e eqn:?; [|discriminate E]; cbn [next obind] in E
  | (if ?b then _ else _) = Some _ => destruct b eqn:?; [|discriminate E]
  | match ?e with _ => _ end = Some _ => destruct e eqn:?; try discriminate E
  end; try discriminate E.
Qed.
Lemma last_insn_in l n : last_insn l = Some n -> exists l1, l = l1 ++ [n].
Proof.
  induction l as [|a l IH]; [discriminate|]. destruct l as [|b l].
  - cbn. intros [= ->]. exists []. reflexivity.
  - rewrite last_insn_cons by discriminate. intros H. destruct (IH H) as [l1 ->]. exists (a :: l1). reflexivity.
Qed.
Lemma Forall2_last {R : ninsn -> ninsn -> Prop} l l' n' : Forall2 R l l' -> last_insn l' = Some n' ->
  exists n, last_insn l = Some n /\ R n n'.
Proof.
  induction 1 as [|a b l l' H F IH]; [discriminate|]. destruct F as [|a2 b2 l l' H2 F].
  - cbn. intros [= <-]. eauto.
  - rewrite !last_insn_cons by discriminate. exact IH.
Qed.
Lemma lookup_split p id b : lookup p id = Some b -> exists pre post, p = pre ++ b :: post /\ nb_id b = id.
Proof.
  induction p as [|a p IH]; [discriminate|]. cbn [lookup]. destruct (Nat.eqb_spec (nb_id a) id).
  - intros [= ->]. exists [], p. auto.
  - intros H. destruct (IH H) as (pre & post & -> & E). exists (a :: pre), post. auto.
Qed.

Section prog.
Context (w : world) (bi : nat -> bconst -> Z) (succ : nat -> option nat) (fuel : nat) (p p1 p2 : nprog) (t : list tblock)
  (l : list preinsn) (code : list bpf_insn).
Hypothesis (Ln : layout_ok succ p) (No : normalize p = Ok p1) (Rp : replace_builtin fuel p1 = Ok p2)
  (Tr : translate p2 = Ok t) (Re : relocate t = Ok l) (Sy : synthesize (total_slots t) l = Ok code)
  (Cn : counts p1 bi) (Sz : Z.of_nat (length code) <= 2 ^ 15)
  (Nk : forall b, In b p -> Forall (norm_ok (bi (nb_id b))) (nb_insns b)).

Lemma code_encs : code = encs l.
Proof.
  pose proof (relocate_blocks_slots _ _ _ _ Re) as H. rewrite <- H in Sy.
  rewrite synthesize_ok in Sy. apply Ok_inj in Sy. auto.
Qed.
Lemma code_len : Z.of_nat (length code) = total_slots t.
Proof. rewrite code_encs, encs_length. exact (relocate_blocks_slots _ _ _ _ Re). Qed.

(** ids along the phases *)
Lemma ids_phases {B} (f : nblock -> outcome B) (g : B -> nat) q r : (forall b c, f b = Ok c -> g c = nb_id b) ->
  omap f q = Ok r -> map g r = map nb_id q.
Proof.
  intros Hf. revert r. induction q as [|b q IH]; intros r H; cbn [omap] in H.
  - apply Ok_inj in H. subst r. reflexivity.
  - apply bind_ok in H. destruct H as [x [E H]]. apply bind_ok in H. destruct H as [y [E2 H]]. apply Ok_inj in H. subst r.
    cbn [map]. rewrite (Hf _ _ E), (IH _ E2). reflexivity.
Qed.
Lemma ids1 q r : normalize q = Ok r -> map nb_id r = map nb_id q.
Proof.
  apply (ids_phases _ nb_id). intros b c H. apply bind_ok in H. destruct H as [x [_ H]]. apply Ok_inj in H. subst c. reflexivity.
Qed.
Lemma ids2 p0 q r : omap (fun b => do l <- omap (replace_insn fuel p0 b) (nb_insns b); Ok (set_nb l b)) q = Ok r -> map nb_id r = map nb_id q.
Proof.
  apply (ids_phases _ nb_id). intros b c H. apply bind_ok in H. destruct H as [x [_ H]]. apply Ok_inj in H. subst c. reflexivity.
Qed.
Lemma ids3 q r : translate q = Ok r -> map fst r = map nb_id q.
Proof.
  apply (ids_phases _ fst). intros b c H. apply bind_ok in H. destruct H as [x [_ H]]. apply Ok_inj in H. subst c. reflexivity.
Qed.

Lemma split_phases pre b post : p = pre ++ b :: post ->
  exists l1 l2 lt tpre tpost,
    oflat normalize_one (nb_insns b) = Ok l1 /\
    (exists b1, In b1 p1 /\ nb_id b1 = nb_id b /\ nb_insns b1 = l1 /\ omap (replace_insn fuel p1 b1) l1 = Ok l2) /\
    omap (fun n => do t <- translate_one n; Ok (n, t)) l2 = Ok lt /\
    t = tpre ++ (nb_id b, lt) :: tpost /\ map fst tpost = map nb_id post.
Proof.
  intros E. pose proof No as N. pose proof Rp as R. pose proof Tr as T.
  unfold normalize in N. rewrite E in N. apply omap_app in N. destruct N as (a1 & a2 & _ & N & Ep1).
  apply omap_cons in N. destruct N as (b1 & post1 & Nb & Np & ->).
  apply bind_ok in Nb. destruct Nb as [l1 [Nl Nb]]. apply Ok_inj in Nb. subst b1.
  unfold replace_builtin in R. match type of R with omap ?f _ = _ => set (F := f) in R end. rewrite Ep1 in R. apply omap_app in R. destruct R as (a3 & a4 & _ & R & Ep2).
  apply omap_cons in R. destruct R as (b2 & post2 & Rb & Rp' & ->).
  unfold F in Rb. apply bind_ok in Rb. destruct Rb as [l2 [Rl Rb]]. apply Ok_inj in Rb. subst b2.
  unfold translate in T. rewrite Ep2 in T. apply omap_app in T. destruct T as (a5 & a6 & _ & T & Et).
  apply omap_cons in T. destruct T as (b3 & post3 & Tb & Tp & ->).
  apply bind_ok in Tb. destruct Tb as [lt [Tl Tb]]. apply Ok_inj in Tb. subst b3.
  exists l1, l2, lt, a5, post3. split; [exact Nl|]. split.
  - exists (set_nb l1 b). split; [rewrite Ep1; apply in_or_app; right; left; reflexivity|]. split; [reflexivity|]. split; [reflexivity|exact Rl].
  - split; [exact Tl|]. split; [exact Et|]. etransitivity; [exact (ids3 _ _ Tp)|]. etransitivity; [exact (ids2 _ _ _ Rp')|]. exact (ids1 _ _ Np).
Qed.

Lemma t_nodup : NoDup (map fst t).
Proof.
  replace (map fst t) with (map nb_id p); [exact (proj1 Ln)|]. symmetry. etransitivity; [exact (ids3 _ _ Tr)|]. etransitivity; [exact (ids2 _ _ _ Rp)|]. exact (ids1 _ _ No).
Qed.

Let bp := block_pos t 0.

Lemma pstep_sim id s r : st_ok s -> pstep w bi succ p id s = Some r ->
  exists pc, pos_of bp id = Some pc /\
  match r with
  | PGo u s' => st_ok s' /\ exists k pc', isa_run w code k pc s = INext pc' s' /\ pos_of bp u = Some pc'
  | PRet v s' => exists k, isa_run w code k pc s = IExit v s'
  end.
Proof.
  intros O X. unfold pstep in X. destruct (lookup p id) as [b|] eqn:Lk; [|discriminate].
  destruct (lookup_split _ _ _ Lk) as (pre & post & Ep & <-).
  destruct (split_phases _ _ _ Ep) as (l1 & l2 & lt & tpre & tpost & N1 & (b1 & Hb1 & Id & Eb1 & R1) & T1 & Et & Ids).
  destruct (proj2 Ln _ _ _ Ep) as [Lc Lo].
  assert (Cl : cond_last (nb_insns b)) by (intros m1 n m2 E C; exact (proj1 (Lc m1 n m2 E C))).
  assert (Hbp : In b p) by (rewrite Ep; apply in_or_app; right; left; reflexivity).
  destruct (fseq w (bi (nb_id b)) (nb_insns b) s) as [q|] eqn:Fq; [|discriminate].
  destruct (normalize_body w _ _ _ _ _ (Nk b Hbp) Cl N1 O Fq) as (q' & Fq' & Ag & Ts).
  destruct (normalize_cond_last _ _ Cl N1) as [Cl1 Nt].
  assert (Sm : Forall2 (same_insn (bi (nb_id b))) l1 l2).
  { apply omap_Forall2 in R1. rewrite <- Id. clear -R1 Cn Hb1. induction R1; constructor; auto.
    eapply replace_insn_same; eauto. }
  assert (Et2 : map fst lt = l2 /\ Forall (fun i => translate_one (fst i) = Ok (snd i)) lt).
  { apply omap_Forall2 in T1. clear -T1. induction T1 as [|a c l2 lt H F [IH1 IH2]]; [split; [reflexivity|constructor]|].
    apply bind_ok in H. destruct H as [x [E H]]. apply Ok_inj in H. subst c. cbn [map fst snd]. split; [congruence|].
    constructor; auto. }
  destruct Et2 as [El2 Tf].
  pose proof Re as Re'. unfold relocate in Re'. rewrite Et in Re' at 2.
  destruct (relocate_blocks_app _ _ _ _ _ _ Re') as (c1 & c & c2 & Rc & El & Sl). cbn [snd] in Rc. rewrite Z.add_0_l in Rc.
  set (P := total_slots tpre) in *.
  assert (Cd : code_at code P (encs c)).
  { pose proof (code_at_self code) as Cs. rewrite code_encs in Cs at 2. rewrite El, !encs_app in Cs.
    apply code_at_app in Cs. destruct Cs as [_ Cs]. apply code_at_app in Cs. destruct Cs as [Cs _].
    rewrite encs_length, Sl, Z.add_0_l in Cs. exact Cs. }
  pose proof t_nodup as Nd. rewrite Et in Nd.
  assert (Pb : pos_of bp (nb_id b) = Some P).
  { unfold bp. rewrite Et. pose proof (pos_of_at tpre (nb_id b, lt) tpost 0 Nd) as H. etransitivity; [exact H|]. f_equal. }
  assert (Pn : forall u, hd_id post = Some u -> pos_of bp u = Some (P + slots_insns lt)).
  { intros u Hu. destruct post as [|b' post']; [discriminate|]. cbn [hd_id] in Hu. injection Hu as <-.
    destruct tpost as [|tb tpost']; [discriminate|]. cbn [map] in Ids. injection Ids as I1 _.
    unfold bp. rewrite Et. rewrite <- I1.
    assert (Ea : tpre ++ (nb_id b, lt) :: tb :: tpost' = (tpre ++ [(nb_id b, lt)]) ++ tb :: tpost') by (rewrite <- app_assoc; reflexivity).
    rewrite Ea. rewrite Ea in Nd. etransitivity; [exact (pos_of_at (tpre ++ [(nb_id b, lt)]) tb tpost' 0 Nd)|]. f_equal.
    rewrite Z.add_0_l. etransitivity; [exact (total_slots_app tpre [(nb_id b, lt)])|]. unfold P, total_slots. cbn [fold_right snd]. lia. }
  assert (Ld : lands w bp code P lt s q').
  { eapply (block_sim w (bi (nb_id b))); [rewrite El2; exact Sm|exact Ts|exact Cl1|exact Tf|exact Rc|exact Cd| |exact O|exact Fq'].
    intros u T q0 HT Hq. apply pos_of_range in HT. pose proof code_len as CL.
    assert (total_slots t = P + (slots_insns lt + total_slots tpost)).
    { rewrite Et, total_slots_app. reflexivity. }
    pose proof (total_slots_nonneg tpre). pose proof (total_slots_nonneg tpost). fold P in H0. lia. }
  assert (Last : forall u, last_nt (nb_insns b) = Some u -> hd_id post = Some u).
  { intros u Hu. unfold last_nt in Hu. destruct (last_insn (nb_insns b)) as [n|] eqn:Li; [|discriminate].
    destruct (last_insn_in _ _ Li) as [m Em]. unfold not_taken in Hu. destruct (is_cond_jmp_op _) eqn:Cj; [|discriminate].
    injection Hu as <-. exact (proj2 (Lc m n [] Em Cj)). }
  pose proof (fseq_ok _ _ _ _ _ O Fq) as Oq.
  exists P. split; [exact Pb|].
  destruct q as [s1|u s1|v s1].
  - assert (q' = FNext s1) as -> by (destruct Ag as [A|(?&?&_&A&_)]; [auto|discriminate]).
    destruct (succ (nb_id b)) as [u|] eqn:Su; [|discriminate]. apply Some_inj in X. subst r. split; [exact Oq|].
    destruct Ld as [k Lk']. exists k, (P + slots_insns lt). split; [exact Lk'|]. apply Pn. apply Lo; auto.
    unfold ends_open. pose proof (fseq_next_last _ _ _ _ _ Fq) as Hl. destruct (last_insn (nb_insns b)) as [n|]; auto.
    destruct Hl as [s0 Hl]. apply fexec_next_open in Hl. rewrite Hl. reflexivity.
  - apply Some_inj in X. subst r. split; [exact Oq|]. destruct Ag as [A|(f & s0 & Lt & A & ->)].
    + subst q'. destruct Ld as (k & pc & Lk' & D). exists k, pc. split; [exact Lk'|].
      destruct D as [D|(-> & n' & Ln' & Cj' & Bb)]; [exact D|]. apply Pn. apply Last.
      rewrite El2 in Ln'. destruct (Forall2_last _ _ _ Sm Ln') as (n & Lnn & Sn).
      destruct Sn as (_ & So & Sb). assert (Cj : is_cond_jmp_op (i_op (n_i n)) = true) by congruence.
      rewrite (Nt n Lnn Cj). f_equal. intuition congruence.
    + injection A as -> ->. destruct Ld as [k Lk']. exists k, (P + slots_insns lt). split; [exact Lk'|]. apply Pn, Last. exact Lt.
  - apply Some_inj in X. subst r. assert (q' = FRet v s1) as -> by (destruct Ag as [A|(?&?&_&A&_)]; [auto|discriminate]).
    exact Ld.
Qed.

Lemma prun_sim k : forall id s r pc, st_ok s -> prun w bi succ p k id s = Some r -> pos_of bp id = Some pc ->
  match r with
  | PGo u s' => exists k pc', isa_run w code k pc s = INext pc' s' /\ pos_of bp u = Some pc'
  | PRet v s' => exists k, isa_run w code k pc s = IExit v s'
  end.
Proof.
  induction k as [|k IH]; intros id s r pc O X Hp; cbn [prun] in X.
  - apply Some_inj in X. subst r. exists 0%nat, pc. split; [reflexivity|exact Hp].
  - destruct (pstep w bi succ p id s) as [q|] eqn:E; [|discriminate].
    destruct (pstep_sim _ _ _ O E) as (pc0 & Hp0 & H). assert (pc0 = pc) by congruence. subst pc0.
    destruct q as [u s1|v s1].
    + destruct H as (O1 & k1 & pc1 & R1 & Hu). pose proof (IH _ _ _ _ O1 X Hu) as H.
      destruct r as [u2 s2|v s2].
      * destruct H as (k2 & pc2 & R2 & H2). exists (k1 + k2)%nat, pc2. rewrite isa_run_add, R1. auto.
      * destruct H as (k2 & R2). exists (k1 + k2)%nat. rewrite isa_run_add, R1. auto.
    + apply Some_inj in X. subst r. exact H.
Qed.
End prog.
