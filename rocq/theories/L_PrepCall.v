(** Preparing a function for register allocation: helper calls. *)
From Coq Require Import ZArith List Bool Arith Lia Permutation.
From Verif Require Import M_Base M_Ir M_Norm M_Edit M_Ra SpecWord SpecFlat SpecProg SpecSsa SpecIr SpecEdit SpecRa SpecPass SpecShift SpecVirt
  L_Edit L_Uses L_Hist L_Ctor L_Ins L_PassPhi L_Sim L_RaGraph L_Virt L_Prep L_PrepStr L_PrepInv.
From Verif Require Import SpecRa SpecVirt.
Import ListNotations.
Open Scope nat_scope.

(** ** Renaming *)
Definition ren (i r d : nat) : nat := if d =? i then r else d.
Lemma vsim_subst i r v : vsim (ren i r) v (subst_val i (val_insn r) v).
Proof.
  unfold vsim, subst_val, val_target, ren. destruct (v_data v) eqn:D; try reflexivity. destruct (i0 =? i); [reflexivity|exact D].
Qed.
Lemma vsim_id v : vsim (fun d => d) v v.
Proof. unfold vsim. destruct (v_data v) eqn:D; auto. Qed.
Lemma F2_map {A C} (R : A -> C -> Prop) (h : A -> C) l : (forall a, R a (h a)) -> Forall2 R l (map h l).
Proof. intros H. induction l; cbn; constructor; auto. Qed.
Lemma F2_refl {A} (R : A -> A -> Prop) l : (forall a, R a a) -> Forall2 R l l.
Proof. intros H. induction l; constructor; auto. Qed.
Lemma isim_subst i r u x : isim (ren i r) x (set_users u (subst_insn i (val_insn r) x)).
Proof.
  unfold subst_insn.
  constructor.
  - destruct (iop_eqb (i_op x) PHI), (_ || _); cbn; repeat split.
  - destruct (iop_eqb (i_op x) PHI), (_ || _); cbn; apply F2_map; intros; apply vsim_subst.
  - intros O. rewrite O. cbn. apply F2_map. intros [v b]. cbn. split; [apply vsim_subst|reflexivity].
  - intros [O|O]; rewrite O; cbn; (split; [apply vsim_subst|split; reflexivity]).
Qed.
Lemma isim_id u x : isim (fun d => d) x (set_users u x).
Proof.
  constructor; cbn; [repeat split| | |].
  - apply F2_refl. intros. apply vsim_id.
  - intros _. apply F2_refl. intros [v b]. split; [apply vsim_id|reflexivity].
  - intros _. split; [apply vsim_id|auto].
Qed.

(** ** The copies of the arguments *)
Lemma combine_seq_cons {A} k (v : A) l : combine (seq k (length (v :: l))) (v :: l) = (k, v) :: combine (seq (S k) (length l)) l.
Proof. reflexivity. Qed.
Lemma call_args s0 i y bb l2 : i_op y <> PHI -> i_parent y = bb -> f_block (c_f s0) bb <> None ->
  forall args l1 k t n F X I t', ~ In i l1 -> skel s0 t n F X I -> F i = Some y -> I bb = l1 ++ i :: l2 -> i < n ->
  (forall c u, u <> i -> counted (c_f t) c u) -> (forall c, cnt (users_of (c_f t) c) i <= nref c args) ->
  ofold (change_call_arg i) t (combine (seq k (length args)) args) = Ok t' ->
  exists F' X', skel s0 t' (n + length args) F' X' (bupd I bb (l1 ++ seq n (length args) ++ i :: l2)) /\
    (forall j, j < n -> F' j = F j /\ X' j = X j) /\ (forall j, n + length args <= j -> X' j = X j) /\
    (forall m v, nth_error args m = Some v -> F' (n + m) = Some (build bb (K_assign v)) /\ X' (n + m) = Some (ex_fix (n + m) (Z.of_nat (S (k + m))))) /\
    (forall c u, u <> i -> counted (c_f t') c u) /\ (forall c, cnt (users_of (c_f t') c) i = 0).
Proof.
  intros NP PB B. induction args as [|v args IH]; intros l1 k t n F X I t' NI K Hy L Li C1 C2 H.
  - cbn [length seq combine ofold] in H. oks H. exists F, X. rewrite Nat.add_0_r. split.
    { refine (skel_eqv _ _ _ _ _ _ _ _ _ K _ _ _); intros; try reflexivity. unfold bupd. destruct (Nat.eqb_spec b (i_parent y)) as [->|]; [now rewrite L|reflexivity]. }
    split; [auto|]. split; [auto|]. split; [intros [|m] v E; discriminate E|]. split; [auto|]. intros c. specialize (C2 c). unfold nref in C2. cbn in C2. lia.
  - rewrite combine_seq_cons in H. cbn [ofold] in H. bo H t1 E. unfold change_call_arg in E. bo E f Ef. bo E r Ec. destruct r as [t2 m]. cbn [fst snd] in E.
    apply remove_user_spec in Ef as (UE & UU). pose proof (skel_users _ _ _ _ _ _ _ K UE) as K1.
    rewrite <- PB in B, L.
    destruct (skel_create _ _ _ _ _ _ _ _ _ _ _ _ _ _ K1 Hy NP B L NI (or_introl eq_refl) Ec) as (-> & K2 & CC). rewrite PB in B, L, K2. cbn [c_f with_f] in CC.
    unfold pre_color in E. bo E e Ee. apply get_ex_ok in Ee. oks E. rewrite (k_ex _ _ _ _ _ _ K2), upd_eq in Ee. injection Ee as <-.
    pose proof (skel_ex _ _ n (ex_fix n (Z.of_nat (S k))) _ _ _ _ K2) as K3.
    change (vp_size (x_pos (ex0 n ASSIGN))) with 0%Z in H. fold (ex_fix n (Z.of_nat (S k))) in H.
    assert (CE : forall c u, cnt (users_of f c) u = cnt (users_of (c_f t) c) u - (if refers c v && (i =? u) then 1 else 0)).
    { intros c u. rewrite UU. destruct (refers c v); cbn [andb]; [|lia]. rewrite erase_first_count. destruct (Nat.eq_dec i u), (Nat.eqb_spec i u); lia. }
    assert (Fn : F n = None) by (apply (proj1 (k_fr _ _ _ _ _ _ K)); lia).
    assert (NI' : ~ In i (l1 ++ [n])) by (rewrite in_app_iff; intros [?|[?|[]]]; [contradiction|lia]).
    specialize (IH (l1 ++ [n]) (S k) _ (S n) _ _ _ t' NI' K3). apply IH in H; clear IH.
    + destruct H as (F' & X' & K' & P1 & P2 & P3 & P4 & P5). exists F', X'. cbn [length]. rewrite <- Nat.add_succ_comm. split.
      { refine (skel_eqv _ _ _ _ _ _ _ _ _ K' _ _ _); intros; try reflexivity. unfold bupd. destruct (b =? i_parent y); [|reflexivity]. cbn [seq app]. rewrite <- app_assoc. reflexivity. }
      split; [|split; [|split; [|auto]]].
      * intros j Lj. destruct (P1 j ltac:(lia)) as (-> & ->). unfold upd. destruct (Nat.eqb_spec j n); [lia|auto].
      * intros j Lj. rewrite P2 by lia. unfold upd. destruct (Nat.eqb_spec j n); [lia|auto].
      * intros [|m] w E; cbn in E.
        -- injection E as <-. rewrite !Nat.add_0_r. destruct (P1 n ltac:(lia)) as (-> & ->). unfold upd. rewrite Nat.eqb_refl. auto.
        -- replace (n + S m) with (S n + m) by lia. replace (k + S m) with (S k + m) by lia. now apply P3.
    + unfold upd. destruct (Nat.eqb_spec i n); [lia|auto].
    + unfold bupd. rewrite Nat.eqb_refl, <- app_assoc. reflexivity.
    + lia.
    + intros c u Nu. unfold counted. cbn [c_f put_ex with_ex]. rewrite (skel_ops _ _ _ _ _ _ u K2).
      assert (Ou : ops_of (c_f t) u = match F u with Some x => operands x | None => [] end) by apply (skel_ops _ _ _ _ _ _ u K).
      destruct (C1 c u Nu) as (A1 & A2). rewrite Ou in A1, A2. rewrite count_in in A1 |- *. rewrite CC, CE. rewrite andb_comm. destruct (Nat.eqb_spec i u); [congruence|]. cbn [andb].
      unfold upd. destruct (Nat.eqb_spec u n) as [->|Nn].
      * rewrite Nat.eqb_refl, build_assign_ops. rewrite Fn in A2. unfold nref in A2 at 1. cbn in A2. lia.
      * destruct (Nat.eqb_spec n u); [congruence|]. lia.
    + intros c. cbn [c_f put_ex with_ex]. rewrite CC, CE. destruct (Nat.eqb_spec n i); [lia|]. rewrite Nat.eqb_refl, andb_true_r. specialize (C2 c). rewrite nref_cons in C2. destruct (refers c v); lia.
Qed.

(** ** One call *)
Lemma counted_users f : (forall c u, counted f c u) -> users_ok f.
Proof. apply users_counted. Qed.
Lemma zero_uses f d : users_ok f -> users_of f d = [] -> forall u, uses f u d = 0.
Proof. intros U Z u. destruct (uses f u d) eqn:Q; [reflexivity|]. destruct (U u d) as (P & _). rewrite Z in P. destruct P. lia. Qed.
Lemma use_target s u x v d : inv s -> f_insn (c_f s) u = Some x -> In v (operand_values x) -> v_data v = VInsn d -> d < f_ni (c_f s).
Proof.
  intros V X I D. pose proof (use_some _ _ _ _ _ X I D) as P. destruct (td_users _ (n_tidy _ V) u d) as (Q & _). specialize (Q P). apply (f_lt _ V).
  unfold users_of in Q. destruct (f_insn (c_f s) d); [discriminate|destruct Q].
Qed.


Lemma isim_users τ x y u : isim τ x y -> isim τ x (set_users u y).
Proof. intros [A1 A2 A3 A4]. constructor; auto. Qed.
Lemma called_ext s t i x e bb l1 l2 A τ N n' F Xt I h a : inv s -> linked s i -> f_insn (c_f s) i = Some x -> i_op x = CALL -> i_parent x = bb -> In bb (c_reach s) ->
  c_ex s i = Some e -> insns_of (c_f s) bb = l1 ++ i :: l2 ->
  let n := f_ni (c_f s) in let k := length (i_vals x) in
  skel s t n' F Xt I -> (forall b, I b = if b =? bb then l1 ++ seq n k ++ [i] ++ A ++ l2 else insns_of (c_f s) b) ->
  n' = n + k + length A -> A = [] \/ A = [n + k] -> users_ok (c_f t) ->
  (forall x, isim τ x (h x)) -> (forall j, j < n -> j <> i -> F j = option_map h (f_insn (c_f s) j)) -> F i = Some (h (set_vals [] x)) ->
  (forall m v, nth_error (i_vals x) m = Some v -> F (n + m) = Some (build bb (K_assign (N (n + m)))) /\ vsim τ v (N (n + m)) /\ Xt (n + m) = Some (ex_fix (n + m) (Z.of_nat (S m)))) ->
  (A <> [] -> F (n + k) = Some (build bb (K_assign (N (n + k)))) /\ N (n + k) = val_insn a /\ nth_error (c_regs s) 0 = Some a /\ Xt (n + k) = Some (ex0 (n + k) ASSIGN)) ->
  (forall j, j < n -> j <> i -> Xt j = c_ex s j) -> Xt i = Some (set_dst None e) -> (forall j, n' <= j -> Xt j = None) ->
  (forall d, τ d = d \/ (d = i /\ τ d = n + k /\ A = [n + k])) -> (forall u, uses (c_f t) u i = 0) ->
  ext s t τ i bb l1 (seq n k) [i] A l2 N.
Proof.
  intros V L X O PB Hbb Xe Hl n k K HI Hn HA U Hh F1 Fi Fm Fr X1 Xi Xn T Zi.
  assert (Li : i < n) by exact (linked_lt _ V _ L).
  assert (NP : i_op x <> PHI) by (rewrite O; discriminate).
  destruct (n_ex _ V _ _ L X) as (e' & Xe' & No). rewrite Xe in Xe'. injection Xe' as <-.
  assert (OK0 : forall v d, In v (i_vals x) -> v_data v = VInsn d -> In d (c_args s) \/ d = c_sp s \/ tracked s d).
  { intros v d J D. destruct (n_ops _ V i x v d L X) as [?|[?|[(_ & Q)|?]]]; auto; [unfold operand_values; apply in_or_app; now left|congruence]. }
  assert (PL : forall v, In v (i_vals x) -> plain_data (v_data v)).
  { intros v J. apply (n_vals _ V i x v L X). unfold operand_values. apply in_or_app; now left. }
  assert (Hy : i_vals (h (set_vals [] x)) = []).
  { pose proof (is_vals _ _ _ (Hh (set_vals [] x))) as Q. cbn in Q. now inversion Q. }
  assert (Oy : i_op (h (set_vals [] x)) = CALL). { destruct (is_rest _ _ _ (Hh (set_vals [] x))) as (Q & _). rewrite Q. exact O. }
  assert (NEW : forall j, In j (seq n k ++ A) <-> n <= j < n').
  { intros j. rewrite in_app_iff, in_seq. destruct HA as [-> | ->]; cbn [In length] in *; lia. }
  assert (MEM : forall j, In j (seq n k ++ A) -> (exists m v, j = n + m /\ nth_error (i_vals x) m = Some v) \/ (A <> [] /\ j = n + k)).
  { intros j J. rewrite in_app_iff, in_seq in J. destruct J as [J|J].
    - left. destruct (nth_error (i_vals x) (j - n)) as [v|] eqn:Q; [exists (j - n), v; split; [lia|auto]|]. apply nth_error_None in Q. fold k in Q. lia.
    - right. destruct HA as [Q|Q]; rewrite Q in J |- *; [destruct J|]. destruct J as [<-|[]]. split; [discriminate|auto]. }
  assert (TL : forall d, d < n -> τ d = d \/ τ d = n + k) by (intros d _; destruct (T d) as [?|(_ & ? & _)]; auto).
  assert (INS : forall j z, F j = Some z -> exists u, f_insn (c_f t) j = Some (set_users u z)).
  { intros j z Q. destruct (k_insn _ _ _ _ _ _ K j) as (u & E). rewrite Q in E. exists u. exact E. }
  assert (FIX : forall m v u, nth_error (i_vals x) m = Some v -> uses (c_f t) u (n + m) = 0).
  { intros m v u Q. assert (Lm : m < k) by (apply nth_error_Some; congruence).
    destruct (uses (c_f t) u (n + m)) eqn:Us; [reflexivity|]. exfalso. assert (P : 0 < uses (c_f t) u (n + m)) by lia.
    destruct (use_inv _ _ _ P) as (z & v' & Z & Iv & D). destruct (k_insn _ _ _ _ _ _ K u) as (uu & Eu). rewrite Z in Eu.
    assert (SM : forall z0 v0, f_insn (c_f s) u = Some z0 -> In v0 (operand_values z0) -> vsim τ v0 v' -> False).
    { intros z0 v0 Z0 I0 S0. destruct (vsim_data _ _ _ _ S0 D) as (d0 & D0 & E0). pose proof (use_target _ _ _ _ _ V Z0 I0 D0) as Ld. fold n in Ld. destruct (TL d0 Ld); lia. }
    destruct (Nat.lt_ge_cases u n) as [Lu|Gu].
    - destruct (Nat.eq_dec u i) as [->|Nu].
      + rewrite Fi in Eu. cbn in Eu. injection Eu as ->. unfold operand_values in Iv. cbn [i_vals set_users i_op i_phi i_addr] in Iv. rewrite Hy, Oy in Iv. destruct Iv.
      + rewrite F1 in Eu by auto. destruct (f_insn (c_f s) u) as [z0|] eqn:Z0; [|discriminate Eu]. cbn in Eu. injection Eu as ->.
        destruct (isim_ops _ _ _ _ (isim_users _ _ _ uu (Hh z0)) Iv) as (v0 & I0 & S0). exact (SM _ _ eq_refl I0 S0).
    - assert (J : In u (seq n k ++ A)). { apply NEW. split; [auto|]. destruct (Nat.lt_ge_cases u n') as [?|G]; auto. rewrite (proj1 (k_fr _ _ _ _ _ _ K) u G) in Eu. discriminate Eu. }
      destruct (MEM u J) as [(m' & w & -> & Qw)|(Na & ->)].
      + destruct (Fm _ _ Qw) as (Fz & Sv & _). rewrite Fz in Eu. cbn in Eu. injection Eu as ->. unfold operand_values in Iv. cbn in Iv. destruct Iv as [<-|[]].
        destruct (vsim_data _ _ _ _ Sv D) as (d0 & D0 & E0).
        assert (I0 : In w (operand_values x)) by (unfold operand_values; apply in_or_app; left; eapply nth_error_In; eauto).
        pose proof (use_target _ _ _ _ _ V X I0 D0) as Ld. fold n in Ld. destruct (TL d0 Ld); lia.
      + destruct (Fr Na) as (Fz & Sv & Ra & _). rewrite Fz in Eu. cbn in Eu. injection Eu as ->. unfold operand_values in Iv. cbn in Iv. destruct Iv as [<-|[]].
        rewrite Sv in D. cbn in D. injection D as D. destruct (n_regs _ V) as (_ & _ & R). destruct (R _ _ Ra) as (_ & _ & zr & Zr & _).
        assert (a < n) by (apply (f_lt _ V); congruence). lia. }
  constructor.
  - rewrite (k_ni _ _ _ _ _ _ K). fold n. lia.
  - exact (skel_fresh _ _ _ _ _ _ K).
  - apply (k_rest _ _ _ _ _ _ K).
  - apply (k_cfg _ _ _ _ _ _ K).
  - exact U.
  - exact Hbb.
  - right. split; [reflexivity|]. exists x. split; [auto|]. rewrite O. repeat split; try discriminate. now right.
  - exact Hl.
  - intros b. rewrite (k_list _ _ _ _ _ _ K). apply HI.
  - rewrite (k_ni _ _ _ _ _ _ K). split; [|exact NEW]. destruct HA as [-> | ->]; [rewrite app_nil_r; apply seq_NoDup|].
    replace (seq n k ++ [n + k]) with (seq n (S k)) by apply seq_S. apply seq_NoDup.
  - intros j J. rewrite (k_ex _ _ _ _ _ _ K). destruct (MEM j J) as [(m & v & -> & Q)|(Na & ->)].
    + destruct (Fm _ _ Q) as (Fz & Sv & Xz). split; [now apply INS|]. assert (Iv : In v (i_vals x)) by (eapply nth_error_In; eauto).
      split; [exact (vsim_plain _ _ _ Sv (PL _ Iv))|]. split.
      * intros d D. right. destruct (vsim_data _ _ _ _ Sv D) as (d0 & D0 & E0). exists d0. split; [auto|]. eauto.
      * right. assert (Lm : m < k) by (apply nth_error_Some; congruence). pose proof (n_few _ V _ _ L X O). fold k in H. exists (Z.of_nat (S m)). split; [lia|]. split; [exact Xz|]. intros u. exact (FIX _ _ _ Q).
    + destruct (Fr Na) as (Fz & Sv & Ra & Xz). split; [now apply INS|]. rewrite Sv. cbn. split; [exact Logic.I|]. split; [|auto].
      intros d D. injection D as <-. left. eapply nth_error_In; eauto.
  - intros j z Nj Z. assert (Lj : j < n) by (apply (f_lt _ V); congruence). pose proof (F1 j Lj Nj) as Q. rewrite Z in Q. destruct (INS _ _ Q) as (u & Y). eexists. split; [exact Y|]. apply isim_users, Hh.
  - intros j Lj Z. destruct (k_insn _ _ _ _ _ _ K j) as (u & E). fold n in Lj. destruct (Nat.eq_dec j i) as [->|Nj]; [congruence|]. rewrite F1, Z in E by auto. exact E.
  - intros x0 X0. rewrite X in X0. injection X0 as <-. destruct (INS _ _ Fi) as (u & Y). eexists. split; [exact Y|]. split; [exact (is_rest _ _ _ (Hh (set_vals [] x)))|].
    intros v' Iv. unfold operand_values in Iv. cbn [i_vals set_users i_op i_phi i_addr] in Iv. rewrite Hy, Oy in Iv. destruct Iv.
  - intros j Lj Nj. rewrite (k_ex _ _ _ _ _ _ K). now apply X1.
  - right. split; [eauto|]. split; [rewrite (k_ex _ _ _ _ _ _ K), Xi, Xe; reflexivity|]. split; [exact Zi|]. intros y Y. destruct (INS _ _ Fi) as (u & Y'). rewrite Y in Y'. injection Y' as ->. exact Hy.
  - intros y _ Y _. destruct (INS _ _ Fi) as (u & Y'). rewrite Y in Y'. injection Y' as ->. exact Hy.
  - intros j G. rewrite (k_ex _ _ _ _ _ _ K). apply Xn. rewrite (k_ni _ _ _ _ _ _ K) in G. exact G.
  - intros d. destruct (T d) as [?|(-> & Q & QA)]; [now left|right]. split; [auto|]. rewrite Q, QA. split; [apply in_or_app; right; now left|].
    destruct (Fr ltac:(rewrite QA; discriminate)) as (_ & _ & _ & Xz). rewrite (k_ex _ _ _ _ _ _ K), Xz. split; [auto|].
    intros e' Xe'. rewrite Xe in Xe'. injection Xe' as <-. destruct (x_fin e) eqn:Ff; [|reflexivity]. destruct (no_fix _ _ _ No Ff) as (Q' & _). congruence.
  - intros x0 _ X0. rewrite X in X0. injection X0 as <-. rewrite O. discriminate.
  - intros x0 _ X0. rewrite X in X0. injection X0 as <-. rewrite O. split; discriminate.
  - intros j J. destruct (MEM j J) as [(m & v & -> & Q)|(Na & ->)].
    + destruct (Fm _ _ Q) as (Fz & Sv & Xz). destruct (v_data v) eqn:D; unfold vsim in Sv; rewrite D in Sv; try (left; eauto; fail);
        (right; split; [reflexivity|]; exists x; split; [exact X|]; rewrite Sv; apply in_or_app; left; eapply nth_error_In; eauto).
    + left. destruct (Fr Na) as (Fz & Sv & Ra & Xz). rewrite Sv. eexists. reflexivity.
  - intros j d J D. rewrite (k_ex _ _ _ _ _ _ K). destruct (MEM j J) as [(m & v & -> & Q)|(Na & ->)].
    + right. destruct (Fm _ _ Q) as (Fz & Sv & Xz). assert (Lm : m < k) by (apply nth_error_Some; congruence). split; [apply in_seq; lia|]. split; [reflexivity|]. split; [eauto|].
      destruct (vsim_data _ _ _ _ Sv D) as (d0 & D0 & E0). exists x, v, d0. split; [exact X|]. split; [exact O|]. split; [apply in_or_app; left; eapply nth_error_In; eauto|auto].
    + left. destruct (Fr Na) as (Fz & Sv & Ra & Xz). rewrite Sv in D. cbn in D. injection D as <-. split; [eapply nth_error_In; eauto|exact Xz].
Qed.

(** what the call becomes *)
Record called (s t : cgs) (i : nat) (x : insn) (l1 l2 : list nat) (A : list nat) (τ : nat -> nat) (N : nat -> value) : Prop := {
  cl_ext : ext s t τ i (i_parent x) l1 (seq (f_ni (c_f s)) (length (i_vals x))) [i] A l2 N;
  cl_arg : forall m v, nth_error (i_vals x) m = Some v -> vsim τ v (N (f_ni (c_f s) + m)) /\ c_ex t (f_ni (c_f s) + m) = Some (ex_fix (f_ni (c_f s) + m) (Z.of_nat (S m)));
  cl_call : exists y, f_insn (c_f t) i = Some y /\ i_op y = CALL /\ i_vals y = [] /\ i_u y = i_u x;
  cl_ex : exists e, c_ex t i = Some e /\ x_dst e = None;
  cl_res : (A = [] /\ (forall d, τ d = d) /\ ~ used s i) \/
           exists r a, A = [r] /\ r = f_ni (c_f s) + length (i_vals x) /\ (forall d, τ d = ren i r d) /\ nth_error (c_regs s) 0 = Some a /\ N r = val_insn a /\ c_ex t r = Some (ex0 r ASSIGN) }.
Lemma change_call_one_spec s i x t : inv s -> linked s i -> f_insn (c_f s) i = Some x -> i_op x = CALL -> change_call_one s i = Ok t ->
  exists l1 l2 A τ N, called s t i x l1 l2 A τ N.
Proof.
  intros V L X O H. destruct (live_linked _ V _ L) as (bb & x' & Hbb & Hi & X' & PB). rewrite X in X'. injection X' as <-.
  destruct (n_ex _ V _ _ L X) as (e & Xe & No). pose proof (linked_lt _ V _ L) as Li.
  unfold change_call_one in H. rewrite (proj2 (get_insn_ok _ _ _) X) in H. cbn [bind] in H. rewrite O in H.
  replace (iop_eqb CALL CALL) with true in H by reflexivity. bo H s1 E1. bo H x1 X1. apply get_insn_ok in X1. bo H e1 Xe1. apply get_ex_ok in Xe1.
  apply in_split in Hi as Hl. destruct Hl as (l1 & l2 & Hl).
  pose proof (td_once _ (n_tidy _ V) bb) as ND. rewrite Hl in ND. pose proof ND as ND0. apply NoDup_remove in ND as (_ & ND). rewrite in_app_iff in ND.
  set (n := f_ni (c_f s)) in *.
  assert (NP : i_op x <> PHI) by (rewrite O; discriminate).
  assert (K0 : forall c u, counted (c_f s) c u) by (apply users_counted, (td_users _ (n_tidy _ V))).
  assert (Ops : operands x = i_vals x) by (unfold operands; rewrite O; cbn; now rewrite !app_nil_r).
  destruct (call_args s i x bb l2 NP PB (proj2 (n_reach _ V) _ Hbb) (i_vals x) l1 0 s n _ _ _ s1 ltac:(tauto) (skel_refl s (n_fresh _ V)) X Hl Li
    ltac:(intros; apply K0) ltac:(intros c; destruct (K0 c i) as (_ & Q); unfold ops_of in Q; rewrite X, Ops in Q; exact Q) E1)
    as (F1 & Y1 & K1 & P1 & P2 & P3 & P4 & P5). clear E1.
  set (k := length (i_vals x)) in *.
  destruct (P1 i Li) as (Fi & Yi). rewrite X in Fi. rewrite Xe in Yi.
  destruct (k_insn _ _ _ _ _ _ K1 i) as (ui & Qi). rewrite Fi in Qi. cbn [option_map] in Qi. rewrite X1 in Qi. injection Qi as ->.
  cbn [c_ex with_f] in Xe1. rewrite (k_ex _ _ _ _ _ _ K1), Yi in Xe1. injection Xe1 as <-.
  set (y := set_vals [] x).
  pose proof (skel_put _ _ i (set_users ui x) x _ _ _ _ K1 Fi (ex_intro _ ui eq_refl) y (set_vals [] (set_users ui x)) (ex_intro _ ui eq_refl)) as K2.
  pose proof (skel_ex _ _ i (set_dst None e) _ _ _ _ K2) as K3.
  set (s3 := put_ex (with_f (put_insn (c_f s1) i (set_vals [] (set_users ui x))) s1) i (set_dst None e)) in *.
  assert (U3 : forall c, users_of (c_f s3) c = users_of (c_f s1) c).
  { intros c. unfold users_of. cbn [s3 c_f put_ex with_ex with_f]. rewrite f_insn_put. destruct (Nat.eqb_spec c i) as [->|]; [now rewrite X1|reflexivity]. }
  assert (C3 : users_ok (c_f s3)).
  { apply users_counted. intros c u. unfold counted. rewrite (skel_ops _ _ _ _ _ _ u K3), U3. destruct (Nat.eq_dec u i) as [->|Nu].
    - rewrite upd_eq. assert (Z : operands y = []) by (unfold y, operands; cbn; rewrite O; reflexivity). rewrite Z, P5. unfold nref. cbn. lia.
    - rewrite upd_ne by auto. destruct (P4 c u Nu) as (Q1 & Q2). rewrite (skel_ops _ _ _ _ _ _ u K1) in Q1, Q2. auto. }
  assert (UI : users_of (c_f s3) i = ui) by (rewrite U3; unfold users_of; rewrite X1; reflexivity).
  assert (BB : In bb (c_reach s)) by exact Hbb.
  assert (Lt : f_insn (c_f s) i <> None) by congruence.
  assert (OK0 : forall v d, In v (i_vals x) -> v_data v = VInsn d -> In d (c_args s) \/ d = c_sp s \/ tracked s d).
  { intros v d I D. destruct (n_ops _ V i x v d L X) as [?|[?|[(_ & Q)|?]]]; auto; [unfold operand_values; apply in_or_app; now left|congruence]. }
  assert (PL : forall v, In v (i_vals x) -> plain_data (v_data v)).
  { intros v I. apply (n_vals _ V i x v L X). unfold operand_values. apply in_or_app; now left. }
  assert (Tx : forall u z v d, f_insn (c_f s) u = Some z -> In v (operand_values z) -> v_data v = VInsn d -> d < n) by (intros u z v d A1 A2 A3; exact (use_target s u z v d V A1 A2 A3)).
  assert (Fold : forall j, j < n -> j <> i -> upd F1 i (Some y) j = f_insn (c_f s) j).
  { intros j Lj Nj. rewrite upd_ne by auto. apply (P1 j Lj). }
  assert (Ymk : forall j, n + k <= j -> Y1 j = None).
  { intros j Lj. rewrite P2 by auto. destruct (c_ex s j) as [e'|] eqn:Q; [|reflexivity]. apply (ex_lt _ V) in Q. fold n in Q. lia. }
  assert (NR : forall m v, nth_error (i_vals x) m = Some v -> upd F1 i (Some y) (n + m) = Some (build bb (K_assign v)) /\ upd Y1 i (Some (set_dst None e)) (n + m) = Some (ex_fix (n + m) (Z.of_nat (S m)))).
  { intros m v Q. rewrite !upd_ne by lia. exact (P3 m v Q). }
  destruct ui as [|u0 ur] eqn:Eui.
  - (* no uses *)
    cbn [i_users set_users set_vals] in H. oks H. pose proof (zero_uses _ _ C3 UI) as ZU.
    exists l1, l2, [], (fun d => d), (fun j => nth (j - n) (i_vals x) (val_insn 0)).
    assert (NU : ~ used s i).
    { intros (u & z & v & Lu & Z & Iv & D). destruct (Nat.eq_dec u i) as [->|Nu].
      - rewrite X in Z. injection Z as <-. unfold operand_values in Iv. rewrite O, app_nil_r in Iv. apply In_nth_error in Iv as (m & Q). destruct (NR m v Q) as (Fz & _).
        destruct (k_insn _ _ _ _ _ _ K3 (n + m)) as (uu & E). rewrite Fz in E. cbn [option_map] in E. pose proof (ZU (n + m)) as P.
        pose proof (use_some _ _ _ v i E (or_introl eq_refl) D) as P'. lia.
      - destruct (k_insn _ _ _ _ _ _ K3 u) as (uu & E). assert (Lu' : u < n) by exact (linked_lt _ V _ Lu). rewrite (Fold u Lu' Nu), Z in E. cbn [option_map] in E.
        pose proof (use_some _ _ _ v i E Iv D) as P. rewrite ZU in P. lia. }
    assert (Nth : forall m v, nth_error (i_vals x) m = Some v -> nth (n + m - n) (i_vals x) (val_insn 0) = v).
    { intros m v Q. replace (n + m - n) with m by lia. now apply nth_error_nth. }
    constructor.
    + refine (called_ext s s3 i x e _ l1 l2 [] (fun d => d) _ (n + k) _ _ _ (fun x => x) 0 V L X O eq_refl BB Xe Hl K3 _ _ (or_introl eq_refl) C3 _ _ _ _ _ _ _ _ _ ZU).
      * intros b. reflexivity.
      * cbn [length]. fold n k. lia.
      * intros z. pose proof (isim_id (i_users z) z) as Q. now rewrite set_users_id in Q.
      * intros j Lj Nj. rewrite (Fold j Lj Nj). now destruct (f_insn (c_f s) j).
      * now rewrite upd_eq.
      * intros m v Q. fold n. destruct (NR m v Q) as (Fz & Xz). rewrite (Nth m v Q). split; [exact Fz|]. split; [apply vsim_id|exact Xz].
      * congruence.
      * intros j Lj Nj. rewrite upd_ne by auto. apply (P1 j Lj).
      * now rewrite upd_eq.
      * intros j Lj. rewrite upd_ne by lia. now apply Ymk.
      * now left.
    + intros m v Q. fold n. rewrite (Nth m v Q). split; [apply vsim_id|]. rewrite (k_ex _ _ _ _ _ _ K3). apply (NR m v Q).
    + destruct (k_insn _ _ _ _ _ _ K3 i) as (uu & E). rewrite upd_eq in E. eexists. split; [exact E|]. cbn. auto.
    + exists (set_dst None e). split; [|reflexivity]. rewrite (k_ex _ _ _ _ _ _ K3). apply upd_eq.
    + left. auto.
  - cbn [i_users set_users set_vals] in H. bo H a Ra. bo H c Ec. destruct c as [s4 r]. cbn [fst snd] in H. unfold in_func in H. bo H f Ef. oks H.
    unfold reg_node in Ra. cbn [Z.ltb Z.compare Z.to_nat] in Ra. cbn [s3 c_regs put_ex with_ex with_f] in Ra. destruct (k_rest _ _ _ _ _ _ K1) as (_ & Rr & _). rewrite Rr in Ra.
    destruct (nth_error (c_regs s) 0) as [a'|] eqn:Ra'; [|discriminate Ra]. injection Ra as ->.
    assert (La : a < n). { destruct (n_regs _ V) as (_ & _ & R). destruct (R _ _ Ra') as (_ & _ & zr & Zr & _). apply (f_lt _ V). congruence. }
    assert (Yi' : upd F1 i (Some y) i = Some y) by apply upd_eq.
    assert (Py : i_op y <> PHI) by (cbn; congruence).
    assert (Pb : f_block (c_f s) (i_parent y) <> None) by (apply (n_reach _ V); exact Hbb).
    assert (Ll : bupd (insns_of (c_f s)) (i_parent x) (l1 ++ seq n k ++ i :: l2) (i_parent y) = (l1 ++ seq n k) ++ i :: l2) by (unfold bupd; cbn [y i_parent set_vals]; rewrite Nat.eqb_refl, <- app_assoc; reflexivity).
    assert (Ni : ~ In i (l1 ++ seq n k)). { rewrite in_app_iff, in_seq. intros [?|?]; [tauto|lia]. }
    destruct (skel_create _ _ _ _ _ _ _ _ _ _ _ _ _ _ K3 Yi' Py Pb Ll Ni (or_intror eq_refl) Ec) as (-> & K4 & CC). cbn [y i_parent set_vals] in K4.
    assert (Fn : upd F1 i (Some y) (n + k) = None) by (apply (proj1 (k_fr _ _ _ _ _ _ K3)); lia).
    assert (C4 : users_ok (c_f s4)).
    { apply users_counted. intros c u. apply (proj1 (users_counted _)) with (c := c) (u := u) in C3. unfold counted in *. rewrite count_in in *. rewrite (skel_ops _ _ _ _ _ _ u K4), CC.
      rewrite (skel_ops _ _ _ _ _ _ u K3) in C3. destruct (Nat.eq_dec u (n + k)) as [->|Nu].
      - rewrite upd_eq, Nat.eqb_refl, build_assign_ops. rewrite Fn in C3. change (nref c []) with 0 in C3. lia.
      - rewrite (upd_ne _ (n + k)) by auto. destruct (Nat.eqb_spec (n + k) u); [congruence|]. rewrite Nat.add_0_r. exact C3. }
    assert (Rf : refers i (val_insn (n + k)) = false). { unfold refers, val_target. cbn. apply Nat.eqb_neq. lia. }
    destruct (skel_replace _ _ _ _ _ _ _ _ _ K4 C4 Rf Ef) as (C5 & K5).
    set (r := n + k) in *. set (h := subst_insn i (val_insn r)) in *.
    assert (ZU : forall u, uses (c_f (with_f f s4)) u i = 0).
    { intros u. rewrite uses_nref, (skel_ops _ _ _ _ _ _ u K5). destruct (upd _ _ _ u) as [z|]; cbn [option_map]; [|reflexivity]. unfold h. rewrite operands_subst. now apply nref_subst_self. }
    set (N := fun j => if j =? r then val_insn a else subst_val i (val_insn r) (nth (j - n) (i_vals x) (val_insn 0))).
    exists l1, l2, [r], (ren i r), N.
    assert (NN : forall m v, nth_error (i_vals x) m = Some v -> N (n + m) = subst_val i (val_insn r) v /\ n + m <> r).
    { intros m v Q. assert (m < k) by (apply nth_error_Some; congruence). unfold N. destruct (Nat.eqb_spec (n + m) r); [unfold r in *; lia|]. split; [|auto]. replace (n + m - n) with m by lia. f_equal. now apply nth_error_nth. }
    assert (Nr : N r = val_insn a) by (unfold N; now rewrite Nat.eqb_refl).
    assert (Hb : forall v, h (build (i_parent x) (K_assign v)) = build (i_parent x) (K_assign (subst_val i (val_insn r) v))) by reflexivity.
    constructor.
    + refine (called_ext s _ i x e _ l1 l2 [r] (ren i r) _ (S r) _ _ _ h a V L X O eq_refl BB Xe Hl K5 _ _ (or_intror eq_refl) C5 _ _ _ _ _ _ _ _ _ ZU).
      * intros b. unfold bupd. destruct (b =? i_parent x); [|reflexivity]. fold n k. rewrite <- app_assoc. reflexivity.
      * cbn [length]. fold n k r. lia.
      * intros z. pose proof (isim_subst i r (i_users z) z) as Q. rewrite <- subst_insn_set_users, set_users_id in Q. exact Q.
      * intros j Lj Nj. fold n in Lj. rewrite (upd_ne _ r) by (unfold r; lia). rewrite (Fold j Lj Nj). reflexivity.
      * rewrite upd_ne by (unfold r; lia). rewrite upd_eq. reflexivity.
      * intros m v Q. fold n. destruct (NN m v Q) as (Q1 & Q2). destruct (NR m v Q) as (Fz & Xz). rewrite !(upd_ne _ r) by auto. rewrite Fz, Xz, Q1. cbn [option_map]. rewrite Hb.
        split; [reflexivity|]. split; [apply vsim_subst|reflexivity].
      * intros _. fold n k r. rewrite !upd_eq. cbn [option_map]. rewrite Hb, Nr. split; [|auto]. f_equal. unfold subst_val, val_target. cbn [v_data val_insn]. destruct (Nat.eqb_spec a i) as [->|]; [|reflexivity].
        exfalso. destruct (n_regs _ V) as (_ & _ & R). destruct (R _ _ Ra') as (_ & NL & _). contradiction.
      * intros j Lj Nj. fold n in Lj. rewrite upd_ne by (unfold r; lia). rewrite upd_ne by auto. apply (P1 j Lj).
      * rewrite upd_ne by (unfold r; lia). now rewrite upd_eq.
      * intros j Lj. rewrite !upd_ne by (unfold r in *; lia). apply Ymk. unfold r in *. lia.
      * intros d. unfold ren. destruct (Nat.eqb_spec d i) as [->|]; [right|now left]. auto.
    + intros m v Q. fold n. destruct (NN m v Q) as (Q1 & Q2). rewrite Q1. split; [apply vsim_subst|]. rewrite (k_ex _ _ _ _ _ _ K5), upd_ne by auto. apply (NR m v Q).
    + destruct (k_insn _ _ _ _ _ _ K5 i) as (uu & E). rewrite upd_ne, upd_eq in E by (unfold r; lia). cbn [option_map] in E. eexists. split; [exact E|].
      unfold h, subst_insn, y. cbn [i_op set_vals]. rewrite O. cbn. auto.
    + exists (set_dst None e). split; [|reflexivity]. rewrite (k_ex _ _ _ _ _ _ K5), upd_ne by (unfold r; lia). apply upd_eq.
    + right. exists r, a. split; [auto|]. split; [reflexivity|]. split; [auto|]. split; [auto|]. split; [auto|]. rewrite (k_ex _ _ _ _ _ _ K5). apply upd_eq.
Qed.
