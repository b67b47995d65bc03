(** Executions of a function and of the function with some instructions left out. *)
From Verif Require Import SpecWord SpecIsa SpecFlat SpecSsa SpecIr SpecEdit SpecGs SpecPass.
From Verif Require Import M_Base M_Ir M_Edit L_Edit L_Uses L_Gs.
Open Scope nat_scope.

Lemma same_world_refl s : same_world s s.
Proof. split; reflexivity. Qed.
Lemma same_effect_trans o1 o2 o3 : same_effect o1 o2 -> same_effect o2 o3 -> same_effect o1 o3.
Proof.
  intros A B; inversion A; subst; inversion B; subst; constructor;
    match goal with H : same_world _ ?t, K : same_world ?t _ |- _ => destruct H, K; split; congruence end.
Qed.
Lemma preserves_refl f : preserves f f.
Proof. intros R w bi n prev b s o E. exists o. split; [exact E|]. destruct o; constructor; apply same_world_refl. Qed.
Lemma preserves_trans f g h : preserves f g -> preserves g h -> preserves f h.
Proof.
  intros A B R w bi n prev b s o E. destruct (A _ _ _ _ _ _ _ _ E) as (o1 & E1 & S1).
  destruct (B _ _ _ _ _ _ _ _ E1) as (o2 & E2 & S2). exists o2. split; [exact E2|]. eapply same_effect_trans; eassumption.
Qed.

(** [x'] is [x] up to the users list. *)
Definition upto (o o' : option insn) : Prop :=
  match o, o' with
  | Some x, Some x' => exists l, x' = set_users l x
  | None, None => True
  | _, _ => False
  end.


(** ** One instruction in two states *)
Definition chg (s : sst) (u : nat) (r : option Z) (v : option (nat * Z)) (m : memory) (n : nat) : sst :=
  mkS (match r with Some z => eupd (s_env s) u z | None => s_env s end)
      (match v with Some (a, z) => eupd (s_var s) a z | None => s_var s end) m n.
Inductive par (u : nat) (s t : sst) : sres -> sres -> Prop :=
| par_next r v m n : par u s t (SNext (chg s u r v m n)) (SNext (chg t u r v m n))
| par_jmp b : par u s t (SJmp b s) (SJmp b t)
| par_ret r : par u s t (SRet r s) (SRet r t)
| par_throw : par u s t (SThrow s) (SThrow t).

(** everything but operands and users *)
Definition like (x x' : insn) : Prop :=
  i_op x' = i_op x /\ i_vrt x' = i_vrt x /\ a_off (i_addr x') = a_off (i_addr x) /\ i_alu x' = i_alu x /\
  i_bb1 x' = i_bb1 x /\ i_bb2 x' = i_bb2 x /\ i_u x' = i_u x /\ i_ity x' = i_ity x /\ i_imm64 x' = i_imm64 x.
Definition cell_like (f g : func) (a : nat) : Prop :=
  match f_insn f a with
  | Some y => iop_eqb (i_op y) ALLOC = true ->
              exists y', f_insn g a = Some y' /\ i_op y' = i_op y /\ i_vrt y' = i_vrt y
  | None => True
  end.
(** the operands have the same values *)
Definition agree_ops (bi : bconst -> Z) (f g : func) (x x' : insn) (s t : sst) : Prop :=
  match i_op x with
  | LOAD => forall v, i_vals x = [v] -> exists v', i_vals x' = [v'] /\ v_data v' = v_data v /\
              forall a, v_data v = VInsn a -> s_var s a = s_var t a
  | STORE => forall v w, i_vals x = [v; w] -> exists v' w', i_vals x' = [v'; w'] /\ v_data v' = v_data v /\
              seval bi (s_env s) w = seval bi (s_env t) w' /\ forall a, v_data v = VInsn a -> cell_like f g a
  | PHI => True
  | _ => Forall2 (fun v v' => seval bi (s_env s) v = seval bi (s_env t) v') (i_vals x) (i_vals x')
  end /\
  (i_op x = LOADRAW \/ i_op x = STORERAW ->
   seval bi (s_env s) (a_val (i_addr x)) = seval bi (s_env t) (a_val (i_addr x'))).

Lemma sevals_agree bi e e' l l' : Forall2 (fun v v' => seval bi e v = seval bi e' v') l l' -> sevals bi e l = sevals bi e' l'.
Proof. induction 1 as [|v v' l l' A _ IH]; [reflexivity|]. cbn [sevals]. rewrite A, IH. reflexivity. Qed.

Lemma par_same u s t : s_mem s = s_mem t -> s_nc s = s_nc t -> par u s t (SNext s) (SNext t).
Proof.
  intros A B. replace (SNext s) with (SNext (chg s u None None (s_mem s) (s_nc s))) by (destruct s; reflexivity).
  replace (SNext t) with (SNext (chg t u None None (s_mem s) (s_nc s))) by (rewrite A, B; destruct t; reflexivity).
  constructor.
Qed.
Lemma par_res u s t v : s_mem s = s_mem t -> s_nc s = s_nc t -> par u s t (SNext (sres_ s u v)) (SNext (sres_ t u v)).
Proof.
  intros A B. replace (sres_ s u v) with (chg s u (Some (u64 v)) None (s_mem s) (s_nc s)) by reflexivity.
  replace (sres_ t u v) with (chg t u (Some (u64 v)) None (s_mem s) (s_nc s)) by (rewrite A, B; reflexivity).
  constructor.
Qed.
Definition par_opt (u : nat) (s t : sst) (q q' : option sres) : Prop :=
  match q with None => True | Some r => exists r', q' = Some r' /\ par u s t r r' end.
Lemma par_some u s t r r' : par u s t r r' -> par_opt u s t (Some r) (Some r').
Proof. intros P. exists r'. split; [reflexivity|exact P]. Qed.

Lemma exec_par w bi f g u x x' s t : like x x' -> s_mem s = s_mem t -> s_nc s = s_nc t -> agree_ops bi f g x x' s t ->
  par_opt u s t (sexec w bi f u x s) (sexec w bi g u x' t).
Proof.
  intros (O & V & A & AL & B1 & B2 & U & IT & IM) M N (OPS & AD).
  unfold sexec. rewrite O, V, A, AL, B1, B2, U, IT, IM.
  assert (NX : par_opt u s t (Some (SNext s)) (Some (SNext t))) by (apply par_some, par_same; assumption).
  assert (RS : forall v, par_opt u s t (Some (SNext (sres_ s u v))) (Some (SNext (sres_ t u v))))
    by (intros v; apply par_some, par_res; assumption).
  assert (LM : forall m, par_opt u s t (Some (SNext (smem s m))) (Some (SNext (smem t m)))).
  { intros m. apply par_some. replace (smem s m) with (chg s u None None m (s_nc s)) by reflexivity.
    replace (smem t m) with (chg t u None None m (s_nc s)) by (rewrite N; reflexivity). constructor. }
  assert (LJ : forall b, par_opt u s t (Some (SJmp b s)) (Some (SJmp b t))) by (intros; apply par_some; constructor).
  unfold agree_ops in OPS.
  assert (FO : i_op x = LOAD \/ i_op x = STORE \/ i_op x = PHI \/
     (i_op x <> LOAD /\ i_op x <> STORE /\ Forall2 (fun v v' => seval bi (s_env s) v = seval bi (s_env t) v') (i_vals x) (i_vals x')))
    by (destruct (i_op x); auto; do 3 right; (split; [discriminate|split; [discriminate|exact OPS]])).
  destruct FO as [FO|[FO|[FO|(NL & NS & FO)]]].
  - rewrite FO in *. destruct (i_vals x) as [|v1 [|v2 [|v3 r]]]; try exact I. destruct (OPS v1 eq_refl) as (v' & -> & D & K).
    rewrite D. destruct (v_data v1); try exact I. rewrite (K _ eq_refl). destruct (s_var t i); [apply RS|exact I].
  - rewrite FO in *. destruct (i_vals x) as [|v1 [|v2 [|v3 r]]]; try exact I. destruct (OPS v1 v2 eq_refl) as (v' & w' & -> & D & E & K).
    rewrite D. destruct (v_data v1); try exact I. specialize (K _ eq_refl). unfold cell_like in K.
    destruct (f_insn f i) as [y|]; [|exact I]. cbn [obind]. destruct (iop_eqb (i_op y) ALLOC) eqn:Q; [|exact I].
    destruct (K eq_refl) as (y' & -> & K1 & K2). cbn [obind]. rewrite K1, K2, Q. destruct (vr_bytes (i_vrt y)); cbn [obind]; [|exact I].
    rewrite E. destruct (seval bi (s_env t) w') as [z|]; cbn [obind]; [|exact I]. apply par_some.
    set (q := (z mod 2 ^ (8 * Z.of_nat n))%Z).
    replace (mkS (s_env s) (eupd (s_var s) i q) (s_mem s) (s_nc s)) with (chg s u None (Some (i, q)) (s_mem s) (s_nc s)) by reflexivity.
    replace (mkS (s_env t) (eupd (s_var t) i q) (s_mem t) (s_nc t)) with (chg t u None (Some (i, q)) (s_mem s) (s_nc s)) by (rewrite M, N; reflexivity).
    constructor.
  - rewrite FO. destruct (i_vals x) as [|v1 [|v2 [|v3 r]]]; exact I.
  - clear OPS. pose proof (sevals_agree _ _ _ _ _ FO) as SE.
    destruct (i_op x) eqn:OX; try exact NX;
    try (destruct (vr_bytes (i_vrt x)); cbn [obind]; [|exact I];
         rewrite (AD (or_introl eq_refl)); destruct (seval bi (s_env t) _); cbn [obind]; [|exact I]; rewrite M; apply RS);
    try (destruct ((0 <=? i_ity x)%Z && _)%bool; [apply RS|exact I]);
    try (rewrite SE; destruct (sevals bi (s_env t) _) as [a|]; cbn [obind]; [|exact I]; rewrite <- M, <- N;
         destruct (helper w (s_nc s) (i_u x) (args5 a) (s_mem s)) as [r m]; apply par_some;
         apply (par_next u s t (Some (u64 (nth 0 r 0%Z))) None m (S (s_nc s))));
    destruct FO as [|v1 w1 ? ? E1 FO];
    try (destruct FO as [|v2 w2 ? ? E2 FO]);
    try (destruct FO as [|v3 w3 ? ? E3 FO]);
    cbn [alu_op_of cmp_op_of]; try exact I; try apply LJ; try (apply par_some; constructor);
    try congruence; try (destruct (_ || _)%bool; [|exact I]);
    try (destruct (vr_bytes (i_vrt x)); cbn [obind]; [|exact I]; rewrite (AD (or_intror eq_refl));
         destruct (seval bi (s_env t) (a_val (i_addr x'))); cbn [obind]; [|exact I];
         rewrite E1; destruct (seval bi (s_env t) w1); cbn [obind]; [|exact I]; rewrite M; apply LM);
    try (destruct (width_of (i_alu x)); cbn [obind]; [|exact I]);
    try (rewrite E1; destruct (seval bi (s_env t) w1); cbn [obind]; [|exact I]);
    try (rewrite E2; destruct (seval bi (s_env t) w2); cbn [obind]; [|exact I]);
    first [congruence | apply RS | apply LJ | apply par_some; constructor].
Qed.

Lemma quiet_par R bi f g x x' s t : like x x' -> agree_ops bi f g x x' s t -> squiet R bi x' t = squiet R bi x s.
Proof.
  intros (O & V & A & _) (_ & AD). unfold squiet. rewrite O, V, A. destruct (i_op x); try reflexivity.
  all: rewrite AD by auto; reflexivity.
Qed.
Lemma gexec_par R w bi f g u x x' s t : like x x' -> s_mem s = s_mem t -> s_nc s = s_nc t -> agree_ops bi f g x x' s t ->
  par_opt u s t (gsexec R w bi f u x s) (gsexec R w bi g u x' t).
Proof.
  intros L M N A. unfold gsexec. rewrite (quiet_par R bi f g x x' s t L A). destruct (squiet R bi x s); [|exact I].
  now apply exec_par.
Qed.

Section Drop.
Variables (f g : func) (rm : nat -> bool) (dead : nat -> bool).
Hypothesis Hblk : forall b, match f_block f b, f_block g b with
  | Some x, Some y => b_insns y = filter (fun j => negb (rm j)) (b_insns x) /\ b_succs y = b_succs x
  | None, None => True
  | _, _ => False
  end.
Hypothesis Hins : forall j, rm j = false -> upto (f_insn f j) (f_insn g j).
(** what is removed *)
Hypothesis Hrm : forall j x, rm j = true -> f_insn f j = Some x -> pure_op (i_op x) \/
  (i_op x = STORE /\ forall t r a, i_vals x = t :: r -> v_data t = VInsn a -> dead a = true).
(** what stays does not refer to it *)
Hypothesis Hkeep : forall u x d, rm u = false -> f_insn f u = Some x -> rm d = true -> uses f u d = 0.
Hypothesis Hload : forall u x t r a, rm u = false -> f_insn f u = Some x -> i_op x = LOAD -> i_vals x = t :: r ->
  v_data t = VInsn a -> dead a = false.

Definition rel (s t : sst) : Prop :=
  (forall j, rm j = false -> s_env s j = s_env t j) /\ (forall a, dead a = false -> s_var s a = s_var t a) /\
  s_mem s = s_mem t /\ s_nc s = s_nc t.
Lemma rel_refl s : rel s s.
Proof. repeat split; reflexivity. Qed.
Lemma rel_world s t : rel s t -> same_world s t.
Proof. intros (_ & _ & A & B). split; assumption. Qed.
Lemma rel_chg s t u r v m n : rel s t -> rel (chg s u r v m n) (chg t u r v m n).
Proof.
  intros (A & B & C & D). unfold rel, chg; cbn. split; [|split; [|split; reflexivity]].
  - intros j J. destruct r; [unfold eupd; destruct (j =? u)%nat|]; auto.
  - intros a E. destruct v as [[c z]|]; [unfold eupd; destruct (a =? c)%nat|]; auto.
Qed.
Lemma rel_res s t i v : rel s t -> rel (sres_ s i v) (sres_ t i v).
Proof.
  intros (A & B & C & D). unfold rel, sres_, eupd; cbn. repeat split; auto.
  intros j J. destruct (j =? i)%nat; auto.
Qed.
Lemma rel_res_l s t i v : rm i = true -> rel s t -> rel (sres_ s i v) t.
Proof.
  intros R (A & B & C & D). unfold rel, sres_, eupd; cbn. repeat split; auto.
  intros j J. destruct (j =? i)%nat eqn:E; auto. apply Nat.eqb_eq in E. congruence.
Qed.

Lemma no_use_not d u x v : rm u = false -> f_insn f u = Some x -> In v (operand_values x) -> v_data v = VInsn d -> rm d = false.
Proof.
  intros R X V D. destruct (rm d) eqn:E; [|reflexivity]. exfalso.
  pose proof (Hkeep u x d R X E) as Z. unfold uses in Z. rewrite X in Z.
  assert (In v (filter (is_use_of d) (operand_values x))) as I.
  { apply filter_In. split; [exact V|]. unfold is_use_of. rewrite D. apply Nat.eqb_refl. }
  destruct (filter (is_use_of d) (operand_values x)); [destruct I|discriminate Z].
Qed.
Lemma eval_same bi s t u x v : rel s t -> rm u = false -> f_insn f u = Some x -> In v (operand_values x) ->
  seval bi (s_env s) v = seval bi (s_env t) v.
Proof.
  intros (A & _) R X V. unfold seval. destruct (v_data v) eqn:D; try reflexivity. apply A. eapply no_use_not; eassumption.
Qed.
Lemma in_vals (x : insn) v : In v (i_vals x) -> In v (operand_values x).
Proof. intros V. unfold operand_values. apply in_or_app. left. exact V. Qed.
Lemma in_addr (x : insn) : i_op x = LOADRAW \/ i_op x = STORERAW -> In (a_val (i_addr x)) (operand_values x).
Proof. intros [E|E]; unfold operand_values; rewrite E; apply in_or_app; right; left; reflexivity. Qed.

Lemma agree_kept bi s t u x l : rel s t -> rm u = false -> f_insn f u = Some x ->
  agree_ops bi f g x (set_users l x) s t.
Proof.
  intros L R X.
  assert (EV : forall v, In v (operand_values x) -> seval bi (s_env s) v = seval bi (s_env t) v)
    by (intros v V; eapply eval_same; eassumption).
  split.
  - cbn [i_vals set_users]. destruct (i_op x) eqn:O; try exact I;
      try (assert (FA : forall l, incl l (i_vals x) -> Forall2 (fun v v' => seval bi (s_env s) v = seval bi (s_env t) v') l l)
             by (induction l0 as [|v l0 IH]; intros K; constructor; [apply EV, in_vals, K; left; reflexivity|apply IH; intros z Z; apply K; right; exact Z]);
           apply FA; intros z Z; exact Z).
    + intros v w Hv. exists v, w. split; [exact Hv|]. split; [reflexivity|]. split; [apply EV, in_vals; rewrite Hv; right; left; reflexivity|].
      intros a D. assert (RA : rm a = false) by (eapply no_use_not; try eassumption; apply in_vals; rewrite Hv; left; reflexivity).
      pose proof (Hins a RA) as U. unfold upto in U. unfold cell_like. destruct (f_insn f a) as [y|]; [|exact I].
      destruct (f_insn g a) as [y'|]; [|destruct U]. destruct U as (k & ->). intros _. exists (set_users k y). repeat split.
    + intros v Hv. exists v. split; [exact Hv|]. split; [reflexivity|]. intros a D. apply (proj1 (proj2 L)). eapply Hload; eassumption.
  - intros K. cbn [i_addr set_users]. apply EV, in_addr, K.
Qed.
Lemma like_users x l : like x (set_users l x).
Proof. repeat split. Qed.

Lemma removed_next w bi i x s q : rm i = true -> f_insn f i = Some x -> sexec w bi f i x s = Some q ->
  exists s', q = SNext s' /\ forall t, rel s t -> rel s' t.
Proof.
  intros R X E. destruct (Hrm i x R X) as [P|(O & D)].
  - assert (RR : forall v t, rel s t -> rel (sres_ s i v) t) by (intros; apply rel_res_l; assumption).
    unfold sexec in E.
    destruct (i_op x) eqn:O; try (exfalso; apply P; cbn; tauto);
    try (injection E as <-; exists s; split; [reflexivity|auto]);
    try (destruct (i_vals x) as [|v1 [|v2 [|v3 r]]]; cbn [alu_op_of cmp_op_of] in E; try discriminate E);
    try (match goal with E : (match v_data ?v with _ => _ end) = _ |- _ => destruct (v_data v); try discriminate E end);
    try (match goal with E : (if ?c then _ else _) = _ |- _ => destruct c; try discriminate E end);
    repeat match goal with E : obind ?o _ = _ |- _ => destruct o; cbn [obind] in E; [|discriminate E] end;
    injection E as <-; eexists; (split; [reflexivity|]); intros t L; apply RR, L.
  - unfold sexec in E. rewrite O in E. destruct (i_vals x) as [|v1 [|v2 [|v3 r]]]; try discriminate E.
    destruct (v_data v1) eqn:DV; try discriminate E. specialize (D v1 [v2] i0 eq_refl DV).
    destruct (f_insn f i0) as [y|]; [|discriminate E]. cbn [obind] in E. destruct (iop_eqb (i_op y) ALLOC); [|discriminate E].
    destruct (vr_bytes (i_vrt y)); [|discriminate E]. cbn [obind] in E. destruct (seval bi (s_env s) v2); [|discriminate E].
    cbn [obind] in E. injection E as <-. eexists. split; [reflexivity|]. intros t (A & B & C & F). unfold rel; cbn. repeat split; auto.
    intros a K. unfold eupd. destruct (a =? i0) eqn:Q; [apply Nat.eqb_eq in Q; congruence|auto].
Qed.

Definition rel_out (q q' : sres) : Prop :=
  match q, q' with
  | SNext s, SNext t => rel s t
  | SJmp b s, SJmp c t => b = c /\ rel s t
  | SRet r s, SRet r' t => r = r' /\ rel s t
  | SThrow s, SThrow t => rel s t
  | _, _ => False
  end.

Lemma body_sim R w bi l : forall s t q, rel s t -> gsbody R w bi f s l = Some q ->
  exists q', gsbody R w bi g t (filter (fun j => negb (rm j)) l) = Some q' /\ rel_out q q'.
Proof.
  induction l as [|i l IH]; intros s t q L E.
  - cbn in E. injection E as <-. exists (SNext t). split; [reflexivity|exact L].
  - cbn [gsbody] in E. destruct (f_insn f i) as [x|] eqn:X; [|discriminate E]. cbn [obind] in E.
    destruct (gsexec R w bi f i x s) as [r|] eqn:EX; [|discriminate E]. cbn [obind] in E.
    cbn [filter]. destruct (rm i) eqn:RM; cbn [negb].
    + destruct (removed_next w bi i x s r RM X (gsexec_plain _ _ _ _ _ _ _ _ EX)) as (s' & -> & K). eapply IH; [apply K, L|exact E].
    + cbn [gsbody]. pose proof (Hins i RM) as U. rewrite X in U. unfold upto in U. destruct (f_insn g i) as [x'|]; [|destruct U].
      destruct U as (k & ->). cbn [obind].
      pose proof (gexec_par R w bi f g i x (set_users k x) s t (like_users x k) (proj1 (rel_world _ _ L)) (proj2 (rel_world _ _ L))
                    (agree_kept bi s t i x k L RM X)) as P. rewrite EX in P. destruct P as (r' & -> & P). cbn [obind].
      destruct P; try (injection E as <-; eexists; split; [reflexivity|]; cbn; auto; fail).
      apply (IH _ (chg t i r v m n) q (rel_chg _ _ _ _ _ _ _ L) E).
Qed.

Lemma phis_sim bi prev l : forall s0 t0 s t l1 s1, rel s0 t0 -> rel s t -> sphis bi f prev s0 s l = Some (l1, s1) ->
  exists t1, rel s1 t1 /\
    (sphis bi g prev t0 t (filter (fun j => negb (rm j)) l) = Some (filter (fun j => negb (rm j)) l1, t1) \/
     exists i r x, l1 = i :: r /\ f_insn f i = Some x /\ rm i = true /\ i_op x <> PHI /\
       sphis bi g prev t0 t (filter (fun j => negb (rm j)) l) = sphis bi g prev t0 t1 (filter (fun j => negb (rm j)) r)).
Proof.
  induction l as [|i l IH]; intros s0 t0 s t l1 s1 L0 L E.
  - cbn in E. injection E as <- <-. exists t. split; [exact L|left; reflexivity].
  - cbn [sphis] in E. destruct (f_insn f i) as [x|] eqn:X; [|discriminate E]. cbn [obind] in E.
    destruct (iop_eqb (i_op x) PHI) eqn:P.
    + destruct (incoming x prev) as [v|] eqn:IN; [|discriminate E]. cbn [obind] in E.
      destruct (seval bi (s_env s0) v) as [z|] eqn:EV; [|discriminate E]. cbn [obind] in E.
      cbn [filter]. destruct (rm i) eqn:RM; cbn [negb].
      * eapply IH; [exact L0| |exact E]. apply rel_res_l; assumption.
      * cbn [sphis]. pose proof (Hins i RM) as U. rewrite X in U. unfold upto in U. destruct (f_insn g i) as [x'|]; [|destruct U].
        destruct U as (k & ->). cbn [obind i_op set_users]. rewrite P.
        replace (incoming (set_users k x) prev) with (incoming x prev) by reflexivity. rewrite IN. cbn [obind].
        assert (VI : In v (operand_values x)).
        { unfold operand_values. unfold iop_eqb in P. destruct (iop_eq_dec (i_op x) PHI) as [Q|]; [|discriminate P]. rewrite Q.
          apply in_or_app. right. unfold incoming in IN. destruct (find _ _) as [p|] eqn:F; [|discriminate IN]. injection IN as <-.
          apply find_some in F as [F _]. apply in_map, F. }
        rewrite <- (eval_same bi s0 t0 i x v L0 RM X VI), EV. cbn [obind].
        apply (IH _ _ _ (sres_ t i z) _ _ L0 (rel_res _ _ _ _ L) E).
    + injection E as <- <-. exists t. split; [exact L|]. cbn [filter]. destruct (rm i) eqn:RM; cbn [negb].
      * right. exists i, l, x. repeat split; auto. intros Q. rewrite Q in P. discriminate P.
      * left. cbn [sphis]. pose proof (Hins i RM) as U. rewrite X in U. unfold upto in U. destruct (f_insn g i) as [x'|]; [|destruct U].
        destruct U as (k & ->). cbn [obind i_op set_users]. rewrite P. reflexivity.
Qed.

(** If the body of [f] runs through, it does not start with a phi; so neither does the rest. *)
Lemma no_phi_head R w bi prev t0 l : forall s t q, rel s t -> gsbody R w bi f s l = Some q ->
  sphis bi g prev t0 t (filter (fun j => negb (rm j)) l) = Some (filter (fun j => negb (rm j)) l, t).
Proof.
  induction l as [|i l IH]; intros s t q L E; [reflexivity|].
  cbn [gsbody] in E. destruct (f_insn f i) as [x|] eqn:X; [|discriminate E]. cbn [obind] in E.
  destruct (gsexec R w bi f i x s) as [r|] eqn:EX; [|discriminate E]. cbn [obind] in E.
  cbn [filter]. destruct (rm i) eqn:RM; cbn [negb].
  - destruct (removed_next w bi i x s r RM X (gsexec_plain _ _ _ _ _ _ _ _ EX)) as (s' & -> & K). eapply IH; [apply K, L|exact E].
  - cbn [sphis]. pose proof (Hins i RM) as U. rewrite X in U. unfold upto in U. destruct (f_insn g i) as [x'|]; [|destruct U].
    destruct U as (k & ->). cbn [obind i_op set_users]. destruct (iop_eqb (i_op x) PHI) eqn:P; [|reflexivity].
    exfalso. unfold iop_eqb in P. destruct (iop_eq_dec (i_op x) PHI) as [Q|]; [|discriminate P].
    apply gsexec_plain in EX. unfold sexec in EX. rewrite Q in EX. destruct (i_vals x) as [|v1 [|v2 [|v3 z]]]; discriminate EX.
Qed.

Lemma block_sim R w bi prev b s t q : rel s t -> gsblock R w bi f prev b s = Some q ->
  exists q', gsblock R w bi g prev b t = Some q' /\ rel_out q q'.
Proof.
  intros L E. unfold gsblock in *. pose proof (Hblk b) as HB. destruct (f_block f b) as [k|]; [|discriminate E].
  destruct (f_block g b) as [k'|]; [|destruct HB]. destruct HB as [HI HS]. cbn [obind] in *. rewrite HI, HS.
  destruct (sphis bi f prev s s (b_insns k)) as [[l1 s1]|] eqn:PH; [|discriminate E]. cbn [obind] in E.
  destruct (gsbody R w bi f s1 l1) as [r|] eqn:BD; [|discriminate E]. cbn [obind] in E.
  destruct (phis_sim bi prev _ s t s t l1 s1 L L PH) as (t1 & L1 & [P|(i & rr & x & -> & X & RM & NP & P)]).
  - rewrite P. cbn [obind]. destruct (body_sim R w bi l1 s1 t1 r L1 BD) as (r' & -> & O). cbn [obind].
    destruct r, r'; cbn in O; try contradiction; try (injection E as <-; eexists; split; [reflexivity|exact O]).
    destruct (b_succs k); [discriminate E|]. injection E as <-. eexists; split; [reflexivity|]. split; [reflexivity|exact O].
  - cbn [gsbody] in BD. rewrite X in BD. cbn [obind] in BD. destruct (gsexec R w bi f i x s1) as [y|] eqn:EX; [|discriminate BD].
    cbn [obind] in BD. destruct (removed_next w bi i x s1 y RM X (gsexec_plain _ _ _ _ _ _ _ _ EX)) as (s' & -> & K). apply K in L1.
    rewrite P, (no_phi_head R w bi prev t rr s' t1 r L1 BD). cbn [obind].
    destruct (body_sim R w bi rr s' t1 r L1 BD) as (r' & -> & O). cbn [obind].
    destruct r, r'; cbn in O; try contradiction; try (injection E as <-; eexists; split; [reflexivity|exact O]).
    destruct (b_succs k); [discriminate E|]. injection E as <-. eexists; split; [reflexivity|]. split; [reflexivity|exact O].
Qed.

Lemma run_sim R w bi n : forall prev b s t o, rel s t -> gsrun R w bi f n prev b s = Some o ->
  exists o', gsrun R w bi g n prev b t = Some o' /\ same_effect o o'.
Proof.
  induction n as [|n IH]; intros prev b s t o L E.
  - cbn in E. injection E as <-. eexists. split; [reflexivity|]. constructor. apply rel_world, L.
  - cbn [gsrun] in *. destruct (gsblock R w bi f prev b s) as [q|] eqn:B; [|discriminate E]. cbn [obind] in E.
    destruct (block_sim R w bi prev b s t q L B) as (q' & -> & O). cbn [obind].
    destruct q, q'; cbn in O; try contradiction; try discriminate E.
    + destruct O as [<- O]. eapply IH; eassumption.
    + destruct O as [<- O]. injection E as <-. eexists. split; [reflexivity|]. constructor. apply rel_world, O.
    + injection E as <-. eexists. split; [reflexivity|]. constructor. apply rel_world, O.
Qed.
Lemma drop_preserves : preserves f g.
Proof. intros R w bi n prev b s o E. exact (run_sim R w bi n prev b s s o (rel_refl s) E). Qed.
End Drop.
