(** Executions of a function and of the function without a trivial phi. *)
From Coq Require Import Lia.
From Verif Require Import SpecWord SpecIsa SpecFlat SpecSsa SpecIr SpecEdit SpecGs SpecPass SpecStrict.
From Verif Require Import M_Base M_Ir M_Edit M_Ra M_Pass L_Word L_Edit L_Uses L_Gs L_Sim L_PassDce L_PassCompact L_PassPhi.
Open Scope nat_scope.

(** ** Executions *)
Lemma chg_words s u r v m n : words s -> (forall z, r = Some z -> u64 z = z) -> words (chg s u r v m n).
Proof.
  intros W R i z. unfold chg. cbn. destruct r as [z0|]; [|apply W]. unfold eupd. destruct (i =? u); [|apply W]. intros E. injection E as <-. now apply R.
Qed.
Lemma exec_words w bi f u x s q : words s -> sexec w bi f u x s = Some q ->
  match q with SNext s' | SJmp _ s' | SRet _ s' | SThrow s' => words s' end.
Proof.
  intros W. assert (R : forall v, words (sres_ s u v)).
  { intros v i z. cbn. unfold eupd. destruct (i =? u); [|apply W]. intros E. injection E as <-. apply u64_u64. }
  unfold sexec. destruct (i_op x); cbn [alu_op_of cmp_op_of];
    destruct (i_vals x) as [|v1 [|v2 [|v3 r]]]; try discriminate; intros E;
    repeat match type of E with
    | (match ?d with _ => _ end) = Some _ => destruct d; try discriminate E
    | obind ?d _ = Some _ => destruct d; try discriminate E; cbn [obind] in E
    | (if ?d then _ else _) = Some _ => destruct d; try discriminate E
    | (let '(_, _) := ?d in _) = Some _ => destruct d; try discriminate E
    end; injection E as <-; cbn [s_env]; try exact W; try apply R;
    try (intros i' z'; cbn; unfold eupd; destruct (i' =? u); [|apply W]; intros E; injection E as <-; apply u64_u64).
Qed.
Lemma find_some_in (x : insn) prev v : incoming x prev = Some v -> In (v, prev) (i_phi x).
Proof.
  unfold incoming. destruct (find _ (i_phi x)) as [[v' q]|] eqn:F; [|discriminate]. intros E. injection E as <-.
  apply find_some in F as [I Q]. cbn in Q. apply Nat.eqb_eq in Q. now subst q.
Qed.
Lemma incoming_put p e x prev : i_op x = PHI -> incoming (put_for_insn p e x) prev = option_map (put_for p e) (incoming x prev).
Proof.
  intros O. unfold incoming, put_for_insn. rewrite O. cbn. induction (i_phi x) as [|[v q] l IH]; [reflexivity|]. cbn. destruct (q =? prev); [reflexivity|exact IH].
Qed.
Lemma rpath_suffix f b l : rpath f l -> In b l -> exists l', rpath f (b :: l') /\ forall z, In z (b :: l') -> In z l.
Proof.
  induction 1 as [|a l c P IH G]; intros I.
  - destruct I as [<-|[]]. exists []. split; [constructor|auto].
  - destruct I as [<-|I].
    + exists (a :: l). split; [now constructor|auto].
    + destruct (IH I) as (l' & P' & S). exists l'. split; [exact P'|]. intros z Z. right. now apply S.
Qed.

Section PhiRun.
Variables (f g : func) (p B : nat) (e : value) (x : insn).
Hypothesis T : tidy f.
Hypothesis ST : strict f.
Hypothesis Hx : f_insn f p = Some x.
Hypothesis Ox : i_op x = PHI.
Hypothesis Hin : In p (insns_of f B).
Hypothesis OV : only_value p x e.
Hypothesis PG : phi_gone p e f g.

Definition prel (s t : sst) : Prop :=
  (forall j, j <> p -> s_env s j = s_env t j) /\ s_var s = s_var t /\ s_mem s = s_mem t /\ s_nc s = s_nc t.
Definition veq (bi : bconst -> Z) (s : sst) : Prop := s_env s p = seval bi (s_env s) e.

Lemma e_not_p : is_use_of p e = false.
Proof. destruct OV as (_ & N & _). unfold is_use_of. destruct (v_data e); try reflexivity. apply Nat.eqb_neq. congruence. Qed.
Lemma seval_rel bi s t v : prel s t -> is_use_of p v = false -> seval bi (s_env s) v = seval bi (s_env t) v.
Proof.
  intros (R & _) N. unfold seval. unfold is_use_of in N. destruct (v_data v); try reflexivity. apply R. now apply Nat.eqb_neq.
Qed.
Lemma seval_put bi s t v : prel s t -> (is_use_of p v = true -> veq bi s) -> seval bi (s_env s) v = seval bi (s_env t) (put_for p e v).
Proof.
  intros R K. unfold put_for. destruct (is_use_of p v) eqn:U; [|now apply seval_rel]. rewrite <- (seval_rel bi s t e R e_not_p).
  rewrite <- (K eq_refl). unfold is_use_of in U. unfold seval. destruct (v_data v); try discriminate U. apply Nat.eqb_eq in U. now subst.
Qed.
Lemma kept j y : f_insn f j = Some y -> j <> p -> exists k, f_insn g j = Some (set_users k (put_for_insn p e y)).
Proof. intros E N. destruct (pg_keep _ _ _ _ PG j N) as (k & K). rewrite E in K. exists k. exact K. Qed.
Lemma put_like k y : like y (set_users k (put_for_insn p e y)).
Proof. unfold put_for_insn. destruct (i_op y); repeat split. Qed.
Lemma put_vals k y : i_vals (set_users k (put_for_insn p e y)) = map (put_for p e) (i_vals y).
Proof. unfold put_for_insn. destruct (i_op y); reflexivity. Qed.
Lemma use_in v y : In v (operand_values y) -> is_use_of p v = true -> 0 < length (filter (is_use_of p) (operand_values y)).
Proof. intros I U. apply in_split in I as (l1 & l2 & ->). rewrite filter_app. cbn [filter]. rewrite U, app_length. cbn. lia. Qed.
Lemma Forall2_put (P : value -> value -> Prop) l : (forall v, In v l -> P v (put_for p e v)) -> Forall2 P l (map (put_for p e) l).
Proof. induction l as [|v l IH]; intros K; cbn; constructor; [apply K; now left|apply IH; intros w W; apply K; now right]. Qed.

Lemma exec_phi w bi u y k s t : prel s t -> f_insn f u = Some y -> (0 < uses f u p -> veq bi s) ->
  par_opt u s t (sexec w bi f u y s) (sexec w bi g u (set_users k (put_for_insn p e y)) t).
Proof.
  intros R Hy U. pose proof R as (_ & RV & RM & RN).
  assert (US : forall v, In v (operand_values y) -> is_use_of p v = true -> veq bi s).
  { intros v I Q. apply U. unfold uses. rewrite Hy. eapply use_in; eassumption. }
  assert (VV : forall v, In v (i_vals y) -> seval bi (s_env s) v = seval bi (s_env t) (put_for p e v)).
  { intros v I. apply seval_put; [exact R|]. apply US. unfold operand_values. apply in_or_app. now left. }
  destruct (iop_eq_dec (i_op y) STORE) as [OS|NS].
  { unfold sexec. rewrite OS. destruct (i_vals y) as [|v1 [|v2 [|v3 r]]] eqn:V; try exact I.
    destruct (v_data v1) as [| | |a| |] eqn:D; try exact I. destruct (Nat.eq_dec a p) as [->|N]; [rewrite Hx; cbn [obind]; rewrite Ox; exact I|].
    pose proof (exec_par w bi f g u y (set_users k (put_for_insn p e y)) s t (put_like k y) RM RN) as EP. unfold sexec at 1 in EP.
    rewrite OS, V, D in EP.
    replace (sexec w bi g u (set_users k (put_for_insn p e y)) t) with (sexec w bi g u (set_users k (put_for_insn p e y)) t) in EP by reflexivity.
    assert (A : agree_ops bi f g y (set_users k (put_for_insn p e y)) s t).
    { unfold agree_ops. rewrite OS. split; [|intros [K|K]; discriminate K]. intros v0 w0 E0. rewrite V in E0. injection E0 as <- <-.
      exists (put_for p e v1), (put_for p e v2). rewrite put_vals, V. split; [reflexivity|]. split.
      - unfold put_for, is_use_of. rewrite D. apply Nat.eqb_neq in N. now rewrite N.
      - split; [apply VV; right; now left|]. intros a' Q. rewrite D in Q. injection Q as <-. unfold cell_like. destruct (f_insn f a) as [z|] eqn:Z; [|exact I].
        intros _. destruct (kept a z Z N) as (k' & ->). eexists. split; [reflexivity|]. destruct (put_like k' z) as (K1 & K2 & _). auto. }
    specialize (EP A). unfold sexec in EP |- *. exact EP. }
  apply exec_par; [apply put_like|exact RM|exact RN|]. unfold agree_ops. rewrite put_vals. split.
  - destruct (i_op y) eqn:OY; try (apply Forall2_put; exact VV); try exact I; [congruence|].
    intros v E. rewrite E. exists (put_for p e v). split; [reflexivity|].
    assert (P : put_for p e v = v).
    { unfold put_for, is_use_of. destruct (v_data v) as [| | |a| |] eqn:D; try reflexivity. destruct (a =? p) eqn:Q; [|reflexivity].
      apply Nat.eqb_eq in Q. subst a. destruct (st_cells _ ST u y v [] p Hy OY E D) as (z & Hz & OZ). congruence. }
    rewrite P. split; [reflexivity|]. intros a D. now rewrite RV.
  - intros OR. assert (I : In (a_val (i_addr y)) (operand_values y)).
    { unfold operand_values. apply in_or_app. right. destruct OR as [-> | ->]; now left. }
    rewrite (seval_put bi s t (a_val (i_addr y)) R) by (apply US; exact I). f_equal. unfold put_for_insn. destruct OR as [-> | ->]; reflexivity.
Qed.

Lemma gexec_phi Rg w bi u y k s t : prel s t -> f_insn f u = Some y -> (0 < uses f u p -> veq bi s) ->
  par_opt u s t (gsexec Rg w bi f u y s) (gsexec Rg w bi g u (set_users k (put_for_insn p e y)) t).
Proof.
  intros R Hy U. unfold gsexec.
  assert (Q : squiet Rg bi (set_users k (put_for_insn p e y)) t = squiet Rg bi y s).
  { assert (AD : i_op y = LOADRAW \/ i_op y = STORERAW -> seval bi (s_env t) (a_val (i_addr (set_users k (put_for_insn p e y)))) = seval bi (s_env s) (a_val (i_addr y))).
    { intros OR. assert (I : In (a_val (i_addr y)) (operand_values y)).
      { unfold operand_values. apply in_or_app. right. destruct OR as [-> | ->]; now left. }
      rewrite (seval_put bi s t (a_val (i_addr y)) R) by (intros V; apply U; unfold uses; rewrite Hy; eapply use_in; eassumption).
      f_equal. unfold put_for_insn. destruct OR as [-> | ->]; reflexivity. }
    destruct (put_like k y) as (O & V & A & _). unfold squiet. rewrite O, V, A. destruct (i_op y); try reflexivity; rewrite AD by auto; reflexivity. }
  rewrite Q. destruct (squiet Rg bi y s); [|exact I]. now apply exec_phi.
Qed.

(** the phis *)
Lemma sphis_phi bi prev s0 t0 : prel s0 t0 -> words s0 -> forall l s t r s1, prel s t -> words s ->
  (forall u y v, In u l -> f_insn f u = Some y -> i_op y = PHI -> incoming y prev = Some v -> is_use_of p v = true -> veq bi s0) ->
  sphis bi f prev s0 s l = Some (r, s1) ->
  exists t1, sphis bi g prev t0 t (filter (fun j => negb (j =? p)) l) = Some (filter (fun j => negb (j =? p)) r, t1) /\ prel s1 t1 /\ words s1 /\
    (exists phs, l = phs ++ r /\ (forall i, In i phs -> is_phi f i)) /\ (forall i rr, r = i :: rr -> ~ is_phi f i) /\
    (forall j, ~ In j l -> s_env s1 j = s_env s j) /\
    (NoDup l -> In p l -> ~ In p r -> exists v z, incoming x prev = Some v /\ seval bi (s_env s0) v = Some z /\ s_env s1 p = Some z).
Proof.
  intros R0 W0. induction l as [|u l IH]; intros s t r s1 R W RD E; cbn [sphis] in E.
  { injection E as <- <-. exists t. split; [reflexivity|]. split; [exact R|]. split; [exact W|]. split; [exists []; split; [reflexivity|intros i []]|].
    split; [discriminate|]. split; [reflexivity|intros _ []]. }
  destruct (f_insn f u) as [y|] eqn:Hy; [|discriminate E]. cbn [obind] in E. unfold iop_eqb in E at 1. destruct (iop_eq_dec (i_op y) PHI) as [O|O].
  - destruct (incoming y prev) as [v|] eqn:IN; [|discriminate E]. cbn [obind] in E. destruct (seval bi (s_env s0) v) as [z|] eqn:SV; [|discriminate E]. cbn [obind] in E.
    assert (ZW : u64 z = z).
    { unfold seval in SV. destruct (v_data v); try discriminate SV; [injection SV as <-; apply u64_u64|eapply W0, SV]. }
    assert (W' : words (sres_ s u z)).
    { intros i z' Q. cbn in Q. unfold eupd in Q. destruct (i =? u); [injection Q as <-; apply u64_u64|eapply W, Q]. }
    assert (RD' : forall u y v, In u l -> f_insn f u = Some y -> i_op y = PHI -> incoming y prev = Some v -> is_use_of p v = true -> veq bi s0).
    { intros u' y' v' I'. apply RD. now right. }
    assert (PH : forall phs, (forall i, In i phs -> is_phi f i) -> forall i, In i (u :: phs) -> is_phi f i).
    { intros phs K i [<-|I]; [exists y; split; assumption|now apply K]. }
    destruct (Nat.eq_dec u p) as [->|N].
    + cbn [filter]. rewrite Nat.eqb_refl. cbn [negb].
      assert (R' : prel (sres_ s p z) t).
      { destruct R as (RE & RV & RM & RN). split; [|repeat split; assumption]. intros j Nj. cbn. unfold eupd. apply Nat.eqb_neq in Nj as Nj'. rewrite Nj'. now apply RE. }
      destruct (IH _ t r s1 R' W' RD' E) as (t1 & E1 & R1 & W1 & (phs & L & PP) & HD & EN & _).
      exists t1. split; [exact E1|]. split; [exact R1|]. split; [exact W1|]. split; [exists (p :: phs); split; [now rewrite L|now apply PH]|]. split; [exact HD|]. split.
      * intros j J. rewrite EN by (intros K; apply J; now right). cbn. unfold eupd. destruct (j =? p) eqn:Q; [|reflexivity]. apply Nat.eqb_eq in Q. destruct J. now left.
      * intros ND _ _. inversion ND as [|? ? K1 K2]; subst. exists v, z. assert (y = x) by congruence. subst y. split; [exact IN|]. split; [exact SV|].
        rewrite EN by exact K1. cbn. unfold eupd. rewrite Nat.eqb_refl. now rewrite ZW.
    + cbn [filter]. apply Nat.eqb_neq in N as N'. rewrite N'. cbn [negb sphis]. destruct (kept u y Hy N) as (k & K). rewrite K. cbn [obind].
      assert (O' : i_op (set_users k (put_for_insn p e y)) = PHI) by (destruct (put_like k y) as (Q & _); congruence).
      unfold iop_eqb at 1. rewrite O'. destruct (iop_eq_dec PHI PHI); [|congruence].
      change (incoming (set_users k (put_for_insn p e y)) prev) with (incoming (put_for_insn p e y) prev). rewrite (incoming_put p e y prev O), IN. cbn [option_map obind].
      rewrite <- (seval_put bi s0 t0 v R0) by (apply (RD u y v); auto; now left). rewrite SV. cbn [obind].
      assert (R' : prel (sres_ s u z) (sres_ t u z)).
      { destruct R as (RE & RV & RM & RN). split; [|repeat split; assumption]. intros j Nj. cbn. unfold eupd. destruct (j =? u); [reflexivity|now apply RE]. }
      destruct (IH _ _ r s1 R' W' RD' E) as (t1 & E1 & R1 & W1 & (phs & L & PP) & HD & EN & PV).
      exists t1. split; [exact E1|]. split; [exact R1|]. split; [exact W1|]. split; [exists (u :: phs); split; [now rewrite L|now apply PH]|]. split; [exact HD|]. split.
      * intros j J. rewrite EN by (intros K'; apply J; now right). cbn. unfold eupd. destruct (j =? u) eqn:Q; [|reflexivity]. apply Nat.eqb_eq in Q. destruct J. now left.
      * intros ND I NR. destruct I as [I|I]; [congruence|]. inversion ND; subst. now apply PV.
  - injection E as <- <-.
    assert (NP : u <> p) by congruence. exists t. split.
    { cbn [filter]. apply Nat.eqb_neq in NP as N'. rewrite N'. cbn [negb sphis]. destruct (kept u y Hy NP) as (k & K). rewrite K. cbn [obind].
      assert (O' : i_op (set_users k (put_for_insn p e y)) = i_op y) by (destruct (put_like k y) as (Q & _); congruence).
      unfold iop_eqb at 1. rewrite O'. destruct (iop_eq_dec (i_op y) PHI); [contradiction|]. reflexivity. }
    split; [exact R|]. split; [exact W|]. split; [exists []; split; [reflexivity|intros i []]|].
    split. { intros i rr K (y' & Hy' & O'). injection K as <- <-. congruence. }
    split; [reflexivity|]. intros _ I NR. contradiction.
Qed.
(** the other instructions *)
Lemma prel_chg s t u r v m n : prel s t -> prel (chg s u r v m n) (chg t u r v m n).
Proof.
  intros (A & C & D & F). unfold prel, chg; cbn. split; [|split; [|split; reflexivity]].
  - intros j J. destruct r; [unfold eupd; destruct (j =? u)%nat|]; auto.
  - destruct v as [[c z]|]; [now rewrite C|exact C].
Qed.
Definition prel_out (q q' : sres) : Prop :=
  match q, q' with
  | SNext s, SNext t => prel s t
  | SJmp b s, SJmp c t => b = c /\ prel s t
  | SRet r s, SRet r' t => r = r' /\ prel s t
  | SThrow s, SThrow t => prel s t
  | _, _ => False
  end.
Definition st_of (q : sres) : sst := match q with SNext s | SJmp _ s | SRet _ s | SThrow s => s end.
Lemma veq_other bi s u r v m n : veq bi s -> u <> p -> (forall d, v_data e = VInsn d -> d <> u) -> veq bi (chg s u r v m n).
Proof.
  intros V N D. unfold veq, chg. cbn. destruct r as [z|]; [|exact V]. unfold eupd at 1. apply Nat.eqb_neq in N as N'. rewrite Nat.eqb_sym in N'. rewrite N'. rewrite V.
  unfold seval. destruct (v_data e) eqn:E; try reflexivity. unfold eupd. specialize (D _ eq_refl). apply Nat.eqb_neq in D. now rewrite D.
Qed.
Lemma body_phi Rg w bi (mode : bool) : forall l s t q, prel s t -> words s -> ~ In p l ->
  (if mode then veq bi s /\ forall d, v_data e = VInsn d -> ~ In d l else forall u, In u l -> uses f u p = 0) ->
  gsbody Rg w bi f s l = Some q ->
  exists q', gsbody Rg w bi g t l = Some q' /\ prel_out q q' /\ words (st_of q) /\ (mode = true -> veq bi (st_of q)) /\
    (forall b s', q = SJmp b s' -> exists i y, In i l /\ f_insn f i = Some y /\
      (i_op y = JA /\ b = i_bb1 y \/ exists c, cmp_op_of (i_op y) = Some c /\ (b = i_bb1 y \/ b = i_bb2 y))).
Proof.
  induction l as [|u l IH]; intros s t q R W NP M E; cbn [gsbody] in E.
  { injection E as <-. exists (SNext t). split; [reflexivity|]. split; [exact R|]. split; [exact W|]. split; [|discriminate]. intros ->. apply M. }
  destruct (f_insn f u) as [y|] eqn:Hy; [|discriminate E]. cbn [obind] in E. destruct (gsexec Rg w bi f u y s) as [r|] eqn:EX; [|discriminate E]. cbn [obind] in E.
  assert (N : u <> p) by (intros ->; apply NP; now left).
  destruct (kept u y Hy N) as (k & K). cbn [gsbody]. rewrite K. cbn [obind].
  assert (U : 0 < uses f u p -> veq bi s).
  { destruct mode; [intros _; apply M|]. intros P. rewrite (M u (or_introl eq_refl)) in P. lia. }
  pose proof (gexec_phi Rg w bi u y k s t R Hy U) as P. rewrite EX in P. destruct P as (r' & -> & P). cbn [obind].
  pose proof (exec_words _ _ _ _ _ _ _ W (gsexec_plain _ _ _ _ _ _ _ _ EX)) as W'.
  assert (J : forall b s', r = SJmp b s' -> i_op y = JA /\ b = i_bb1 y \/ exists c, cmp_op_of (i_op y) = Some c /\ (b = i_bb1 y \/ b = i_bb2 y)).
  { intros b s' ->. clear - EX. apply gsexec_plain in EX. unfold sexec in EX. destruct (i_op y); cbn [alu_op_of cmp_op_of] in EX |- *;
      destruct (i_vals y) as [|v1 [|v2 [|v3 rr]]]; try discriminate EX;
      repeat match type of EX with
      | (match ?d with _ => _ end) = Some _ => destruct d; try discriminate EX
      | obind ?d _ = Some _ => destruct d; try discriminate EX; cbn [obind] in EX
      | (if ?d then _ else _) = Some _ => destruct d; try discriminate EX
      | (let '(_, _) := ?d in _) = Some _ => destruct d; try discriminate EX
      end; injection EX as EX1 EX2; try (left; now split); right; eexists; (split; [reflexivity|]);
      match type of EX1 with (if ?c then _ else _) = _ => destruct c end; auto. }
  assert (ME : mode = true -> veq bi s) by (intros ->; apply M).
  destruct P as [r0 v0 m0 n0|b0|z0|].
  - assert (M' : if mode then veq bi (chg s u r0 v0 m0 n0) /\ (forall d, v_data e = VInsn d -> ~ In d l) else forall u, In u l -> uses f u p = 0).
    { destruct mode.
      - destruct M as [V D]. split; [|intros d Q I; exact (D d Q (or_intror I))]. apply veq_other; [exact V|exact N|]. intros d Q ->. exact (D u Q (or_introl eq_refl)).
      - intros u' I. apply M. now right. }
    destruct (IH _ _ q (prel_chg s t u r0 v0 m0 n0 R) W' (fun I => NP (or_intror I)) M' E) as (q' & E' & RO & WQ & VQ & JQ).
    exists q'. split; [exact E'|]. split; [exact RO|]. split; [exact WQ|]. split; [exact VQ|]. intros b s' Q. destruct (JQ b s' Q) as (i & y' & I & H). exists i, y'. split; [now right|exact H].
  - injection E as <-. eexists. split; [reflexivity|]. split; [split; [reflexivity|exact R]|]. split; [exact W'|]. split; [exact ME|].
    intros b s' Q. exists u, y. split; [now left|]. split; [exact Hy|]. exact (J b s' Q).
  - injection E as <-. eexists. split; [reflexivity|]. split; [split; [reflexivity|exact R]|]. split; [exact W'|]. split; [exact ME|discriminate].
  - injection E as <-. eexists. split; [reflexivity|]. split; [exact R|]. split; [exact W'|]. split; [exact ME|discriminate].
Qed.

Lemma p_only_B b : In p (insns_of f b) -> b = B.
Proof. intros I. destruct (td_linked _ T b p I) as (y & Hy & P). destruct (td_linked _ T B p Hin) as (z & Hz & Q). congruence. Qed.
Lemma split_unique b phs r : insns_of f b = phs ++ r -> (forall i, In i phs -> is_phi f i) -> (forall i rr, r = i :: rr -> ~ is_phi f i) ->
  forall i, In i r -> ~ is_phi f i.
Proof.
  intros E P H. destruct (st_first _ ST b) as (a & c & E' & PA & PC). rewrite E in E'. clear E.
  revert a E' PA. induction phs as [|j phs IH]; intros a E' PA i I.
  - cbn in E'. subst r. destruct a as [|j a]; [now apply PC|]. destruct (H j _ eq_refl). apply PA. now left.
  - destruct a as [|k a].
    + exfalso. cbn in E'. apply (PC j); [rewrite <- E'; now left|]. apply P. now left.
    + cbn in E'. injection E' as -> E'. eapply IH; try eassumption; intros z Z; [apply P|apply PA]; now right.
Qed.
Lemma filter_id (l : list nat) : ~ In p l -> filter (fun j => negb (j =? p)) l = l.
Proof.
  induction l as [|a l IH]; intros N; [reflexivity|]. cbn. assert (a <> p) by (intros ->; apply N; now left). apply Nat.eqb_neq in H. rewrite H. cbn.
  f_equal. apply IH. intros I. apply N. now right.
Qed.
Lemma uses_pos_op u y : f_insn f u = Some y -> 0 < uses f u p -> exists v, In v (operand_values y) /\ v_data v = VInsn p.
Proof.
  unfold uses. intros ->. intros L. destruct (filter (is_use_of p) (operand_values y)) as [|v r] eqn:F; [cbn in L; lia|].
  assert (I : In v (filter (is_use_of p) (operand_values y))) by (rewrite F; now left). apply filter_In in I as [I Q]. exists v. split; [exact I|].
  unfold is_use_of in Q. destruct (v_data v); try discriminate Q. apply Nat.eqb_eq in Q. now subst.
Qed.
Lemma B_not_entry : B <> f_entry f.
Proof. intros E. apply (st_entry _ ST p); [rewrite <- E; exact Hin|]. exists x. split; assumption. Qed.

(** Blocks that can be reached without going through [B]. *)
Definition around (b : nat) : Prop := exists l, rpath f (b :: l) /\ ~ In B (b :: l).
Definition seen (bi : bconst -> Z) (pi : list nat) (prev b : nat) (s : sst) : Prop :=
  (pi = [] /\ b = f_entry f \/ exists l, pi = prev :: l /\ rpath f pi /\ goes f prev b) /\
  (In B pi -> forall d S, v_data e = VInsn d -> In d (insns_of f S) -> around S) /\
  (pi = [] \/ around prev \/ veq bi s).

Lemma around_unused b u : b <> B -> around b -> In u (insns_of f b) -> ~ is_phi f u -> uses f u p = 0.
Proof.
  intros NB (l & RP & NI) I NP. destruct (uses f u p) eqn:U; [reflexivity|exfalso].
  destruct (td_linked _ T b u I) as (y & Hy & _).
  destruct (st_use _ ST b u y p B I Hy (fun O => NP (ex_intro _ y (conj Hy O))) ltac:(lia) Hin) as [[K _]|K]; [congruence|].
  apply NI. right. now apply K.
Qed.

Lemma block_phi Rg w bi pi prev b s t q : seen bi pi prev b s -> prel s t -> words s -> gsblock Rg w bi f prev b s = Some q ->
  exists q', gsblock Rg w bi g prev b t = Some q' /\ prel_out q q' /\ words (st_of q) /\ (forall b' s', q = SJmp b' s' -> seen bi (b :: pi) b b' s').
Proof.
  intros (SP & S1 & S2) R W E. unfold gsblock in E |- *. destruct (f_block f b) as [k|] eqn:HB; [|discriminate E]. cbn [obind] in E.
  destruct (f_block g b) as [k'|] eqn:HB'; [|apply (pg_blocks _ _ _ _ PG) in HB'; congruence]. cbn [obind].
  assert (LI : insns_of f b = b_insns k) by (unfold insns_of; now rewrite HB).
  pose proof (pg_insns _ _ _ _ PG b) as LI'. pose proof (pg_succs _ _ _ _ PG b) as LS'. unfold insns_of in LI' at 1. rewrite HB' in LI'. unfold succs_of in LS'. rewrite HB, HB' in LS'.
  rewrite LI' , LS', LI. clear LI' LS'.
  destruct (sphis bi f prev s s (b_insns k)) as [[r s1]|] eqn:PH; [|discriminate E]. cbn [obind] in E.
  destruct (gsbody Rg w bi f s1 r) as [o|] eqn:BD; [|discriminate E]. cbn [obind] in E.
  (* no path around B ends where the phis read p *)
  assert (RD : forall u y v, In u (b_insns k) -> f_insn f u = Some y -> i_op y = PHI -> incoming y prev = Some v -> is_use_of p v = true -> veq bi s).
  { intros u y v I Hy O IN US. apply find_some_in in IN. rewrite <- LI in I.
    assert (D : v_data v = VInsn p). { unfold is_use_of in US. destruct (v_data v); try discriminate US. apply Nat.eqb_eq in US. now subst. }
    pose proof (st_phi _ ST b u y v prev p B I Hy O IN D Hin) as K.
    destruct S2 as [->|[(l & RP & NI)|V]]; [|destruct (NI (K l RP))|exact V].
    destruct SP as [[_ ->]|(l & Q & _)]; [|discriminate Q]. destruct (st_entry _ ST u I). exists y. split; assumption. }
  destruct (sphis_phi bi prev s t R W (b_insns k) s t r s1 R W RD PH) as (t1 & PH' & R1 & W1 & (phs & SPL & PP) & HD & EN & PV).
  rewrite PH'. cbn [obind].
  assert (RN : forall i, In i r -> ~ is_phi f i) by (apply (split_unique b phs); [now rewrite LI|assumption|assumption]).
  assert (NPr : ~ In p r) by (intros I; apply (RN p I); exists x; split; assumption).
  rewrite (filter_id r NPr).
  assert (RI : forall i, In i r -> In i (insns_of f b)) by (intros i I; rewrite LI, SPL; apply in_or_app; now right).
  assert (RPB : rpath f (b :: pi)).
  { destruct SP as [[-> ->]|(l & -> & RP & G)]; [constructor|now constructor]. }
  (* before B is first entered, [e] has been computed on the way *)
  assert (S1' : In B (b :: pi) -> forall d S, v_data e = VInsn d -> In d (insns_of f S) -> around S).
  { intros I d S D DI. destruct (in_dec Nat.eq_dec B pi) as [J|J]; [now apply (S1 J d)|].
    destruct I as [->|I]; [|contradiction].
    destruct SP as [[_ Q]|(l & -> & RP & G)]; [destruct B_not_entry; exact Q|].
    destruct (st_cover _ ST B p x prev l Hin Hx Ox RP G) as (v & V).
    destruct OV as (_ & _ & OVA). destruct (OVA v prev V) as [D'|[->|(d' & D1 & D2)]].
    - destruct J. exact (st_phi _ ST B p x v prev p B Hin Hx Ox V D' Hin l RP).
    - destruct (rpath_suffix f S _ RP (st_phi _ ST B p x e prev d S Hin Hx Ox V D DI l RP)) as (l' & RP' & SUB). exists l'. split; [exact RP'|]. intros K. apply J, SUB, K.
    - assert (d' = d) by congruence. subst d'.
      destruct (rpath_suffix f S _ RP (st_phi _ ST B p x v prev d S Hin Hx Ox V D1 DI l RP)) as (l' & RP' & SUB). exists l'. split; [exact RP'|]. intros K. apply J, SUB, K. }
  (* in which mode the body runs *)
  assert (MODE : (exists l, rpath f (b :: l) /\ ~ In B (b :: l)) /\ b <> B \/ (veq bi s1 /\ forall d, v_data e = VInsn d -> ~ In d r)).
  { destruct (Nat.eq_dec b B) as [->|NB].
    - right.
      assert (ND : forall d, v_data e = VInsn d -> ~ In d (insns_of f B)).
      { intros d D I. destruct (S1' (or_introl eq_refl) d B D I) as (l & _ & K). apply K. now left. }
      split; [|intros d D I; exact (ND d D (RI d I))].
      assert (PI : In p (b_insns k)) by (rewrite <- LI; exact Hin).
      assert (NDUP : NoDup (b_insns k)) by (rewrite <- LI; apply (td_once _ T)).
      destruct (PV NDUP PI NPr) as (v & z & IN & SV & EP). pose proof (find_some_in _ _ _ IN) as V.
      unfold veq. rewrite EP, <- SV.
      assert (EE : seval bi (s_env s1) e = seval bi (s_env s) e).
      { unfold seval. destruct (v_data e) eqn:D; try reflexivity. apply EN. rewrite <- LI. now apply ND. }
      rewrite EE. destruct OV as (_ & _ & OVA). destruct (OVA v prev V) as [D'|[->|(d' & D1 & D2)]]; [|reflexivity|unfold seval; now rewrite D1, D2].
      assert (VQ : veq bi s). { apply (RD p x v PI Hx Ox IN). unfold is_use_of. rewrite D'. apply Nat.eqb_refl. }
      rewrite <- VQ. unfold seval. now rewrite D'.
    - assert (AR : pi = [] \/ around prev -> around b).
      { intros [Q|(l & RP & NI)].
        - subst pi. exists []. split; [exact RPB|]. intros [Q|[]]. congruence.
        - destruct SP as [[-> ->]|(l0 & -> & RP0 & G)].
          + exists []. split; [constructor|]. intros [Q|[]]. congruence.
          + exists (prev :: l). split; [now constructor|]. intros [Q|Q]; [congruence|]. now apply NI. }
      destruct S2 as [Q|[Q|V]]; [left; split; [apply AR; now left|exact NB]|left; split; [apply AR; now right|exact NB]|].
      assert (PE : s_env s1 p = s_env s p). { apply EN. rewrite <- LI. intros I. apply NB, p_only_B, I. }
      destruct (v_data e) as [| | |d| |] eqn:D.
      4: destruct (in_dec Nat.eq_dec d (insns_of f b)) as [DI|DI].
      4: { left. split; [|exact NB]. destruct (in_dec Nat.eq_dec B pi) as [J|J]; [exact (S1 J d b eq_refl DI)|].
           exists pi. split; [exact RPB|]. intros [Q|Q]; [congruence|contradiction]. }
      4: { right. split; [|intros d' Q I; injection Q as <-; apply DI, RI, I]. unfold veq. rewrite PE, V. unfold seval. rewrite D. symmetry. apply EN. now rewrite <- LI. }
      all: right; (split; [|discriminate]); unfold veq; rewrite PE, V; unfold seval; now rewrite D. }
  assert (NX : forall s2, (around b \/ veq bi s2) -> forall c, goes f b c -> seen bi (b :: pi) b c s2).
  { intros s2 H c G. split; [right; exists pi; auto|]. split; [exact S1'|]. right. exact H. }
  assert (BODY : exists o', gsbody Rg w bi g t1 r = Some o' /\ prel_out o o' /\ words (st_of o) /\ (around b \/ veq bi (st_of o)) /\
    (forall c s', o = SJmp c s' -> goes f b c)).
  { assert (GJ : forall c, (exists i y, In i r /\ f_insn f i = Some y /\
      (i_op y = JA /\ c = i_bb1 y \/ exists c', cmp_op_of (i_op y) = Some c' /\ (c = i_bb1 y \/ c = i_bb2 y))) -> goes f b c).
    { intros c (i & y & I & Hy & [[O ->]|(c' & O & [->| ->])]); [eapply go_ja|eapply go_c1|eapply go_c2]; eauto. }
    destruct MODE as [[A NB]|[V D]].
    - destruct (body_phi Rg w bi false r s1 t1 o R1 W1 NPr (fun u I => around_unused b u NB A (RI u I) (RN u I)) BD) as (o' & B' & RO & WO & _ & J).
      exists o'. repeat split; auto. intros c s' Q. apply GJ, (J c s' Q).
    - destruct (body_phi Rg w bi true r s1 t1 o R1 W1 NPr (conj V D) BD) as (o' & B' & RO & WO & VO & J).
      exists o'. repeat split; auto. intros c s' Q. apply GJ, (J c s' Q). }
  destruct BODY as (o' & B' & RO & WO & AV & GO). rewrite B'. cbn [obind].
  destruct o as [s2|c s2|z s2|s2], o' as [t2|c' t2|z' t2|t2]; cbn in RO; try contradiction.
  - destruct (b_succs k) as [|c l] eqn:SU; [discriminate E|]. injection E as <-. eexists. split; [reflexivity|]. split; [split; [reflexivity|exact RO]|]. split; [exact WO|].
    intros b' s' Q. injection Q as <- <-. apply NX; [exact AV|]. eapply go_next. unfold succs_of. rewrite HB. exact SU.
  - injection E as <-. eexists. split; [reflexivity|]. split; [exact RO|]. split; [exact WO|]. intros b' s' Q. injection Q as <- <-. apply NX; [exact AV|]. eapply GO. reflexivity.
  - injection E as <-. eexists. split; [reflexivity|]. split; [exact RO|]. split; [exact WO|]. discriminate.
  - injection E as <-. eexists. split; [reflexivity|]. split; [exact RO|]. split; [exact WO|]. discriminate.
Qed.

Lemma run_phi Rg w bi n : forall pi prev b s t o, seen bi pi prev b s -> prel s t -> words s -> gsrun Rg w bi f n prev b s = Some o ->
  exists o', gsrun Rg w bi g n prev b t = Some o' /\ same_effect o o'.
Proof.
  assert (PW : forall s t, prel s t -> same_world s t) by (intros s t (_ & _ & A & C); split; assumption).
  induction n as [|n IH]; intros pi prev b s t o SE R W E; cbn [gsrun] in *.
  - injection E as <-. eexists. split; [reflexivity|]. constructor. now apply PW.
  - destruct (gsblock Rg w bi f prev b s) as [q|] eqn:BL; [|discriminate E]. cbn [obind] in E.
    destruct (block_phi Rg w bi pi prev b s t q SE R W BL) as (q' & -> & RO & WO & NX). cbn [obind].
    destruct q as [s2|c s2|z s2|s2], q' as [t2|c' t2|z' t2|t2]; cbn in RO; try contradiction; try discriminate E.
    + destruct RO as [<- RO]. eapply IH; [apply NX; reflexivity|exact RO|exact WO|exact E].
    + destruct RO as [<- RO]. injection E as <-. eexists. split; [reflexivity|]. constructor. now apply PW.
    + injection E as <-. eexists. split; [reflexivity|]. constructor. now apply PW.
Qed.
Lemma phi_preserves : preserves_run f g.
Proof.
  intros Rg w bi n s o W E. rewrite (pg_entry _ _ _ _ PG). apply (run_phi Rg w bi n [] 0 (f_entry f) s s o); [|repeat split; reflexivity|exact W|exact E].
  split; [now left|]. split; [intros []|now left].
Qed.

(** ** Strictness is kept *)
Lemma goes_g b c : goes g b c <-> goes f b c.
Proof.
  assert (KI : forall i y, In i (insns_of g b) -> f_insn g i = Some y -> exists y0 k, f_insn f i = Some y0 /\ y = set_users k (put_for_insn p e y0) /\ In i (insns_of f b)).
  { intros i y I Hy. rewrite (pg_insns _ _ _ _ PG) in I. apply filter_In in I as [I N]. destruct (i =? p) eqn:Q; [discriminate N|]. apply Nat.eqb_neq in Q.
    destruct (pg_keep _ _ _ _ PG i Q) as (k & K). rewrite Hy in K. destruct (f_insn f i) as [y0|]; [|discriminate K]. injection K as ->. eauto. }
  assert (FI : forall i y, In i (insns_of f b) -> f_insn f i = Some y -> i_op y <> PHI -> In i (insns_of g b) /\ exists k, f_insn g i = Some (set_users k (put_for_insn p e y))).
  { intros i y I Hy O. assert (N : i <> p) by congruence. split; [|now apply kept]. rewrite (pg_insns _ _ _ _ PG). apply filter_In. split; [exact I|]. apply Nat.eqb_neq in N. now rewrite N. }
  split; intros H.
  - destruct H as [i y I Hy O|i y o I Hy O|i y o I Hy O|c l SU].
    + destruct (KI i y I Hy) as (y0 & k & Hy0 & -> & I0). destruct (put_like k y0) as (Q & _ & _ & _ & Q1 & Q2 & _). rewrite Q1, Q in *. eapply go_ja; eauto.
    + destruct (KI i y I Hy) as (y0 & k & Hy0 & -> & I0). destruct (put_like k y0) as (Q & _ & _ & _ & Q1 & Q2 & _). rewrite Q1, Q in *. eapply go_c1; eauto.
    + destruct (KI i y I Hy) as (y0 & k & Hy0 & -> & I0). destruct (put_like k y0) as (Q & _ & _ & _ & Q1 & Q2 & _). rewrite Q2, Q in *. eapply go_c2; eauto.
    + eapply go_next. rewrite <- (pg_succs _ _ _ _ PG). exact SU.
  - destruct H as [i y I Hy O|i y o I Hy O|i y o I Hy O|c l SU].
    + destruct (FI i y I Hy ltac:(congruence)) as (I' & k & K). destruct (put_like k y) as (Q & _ & _ & _ & Q1 & Q2 & _). rewrite <- Q1. eapply go_ja; eauto; congruence.
    + destruct (FI i y I Hy ltac:(intros Z; rewrite Z in O; discriminate O)) as (I' & k & K). destruct (put_like k y) as (Q & _ & _ & _ & Q1 & Q2 & _). rewrite <- Q1. rewrite <- Q in O. eapply go_c1; eauto.
    + destruct (FI i y I Hy ltac:(intros Z; rewrite Z in O; discriminate O)) as (I' & k & K). destruct (put_like k y) as (Q & _ & _ & _ & Q1 & Q2 & _). rewrite <- Q2. rewrite <- Q in O. eapply go_c2; eauto.
    + eapply go_next. rewrite (pg_succs _ _ _ _ PG). exact SU.
Qed.
Lemma rpath_g l : rpath g l -> rpath f l.
Proof. induction 1 as [|b l c P IH G]; [rewrite (pg_entry _ _ _ _ PG); constructor|]. constructor; [exact IH|]. now apply goes_g. Qed.
Lemma rpath_tail b q l : rpath f (b :: q :: l) -> rpath f (q :: l) /\ goes f q b.
Proof. intros H. inversion H; subst. auto. Qed.
(** a path to [B] goes through the block that computes [e] before *)
Lemma before_B d S : v_data e = VInsn d -> In d (insns_of f S) -> forall l, rpath f (B :: l) -> In S l.
Proof.
  intros D DI. induction l as [l IH] using (well_founded_induction (Wf_nat.well_founded_ltof _ (@length nat))). intros RP.
  destruct l as [|q l]. { inversion RP. destruct B_not_entry. congruence. }
  destruct (rpath_tail _ _ _ RP) as [RQ G]. destruct (in_dec Nat.eq_dec B (q :: l)) as [I|J].
  - apply in_split in I as (l1 & l2 & E).
    assert (RB : rpath f (B :: l2)).
    { clear IH. rewrite E in RQ. clear - RQ. revert RQ. induction l1 as [|a l1 IH]; [auto|]. cbn [app]. intros H. apply IH. destruct (l1 ++ B :: l2) eqn:Q; [destruct l1; discriminate Q|]. now apply rpath_tail in H. }
    rewrite E. apply in_or_app. right. right. apply IH; [|exact RB]. unfold Wf_nat.ltof. rewrite E, app_length. cbn. lia.
  - destruct (st_cover _ ST B p x q l Hin Hx Ox RQ G) as (v & V). destruct OV as (_ & _ & OVA). destruct (OVA v q V) as [D'|[->|(d' & D1 & D2)]].
    + destruct J. exact (st_phi _ ST B p x v q p B Hin Hx Ox V D' Hin l RQ).
    + exact (st_phi _ ST B p x e q d S Hin Hx Ox V D DI l RQ).
    + assert (d' = d) by congruence. subst d'. exact (st_phi _ ST B p x v q d S Hin Hx Ox V D1 DI l RQ).
Qed.
Lemma through_B d S l : v_data e = VInsn d -> In d (insns_of f S) -> rpath f l -> In B l -> In S l.
Proof.
  intros D DI RP I. destruct (rpath_suffix f B l RP I) as (l' & RP' & SUB). apply SUB. right. exact (before_B d S D DI l' RP').
Qed.
Lemma in_g b i : In i (insns_of g b) -> In i (insns_of f b) /\ i <> p.
Proof.
  rewrite (pg_insns _ _ _ _ PG). intros I. apply filter_In in I as [I N]. split; [exact I|]. destruct (i =? p) eqn:Q; [discriminate N|]. now apply Nat.eqb_neq.
Qed.
Lemma insn_g i y : i <> p -> f_insn g i = Some y -> exists y0 k, f_insn f i = Some y0 /\ y = set_users k (put_for_insn p e y0).
Proof.
  intros N Hy. destruct (pg_keep _ _ _ _ PG i N) as (k & K). rewrite Hy in K. destruct (f_insn f i) as [y0|]; [|discriminate K]. injection K as ->. eauto.
Qed.
Lemma put_op k y : i_op (set_users k (put_for_insn p e y)) = i_op y.
Proof. now destruct (put_like k y) as (Q & _). Qed.
Lemma put_operands k y v : In v (operand_values (set_users k (put_for_insn p e y))) -> exists v0, In v0 (operand_values y) /\ v = put_for p e v0.
Proof.
  unfold operand_values. rewrite put_op, put_vals. intros I. apply in_app_or in I as [I|I].
  - apply in_map_iff in I as (v0 & <- & I). exists v0. split; [apply in_or_app; now left|reflexivity].
  - destruct (i_op y) eqn:O; try (exact (False_ind _ I)).
    all: unfold put_for_insn in I; rewrite O in I; cbn in I.
    all: try (rewrite map_map in I; apply in_map_iff in I as ([w q] & <- & I); exists w; split; [apply in_or_app; right; apply in_map_iff; exists (w, q); auto|reflexivity]).
    all: destruct I as [<-|[]]; eexists; (split; [apply in_or_app; right; left; reflexivity|reflexivity]).
Qed.
Lemma precedes_filter d u l : precedes d u l -> d <> p -> u <> p -> precedes d u (filter (fun j => negb (j =? p)) l).
Proof.
  intros (l1 & l2 & l3 & ->) D U. exists (filter (fun j => negb (j =? p)) l1), (filter (fun j => negb (j =? p)) l2), (filter (fun j => negb (j =? p)) l3).
  apply Nat.eqb_neq in D, U. rewrite filter_app. cbn. rewrite D. cbn. rewrite filter_app. cbn. now rewrite U.
Qed.
Lemma phi_strict : strict g.
Proof.
  assert (ISP : forall i, is_phi g i -> is_phi f i).
  { intros i (y & Hy & O). destruct (Nat.eq_dec i p) as [->|N]; [rewrite (pg_gone _ _ _ _ PG) in Hy; discriminate Hy|].
    destruct (insn_g i y N Hy) as (y0 & k & Hy0 & ->). rewrite put_op in O. exists y0. auto. }
  assert (ISP' : forall i, i <> p -> is_phi f i -> is_phi g i).
  { intros i N (y & Hy & O). destruct (kept i y Hy N) as (k & K). exists (set_users k (put_for_insn p e y)). rewrite put_op. auto. }
  constructor.
  - intros b. destruct (st_first _ ST b) as (phs & ids & E & P1 & P2). exists (filter (fun j => negb (j =? p)) phs), (filter (fun j => negb (j =? p)) ids).
    rewrite (pg_insns _ _ _ _ PG), E, filter_app. split; [reflexivity|]. split; intros i I; apply filter_In in I as [I N].
    + apply ISP'; [|now apply P1]. intros ->. now rewrite Nat.eqb_refl in N.
    + intros K. now apply (P2 i I), ISP.
  - intros i I K. rewrite (pg_entry _ _ _ _ PG) in I. apply in_g in I as [I _]. now apply (st_entry _ ST i I), ISP.
  - intros b i y q l I Hy O RP G. apply in_g in I as [I N]. destruct (insn_g i y N Hy) as (y0 & k & Hy0 & ->). rewrite put_op in O.
    apply rpath_g in RP. apply goes_g in G. destruct (st_cover _ ST b i y0 q l I Hy0 O RP G) as (v & V). exists (put_for p e v).
    unfold put_for_insn. rewrite O. cbn. apply in_map_iff. exists (v, q). auto.
  - intros b u y d c I Hy O US DI. apply in_g in I as [I N], DI as [DI ND]. destruct (insn_g u y N Hy) as (y0 & k & Hy0 & ->). rewrite put_op in O.
    assert (EX : exists v0, In v0 (operand_values y0) /\ is_use_of d (put_for p e v0) = true).
    { unfold uses in US. rewrite Hy in US. destruct (filter _ _) as [|v r] eqn:F; [cbn in US; lia|].
      assert (K : In v (v :: r)) by now left. rewrite <- F in K. apply filter_In in K as [K Q]. apply put_operands in K as (v0 & K & ->). eauto. }
    destruct EX as (v0 & V0 & Q). unfold put_for in Q. destruct (is_use_of p v0) eqn:UP.
    + assert (D : v_data e = VInsn d). { unfold is_use_of in Q. destruct (v_data e); try discriminate Q. apply Nat.eqb_eq in Q. now subst. }
      right. intros l RP. apply rpath_g in RP.
      assert (0 < uses f u p). { unfold uses. rewrite Hy0. eapply use_in; eassumption. }
      destruct (st_use _ ST b u y0 p B I Hy0 O H Hin) as [[<- _]|K].
      * now apply (before_B d c D DI).
      * specialize (K l RP). destruct l as [|q l]; [destruct K|]. apply (through_B d c (q :: l) D DI); [|exact K]. now apply rpath_tail in RP.
    + assert (0 < uses f u d).
      { unfold uses. rewrite Hy0. apply in_split in V0 as (l1 & l2 & ->). rewrite filter_app. cbn [filter]. rewrite Q, app_length. cbn. lia. }
      destruct (st_use _ ST b u y0 d c I Hy0 O H DI) as [[-> PR]|K].
      * left. split; [reflexivity|]. rewrite (pg_insns _ _ _ _ PG). now apply precedes_filter.
      * right. intros l RP. apply K. now apply rpath_g.
  - intros b u y v q d c I Hy O V D DI l RP. apply in_g in I as [I N], DI as [DI ND]. destruct (insn_g u y N Hy) as (y0 & k & Hy0 & ->). rewrite put_op in O.
    apply rpath_g in RP. unfold put_for_insn in V. rewrite O in V. cbn in V. apply in_map_iff in V as ([v0 q0] & E & V0). cbn in E. injection E as <- <-.
    unfold put_for in D. destruct (is_use_of p v0) eqn:UP.
    + assert (D0 : v_data v0 = VInsn p). { unfold is_use_of in UP. destruct (v_data v0); try discriminate UP. apply Nat.eqb_eq in UP. now subst. }
      apply (through_B d c _ D DI RP). exact (st_phi _ ST b u y0 v0 q0 p B I Hy0 O V0 D0 Hin l RP).
    + exact (st_phi _ ST b u y0 v0 q0 d c I Hy0 O V0 D DI l RP).
  - intros u y v r a Hy O V D. destruct (Nat.eq_dec u p) as [->|N]; [rewrite (pg_gone _ _ _ _ PG) in Hy; discriminate Hy|].
    destruct (insn_g u y N Hy) as (y0 & k & Hy0 & ->). rewrite put_op in O. rewrite put_vals in V. destruct (i_vals y0) as [|w rw] eqn:V0; [discriminate V|].
    cbn in V. injection V as <- _.
    assert (WP : is_use_of p w = false).
    { unfold is_use_of. destruct (v_data w) as [| | |z| |] eqn:DW; try reflexivity. apply Nat.eqb_neq. intros ->.
      destruct (st_cells _ ST u y0 w rw p Hy0 O V0 DW) as (yy & Hyy & OO). congruence. }
    unfold put_for in D. rewrite WP in D. destruct (st_cells _ ST u y0 w rw a Hy0 O V0 D) as (ya & Hya & OA).
    assert (NA : a <> p) by congruence. destruct (kept a ya Hya NA) as (k' & K). exists (set_users k' (put_for_insn p e ya)). rewrite put_op. auto.
Qed.
End PhiRun.
