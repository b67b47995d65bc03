(** Executions of a function and of the same function with instructions added: they agree on what the
    original instructions and variables hold. *)
From Coq Require Import ZArith List Bool Arith Lia.
From Verif Require Import M_Base M_Ir M_Edit M_Pass SpecWord SpecFlat SpecSsa SpecIr SpecEdit SpecPass SpecStrict SpecInstr SpecWeave
  L_Edit L_Uses L_Hist L_Ctor L_Ins L_Div L_Count.
Import ListNotations.
Open Scope nat_scope.

Definition agr (f : func) (s s' : sst) : Prop :=
  (forall i, f_insn f i <> None -> s_env s i = s_env s' i /\ s_var s i = s_var s' i) /\ s_mem s = s_mem s' /\ s_nc s = s_nc s'.
Inductive qrel (f : func) : sres -> sres -> Prop :=
| q_next s s' : agr f s s' -> qrel f (SNext s) (SNext s')
| q_jmp b s s' : agr f s s' -> qrel f (SJmp b s) (SJmp b s')
| q_ret r s s' : agr f s s' -> qrel f (SRet r s) (SRet r s')
| q_throw s s' : agr f s s' -> qrel f (SThrow s) (SThrow s').
Inductive orel {A B} (R : A -> B -> Prop) : option A -> option B -> Prop :=
| o_none : orel R None None
| o_some a b : R a b -> orel R (Some a) (Some b).

Lemma agr_refl f s : agr f s s.
Proof. repeat split. Qed.
Lemma agr_res f s s' i v : agr f s s' -> agr f (sres_ s i v) (sres_ s' i v).
Proof.
  intros (A & B & C). split; [|auto]. intros j L. destruct (A j L) as (E & V). cbn. unfold eupd. destruct (j =? i); auto.
Qed.
Lemma agr_extra f s s' i v : agr f s s' -> f_insn f i = None -> agr f s (sres_ s' i v).
Proof.
  intros (A & B & C) N. split; [|auto]. intros j L. destruct (A j L) as (E & V). cbn. unfold eupd. destruct (Nat.eqb_spec j i); [congruence|auto].
Qed.
Lemma agr_var f s s' a v : agr f s s' -> f_insn f a = None -> agr f s (mkS (s_env s') (eupd (s_var s') a v) (s_mem s') (s_nc s')).
Proof.
  intros (A & B & C) N. split; [|auto]. intros j L. destruct (A j L) as (E & V). cbn. unfold eupd. destruct (Nat.eqb_spec j a); [congruence|auto].
Qed.
Lemma agr_seval f bi s s' v : agr f s s' -> (forall d, v_data v = VInsn d -> f_insn f d <> None) -> seval bi (s_env s) v = seval bi (s_env s') v.
Proof. intros (A & _) L. unfold seval. destruct (v_data v) eqn:E; auto. apply A. apply L. reflexivity. Qed.

Section W.
Variables (f g : func) (w : world) (bi : bconst -> Z).
Hypothesis OL : operands_live f.
Hypothesis KP : kept f g.

Lemma sexec_agr i x y s s' : f_insn f i = Some x -> f_insn g i = Some y -> agr f s s' -> orel (qrel f) (sexec w bi f i x s) (sexec w bi g i y s').
Proof.
  intros X Y A. destruct (KP i x X) as (u & q & Y'). rewrite Y in Y'. injection Y' as ->. clear Y.
  assert (V : forall v, In v (i_vals x) -> seval bi (s_env s) v = seval bi (s_env s') v).
  { intros v I. apply (agr_seval f); auto. intros d D. apply (OL i x v d X); auto. unfold operand_values. apply in_or_app. auto. }
  assert (VA : (i_op x = LOADRAW \/ i_op x = STORERAW) -> seval bi (s_env s) (a_val (i_addr x)) = seval bi (s_env s') (a_val (i_addr x))).
  { intros O. apply (agr_seval f); auto. intros d D. apply (OL i x (a_val (i_addr x)) d X); auto. unfold operand_values. apply in_or_app. right. destruct O as [-> | ->]; now left. }
  assert (LV : forall v d, In v (i_vals x) -> v_data v = VInsn d -> f_insn f d <> None).
  { intros v d I D. apply (OL i x v d X); auto. unfold operand_values. apply in_or_app. auto. }
  assert (VS : forall l, (forall v, In v l -> In v (i_vals x)) -> sevals bi (s_env s) l = sevals bi (s_env s') l).
  { induction l as [|v l IH]; intros I; [reflexivity|]. cbn. rewrite (V v) by (apply I; now left). rewrite IH by (intros v' I'; apply I; now right). reflexivity. }
  assert (RT : forall v, orel (qrel f) (Some (SNext (sres_ s i v))) (Some (SNext (sres_ s' i v)))).
  { intros v. constructor. constructor. apply agr_res. exact A. }
  assert (EM : s_mem s = s_mem s') by apply A. assert (EN : s_nc s = s_nc s') by apply A.
  unfold sexec. cbn [i_op i_vals i_addr i_vrt i_ity i_imm64 i_alu i_u i_bb1 i_bb2 set_users set_parent].
  destruct (i_op x) eqn:O; destruct (i_vals x) as [|v1 [|v2 [|v3 r]]] eqn:EV; cbn [alu_op_of cmp_op_of];
    try rewrite (V v1) by (cbn; auto); try rewrite (V v2) by (cbn; auto); try rewrite VA by auto;
    try rewrite (VS _ (fun v H => H)); rewrite ?EM, ?EN; unfold obind;
    repeat match goal with
    | |- orel _ None None => constructor
    | |- orel _ (Some (SNext s)) (Some (SNext s')) => constructor; constructor; exact A
    | |- orel _ (Some (SRet _ _)) _ => constructor; constructor; exact A
    | |- orel _ (Some (SThrow _)) _ => constructor; constructor; exact A
    | |- orel _ (Some (SJmp _ _)) _ => constructor; constructor; exact A
    | |- orel _ (Some (SNext (sres_ _ _ _))) _ => apply RT
    | |- orel _ (match ?e with _ => _ end) (match ?e with _ => _ end) => destruct e eqn:?
    end; auto.
  - assert (L : f_insn f i0 <> None) by (apply (LV v1); [now left|assumption]). destruct (f_insn f i0) as [z|] eqn:Z; [|congruence].
    destruct (KP i0 z Z) as (u' & q' & ->). cbn [i_op i_vrt set_users set_parent].
    destruct (iop_eqb (i_op z) ALLOC); [|constructor]. destruct (vr_bytes (i_vrt z)); [|constructor]. destruct (seval bi (s_env s') v2); [|constructor].
    constructor. constructor. destruct A as (A1 & _). split; [|cbn; auto]. intros j L'. destruct (A1 j L') as (E1 & E2). cbn. unfold eupd. destruct (j =? i0); auto.
  - assert (L : f_insn f i0 <> None) by (apply (LV v1); [now left|assumption]). rewrite (proj2 (proj1 A i0 L)). destruct (s_var s' i0); [apply RT|constructor].
  - constructor. constructor. split; [apply A|cbn; auto].
  - constructor. constructor. split; [|cbn; auto]. intros j L. destruct (proj1 A j L) as (E1 & E2). cbn. unfold eupd. destruct (j =? i); auto.
  - constructor. constructor. split; [|cbn; auto]. intros j L. destruct (proj1 A j L) as (E1 & E2). cbn. unfold eupd. destruct (j =? i); auto.
  - constructor. constructor. split; [|cbn; auto]. intros j L. destruct (proj1 A j L) as (E1 & E2). cbn. unfold eupd. destruct (j =? i); auto.
  - constructor. constructor. split; [|cbn; auto]. intros j L. destruct (proj1 A j L) as (E1 & E2). cbn. unfold eupd. destruct (j =? i); auto.
Qed.
Lemma kept_some i : f_insn f i <> None -> exists x y, f_insn f i = Some x /\ f_insn g i = Some y /\ i_op y = i_op x /\ i_phi y = i_phi x /\ i_vals y = i_vals x.
Proof.
  intros L. destruct (f_insn f i) as [x|] eqn:X; [|congruence]. destruct (KP i x X) as (u & q & Y). exists x. eexists. split; [reflexivity|]. split; [exact Y|]. auto.
Qed.
Lemma sbody_agr : forall l s s', (forall i, In i l -> f_insn f i <> None) -> agr f s s' -> orel (qrel f) (sbody w bi f s l) (sbody w bi g s' l).
Proof.
  induction l as [|i l IH]; intros s s' L A; [constructor; constructor; exact A|].
  destruct (kept_some i (L i (or_introl eq_refl))) as (x & y & X & Y & _). cbn [sbody]. rewrite X, Y. cbn [obind].
  destruct (sexec_agr i x y s s' X Y A) as [|t t' R]; [constructor|]. cbn [obind].
  destruct R as [s1 s1' R|b s1 s1' R|r s1 s1' R|s1 s1' R]; [apply IH; auto; intros k I; apply L; now right|constructor; constructor; exact R..].
Qed.
Definition prel (a b : list nat * sst) : Prop := fst a = fst b /\ agr f (snd a) (snd b).
Lemma sphis_agr prev s0 s0' : agr f s0 s0' -> forall l s s', (forall i, In i l -> f_insn f i <> None) -> agr f s s' ->
  orel prel (sphis bi f prev s0 s l) (sphis bi g prev s0' s' l).
Proof.
  intros A0. induction l as [|i l IH]; intros s s' L A; [constructor; split; auto|].
  destruct (kept_some i (L i (or_introl eq_refl))) as (x & y & X & Y & O & P & _). cbn [sphis]. rewrite X, Y. cbn [obind]. rewrite O.
  destruct (iop_eqb (i_op x) PHI) eqn:Q; [|constructor; split; auto]. unfold incoming. rewrite P.
  destruct (find _ (i_phi x)) as [[v b]|] eqn:F; cbn [option_map obind fst]; [|constructor].
  rewrite (agr_seval f bi s0 s0' v A0).
  - destruct (seval bi (s_env s0') v) as [z|]; cbn [obind]; [|constructor]. apply IH; [intros k I; apply L; now right|]. apply agr_res. exact A.
  - intros d D. apply (OL i x v d X); auto. unfold operand_values. apply in_or_app. right. unfold iop_eqb in Q. destruct (iop_eq_dec (i_op x) PHI) as [E|]; [|discriminate]. rewrite E.
    apply find_some in F as (F & _). change v with (fst (v, b)). now apply in_map.
Qed.
End W.

(** blocks without phis *)
Lemma sphis_none bi f prev s0 s l : (forall i, In i l -> f_insn f i <> None) -> (forall i, In i l -> ~ is_phi f i) -> sphis bi f prev s0 s l = Some (l, s).
Proof.
  intros L N. destruct l as [|i l]; [reflexivity|]. cbn [sphis]. destruct (f_insn f i) as [x|] eqn:X; [|exfalso; apply (L i); [now left|exact X]]. cbn [obind].
  unfold iop_eqb. destruct (iop_eq_dec (i_op x) PHI) as [E|]; [|reflexivity]. exfalso. apply (N i); [now left|]. exists x. auto.
Qed.
(** phis of a list followed by other instructions *)
Lemma sphis_app bi f prev s0 : forall l s r, (forall i, In i r -> f_insn f i <> None) -> (forall i, In i r -> ~ is_phi f i) ->
  sphis bi f prev s0 s (l ++ r) = match sphis bi f prev s0 s l with Some (t, s1) => Some (t ++ r, s1) | None => None end.
Proof.
  induction l as [|i l IH]; intros s r L N; [cbn [app sphis]; now rewrite sphis_none|].
  cbn [app sphis]. destruct (f_insn f i) as [x|]; cbn [obind]; [|reflexivity]. destruct (iop_eqb (i_op x) PHI); [|reflexivity].
  destruct (incoming x prev) as [v|]; cbn [obind]; [|reflexivity]. destruct (seval bi (s_env s0) v); cbn [obind]; [|reflexivity]. now apply IH.
Qed.
Lemma sbody_cat w bi f : forall l r s, sbody w bi f s (l ++ r) = match sbody w bi f s l with Some (SNext s1) => sbody w bi f s1 r | o => o end.
Proof.
  induction l as [|i l IH]; intros r s; [reflexivity|]. cbn [app sbody]. destruct (f_insn f i) as [x|]; cbn [obind]; [|reflexivity].
  destruct (sexec w bi f i x s) as [[]|]; cbn [obind]; auto.
Qed.
(** a block, with its parts named *)
Lemma sblock_eq w bi f prev b s : f_block f b <> None -> sblock w bi f prev b s =
  match sphis bi f prev s s (insns_of f b) with
  | None => None
  | Some (l, s1) => match sbody w bi f s1 l with
    | Some (SNext s2) => match succs_of f b with b' :: _ => Some (SJmp b' s2) | [] => None end
    | o => o
    end
  end.
Proof.
  intros B. unfold sblock, insns_of, succs_of. destruct (f_block f b) as [k|]; [|congruence]. cbn [obind].
  destruct (sphis bi f prev s s (b_insns k)) as [[l s1]|]; cbn [obind]; [|reflexivity]. destruct (sbody w bi f s1 l) as [[]|]; reflexivity.
Qed.


(** * Simulation *)
Lemma srun_split w bi g : forall k n p b s p1 b1 s1, srun w bi g k p b s = Some (OAt p1 b1 s1) -> srun w bi g (k + n) p b s = srun w bi g n p1 b1 s1.
Proof.
  induction k as [|k IH]; intros n p b s p1 b1 s1 E; cbn [srun Nat.add] in *; [now injection E as -> -> ->|].
  destruct (sblock w bi g p b s) as [[]|]; cbn [obind] in *; try discriminate. eapply IH. exact E.
Qed.
Definition ended (o : sout) : Prop := match o with OAt _ _ _ => False | _ => True end.
Lemma srun_more w bi g o : ended o -> forall n p b s m, srun w bi g n p b s = Some o -> n <= m -> srun w bi g m p b s = Some o.
Proof.
  intros En. induction n as [|n IH]; intros p b s m E L; cbn [srun] in E; [injection E as <-; destruct En|].
  destruct m as [|m]; [lia|]. cbn [srun]. destruct (sblock w bi g p b s) as [[]|]; cbn [obind] in *; try discriminate; auto. apply IH; auto. lia.
Qed.
Lemma srun_at w bi g : forall k n p b s x o, ended o -> srun w bi g k p b s = Some x -> srun w bi g n p b s = Some o -> ~ ended x -> k < n.
Proof.
  intros k n p b s x o En E1 E2 Nx. destruct (le_lt_dec n k) as [L|L]; [|exact L]. exfalso.
  assert (K := srun_more w bi g o En n p b s k E2 L). rewrite E1 in K. injection K as ->. contradiction.
Qed.

Section SIM.
Variables (f g : func) (w : world) (bi : bconst -> Z).
(** [At k prev b s prev' s']: after [k] blocks [f] is at [b], entered from [prev]; [g] is there too *)
Variable At : nat -> nat -> nat -> sst -> nat -> sst -> Prop.
Variable bad : nat -> Prop.
Inductive jrel (k b b1 : nat) : sres -> sres -> Prop :=
| j_jmp b2 t t' : At (S k) b b2 t b1 t' -> jrel k b b1 (SJmp b2 t) (SJmp b2 t')
| j_ret r t t' : s_mem t = s_mem t' -> s_nc t = s_nc t' -> jrel k b b1 (SRet r t) (SRet r t')
| j_throw t t' : jrel k b b1 (SThrow t) (SThrow t').
Definition meets_again (k prev b : nat) (s : sst) (prev' : nat) (s' : sst) : Prop :=
  (bad (S k) /\ exists n t, srun w bi g n prev' b s' = Some (OThrow t)) \/
  exists d p1 b1 s1, srun w bi g d prev' b s' = Some (OAt p1 b1 s1) /\ orel (jrel k b b1) (sblock w bi f prev b s) (sblock w bi g p1 b1 s1).
Hypothesis Step : forall k prev b s prev' s', At k prev b s prev' s' -> meets_again k prev b s prev' s'.

Definition done_like (o o' : sout) : Prop :=
  match o, o' with
  | ORet r t, ORet r' t' => r = r' /\ s_mem t = s_mem t' /\ s_nc t = s_nc t'
  | OThrow _, OThrow _ => True
  | _, _ => False
  end.
Lemma sim_fwd : forall n k prev b s prev' s' o, At k prev b s prev' s' -> srun w bi f n prev b s = Some o -> ended o ->
  exists n' o', srun w bi g n' prev' b s' = Some o' /\ (done_like o o' \/ (exists t, o' = OThrow t) /\ exists m, m <= k + n /\ bad m).
Proof.
  induction n as [|n IH]; intros k prev b s prev' s' o A E En; cbn [srun] in E; [injection E as <-; destruct En|].
  destruct (Step _ _ _ _ _ _ A) as [(Bd & n' & t & Th)|(d & p1 & b1 & s1 & G & R)].
  { exists n', (OThrow t). split; [exact Th|]. right. split; [eauto|]. exists (S k). split; [lia|exact Bd]. }
  assert (One : forall m, srun w bi g (d + S m) prev' b s' = srun w bi g (S m) p1 b1 s1) by (intros m; now apply srun_split).
  inversion R as [E1 E2|q q' R' E1 E2]; rewrite <- E1 in E; cbn [obind] in E; [discriminate|].
  inversion R'; subst q q'.
  - destruct (IH _ _ _ _ _ _ _ H E En) as (n' & o' & G' & D). exists (d + S n'), o'. split; [rewrite One; cbn [srun]; rewrite <- E2; exact G'|].
    destruct D as [D|(D & m & M & B)]; [now left|]. right. split; [exact D|]. exists m. split; [lia|exact B].
  - exists (d + 1), (ORet r t'). rewrite One. cbn [srun]. rewrite <- E2. split; [reflexivity|]. left. injection E as <-. cbn. auto.
  - exists (d + 1), (OThrow t'). rewrite One. cbn [srun]. rewrite <- E2. split; [reflexivity|]. left. injection E as <-. exact I.
Qed.
Lemma sim_bwd r t' : forall n n0 k prev b s prev' s', n0 <= n -> At k prev b s prev' s' -> srun w bi g n0 prev' b s' = Some (ORet r t') ->
  exists n' t, srun w bi f n' prev b s = Some (ORet r t) /\ s_mem t = s_mem t' /\ s_nc t = s_nc t'.
Proof.
  induction n as [|n IH]; intros n0 k prev b s prev' s' L A E.
  { assert (n0 = 0) by lia. subst n0. discriminate E. }
  destruct (Step _ _ _ _ _ _ A) as [(_ & n' & t & Th)|(d & p1 & b1 & s1 & G & R)].
  { exfalso. assert (K1 := srun_more w bi g (OThrow t) I n' _ _ _ (n' + n0) Th ltac:(lia)). assert (K2 := srun_more w bi g (ORet r t') I n0 _ _ _ (n' + n0) E ltac:(lia)). congruence. }
  assert (Lk : d < n0) by (eapply (srun_at w bi g d n0); [|exact G|exact E|]; cbn; auto).
  replace n0 with (d + S (n0 - S d)) in E by lia. rewrite (srun_split _ _ _ _ _ _ _ _ _ _ _ G) in E. cbn [srun] in E.
  inversion R as [E1 E2|q q' R' E1 E2]; rewrite <- E2 in E; cbn [obind] in E; [discriminate|].
  inversion R'; subst q q'.
  - destruct (IH (n0 - S d) _ _ _ _ _ _ ltac:(lia) H E) as (n' & u & F & M). exists (S n'), u. split; [|exact M]. cbn [srun]. rewrite <- E1. exact F.
  - injection E as -> ->. exists 1, t. cbn [srun]. rewrite <- E1. split; [reflexivity|auto].
  - discriminate.
Qed.
End SIM.

Section RESULT.
Variables (bi : bconst -> Z) (f g : func) (At : nat -> nat -> nat -> sst -> nat -> sst -> Prop) (bad : nat -> Prop).
Hypotheses (En : f_entry g = f_entry f) (A0 : forall s, At 0 0 (f_entry f) s 0 s)
  (Step : forall w k prev b s prev' s', At k prev b s prev' s' -> meets_again f g w bi At bad k prev b s prev' s').
Lemma sim_transparent : transparent bi f g.
Proof.
  unfold returns, throws. constructor; unfold returns, returns_in, throws; rewrite En.
  - intros w s0 r m k (n & t & E & <- & <-). destruct (sim_bwd f g w bi At bad (Step w) r t n n _ _ _ _ _ _ (le_n n) (A0 s0) E) as (n' & u & F & M & K). exists n', u. auto.
  - intros w s0 r m k (n & t & E & <- & <-). destruct (sim_fwd f g w bi At bad (Step w) n _ _ _ _ _ _ _ (A0 s0) E I) as (n' & o' & F & [D|((u & ->) & _)]); [left|right; eauto].
    destruct o'; cbn in D; try contradiction. destruct D as (<- & D1 & D2). eauto 6.
  - intros w s0 (n & t & E). destruct (sim_fwd f g w bi At bad (Step w) n _ _ _ _ _ _ _ (A0 s0) E I) as (n' & o' & F & [D|((u & ->) & _)]); [|eauto].
    destruct o'; cbn in D; try contradiction. eauto.
Qed.
Lemma sim_within w n s0 r m k : (forall j, j <= n -> ~ bad j) -> returns_in w bi f n s0 r m k -> returns w bi g s0 r m k.
Proof.
  intros NB (t & E & <- & <-). destruct (sim_fwd f g w bi At bad (Step w) n _ _ _ _ _ _ _ (A0 s0) E I) as (n' & o' & F & [D|(_ & j & J & B)]).
  - destruct o'; cbn in D; try contradiction. destruct D as (<- & D1 & D2). exists n'. eexists. rewrite En. split; [exact F|auto].
  - exfalso. exact (NB j J B).
Qed.
End RESULT.
Lemma transparent_refl bi f : transparent bi f f.
Proof. constructor; auto. Qed.
Lemma transparent_trans bi f g h : transparent bi f g -> transparent bi g h -> transparent bi f h.
Proof.
  intros [A1 A2 A3] [B1 B2 B3]. constructor; auto. intros w s0 r m k R. destruct (A2 _ _ _ _ _ R); auto.
Qed.
