(** Throw becomes return 1. *)
From Verif Require Import SpecWord SpecIsa SpecFlat SpecSsa SpecIr SpecEdit SpecPass.
From Verif Require Import M_Base M_Ir M_Edit M_Ra M_Pass L_Edit L_Uses L_Sim L_PassDce L_PassAlloc.
Open Scope nat_scope.

(** ** Control goes along [goes] *)
Lemma exec_goes w bi f i x s c s' : sexec w bi f i x s = Some (SJmp c s') ->
  (i_op x = JA /\ c = i_bb1 x) \/ (exists o, cmp_op_of (i_op x) = Some o /\ (c = i_bb1 x \/ c = i_bb2 x)).
Proof.
  intros E. unfold sexec in E.
  destruct (i_op x) eqn:O; cbn [alu_op_of cmp_op_of] in E; destruct (i_vals x) as [|v1 [|v2 [|v3 r]]]; try discriminate E;
  repeat match type of E with
  | obind ?o _ = _ => destruct o; cbn [obind] in E; [|discriminate E]
  | (match v_data ?v with _ => _ end) = _ => destruct (v_data v); try discriminate E
  | (let '(_, _) := ?p in _) = _ => destruct p
  | (if (?a || ?b) || ?c then _ else _) = _ => destruct (a || b || c); try discriminate E
  | (if iop_eqb ?a ?b then _ else _) = _ => destruct (iop_eqb a b); try discriminate E
  | (if ?a && ?b then _ else _) = _ => destruct (a && b); try discriminate E
  end; try discriminate E; injection E as <- _;
  first [left; split; reflexivity | right; eexists; (split; [reflexivity|]); match goal with |- context[if ?c then i_bb2 x else _] => destruct c end; auto].
Qed.
Lemma body_goes w bi f l : forall s c s', sbody w bi f s l = Some (SJmp c s') ->
  exists i x, In i l /\ f_insn f i = Some x /\
    ((i_op x = JA /\ c = i_bb1 x) \/ (exists o, cmp_op_of (i_op x) = Some o /\ (c = i_bb1 x \/ c = i_bb2 x))).
Proof.
  induction l as [|i l IH]; intros s c s' E; cbn [sbody] in E; [discriminate E|].
  destruct (f_insn f i) as [x|] eqn:X; [|discriminate E]. cbn [obind] in E.
  destruct (sexec w bi f i x s) as [q|] eqn:EX; [|discriminate E]. cbn [obind] in E. destruct q; try discriminate E.
  - destruct (IH _ _ _ E) as (j & y & J & R). exists j, y. split; [now right|exact R].
  - injection E as -> ->. exists i, x. split; [now left|]. split; [exact X|]. eapply exec_goes, EX.
Qed.
Lemma phis_incl bi f prev l : forall s0 s l1 s1, sphis bi f prev s0 s l = Some (l1, s1) -> incl l1 l.
Proof.
  induction l as [|i l IH]; intros s0 s l1 s1 E; cbn [sphis] in E; [injection E as <- _; intros z []|].
  destruct (f_insn f i) as [x|]; [|discriminate E]. cbn [obind] in E. destruct (iop_eqb (i_op x) PHI).
  - destruct (incoming x prev); [|discriminate E]. cbn [obind] in E. destruct (seval _ _ _); [|discriminate E]. cbn [obind] in E.
    apply IH in E. intros y Y. right. apply E, Y.
  - injection E as <- _. intros z Z; exact Z.
Qed.
Lemma block_goes w bi f prev b s c s' : sblock w bi f prev b s = Some (SJmp c s') -> goes f b c.
Proof.
  unfold sblock. intros E. destruct (f_block f b) as [k|] eqn:K; [|discriminate E]. cbn [obind] in E.
  destruct (sphis bi f prev s s (b_insns k)) as [[l s1]|] eqn:P; [|discriminate E]. cbn [obind] in E.
  destruct (sbody w bi f s1 l) as [q|] eqn:B; [|discriminate E]. cbn [obind] in E.
  assert (IN : insns_of f b = b_insns k) by (unfold insns_of; now rewrite K).
  assert (SU : succs_of f b = b_succs k) by (unfold succs_of; now rewrite K).
  destruct q; try discriminate E.
  - destruct (b_succs k) as [|d r] eqn:S; [discriminate E|]. injection E as <- _. eapply go_next. rewrite SU. reflexivity.
  - injection E as -> ->. destruct (body_goes _ _ _ _ _ _ _ B) as (i & x & I & X & R). apply (phis_incl _ _ _ _ _ _ _ _ P) in I.
    rewrite <- IN in I. destruct R as [[O ->]|(o & O & [->| ->])]; [eapply go_ja|eapply go_c1|eapply go_c2]; eassumption.
Qed.

(** ** What the pass does *)
Definition thrown (x : insn) : insn := if iop_eqb (i_op x) THROW then set_vals [val_const32 1] (set_op RET x) else x.
Definition in_blocks (f : func) (reach : list nat) (i : nat) : bool := existsb (Nat.eqb i) (flat_map (insns_of f) reach).
Lemma in_blocks_iff f reach i : in_blocks f reach i = true <-> exists b, In b reach /\ In i (insns_of f b).
Proof.
  unfold in_blocks. rewrite existsb_exists, <- in_flat_map. split.
  - intros (z & Z & E). apply Nat.eqb_eq in E. now subst z.
  - intros I. exists i. split; [exact I|apply Nat.eqb_refl].
Qed.
Record same_shape (f g : func) : Prop := {
  ss_block : forall b, f_block g b = f_block f b; ss_entry : f_entry g = f_entry f; ss_all : f_all g = f_all f;
  ss_ni : f_ni g = f_ni f; ss_nb : f_nb g = f_nb f }.
Lemma thrown_twice x : thrown (thrown x) = thrown x.
Proof. unfold thrown. destruct (iop_eqb (i_op x) THROW) eqn:E; [reflexivity|now rewrite E]. Qed.
Lemma throw_fold l : forall f g, ofold throw_insn f l = Ok g -> same_shape f g /\
  forall i, f_insn g i = if existsb (Nat.eqb i) l then option_map thrown (f_insn f i) else f_insn f i.
Proof.
  induction l as [|a l IH]; intros f g E; cbn [ofold] in E.
  - injection E as <-. split; [constructor; reflexivity|reflexivity].
  - apply bind_ok in E as (h & Eh & E). unfold throw_insn in Eh. apply bind_ok in Eh as (x & Hx & Eh). injection Eh as Eh.
    apply get_insn_ok in Hx.
    assert (SH : same_shape f h) by (subst h; destruct (iop_eqb (i_op x) THROW); constructor; reflexivity).
    assert (IH0 : forall i, f_insn h i = if i =? a then Some (thrown x) else f_insn f i).
    { intros i. subst h. unfold thrown. destruct (iop_eqb (i_op x) THROW); [now rewrite f_insn_put|]. destruct (Nat.eqb_spec i a) as [->|]; auto. }
    destruct (IH h g E) as [S2 I2]. split.
    + destruct SH, S2. constructor; intros; congruence.
    + intros i. rewrite I2. cbn [existsb]. rewrite IH0. destruct (Nat.eqb_spec i a) as [->|N]; cbn [orb]; [|reflexivity].
      rewrite Hx. destruct (existsb (Nat.eqb a) l); cbn; [now rewrite thrown_twice|reflexivity].
Qed.
Lemma throw_spec reach f g : translate_throw reach f = Ok g -> same_shape f g /\
  forall i, f_insn g i = if in_blocks f reach i then option_map thrown (f_insn f i) else f_insn f i.
Proof.
  intros E. unfold translate_throw in E. apply bind_ok in E as (l & El & E). apply insns_in_spec in El. subst l. exact (throw_fold _ _ _ E).
Qed.
Lemma throw_total reach f : linked_ok f -> (forall b, In b reach -> f_block f b <> None) -> exists g, translate_throw reach f = Ok g.
Proof.
  intros L X. unfold translate_throw. rewrite (insns_in_total _ _ X). cbn [bind].
  assert (K : forall l f, (forall i, In i l -> f_insn f i <> None) -> exists g, ofold throw_insn f l = Ok g).
  { clear. induction l as [|i l IH]; intros f K; cbn [ofold]; [eauto|]. unfold throw_insn at 1, get_insn at 1.
    destruct (f_insn f i) as [x|] eqn:E; [|destruct (K i (or_introl eq_refl) E)]. cbn [bind]. apply IH.
    intros j J. destruct (iop_eqb (i_op x) THROW); [|apply K; now right]. rewrite f_insn_put. destruct (j =? i); [discriminate|apply K; now right]. }
  apply K. intros i I. apply in_flat_map in I as (b & _ & I). destruct (L b i I) as (x & -> & _). discriminate.
Qed.

(** ** Executions *)
Section Run.
Variables (f g : func) (reach : list nat).
Hypothesis Hsh : same_shape f g.
Hypothesis Hins : forall i, f_insn g i = if in_blocks f reach i then option_map thrown (f_insn f i) else f_insn f i.
Hypothesis Hcl : closed f reach.
Hypothesis Hval : forall b i x, In b reach -> In i (insns_of f b) -> f_insn f i = Some x -> i_op x = THROW -> i_vals x = [].

Definition thr_res (q : sres) : sres := match q with SThrow s => SRet 1 s | _ => q end.

Lemma thrown_other x : i_op x <> THROW -> thrown x = x.
Proof. intros N. unfold thrown, iop_eqb. destruct (iop_eq_dec (i_op x) THROW); [contradiction|reflexivity]. Qed.
Lemma exec_fun w bi i x s : sexec w bi g i x s = sexec w bi f i x s.
Proof.
  unfold sexec. destruct (i_op x); try reflexivity. destruct (i_vals x) as [|v1 [|v2 [|v3 r]]]; try reflexivity.
  destruct (v_data v1); try reflexivity. rewrite Hins. destruct (in_blocks f reach i0); [|reflexivity].
  destruct (f_insn f i0) as [y|]; [|reflexivity]. cbn [option_map obind].
  unfold thrown. destruct (iop_eqb (i_op y) THROW) eqn:O; [|reflexivity]. unfold iop_eqb in O.
  destruct (iop_eq_dec (i_op y) THROW) as [Q|]; [|discriminate O]. rewrite Q. reflexivity.
Qed.
Lemma body_throw w bi b : In b reach -> forall l s, incl l (insns_of f b) ->
  sbody w bi g s l = option_map thr_res (sbody w bi f s l).
Proof.
  intros B. induction l as [|i l IH]; intros s K; [reflexivity|]. cbn [sbody]. rewrite Hins.
  assert (I : In i (insns_of f b)) by (apply K; now left).
  assert (IB : in_blocks f reach i = true) by (apply in_blocks_iff; eauto). rewrite IB.
  destruct (f_insn f i) as [x|] eqn:X; [|reflexivity]. cbn [option_map obind].
  destruct (iop_eq_dec (i_op x) THROW) as [O|O].
  - unfold thrown. rewrite O. cbn [iop_eqb iop_eq_dec]. rewrite exec_fun. unfold sexec. cbn. rewrite O, (Hval b i x B I X O).
    cbn. unfold const_val. reflexivity.
  - rewrite (thrown_other x O), exec_fun. destruct (sexec w bi f i x s) as [q|] eqn:EX; [|reflexivity]. cbn [obind].
    destruct q; try reflexivity; [apply IH; intros z Z; apply K; now right|]. exfalso.
    unfold sexec in EX. destruct (i_op x); try (now apply O); cbn [alu_op_of cmp_op_of] in EX;
    destruct (i_vals x) as [|v1 [|v2 [|v3 r]]]; try discriminate EX;
    repeat match type of EX with
    | obind ?o _ = _ => destruct o; cbn [obind] in EX; [|discriminate EX]
    | (match v_data ?v with _ => _ end) = _ => destruct (v_data v); try discriminate EX
    | (let '(_, _) := ?p in _) = _ => destruct p
    | (if (?a || ?b) || ?c then _ else _) = _ => destruct (a || b || c); try discriminate EX
    | (if iop_eqb ?a ?b then _ else _) = _ => destruct (iop_eqb a b); try discriminate EX
    | (if ?a && ?b then _ else _) = _ => destruct (a && b); try discriminate EX
    end; discriminate EX.
Qed.
Lemma phis_throw bi prev b : In b reach -> forall l s0 s, incl l (insns_of f b) -> sphis bi g prev s0 s l = sphis bi f prev s0 s l.
Proof.
  intros B. induction l as [|i l IH]; intros s0 s K; [reflexivity|]. cbn [sphis]. rewrite Hins.
  assert (IB : in_blocks f reach i = true) by (apply in_blocks_iff; exists b; split; [exact B|apply K; now left]). rewrite IB.
  destruct (f_insn f i) as [x|]; [|reflexivity]. cbn [option_map obind].
  destruct (iop_eq_dec (i_op x) THROW) as [O|O].
  - unfold thrown. rewrite O. reflexivity.
  - rewrite (thrown_other x O). destruct (iop_eqb (i_op x) PHI); [|reflexivity].
    destruct (incoming x prev); [|reflexivity]. cbn [obind]. destruct (seval _ _ _); [|reflexivity]. cbn [obind]. apply IH. intros y Y; apply K; now right.
Qed.
Lemma block_throw w bi prev b s : In b reach -> sblock w bi g prev b s = option_map thr_res (sblock w bi f prev b s).
Proof.
  intros B. unfold sblock. rewrite (ss_block _ _ Hsh). destruct (f_block f b) as [k|] eqn:K; [|reflexivity]. cbn [obind].
  assert (IN : insns_of f b = b_insns k) by (unfold insns_of; now rewrite K).
  rewrite (phis_throw bi prev b B) by (rewrite IN; intros z Z; exact Z).
  destruct (sphis bi f prev s s (b_insns k)) as [[l s1]|] eqn:P; [|reflexivity]. cbn [obind].
  rewrite (body_throw w bi b B) by (rewrite IN; eapply phis_incl, P).
  destruct (sbody w bi f s1 l) as [q|]; [|reflexivity]. cbn. destruct q; cbn; try reflexivity. destruct (b_succs k); reflexivity.
Qed.
Lemma run_throw w bi n : forall prev b s, In b reach -> srun w bi g n prev b s = option_map thr_out (srun w bi f n prev b s).
Proof.
  induction n as [|n IH]; intros prev b s B; [reflexivity|]. cbn [srun]. rewrite (block_throw w bi prev b s B).
  destruct (sblock w bi f prev b s) as [q|] eqn:E; [|reflexivity]. cbn. destruct q; cbn; try reflexivity.
  apply IH. apply (Hcl b b0 B). eapply block_goes, E.
Qed.
End Run.
