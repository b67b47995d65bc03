(** What the lifter accepts. *)
From Coq Require Import ZArith List Bool Arith Lia.
From Verif Require Import M_Base M_Ir M_Edit SpecWord SpecIsa M_GenBB SpecCfg M_Lift SpecSsa SpecLift SpecIr
  L_Edit L_GenBB L_Lift L_LiftRead L_LiftRun L_LiftDfs L_LiftMain L_LiftSafe L_LiftTerm.
Import ListNotations.
Open Scope nat_scope.

Definition rng (r : Z) : Prop := (0 <= r <= 10)%Z.
Lemma read_rng n s r b a : read_var n s r b = Ok a -> rng r.
Proof.
  destruct n; [discriminate|]. cbn [read_var]. destruct (Z.eqb_spec r 10); [intros _; unfold rng; lia|].
  destruct (negb _) eqn:E; [discriminate|]. intros _. apply negb_false_iff, andb_prop in E as [A B].
  apply Z.leb_le in A, B. split; assumption.
Qed.
Lemma write_rng s r b v a : write_var s r b v = Ok a -> rng r.
Proof.
  unfold write_var. destruct (_ && _) eqn:E; [|discriminate]. intros _. apply andb_prop in E as [A B].
  apply Z.leb_le in A, B. split; assumption.
Qed.
Lemma src_rng n s b i a : get_src n s b i = Ok a -> src_x (pi_code i) = true -> rng (pi_src i).
Proof. unfold get_src. intros H E. rewrite E in H. eapply read_rng; eauto. Qed.

(** the static conditions on an instruction *)
Definition acc (i : pre_insn) : Prop :=
  let c := pi_code i in
  if ((cls c =? 4) || (cls c =? 7))%Z then
    pi_off i = 0%Z /\ rng (pi_dst i) /\
    (bin_of (opn c) <> None /\ (src_x c = true -> rng (pi_src i)) \/
     opn c = 11%Z /\ (src_x c = true -> rng (pi_src i)) \/
     opn c = 13%Z /\ cls c = 4%Z \/ opn c = 8%Z /\ src_x c = false)
  else if ((cls c =? 0) && (mode c =? 0) && (szf c =? 3))%Z then (pi_src i <= 6)%Z /\ rng (pi_dst i)
  else if ((cls c =? 1) && ((mode c =? 4) || (mode c =? 3)))%Z then rng (pi_dst i) /\ rng (pi_src i)
  else if ((cls c =? 2) && (mode c =? 3))%Z then rng (pi_dst i)
  else if ((cls c =? 3) && (mode c =? 3))%Z then rng (pi_dst i) /\ rng (pi_src i)
  else if jmp_cls c then
    opn c = 0%Z \/ opn c = 9%Z \/
    cond_of (opn c) <> None /\ rng (pi_dst i) /\ (src_x c = true -> rng (pi_src i)) \/
    opn c = 8%Z /\ pi_src i <> 1%Z /\ pi_src i <> 2%Z /\ (0 <= pi_imm i)%Z /\
      (pi_src i = 6%Z \/ nth_error helper_args (Z.to_nat (pi_imm i)) <> None)
  else False.

Ltac bo H x E := apply bind_ok in H as (x & E & H).
Lemma insn_acc n bs b s i s' : lift_insn n bs b s i = Ok s' -> acc i.
Proof.
  intros H. unfold lift_insn in H. unfold acc. destruct (((cls (pi_code i) =? 4) || (cls (pi_code i) =? 7))%Z).
  { unfold lift_alu in H. bo H s1 E. destruct (Z.eqb_spec (pi_off i) 0) as [O|]; [|discriminate]. split; [exact O|].
    assert (Un : forall o a u, alu_write_un n s b i o a u = Ok s1 -> rng (pi_dst i)).
    { intros o a u K. unfold alu_write_un in K. bo K r1 E1. eapply read_rng; eauto. }
    destruct (bin_of (opn (pi_code i))) eqn:B.
    { unfold alu_write_bin in E. bo E r1 E1. bo E r2 E2. split; [eapply read_rng; eauto|]. left. split; [discriminate|]. eapply src_rng; eauto. }
    destruct (Z.eqb_spec (opn (pi_code i)) 11).
    { bo E r1 E1. split; [eapply write_rng; eauto|]. right; left. split; [assumption|]. eapply src_rng; eauto. }
    destruct (Z.eqb_spec (opn (pi_code i)) 13).
    { destruct (Z.eqb_spec (cls (pi_code i)) 4); [|discriminate]. split; [eapply Un; eauto|]. tauto. }
    destruct (Z.eqb_spec (opn (pi_code i)) 8); [|discriminate].
    destruct (src_x (pi_code i)); [discriminate|]. split; [eapply Un; eauto|]. tauto. }
  destruct ((cls (pi_code i) =? 0)%Z && _ && _).
  { unfold lift_imm64 in H. destruct (Z.leb_spec (pi_src i) 6); [|discriminate]. bo H r E. split; [assumption | eapply write_rng; eauto]. }
  destruct ((cls (pi_code i) =? 1)%Z && _).
  { unfold lift_ldx in H. bo H r1 E1. bo H r E. split; [eapply write_rng; eauto | eapply read_rng; eauto]. }
  destruct ((cls (pi_code i) =? 2)%Z && _).
  { unfold lift_st in H. bo H r1 E1. eapply read_rng; eauto. }
  destruct ((cls (pi_code i) =? 3)%Z && _).
  { unfold lift_st in H. bo H r1 E1. bo H r2 E2. split; eapply read_rng; eauto. }
  destruct (jmp_cls (pi_code i)); [|discriminate]. unfold lift_jmp in H.
  destruct (Z.eqb_spec (opn (pi_code i)) 0); [auto|]. destruct (Z.eqb_spec (opn (pi_code i)) 9); [auto|].
  destruct (cond_of (opn (pi_code i))) eqn:B.
  { unfold lift_cond in H. bo H r1 E1. bo H r2 E2. right; right; left. split; [discriminate|]. split; [eapply read_rng; eauto | eapply src_rng; eauto]. }
  destruct (Z.eqb_spec (opn (pi_code i)) 8); [|discriminate]. unfold lift_call in H.
  destruct (Z.eqb_spec (pi_src i) 1); [discriminate|]. destruct (Z.eqb_spec (pi_src i) 2); [discriminate|]. cbn [orb] in H.
  destruct (Z.ltb_spec (pi_imm i) 0); [discriminate|]. right; right; right. repeat split; auto.
  destruct (Z.eqb_spec (pi_src i) 6); [now left|]. right. destruct (nth_error helper_args (Z.to_nat (pi_imm i))); [discriminate | discriminate H].
Qed.

Section Acc.
Variable bs : list pblock.
Hypothesis Hpred : forall b pb p, blk bs b = Some pb -> In p (pb_preds pb) -> blk bs (S p) <> None.
Hypothesis Hsucc : forall b pb q, blk bs b = Some pb -> In q (pb_succs pb) -> blk bs (S q) <> None.

(** only [transform] marks blocks as filled *)
Definition same_fill (s s' : lst) : Prop := forall b, l_fill s' b = l_fill s b.
Definition rdf (rd : lst -> Z -> nat -> outcome (lst * value)) : Prop :=
  forall s r b a, rd s r b = Ok a -> same_fill s (fst a).
Lemma sf_refl s : same_fill s s. Proof. intros b; reflexivity. Qed.
Lemma sf_trans s1 s2 s3 : same_fill s1 s2 -> same_fill s2 s3 -> same_fill s1 s3.
Proof. intros A B b. now rewrite B. Qed.
Lemma sf_write s r b v a : write_var s r b v = Ok a -> same_fill s a.
Proof. unfold write_var. destruct (_ && _); [|discriminate]. intros [= <-]. intros c. reflexivity. Qed.
Lemma sf_phi s b a : new_phi s b = Ok a -> same_fill s (fst a).
Proof. unfold new_phi. intros H. bo H k E. injection H as <-. intros c. reflexivity. Qed.
Lemma sf_emit s b x us a : emit s b x us = Ok a -> same_fill s (fst a).
Proof. unfold emit. intros H. bo H k E. bo H g G. injection H as <-. intros c. reflexivity. Qed.
Lemma sf_ofold {A} (f : lst -> A -> outcome lst) l : (forall s a s', f s a = Ok s' -> same_fill s s') ->
  forall s s', ofold f s l = Ok s' -> same_fill s s'.
Proof.
  intros K. induction l as [|x l IH]; intros s s' H; cbn [ofold] in H; [injection H as <-; apply sf_refl|].
  bo H s1 E. eauto using sf_trans.
Qed.
Lemma sf_add rd reg i s s' : rdf rd -> add_phi_operands rd reg i s = Ok s' -> same_fill s s'.
Proof.
  intros Rd H. unfold add_phi_operands in H. bo H x E. destruct (negb _); [discriminate|]. bo H k E1. unfold phi_ops in H.
  revert s s' E E1 H. intros s s' _ _. apply sf_ofold. intros s1 p s2 H. bo H r E. destruct r as [s3 v]. bo H g1 G1. bo H g2 G2.
  injection H as <-. apply (Rd _ _ _ _ E).
Qed.
Lemma sf_read n : rdf (read_var n).
Proof.
  induction n as [|n IH]; intros s r b a H; [discriminate|]. cbn [read_var] in H.
  destruct (r =? 10)%Z; [injection H as <-; apply sf_refl|]. destruct (negb _); [discriminate|].
  destruct (l_def s r b); [injection H as <-; apply sf_refl|].
  destruct (b =? 1). { destruct (_ && _); injection H as <-; intros c; reflexivity. }
  destruct (negb (l_seal s b)).
  { bo H q E. destruct q as [s1 i]. bo H s2 E2. injection H as <-. pose proof (sf_phi _ _ _ E) as A. apply sf_write in E2.
    cbn in *. intros c. rewrite E2. cbn. apply A. }
  bo H k E.
  assert (Many : (do r0 <- new_phi s b; (let '(s1, i) := r0 in do s2 <- write_var s1 r b (val_insn i);
       do s3 <- add_phi_operands (read_var n) r i s2; do s4 <- write_var s3 r b (val_insn i); Ok (s4, val_insn i))) = Ok a ->
       same_fill s (fst a)).
  { clear H. intros H. bo H q E1. destruct q as [s1 i]. bo H s2 E2. bo H s3 E3. bo H s4 E4. injection H as <-. cbn.
    apply sf_phi in E1. apply sf_write in E2, E4. apply sf_add in E3; [|exact IH]. cbn in *. eauto using sf_trans. }
  destruct (b_preds k) as [|p [|p2 ps]]; [exact (Many H)| |exact (Many H)].
  bo H q E1. bo H s2 E2. injection H as <-. apply IH in E1. apply sf_write in E2. cbn. eauto using sf_trans.
Qed.
Lemma sf_src n s b i a : get_src n s b i = Ok a -> same_fill s (fst a).
Proof. unfold get_src. destruct (src_x _); [apply sf_read | intros [= <-]; apply sf_refl]. Qed.
Lemma sf_args n b k : forall j s a, read_args n s b j k = Ok a -> same_fill s (fst a).
Proof.
  induction k as [|k IH]; intros j s a H; cbn [read_args] in H; [injection H as <-; apply sf_refl|].
  bo H r E. destruct (j <? 5); [|discriminate]. bo H t E2. injection H as <-. cbn. apply sf_read in E. apply IH in E2. eauto using sf_trans.
Qed.
Lemma sf_insn n b s i s' : lift_insn n bs b s i = Ok s' -> same_fill s s'.
Proof.
  intros H. unfold lift_insn in H. destruct (_ || _).
  { unfold lift_alu in H. bo H s1 E. destruct (pi_off i =? 0)%Z; [|discriminate]. injection H as <-.
    assert (Un : forall o a u, alu_write_un n s b i o a u = Ok s1 -> same_fill s s1).
    { intros o a u K. unfold alu_write_un in K. bo K r1 E1. bo K r E2. apply sf_read in E1. apply sf_emit in E2. apply sf_write in K. eauto using sf_trans. }
    destruct (bin_of (opn (pi_code i))).
    { unfold alu_write_bin in E. bo E r1 E1. bo E r2 E2. bo E r3 E3. apply sf_read in E1. apply sf_src in E2. apply sf_emit in E3. apply sf_write in E.
      eauto using sf_trans. }
    destruct (opn (pi_code i) =? 11)%Z. { bo E r1 E1. apply sf_src in E1. apply sf_write in E. eauto using sf_trans. }
    destruct (opn (pi_code i) =? 13)%Z; [destruct (cls (pi_code i) =? 4)%Z; [eauto | discriminate]|]. destruct (opn (pi_code i) =? 8)%Z; [|discriminate].
    destruct (src_x (pi_code i)); [discriminate | eauto]. }
  destruct ((cls (pi_code i) =? 0)%Z && _ && _).
  { unfold lift_imm64 in H. destruct (_ <=? _)%Z; [|discriminate]. bo H r E. apply sf_emit in E. apply sf_write in H. eauto using sf_trans. }
  destruct ((cls (pi_code i) =? 1)%Z && _).
  { unfold lift_ldx in H. bo H r1 E1. bo H r E. apply sf_read in E1. apply sf_emit in E. apply sf_write in H. eauto using sf_trans. }
  assert (St : forall x, lift_st n s b i x = Ok s' -> same_fill s s').
  { intros x K. unfold lift_st in K. bo K r1 E1. bo K r2 E2. bo K r E. injection K as <-. apply sf_read in E1. apply sf_emit in E.
    assert (same_fill (fst r1) (fst r2)) by (destruct x; [eapply sf_read; eauto | injection E2 as <-; apply sf_refl]). eauto using sf_trans. }
  destruct ((cls (pi_code i) =? 2)%Z && _); [eauto|]. destruct ((cls (pi_code i) =? 3)%Z && _); [eauto|].
  destruct (jmp_cls (pi_code i)); [|discriminate]. unfold lift_jmp in H. destruct (opn (pi_code i) =? 0)%Z.
  { bo H t E. bo H r E1. injection H as <-. eapply sf_emit; eauto. }
  destruct (opn (pi_code i) =? 9)%Z. { bo H r1 E1. bo H r E. injection H as <-. apply sf_read in E1. apply sf_emit in E. eauto using sf_trans. }
  destruct (cond_of (opn (pi_code i))).
  { unfold lift_cond in H. bo H r1 E1. bo H r2 E2. bo H t1 E3. bo H t2 E4. bo H r E. injection H as <-. apply sf_read in E1. apply sf_src in E2.
    apply sf_emit in E. eauto using sf_trans. }
  destruct (opn (pi_code i) =? 8)%Z; [|discriminate].
  assert (Ca : forall k o u, (do r1 <- read_args n s b 0 k; do r <- emit (fst r1) b (set_u u (set_vals (snd r1) (set_op o (insn0 b)))) (snd r1);
        write_var (fst r) 0 b (val_insn (snd r))) = Ok s' -> same_fill s s').
  { intros k o u K. bo K r1 E1. bo K r E. apply sf_args in E1. apply sf_emit in E. apply sf_write in K. eauto using sf_trans. }
  unfold lift_call in H. destruct (_ || _); [discriminate|]. destruct (pi_imm i <? 0)%Z; [discriminate|]. destruct (pi_src i =? 6)%Z; [eapply Ca; eauto|].
  destruct (nth_error _ _); [|discriminate]. bo H k E. destruct (5 <? k); [discriminate|]. eapply Ca; eauto.
Qed.
Lemma sf_seal n s b s' : seal_block n s b = Ok s' -> same_fill s s'.
Proof.
  unfold seal_block. intros H. bo H s1 E. injection H as <-. intros c. cbn. revert c.
  revert E. apply sf_ofold. intros s2 r s3 K. destruct (l_inc s2 b r); [|injection K as <-; apply sf_refl].
  eapply sf_add; [apply (sf_read n) | exact K].
Qed.

Definition all_acc (s : lst) : Prop := forall b pb i, blk bs b = Some pb -> l_fill s b = true -> In i (pb_insns pb) -> acc i.
Lemma transform_acc n : forall m s b s', all_acc s -> transform m n bs s b = Ok s' -> all_acc s'.
Proof.
  induction m as [|m IH]; intros s b s' A H; [discriminate|]. cbn [transform] in H.
  destruct (l_seal s b); [injection H as <-; exact A|]. destruct (nth_error bs (pred b)) as [pb|] eqn:Eb; [|discriminate].
  bo H s1 E1.
  assert (F1 : same_fill s s1) by (destruct (forallb _ _); [eapply sf_seal; eauto | injection E1 as <-; apply sf_refl]).
  destruct (l_fill s1 b); [injection H as <-; intros c pc i Hc Fc; rewrite F1 in Fc; eapply A; eauto|].
  bo H s2 E2.
  assert (F2 : same_fill s s2 /\ forall i, In i (pb_insns pb) -> acc i).
  { revert s1 F1 E2 E1. clear H. intros s1 F1 E2 _. revert s1 F1 E2. induction (pb_insns pb) as [|i l IHl]; intros s1 F1 E2; cbn [ofold] in E2.
    - injection E2 as <-. split; [exact F1 | intros i []].
    - bo E2 s3 E3. pose proof (insn_acc _ _ _ _ _ _ E3) as Ai. apply sf_insn in E3.
      destruct (IHl s3 (sf_trans _ _ _ F1 E3) E2) as [X Y]. split; [exact X|]. intros j [<-|Hj]; auto. }
  destruct F2 as [F2 Ac].
  match type of H with ofold _ ?z _ = _ => set (s3 := z) in H end.
  assert (A3 : all_acc s3).
  { intros c pc i Hc Fc Ii. cbn in Fc. destruct (Nat.eqb_spec c b) as [->|].
    - apply Ac. destruct b; [discriminate|]. cbn in Hc, Eb. congruence.
    - rewrite F2 in Fc. eapply A; eauto. }
  clearbody s3. revert s3 A3 H. induction (pb_succs pb) as [|q l IHl]; intros s3 A3 H; cbn [ofold] in H; [injection H as <-; exact A3|].
  bo H s4 E4. bo E4 t Et. destruct (l_err t); [discriminate|]. injection E4 as <-. eapply IHl; [|exact H]. eapply IH; eauto.
Qed.
Lemma lift_acc m n s : lift_blocks m n bs = Ok s -> all_acc s.
Proof.
  unfold lift_blocks. intros H. bo H t E. destruct (l_err t); [discriminate|]. injection H as <-.
  eapply transform_acc; [|exact E]. intros b pb i _ F. discriminate.
Qed.
End Acc.
