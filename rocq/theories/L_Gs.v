(** Guarded runs of a function in SSA form: with an empty set they are the plain runs. *)
From Coq Require Import ZArith List Bool Arith Lia.
From Verif Require Import M_Base M_Ir SpecWord SpecFlat SpecSsa SpecIr SpecGs.
Import ListNotations.
Open Scope nat_scope.

Definition nowhere : addrs := fun _ => false.
Lemma touch_nowhere a k : touches nowhere a k = false.
Proof. unfold touches. induction (seq 0 k); cbn; auto. Qed.
Lemma squiet_nowhere bi x t : squiet nowhere bi x t = true.
Proof. unfold squiet. destruct (i_op x); auto; destruct (vr_bytes (i_vrt x)), (seval bi (s_env t) (a_val (i_addr x))); auto; now rewrite touch_nowhere. Qed.
Lemma gsbody_nowhere w bi f l : forall s, gsbody nowhere w bi f s l = sbody w bi f s l.
Proof. induction l as [|i l IH]; intros s; cbn [gsbody sbody]; [reflexivity|]. destruct (f_insn f i); cbn [obind]; [|reflexivity]. unfold gsexec. rewrite squiet_nowhere. destruct (sexec _ _ _ _ _ _) as [[]|]; cbn [obind]; auto. Qed.
Lemma gsrun_nowhere w bi f n : forall p b s, gsrun nowhere w bi f n p b s = srun w bi f n p b s.
Proof.
  induction n as [|n IH]; intros p b s; cbn [gsrun srun]; [reflexivity|]. unfold gsblock, sblock. destruct (f_block f b); cbn [obind]; [|reflexivity].
  destruct (sphis bi f p s s _) as [[l t]|]; cbn [obind]; [|reflexivity]. rewrite gsbody_nowhere. destruct (sbody w bi f t l) as [r|]; cbn [obind]; [|reflexivity].
  destruct r; cbn [obind]; auto. destruct (b_succs b0); cbn [obind]; auto.
Qed.
Lemma gsexec_plain R w bi f i x s q : gsexec R w bi f i x s = Some q -> sexec w bi f i x s = Some q.
Proof. unfold gsexec. destruct (squiet R bi x s); [auto|discriminate]. Qed.
Lemma gsbody_plain R w bi f l : forall s q, gsbody R w bi f s l = Some q -> sbody w bi f s l = Some q.
Proof.
  induction l as [|i l IH]; intros s q E; cbn [gsbody sbody] in *; [exact E|]. destruct (f_insn f i) as [x|]; [|discriminate E]. cbn [obind] in *.
  destruct (gsexec R w bi f i x s) as [r|] eqn:EX; [|discriminate E]. rewrite (gsexec_plain _ _ _ _ _ _ _ _ EX). cbn [obind] in *. destruct r; auto.
Qed.
Lemma squiet_other R bi x s : i_op x <> LOADRAW -> i_op x <> STORERAW -> squiet R bi x s = true.
Proof. unfold squiet. intros A B. destruct (i_op x); try reflexivity; congruence. Qed.
