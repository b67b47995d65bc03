(** Guarded runs: with an empty set they are the plain runs, and they are plain runs. *)
From Coq Require Import ZArith List Bool Arith Lia.
From Verif Require Import M_Base M_Ir M_Ra SpecWord SpecIsa SpecFlat SpecProg SpecSsa SpecLift SpecRa SpecVirt SpecSpill SpecGuard.
From Verif Require Export L_Gs.
Import ListNotations.
Open Scope nat_scope.

Lemma quiet_nowhere bi s x q : quiet nowhere bi s x q = true.
Proof. unfold quiet. destruct (i_op x); auto; destruct (vr_bytes (i_vrt x)), (vaddr s bi q (i_addr x)); auto; now rewrite touch_nowhere. Qed.
Lemma gbody_nowhere w bi s o l : forall q, gbody nowhere w bi s o q l = vbody w bi s o q l.
Proof. induction l as [|i l IH]; intros q; cbn [gbody vbody]; [reflexivity|]. destruct (f_insn (c_f s) i); cbn [obind]; [|reflexivity]. rewrite quiet_nowhere. destruct (vexec _ _ _ _ _ _) as [[]|]; cbn [obind]; auto. Qed.
Lemma grun_nowhere w bi s o n : forall p b q, grun nowhere w bi s o n p b q = vrun w bi s o n p b q.
Proof.
  induction n as [|n IH]; intros p b q; cbn [grun vrun]; [reflexivity|]. unfold gblock, vblock. destruct (f_block (c_f s) b); cbn [obind]; [|reflexivity].
  destruct (vphis _ s o p q q _) as [[l t]|]; cbn [obind]; [|reflexivity]. rewrite gbody_nowhere. destruct (vbody w (bi b) s o t l) as [r|]; cbn [obind]; [|reflexivity].
  destruct r; cbn [obind]; auto. destruct (b_succs b0); cbn [obind]; auto.
Qed.
Lemma gsbody_plain R w bi f l : forall s r, gsbody R w bi f s l = Some r -> sbody w bi f s l = Some r.
Proof.
  induction l as [|i l IH]; intros s r; cbn [gsbody sbody]; [auto|]. destruct (f_insn f i); cbn [obind]; [|auto]. unfold gsexec. destruct (squiet _ _ _ _); [|discriminate].
  destruct (sexec _ _ _ _ _ _) as [[]|]; cbn [obind]; auto.
Qed.
Lemma gsrun_plain R w bi f n : forall p b s r, gsrun R w bi f n p b s = Some r -> srun w bi f n p b s = Some r.
Proof.
  induction n as [|n IH]; intros p b s r; cbn [gsrun srun]; [auto|]. unfold gsblock, sblock. destruct (f_block f b); cbn [obind]; [|auto].
  destruct (sphis bi f p s s _) as [[l t]|]; cbn [obind]; [|auto]. destruct (gsbody R w bi f t l) as [r1|] eqn:G; cbn [obind]; [|discriminate]. rewrite (gsbody_plain _ _ _ _ _ _ _ G). cbn [obind].
  destruct r1; cbn [obind]; auto. destruct (b_succs b0); cbn [obind]; auto.
Qed.
Lemma touches_u64 R a b k : u64 a = u64 b -> touches R a k = touches R b k.
Proof.
  intros E. unfold touches. induction (seq 0 k) as [|j l IH]; cbn; [reflexivity|]. rewrite IH. f_equal. f_equal. unfold u64 in *. rewrite <- (Z.add_mod_idemp_l a), <- (Z.add_mod_idemp_l b) by discriminate. now rewrite E.
Qed.
Lemma iquiet_nowhere i s : iquiet nowhere i s = true.
Proof. unfold iquiet. rewrite !touch_nowhere. destruct (b_code i mod 8)%Z as [|[[|[]|]|[|[]|]|]|]; reflexivity. Qed.
Lemma gcrun_nowhere w ar p n : forall pc s d, gcrun nowhere w ar p n pc s d = crun w ar p n pc s d.
Proof.
  induction n as [|n IH]; intros pc s d; cbn [gcrun crun]; [reflexivity|]. destruct (fetch p pc) as [i|]; [|reflexivity]. rewrite iquiet_nowhere. destruct (existsb d (SpecLift.reads ar i)); [reflexivity|]. destruct (isa_step w p pc s); auto.
Qed.
