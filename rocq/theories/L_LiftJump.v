(** Lifted functions and the jump counter. *)
From Coq Require Import ZArith List Bool Arith Lia Permutation.
From Verif Require Import SpecWord SpecIsa SpecFlat SpecCfg SpecSsa SpecLift SpecIr SpecEdit M_Base M_Ir M_Edit M_GenBB M_Lift SpecPass SpecStrict SpecInstr SpecWeave SpecJump M_EditHist M_Pass
  L_LiftRead L_LiftSafe L_LiftLay L_LiftMain L_LiftEx L_LiftCfg L_LiftSame L_PassWit L_InstrWit L_WeaveWit L_PipeWit L_Jump.
Import ListNotations.
Open Scope nat_scope.

Lemma cond_term o : is_cond_jmp_op o = true -> In o [RET; THROW; JA; JEQ; JGT; JGE; JLT; JLE; JNE; JSGE; JSLE; JSGT; JSLT].
Proof. destruct o; cbn; intros H; try discriminate H; tauto. Qed.
(** a block that does not jump is followed by the next one *)
Lemma lift_next p m n f b : liftable p -> lift m n p = Ok f -> jumps f b \/ forall c, In c (succs_of f b) -> c = S b.
Proof.
  intros P Hl. destruct (lay_facts p m n f P Hl) as (bs & Fi & Hbo & Heo & Re & Ops & Ph & Cf & Np & Jl & Be).
  pose proof (L_LiftSafe.fi_blk bs f Fi b) as Q. destruct (blk bs b) as [pb|] eqn:Bb.
  - destruct (Be b pb Bb) as [(l & k & y & E & Y & K)|(_ & S)].
    + left. exists k. split; [rewrite E; apply in_or_app; right; now left|]. exists y. split; [exact Y|].
      destruct K as [(K & _)|[(K & _)|(K & _)]]; [now apply cond_term|rewrite K; cbn; tauto|rewrite K; cbn; tauto].
    + right. intros c I. rewrite S in I. destruct I as [<-|[]]. reflexivity.
  - right. intros c I. unfold succs_of in I. rewrite Q in I. destruct I.
Qed.
Lemma lift_loops_jump p m n f : liftable p -> lift m n p = Ok f -> loops_jump f.
Proof.
  intros P Hl x l W. assert (G : forall l c, walk f (c :: l ++ [x]) -> (exists b, In b (l ++ [x]) /\ jumps f b) \/ x < c).
  { clear W l. induction l as [|a l IH]; intros c W.
    - cbn in W. inversion W as [|b r c' W' I]; subst. destruct (lift_next p m n f x P Hl) as [J|N]; [left; exists x; split; [now left|exact J]|]. right. rewrite (N c I). lia.
    - cbn [app] in W. inversion W as [|b r c' W' I]; subst. destruct (lift_next p m n f a P Hl) as [J|N]; [left; exists a; split; [now left|exact J]|].
      destruct (IH a W') as [(b & B & J)|L]; [left; exists b; split; [now right|exact J]|]. right. rewrite (N c I). lia. }
  destruct (G l x W) as [(b & B & J)|L]; [|lia]. exists b. split; [|exact J]. apply in_app_iff in B as [B|[<-|[]]]; [now right|now left].
Qed.
Theorem lift_jump_cycles p m n f reach g : liftable p -> lift m n p = Ok f -> explored f reach -> jmp_complexity reach f = Ok g ->
  exists cell, forall x l2 l3, rpath g (x :: l2 ++ x :: l3) -> exists c, In c (x :: l2) /\ has_check g cell (by_one 100) c.
Proof. intros P Hl X H. destruct (lift_all_meet p m n f P Hl) as (A & B & C & D & E & F & G). exact (jump_cycles reach f g A C X (lift_loops_jump p m n f P Hl) H). Qed.
Theorem lift_jump_ends p m n f reach g bi : liftable p -> lift m n p = Ok f -> explored f reach -> jmp_complexity reach f = Ok g -> ends_within bi g (101 + 102 * f_nb g).
Proof. intros P Hl X H. destruct (lift_all_meet p m n f P Hl) as (A & B & C & D & E & F & G). exact (jump_ends reach f g bi A C X E (lift_loops_jump p m n f P Hl) H). Qed.
Theorem lift_jump_exit w bi ar p m n f reach g st t k r st' d : liftable p -> (forall j i, at_pos p j i -> SpecLift.plain ar i) -> L_LiftMain.agrees ar -> respects w ar -> lift m n p = Ok f ->
  explored f reach -> apart_after f (jumps f) -> jmp_complexity reach f = Ok g ->
  st_ok st -> enters st t sp_id arg_id -> crun w ar p k 0 st clean = Some (IExit r st', d) ->
  returns w bi g t r (mem st') (ncall st') \/ throws w bi g t.
Proof.
  intros P Pl Ag Rs Hl X Y H. destruct (lift_all_meet p m n f P Hl) as (A & _ & C & _ & _ & F & _).
  exact (same_exit w bi ar p m n f g P Pl Ag Rs Hl (jump_transparent reach f g bi A C X F Y H) st t k r st' d).
Qed.
