(** Lifted functions and the memory sanitizer. *)
From Coq Require Import ZArith List Bool Arith Lia Permutation.
From Verif Require Import SpecWord SpecIsa SpecFlat SpecCfg SpecSsa SpecLift SpecIr SpecEdit M_Base M_Ir M_Edit M_GenBB M_Lift SpecPass SpecStrict SpecInstr SpecWeave M_EditHist M_Pass SpecShadow
  L_LiftRead L_LiftSafe L_LiftLay L_LiftCfg L_Shadow L_ShadowRun.
Import ListNotations.
Open Scope nat_scope.

Lemma lift_no_throw p m n f b i x : liftable p -> lift m n p = Ok f -> In i (insns_of f b) -> f_insn f i = Some x -> i_op x <> THROW.
Proof.
  intros P Hl I X O. destruct (lay_facts p m n f P Hl) as (bs & Fi & Hbo & Heo & Re & Ops & Ph & Cf & Np & Jl & Be).
  pose proof (L_LiftSafe.fi_blk bs f Fi b) as Q. destruct (blk bs b) as [pb|] eqn:Bb; [|unfold insns_of in I; rewrite Q in I; destruct I].
  destruct (Be b pb Bb) as [(l & k & y & E & Y & K)|(NJ & _)]; [|specialize (NJ i x I X); rewrite O in NJ; discriminate NJ].
  apply in_split in I as (l1 & l2 & L). assert (l2 = []) by (apply (Jl b l1 i l2 x L X); rewrite O; reflexivity). subst l2. rewrite L in E. apply app_inj_tail in E as (_ & <-).
  assert (y = x) by congruence. subst y. destruct K as [(K & _)|[(K & _)|(K & _)]]; [rewrite O in K; discriminate K|congruence|congruence].
Qed.
Lemma lift_sp_out p m n f b : liftable p -> lift m n p = Ok f -> ~ In sp_id (insns_of f b).
Proof. intros P Hl I. destruct (lay_facts p m n f P Hl) as (bs & Fi & _). apply (L_LiftSafe.fi_ge bs f Fi) in I. unfold sp_id in I. lia. Qed.
Theorem lift_msan_silent p m n f fuel reach g : liftable p -> lift m n p = Ok f -> NoDup reach -> msan fuel sp_id reach f = Ok g -> forall c w bi s0, ~ throws w bi (take_out c g) s0.
Proof.
  intros P Hl N H. destruct (lift_all_meet p m n f P Hl) as (A & _ & C & _). apply (msan_silent fuel sp_id reach f g A C N); [|exact H].
  intros b i x. exact (lift_no_throw p m n f b i x P Hl).
Qed.
Theorem lift_msan_same p m n f fuel reach g : liftable p -> lift m n p = Ok f -> NoDup reach -> msan fuel sp_id reach f = Ok g ->
  exists a, shadows f g sp_id reach a /\
  forall w bi s0 D base, s_env s0 a = Some base -> keeps_off w bi f sp_id s0 D base ->
    (forall n r m k, returns_in w bi f n s0 r m k -> exists m', returns_in w bi (take_out a g) n s0 r m' k /\ same_outside D m m') /\
    (forall n r m' k, returns_in w bi (take_out a g) n s0 r m' k -> exists m, returns_in w bi f n s0 r m k /\ same_outside D m m') /\
    (throws w bi (take_out a g) s0 <-> throws w bi f s0).
Proof.
  intros P Hl N H. destruct (lift_all_meet p m n f P Hl) as (A & _ & C & _). apply (msan_same fuel sp_id reach f g A C N); [|exact H].
  intros b. exact (lift_sp_out p m n f b P Hl).
Qed.
