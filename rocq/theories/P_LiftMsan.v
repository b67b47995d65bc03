(** C71 for programs. *)
From Coq Require Import ZArith List Bool Arith Lia.
From Verif Require Import SpecWord SpecIsa SpecFlat SpecSsa SpecLift SpecIr SpecEdit SpecPass SpecStrict SpecInstr SpecWeave SpecShadow M_Base M_Ir M_Edit M_Lift M_Pass
  L_LiftWit L_PipeWit L_EcallWit L_ShadowWit L_LiftMsan.
Import ListNotations.
Open Scope nat_scope.

(** Whatever the program reads, the sanitizer never stops it. *)
Theorem C71_lifted_silent : forall p m n f fuel reach g, liftable p -> lift m n p = Ok f -> NoDup reach -> msan fuel sp_id reach f = Ok g ->
  forall c w bi s0, ~ throws w bi (take_out c g) s0.
Proof. exact lift_msan_silent. Qed.
Print Assumptions C71_lifted_silent.
(** When the shadows and the array are out of the way, it does not change what the program does. *)
Theorem C71_lifted_same_partial : forall p m n f fuel reach g, liftable p -> lift m n p = Ok f -> NoDup reach -> msan fuel sp_id reach f = Ok g ->
  exists a, shadows f g sp_id reach a /\
  forall w bi s0 D base, s_env s0 a = Some base -> keeps_off w bi f sp_id s0 D base ->
    (forall n r m k, returns_in w bi f n s0 r m k -> exists m', returns_in w bi (take_out a g) n s0 r m' k /\ same_outside D m m') /\
    (forall n r m' k, returns_in w bi (take_out a g) n s0 r m' k -> exists m, returns_in w bi f n s0 r m k /\ same_outside D m m') /\
    (throws w bi (take_out a g) s0 <-> throws w bi f s0).
Proof. exact lift_msan_same. Qed.
Print Assumptions C71_lifted_same_partial.
(** A program that does nothing but read a stack slot that it has not written, and one with a loop. *)
Example C71_lifted_applies : forall p, p = w_raw \/ p = w_slot -> liftable p /\ lift pk pk p = Ok (lift_of p) /\ exists g, msan 20 sp_id (f_all (lift_of p)) (lift_of p) = Ok g /\ NoDup (f_all (lift_of p)).
Proof.
  intros p [->| ->]; (split; [apply lift_chk_ok; vm_compute; reflexivity|]); (split; [apply get_ok_spec; vm_compute; reflexivity|]); eexists;
    (split; [apply (get_ok_spec f0); vm_compute; reflexivity|vm_compute; repeat constructor; cbn; intuition discriminate]).
Qed.
