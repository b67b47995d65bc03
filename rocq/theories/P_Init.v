(** Property C68: which programs the lifter accepts. *)
From Coq Require Import ZArith List.
From Verif Require Import SpecWord SpecIsa SpecFlat SpecCfg SpecLift SpecIr SpecEdit SpecSsa M_Base M_Ir M_Lift M_Layout M_Pass M_Check M_Ecall M_Pipe
  SpecPass SpecStrict SpecCheck SpecAccept L_LiftMain L_LiftEx L_RaWit L_VirtWit L_EndWit L_RoundWit L_Pipe L_PipeWit L_Accept L_AcceptPipe L_AcceptWit SpecInit L_InitBwd L_InitWit.
From Verif Require Import SpecIr SpecVirt SpecPrep.
Import ListNotations.
Open Scope nat_scope.

(** ** C68: a program is lifted exactly when every instruction has a translation and no path from the start
    reaches an instruction that reads a register the path has not set. *)
Theorem C68_lifted_exactly : forall p m n, liftable p -> (forall j i, at_pos p j i -> in_limits i) -> length p + 1 <= m -> (length p + 2) * (length p + 2) <= n ->
  (exists f, lift m n p = Ok f) <-> (forall j i, at_pos p j i -> b_code i <> 0%Z -> translatable i) /\ initialised p.
Proof. exact lift_exact. Qed.
Print Assumptions C68_lifted_exactly.
(** All other programs are refused with an error. *)
Theorem C68_refused_exactly : forall p m n, liftable p -> (forall j i, at_pos p j i -> in_limits i) -> length p + 1 <= m -> (length p + 2) * (length p + 2) <= n ->
  lift m n p = Err <-> ~ ((forall j i, at_pos p j i -> b_code i <> 0%Z -> translatable i) /\ initialised p).
Proof. exact lift_refuses. Qed.
Print Assumptions C68_refused_exactly.
(** What is lifted sets its registers first, whatever the fuel and the fields of the instructions. *)
Theorem C68_lifted_sets : forall p m n f, liftable p -> lift m n p = Ok f -> initialised p.
Proof. exact lift_sets. Qed.
Print Assumptions C68_lifted_sets.
(** ** C67, continued: nothing fails on the way to the code generator, for all programs with these properties. *)
Theorem C67_pipeline_accepts_partial : forall ar p k no_dead no_opt,
  liftable p -> (forall j i, at_pos p j i -> in_limits i) -> fields_fit p -> (forall j i, at_pos p j i -> SpecLift.plain ar i) -> L_LiftMain.agrees ar ->
  (forall j i, at_pos p j i -> b_code i = 0x85%Z -> b_src i <> 6%Z) ->
  (forall j i, at_pos p j i -> b_code i <> 0%Z -> translatable i) -> initialised p -> (forall j i, at_pos p j i -> unobjectionable i) ->
  (length p + 2) * (length p + 2) <= k ->
  exists f, lift k k p = Ok f /\
  (2 * length (f_all f) + 1 < k -> f_ni f < k ->
   exists g L, front k no_dead no_opt p = Ok (g, L) /\ (tame g sp_id -> stack_tame g sp_id -> forall cap, exists h, cg_input k cap no_dead no_opt p = Ok (h, L))).
Proof. exact pipe_accepts. Qed.
Print Assumptions C67_pipeline_accepts_partial.

(** A program with a loop, where r7 is set on both ways and r8 only in the loop. *)
Example C68_example : liftable w_init /\ (forall j i, at_pos w_init j i -> in_limits i) /\ (forall j i, at_pos w_init j i -> b_code i <> 0%Z -> translatable i) /\ initialised w_init.
Proof. exact init_meets. Qed.
(** The program of C65, which meets the other hypotheses of the last theorem (see C67). *)
Example C67_example_pipeline : liftable w_pipe /\ (forall j i, at_pos w_pipe j i -> in_limits i) /\ (forall j i, at_pos w_pipe j i -> b_code i <> 0%Z -> translatable i) /\ initialised w_pipe.
Proof. exact pipe_meets_init. Qed.
(** Refused: r7 set on one of two ways; an instruction without a translation; a result that is never set. *)
Example C68_example_one_way : liftable w_unset /\ (forall j i, at_pos w_unset j i -> b_code i <> 0%Z -> translatable i) /\ ~ initialised w_unset /\ forall m n, 5 <= m -> 36 <= n -> lift m n w_unset = Err.
Proof. exact (conj unset_liftable (conj unset_trans (conj unset_not unset_err))). Qed.
Example C68_example_division : liftable w_sdiv /\ initialised w_sdiv /\ lift pk pk w_sdiv = Err.
Proof. exact sdiv_rejected. Qed.
Example C68_example_result : liftable w_ret /\ (forall j i, at_pos w_ret j i -> b_code i <> 0%Z -> translatable i) /\ lift pk pk w_ret = Err.
Proof. exact ret_rejected. Qed.
