(** Property C67: what the program checker accepts, and that no pass of the pipeline fails. *)
From Coq Require Import ZArith List.
From Verif Require Import SpecWord SpecIsa SpecFlat SpecCfg SpecLift SpecIr SpecEdit SpecSsa M_Base M_Ir M_Lift M_Layout M_Pass M_Check M_Ecall M_Pipe
  SpecPass SpecStrict SpecCheck SpecAccept L_LiftMain L_LiftEx L_RaWit L_VirtWit L_EndWit L_RoundWit L_Pipe L_PipeWit L_Accept L_AcceptPipe L_AcceptWit.
From Verif Require Import SpecIr SpecVirt SpecPrep.
Import ListNotations.
Open Scope nat_scope.

(** ** C67: the checker accepts a function exactly when its blocks are consistent. *)
Theorem C67_checker_exact : forall f reach sp args,
  prog_check f reach sp args = Ok tt <-> (forall b, In b reach -> block_good f b /\ block_known f b) /\ bases_good f (sp :: args).
Proof. exact check_exact. Qed.
Print Assumptions C67_checker_exact.
(** The layout and the checker accept a lifted function exactly when every byte swap of the program has one
    of the three widths and every helper called has a number other than 0. *)
Theorem C67_lifted_exact : forall p m n f k, liftable p -> lift m n p = Ok f -> 2 * length (f_all f) + 1 < k ->
  (exists s, postprocess k f = Ok s) <-> (forall j i, at_pos p j i -> unobjectionable i).
Proof. exact lift_accepted. Qed.
Print Assumptions C67_lifted_exact.
(** Then no pass fails, and no check between them. *)
Theorem C67_passes_total_partial : forall ar p k no_dead no_opt f,
  liftable p -> fields_fit p -> (forall j i, at_pos p j i -> SpecLift.plain ar i) -> L_LiftMain.agrees ar ->
  (forall j i, at_pos p j i -> b_code i = 0x85%Z -> b_src i <> 6%Z) ->
  lift k k p = Ok f -> 2 * length (f_all f) + 1 < k -> f_ni f < k ->
  (forall j i, at_pos p j i -> unobjectionable i) ->
  exists g L, front k no_dead no_opt p = Ok (g, L) /\
  (tame g sp_id -> stack_tame g sp_id -> forall cap, exists h, cg_input k cap no_dead no_opt p = Ok (h, L)).
Proof. exact pipe_total. Qed.
Print Assumptions C67_passes_total_partial.
(** Not everything the lifter makes is accepted. *)
Theorem C67_all_accepted_refuted : exists p k f, liftable p /\ lift k k p = Ok f /\ postprocess k f = Err.
Proof. exact all_accepted_not. Qed.
Print Assumptions C67_all_accepted_refuted.

(** A program with byte swaps of two widths, a branch and a call meets the hypotheses. *)
Example C67_example : exists f, liftable w_swap /\ lift pk pk w_swap = Ok f /\ 2 * length (f_all f) + 1 < pk /\ (forall j i, at_pos w_swap j i -> unobjectionable i).
Proof. exact swap_meets. Qed.
(** The program of C65, for which every pass has something to do, meets those of the last theorem. *)
Example C67_example_passes : exists f g L, liftable w_pipe /\ fields_fit w_pipe /\ (forall j i, at_pos w_pipe j i -> SpecLift.plain ar_table i) /\ L_LiftMain.agrees ar_table /\
  (forall j i, at_pos w_pipe j i -> b_code i = 0x85%Z -> b_src i <> 6%Z) /\
  lift pk pk w_pipe = Ok f /\ 2 * length (f_all f) + 1 < pk /\ f_ni f < pk /\ (forall j i, at_pos w_pipe j i -> unobjectionable i) /\
  front pk false false w_pipe = Ok (g, L) /\ tame g sp_id /\ stack_tame g sp_id.
Proof. exact passes_meet. Qed.
(** Rejected: a helper with the number 0, and a byte swap of eight bits. *)
Example C67_example_call : exists f, liftable w_call0 /\ lift pk pk w_call0 = Ok f /\ postprocess pk f = Err.
Proof. exact call0_rejected. Qed.
Example C67_example_swap : exists f, liftable w_swap8 /\ lift pk pk w_swap8 = Ok f /\ postprocess pk f = Err.
Proof. exact swap8_rejected. Qed.
