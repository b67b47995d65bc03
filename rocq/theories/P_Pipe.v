(** Property C65: the whole pipeline, from bytecode to bytecode. *)
From Coq Require Import ZArith List.
From Verif Require Import SpecWord SpecIsa SpecFlat SpecCfg SpecLift SpecIr SpecEdit SpecSsa SpecNormCond SpecOut M_Base M_Ir M_Edit M_GenBB M_Lift M_Layout M_Norm M_Pass M_Ecall M_Pipe
  SpecPass SpecStrict SpecShift SpecLayout SpecInstr L_LiftMain L_LiftEx L_RaWit L_VirtWit L_EndWit M_Ra SpecRa SpecSpill SpecGuard SpecRound L_Prune L_RoundWit L_Pipe L_PipeWit.
From Verif Require Import SpecPass SpecIr SpecVirt SpecPrep SpecStrict.
Import ListNotations.
Open Scope nat_scope.

(** ** C65: lifter, removal of trivial phis, translation of ecalls and throws, optimiser, marking of the
    stack offsets, each followed by the layout and the checker, and then the code generator with its
    rounds of spilling.  The program runs with its frame below the bytes the code generator uses; its code
    runs with the frame pointer as it is. *)
Theorem C65_pipeline_partial : forall w ar p k cap no_dead no_opt f g L h L',
  liftable p -> fields_fit p -> (forall j i, at_pos p j i -> SpecLift.plain ar i) -> L_LiftMain.agrees ar -> SpecLift.respects w ar ->
  (forall j i, at_pos p j i -> b_code i = 0x85%Z -> b_src i <> 6%Z) ->
  lift k k p = Ok f -> 2 * length (f_all f) + 1 < k -> f_ni f < k -> (48 * Z.of_nat k <= 2 ^ 31)%Z ->
  front k no_dead no_opt p = Ok (g, L) -> tame g sp_id -> stack_tame g sp_id -> cg_input k cap no_dead no_opt p = Ok (h, L') ->
  forall om os chk code z u, (forall j, orders (om j)) -> (forall j, orders (os j)) -> (forall a b, chk a = Ok b -> b = a) ->
  codegen k om os chk h L' sp_id arg_ids = Ok code -> by_rounds k om os h L' sp_id arg_ids z u -> apart (arity_of ar) z u -> all_fit z ->
  (Z.of_nat (length code) <= 2 ^ 15)%Z ->
  forall q j r q' d, st_ok q ->
  let R := between (rget q 10 + c_off z) (rget q 10) in hidden w R ->
  gcrun R w ar p j 0 (rset q 10 (rget q 10 + c_off z)) SpecLift.clean = Some (IExit r q', d) ->
  exists q'', code_returns w code q r q'' /\ agree R (SpecWord.mem q') (SpecWord.mem q'') /\ ncall q'' = ncall q'.
Proof. exact pipe_end. Qed.
Print Assumptions C65_pipeline_partial.
(** What the passes before the last one make of a lifted function: a function that is consistent, in strict
    form, and does what the lifted function does, also when that leaves a set of addresses alone. *)
Theorem C65_front_partial : forall w ar p k no_dead no_opt f,
  liftable p -> fields_fit p -> (forall j i, at_pos p j i -> SpecLift.plain ar i) -> L_LiftMain.agrees ar ->
  (forall j i, at_pos p j i -> b_code i = 0x85%Z -> b_src i <> 6%Z) ->
  lift k k p = Ok f -> 2 * length (f_all f) + 1 < k -> f_ni f < k ->
  forall g L, front k no_dead no_opt p = Ok (g, L) -> tidy g /\ SpecStrict.strict g /\
  forall R bi n s o, words s -> gsrun R w bi f n 0 (f_entry f) s = Some o -> exists o', gsrun R w bi g n 0 (f_entry g) s = Some o' /\ same_effect o o'.
Proof. exact front_ok. Qed.
Print Assumptions C65_front_partial.

(** A program with a branch, a trivial phi, unused computations, three helper calls, ten values that live at
    the same time and stack accesses meets all the hypotheses; the phi and the unused computations are
    removed and one value is spilled.  It exits, and so does its code. *)
Example C65_example : exists f g L h L' z u code, liftable w_pipe /\ fields_fit w_pipe /\ (forall j i, at_pos w_pipe j i -> SpecLift.plain ar_table i) /\ L_LiftMain.agrees ar_table /\
  (forall j i, at_pos w_pipe j i -> b_code i = 0x85%Z -> b_src i <> 6%Z) /\
  lift pk pk w_pipe = Ok f /\ 2 * length (f_all f) + 1 < pk /\ f_ni f < pk /\ (48 * Z.of_nat pk <= 2 ^ 31)%Z /\
  front pk false false w_pipe = Ok (g, L) /\ tame g sp_id /\ stack_tame g sp_id /\ cg_input pk 4 false false w_pipe = Ok (h, L') /\
  codegen pk ids ids Ok h L' sp_id arg_ids = Ok code /\ by_rounds pk ids ids h L' sp_id arg_ids z u /\ apart (arity_of ar_table) z u /\ all_fit z /\
  (Z.of_nat (length code) <= 2 ^ 15)%Z /\ c_off z = (-8)%Z /\ code = code3_of w_pipe.
Proof. exact pipe_meets. Qed.
Example C65_example_removes : map (insns_of (fst (front_of w_pipe))) [1; 2; 3] <> map (insns_of (lift_of w_pipe)) [1; 2; 3] /\
  (exists x, f_insn (lift_of w_pipe) 11 = Some x /\ i_op x = PHI) /\ f_insn (fst (front_of w_pipe)) 11 = None.
Proof. exact pipe_removes. Qed.
Example C65_example_runs :
  match gcrun (between 4088 4096) w_kill ar_table w_pipe 100 0 (rset (st_mem 64) 10 4088) SpecLift.clean, isa_run w_kill (code3_of w_pipe) 100 0 (st_mem 64) with
  | Some (IExit a s, _), IExit b t => (a =? b)%Z && negb (a =? 0)%Z && (ncall s =? 3) && (ncall t =? 3)
  | _, _ => false
  end%bool = true.
Proof. exact pipe_runs_ok. Qed.
