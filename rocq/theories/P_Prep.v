(** Properties C57, C60, C61: preparation for register allocation, and the whole translation. *)
From Coq Require Import ZArith List.
From Verif Require Import SpecWord SpecIsa SpecFlat SpecCfg SpecLift SpecIr SpecSsa SpecNormCond SpecOut M_Base M_Ir M_Edit M_GenBB M_Lift M_Layout M_Norm
  SpecPass SpecStrict SpecShift SpecLayout SpecPrep L_LiftMain L_LiftEx L_LiftWit L_Layout L_LiftLay L_PrepMain L_PrepAsg L_Whole L_End L_RaWit L_RaCheck L_VirtWit L_EndWit M_Ra SpecRa SpecVirt.
Import ListNotations.
Open Scope nat_scope.

(** ** C60: calls get their arguments in the argument registers, arguments are fetched at the entry,
    constants that need a register get one.  What the function returns, its memory and its helper calls
    stay the same, for every execution ... *)
Theorem C60_runs_partial : forall f reach sp args s0 s, prepable f reach sp args -> init_cg f reach sp args = Ok s0 -> prepare s0 = Ok s ->
  forall w ar o bi bb n prev m t z t', straight f reach -> few_args w ar -> enough_args ar f reach -> st_ok m -> begins sp args m t ->
  srun w bi (fill o f) n prev (f_entry f) t = Some (ORet z t') ->
  exists q, vrun w bb s o n prev (f_entry f) (mkV (fun _ => None) m) = Some (VDone z q) /\ SpecWord.mem (v_st q) = s_mem t' /\ ncall (v_st q) = s_nc t'.
Proof. exact main_run. Qed.
Print Assumptions C60_runs_partial.
(** ... and the result is what the allocator and the exit from SSA form expect: *)
Theorem C60_ready : forall f reach sp args s0 s, prepable f reach sp args -> init_cg f reach sp args = Ok s0 -> prepare s0 = Ok s ->
  ready s /\ SpecRa.tidy s /\ shape s /\ (second_ok f reach sp -> operands_ok s).
Proof. exact main_ready. Qed.
Print Assumptions C60_ready.
Theorem C60_strict : forall f reach sp args s0 s, prepable f reach sp args -> init_cg f reach sp args = Ok s0 -> prepare s0 = Ok s ->
  SpecStrict.strict f -> flow_known f reach -> SpecRa.strict s.
Proof. exact main_strict. Qed.
Print Assumptions C60_strict.
Theorem C60_copies : forall f reach sp args s0 s, prepable f reach sp args -> init_cg f reach sp args = Ok s0 -> prepare s0 = Ok s ->
  straight f reach -> no_copies f reach -> sp_not_passed f reach sp -> copies_ok s /\ forall t i a b, linked s i -> copies s i a b -> mergeable s t a b.
Proof. intros f reach sp args s0 s P I Pr S N Sp. exact (conj (main_copies_ok f reach sp args s0 s P I Pr S N) (main_merge f reach sp args s0 s P I Pr S N Sp)). Qed.
Print Assumptions C60_copies.
(** The full statement has no condition on the entry; but when the entry is in a loop, arguments are
    fetched again, from registers that have been overwritten. *)
Theorem C60_entry_refuted : exists f reach s0 s w bi bb m t t' q z z', init_cg f reach sp_id [2;3;4;5;6] = Ok s0 /\ prepare s0 = Ok s /\
  In (f_entry f) reach /\ goes f (f_entry f) (f_entry f) /\ st_ok m /\ begins sp_id [2;3;4;5;6] m t /\
  srun w bi (fill 0 f) 9 0 (f_entry f) t = Some (ORet z t') /\ vrun w bb s 0 9 0 (f_entry f) (mkV (fun _ => None) m) = Some (VDone z' q) /\ z <> z'.
Proof. exact again_wrong. Qed.
Print Assumptions C60_entry_refuted.

(** ** C61: lifted functions can be laid out, run as before, and are what the code generator expects. *)
Theorem C61_layout : forall p m n f, liftable p -> lift m n p = Ok f -> forall fuel, 2 * length (f_all f) + 1 < fuel ->
  exists g l e, layout fuel f = Ok (g, (l, e)) /\ layout_result f g l e.
Proof. exact lift_layout. Qed.
Print Assumptions C61_layout.
Theorem C61_runs : forall p m n f, liftable p -> lift m n p = Ok f -> forall g l e fuel, 2 * length (f_all f) + 1 < fuel -> layout fuel f = Ok (g, (l, e)) ->
  forall w bi k prev b s, srun w bi (fill 0 g) k prev b s = srun w bi f k prev b s.
Proof. exact lay_run. Qed.
Print Assumptions C61_runs.
Theorem C61_prepable : forall p m n f, liftable p -> lift m n p = Ok f -> forall g l e fuel, 2 * length (f_all f) + 1 < fuel -> layout fuel f = Ok (g, (l, e)) ->
  prepable g l sp_id [2;3;4;5;6] /\ straight g l.
Proof. exact lift_prepable. Qed.
Print Assumptions C61_prepable.
Theorem C61_compilable_partial : forall p m n f, liftable p -> lift m n p = Ok f -> forall g l e fuel, 2 * length (f_all f) + 1 < fuel -> layout fuel f = Ok (g, (l, e)) ->
  tame f sp_id -> fields_fit p -> compilable g l sp_id [2;3;4;5;6] (S (length (f_all f))).
Proof. exact lift_compilable. Qed.
Print Assumptions C61_compilable_partial.

(** ** C57: the translation.  The functions that can be compiled, from the layout to the bytecode: if
    nothing had to be spilled, and the places are apart ... *)
Theorem C57_codegen_partial : forall f reach sp args d, compilable f reach sp args d ->
  forall fuel om os chk code s u, length reach < fuel -> d < fuel -> (forall j, orders (om j)) -> (forall j, orders (os j)) -> (forall a b, chk a = Ok b -> b = a) ->
  codegen fuel om os chk f reach sp args = Ok code -> one_round fuel om os f reach sp args s u -> (Z.of_nat (length code) <= 2 ^ 15)%Z ->
  forall w ar, apart ar s u -> few_args w ar -> enough_args ar f reach ->
  forall bi n prev m t z t', st_ok m -> begins sp args m t -> srun w bi (fill 0 f) n prev (f_entry f) t = Some (ORet z t') ->
  exists m', code_returns w code m z m' /\ SpecWord.mem m' = s_mem t' /\ ncall m' = s_nc t'.
Proof. exact back_codegen. Qed.
Print Assumptions C57_codegen_partial.
(** ... and from bytecode to bytecode: when the program exits with some result, memory and helper calls,
    so does the generated code. *)
Theorem C57_end_to_end_partial : forall w ar p m n f, liftable p -> fields_fit p -> lift m n p = Ok f -> tame f sp_id ->
  forall g l e k, 2 * length (f_all f) + 1 < k -> layout k f = Ok (g, (l, e)) ->
  (forall j i, at_pos p j i -> SpecLift.plain ar i) -> agrees ar -> respects w ar ->
  forall fuel om os chk code s u, S (length (f_all f)) < fuel -> (forall j, orders (om j)) -> (forall j, orders (os j)) -> (forall a b, chk a = Ok b -> b = a) ->
  codegen fuel om os chk g l sp_id [2;3;4;5;6] = Ok code -> one_round fuel om os g l sp_id [2;3;4;5;6] s u -> apart (arity_of ar) s u ->
  (Z.of_nat (length code) <= 2 ^ 15)%Z ->
  forall q j r q' d, st_ok q -> crun w ar p j 0 q SpecLift.clean = Some (IExit r q', d) ->
  exists q'', code_returns w code q r q'' /\ SpecWord.mem q'' = SpecWord.mem q' /\ ncall q'' = ncall q'.
Proof. exact end_to_end. Qed.
Print Assumptions C57_end_to_end_partial.

(** A loop with two phis, a helper call with two arguments and stack accesses meets all the hypotheses,
    for every world that respects the table of arguments; it exits, and so does its code. *)
Example C57_example : exists f g L e s u code, liftable w_loop /\ fields_fit w_loop /\ lift 20 400 w_loop = Ok f /\ tame f sp_id /\
  layout 100 f = Ok (g, (L, e)) /\ 2 * length (f_all f) + 1 < 100 /\ (forall j i, at_pos w_loop j i -> SpecLift.plain ar_table i) /\ agrees ar_table /\
  codegen 100 ids ids Ok g L sp_id [2;3;4;5;6] = Ok code /\ one_round 100 ids ids g L sp_id [2;3;4;5;6] s u /\ apart (arity_of ar_table) s u /\
  (Z.of_nat (length code) <= 2 ^ 15)%Z /\ code = code_of w_loop.
Proof. exact (end_by w_loop loop_end). Qed.
Example C57_example_runs :
  match crun w_sum ar_table w_loop 200 0 (L_VirtWit.st_of 0 0) SpecLift.clean, isa_run w_sum (code_of w_loop) 300 0 (L_VirtWit.st_of 0 0) with
  | Some (IExit a _, _), IExit b _ => a = b /\ a <> 0%Z
  | _, _ => False
  end.
Proof. vm_compute. split; [reflexivity|discriminate]. Qed.
Example C57_example_orders : forall j, orders (ids j).
Proof. exact (fun _ => ident_orders). Qed.
