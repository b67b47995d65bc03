(** Properties C63, C64 (and C56): code generation with spilling, from the intermediate form and from bytecode. *)
From Coq Require Import ZArith List.
From Verif Require Import SpecWord SpecIsa SpecFlat SpecCfg SpecLift SpecIr SpecEdit SpecSsa SpecNormCond SpecOut M_Base M_Ir M_Edit M_GenBB M_Lift M_Layout M_Norm M_Pass
  SpecPass SpecStrict SpecShift SpecLayout SpecInstr L_LiftMain L_LiftEx L_LiftWit L_LiftLay L_Whole L_Shift L_RaWit L_RaCheck L_VirtCheck L_VirtWit L_EndWit M_Ra SpecRa SpecSpill SpecGuard SpecRound L_RoundMain L_Skin L_SpillEnd L_RoundWit.
From Verif Require Import SpecPass SpecIr SpecEdit SpecVirt SpecPrep SpecLift.
Import ListNotations.
Open Scope nat_scope.

(** ** C63: code generation in any number of rounds of spilling.  The values that are spilled live in the
    [c_off z] bytes below the frame pointer; holes are filled with that number.  If the function itself
    leaves these bytes alone and returns, the code returns the same, with the same memory everywhere else
    and the same helper calls. *)
Theorem C63_codegen_partial : forall f reach sp args d, compilable f reach sp args d -> SpecInstr.phis_first f ->
  forall fuel om os chk code z u, length reach < fuel -> d < fuel -> (48 * Z.of_nat fuel <= 2 ^ 31)%Z -> (forall j, orders (om j)) -> (forall j, orders (os j)) -> (forall a b, chk a = Ok b -> b = a) ->
  codegen fuel om os chk f reach sp args = Ok code -> by_rounds fuel om os f reach sp args z u -> (Z.of_nat (length code) <= 2 ^ 15)%Z ->
  forall w ar, apart ar z u -> all_fit z -> few_args w ar -> enough_args ar f reach ->
  forall bi n prev m t r t', st_ok m -> begins sp args m t ->
  let R := between (rget m 10 + c_off z) (rget m 10) in hidden w R ->
  gsrun R w bi (fill (c_off z) f) n prev (f_entry f) t = Some (ORet r t') ->
  exists m', code_returns w code m r m' /\ agree R (s_mem t') (SpecWord.mem m') /\ ncall m' = s_nc t'.
Proof. exact round_codegen. Qed.
Print Assumptions C63_codegen_partial.
(** Code is always generated that way. *)
Theorem C63_rounds : forall f reach sp args fuel om os chk code, (forall a b, chk a = Ok b -> b = a) -> codegen fuel om os chk f reach sp args = Ok code ->
  exists z u, by_rounds fuel om os f reach sp args z u.
Proof. exact codegen_rounds. Qed.
Print Assumptions C63_rounds.
(** The lifter keeps executions that leave a set of addresses alone ... *)
Theorem C63_lift : forall w bi ar p m n f R st t k r st' d, wf_prog p -> (Z.of_nat (length p) <= 32768)%Z -> ~ jump_target p 0 -> all_reach p ->
  (forall j i, at_pos p j i -> SpecLift.plain ar i) -> agrees ar -> respects w ar -> lift m n p = Ok f ->
  st_ok st -> enters st t sp_id arg_id -> gcrun R w ar p k 0 st SpecLift.clean = Some (IExit r st', d) ->
  exists k' t', gsrun R w bi f k' 0 (f_entry f) t = Some (ORet r t') /\ s_mem t' = SpecWord.mem st' /\ s_nc t' = ncall st'.
Proof. exact lift_gexit. Qed.
Print Assumptions C63_lift.
(** ... and so does the relocation of stack addresses. *)
Theorem C63_relocates_partial : forall f sp, SpecPass.tidy f -> fresh_ok f -> sp_ok f sp ->
  forall cap g, no_holes f -> stack_offset_pre sp cap f = Ok g -> relocates_guarded sp f g.
Proof. exact pre_guarded. Qed.
Print Assumptions C63_relocates_partial.

(** ** C64: from bytecode to bytecode, through the lifter, the layout, the marking of the stack offsets, the
    layout again and the code generator with its rounds of spilling.  The program runs with its frame below
    the bytes the code generator uses; its code runs with the frame pointer as it is. *)
Theorem C64_end_to_end_partial : forall w ar p m n f, liftable p -> fields_fit p -> lift m n p = Ok f -> tame f sp_id -> stack_tame f sp_id ->
  forall g l e k, 2 * length (f_all f) + 1 < k -> layout k f = Ok (g, (l, e)) ->
  forall cap h h' l' e', stack_offset_pre sp_id cap g = Ok h -> layout k h = Ok (h', (l', e')) ->
  (forall j i, at_pos p j i -> SpecLift.plain ar i) -> agrees ar -> respects w ar ->
  forall fuel om os chk code z u, S (length (f_all f)) < fuel -> (48 * Z.of_nat fuel <= 2 ^ 31)%Z -> (forall j, orders (om j)) -> (forall j, orders (os j)) -> (forall a b, chk a = Ok b -> b = a) ->
  codegen fuel om os chk h' l' sp_id [2;3;4;5;6] = Ok code -> by_rounds fuel om os h' l' sp_id [2;3;4;5;6] z u -> apart (arity_of ar) z u -> all_fit z ->
  (Z.of_nat (length code) <= 2 ^ 15)%Z ->
  forall q j r q' d, st_ok q ->
  let R := between (rget q 10 + c_off z) (rget q 10) in hidden w R ->
  gcrun R w ar p j 0 (rset q 10 (rget q 10 + c_off z)) SpecLift.clean = Some (IExit r q', d) ->
  exists q'', code_returns w code q r q'' /\ agree R (SpecWord.mem q') (SpecWord.mem q'') /\ ncall q'' = ncall q'.
Proof. exact spill_end_all. Qed.
Print Assumptions C64_end_to_end_partial.
(** What the code generator is given is what it expects, in the order of the first layout. *)
Theorem C64_compilable_partial : forall p m n f, liftable p -> fields_fit p -> lift m n p = Ok f -> tame f sp_id -> stack_tame f sp_id ->
  forall g l e k, 2 * length (f_all f) + 1 < k -> layout k f = Ok (g, (l, e)) ->
  forall cap h h' l' e', stack_offset_pre sp_id cap g = Ok h -> layout k h = Ok (h', (l', e')) ->
  compilable h' l' sp_id [2;3;4;5;6] (S (length (f_all f))) /\ l' = l.
Proof. exact end_compilable. Qed.
Print Assumptions C64_compilable_partial.

(** A program with three helper calls, ten values that live at the same time and stack accesses meets all
    the hypotheses; one value is spilled.  It exits, and so does its code. *)
Example C64_example : exists f g L e h h' L' e' z u code, liftable w_spill /\ fields_fit w_spill /\ lift 20 400 w_spill = Ok f /\ tame f sp_id /\ stack_tame f sp_id /\ 2 * length (f_all f) + 1 < 100 /\
    layout 100 f = Ok (g, (L, e)) /\ stack_offset_pre sp_id 4 g = Ok h /\ layout 100 h = Ok (h', (L', e')) /\
    (forall j i, at_pos w_spill j i -> SpecLift.plain ar_table i) /\ agrees ar_table /\
    codegen 100 ids ids Ok h' L' sp_id [2;3;4;5;6] = Ok code /\ by_rounds 100 ids ids h' L' sp_id [2;3;4;5;6] z u /\ apart (arity_of ar_table) z u /\ all_fit z /\
    (Z.of_nat (length code) <= 2 ^ 15)%Z /\ c_off z = (-8)%Z /\ code = code2_of w_spill.
Proof. exact spill_meets. Qed.
Example C64_example_world : (forall R, hidden w_kill R) /\ forall ar, respects w_kill ar.
Proof. exact (conj kill_hidden kill_respects). Qed.
Example C64_example_runs :
  match gcrun (between 4088 4096) w_kill ar_table w_spill 100 0 (rset (st_mem 64) 10 4088) SpecLift.clean, isa_run w_kill (code2_of w_spill) 100 0 (st_mem 64) with
  | Some (IExit a s, _), IExit b t => (a =? b)%Z && negb (a =? 0)%Z && (ncall s =? 3) && (ncall t =? 3)
  | _, _ => false
  end%bool = true.
Proof. exact spill_runs_ok. Qed.

(** ** C56, for bytecode: when nothing has to be spilled every value gets a register.  It does not: the sets that are looked
    at are not all the cliques of a graph that is not chordal.  A program that runs in the ten registers is
    rejected. *)
Theorem C56_ten_registers_refuted : exists p f g L e h h' L' e' s0 s t t1 eps, liftable p /\ lift 20 400 p = Ok f /\ layout 100 f = Ok (g, (L, e)) /\ stack_offset_pre sp_id 4 g = Ok h /\ layout 100 h = Ok (h', (L', e')) /\
  (exists w q r q' d, st_ok q /\ crun w ar_table p 100 0 q SpecLift.clean = Some (IExit r q', d)) /\
  init_cg h' L' sp_id [2;3;4;5;6] = Ok s0 /\ prepare s0 = Ok s /\ analysis 100 s = Ok t /\ pre_spill 100 ident ident t = Ok (t1, ([], eps)) /\ coloring t1 = Err /\
  codegen 100 ids ids Ok h' L' sp_id [2;3;4;5;6] = Err.
Proof. exact gives_up. Qed.
Print Assumptions C56_ten_registers_refuted.
