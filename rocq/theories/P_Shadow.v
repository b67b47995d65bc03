(** Property C71: the memory sanitizer. *)
From Coq Require Import ZArith List Bool Arith Lia.
From Verif Require Import SpecWord SpecIsa SpecFlat SpecSsa SpecIr SpecEdit SpecPass SpecRa SpecFrame SpecStrict SpecInstr SpecWeave SpecShadow M_Base M_Ir M_Edit M_Lift M_Pass M_Ra
  L_LiftWit L_RaCheck L_RaWit L_Shadow L_ShadowRun L_ShadowWit.
Import ListNotations.
Open Scope nat_scope.

(** What the pass adds: the array, 32 stores that fill it, and one shadow access directly behind every
    stack access. *)
Theorem C71_shape : forall fuel sp reach f g, cfg_ok f -> operands_live f -> NoDup reach -> msan fuel sp reach f = Ok g -> exists a, shadows f g sp reach a.
Proof. exact msan_shape. Qed.
Print Assumptions C71_shape.
(** When the shadows and the array are out of the way of the program and of the helpers, the instrumented
    function does what the function does, in the same number of blocks. *)
Theorem C71_same_partial : forall fuel sp reach f g, cfg_ok f -> operands_live f -> NoDup reach -> (forall b, ~ In sp (insns_of f b)) -> msan fuel sp reach f = Ok g ->
  exists a, shadows f g sp reach a /\
  forall w bi s0 D base, s_env s0 a = Some base -> keeps_off w bi f sp s0 D base ->
    (forall n r m k, returns_in w bi f n s0 r m k -> exists m', returns_in w bi (take_out a g) n s0 r m' k /\ same_outside D m m') /\
    (forall n r m' k, returns_in w bi (take_out a g) n s0 r m' k -> exists m, returns_in w bi f n s0 r m k /\ same_outside D m m') /\
    (throws w bi (take_out a g) s0 <-> throws w bi f s0).
Proof. exact msan_same. Qed.
Print Assumptions C71_same_partial.
(** A function that does not throw does not throw after the pass: no access is ever reported. *)
Theorem C71_silent : forall fuel sp reach f g, cfg_ok f -> operands_live f -> NoDup reach ->
  (forall b i x, In i (insns_of f b) -> f_insn f i = Some x -> i_op x <> THROW) ->
  msan fuel sp reach f = Ok g -> forall c w bi s0, ~ throws w bi (take_out c g) s0.
Proof. exact msan_silent. Qed.
Print Assumptions C71_silent.
(** The hypotheses are met by a function with a loop that writes a stack slot and reads it afterwards. *)
Example C71_applies : exists fuel reach f g a s0 D base m k,
  (cfg_ok f /\ operands_live f /\ NoDup reach /\ (forall b, ~ In sp_id (insns_of f b)) /\ msan fuel sp_id reach f = Ok g /\ shadows f g sp_id reach a) /\
  s_env s0 a = Some base /\ keeps_off w_mem bi0 f sp_id s0 D base /\ returns_in w_mem bi0 f 50 s0 9 m k /\
  (exists b, preds_of f b <> [] /\ In b (succs_of f b)) /\ (exists b i x, In b reach /\ In i (insns_of f b) /\ stack_access f sp_id i x /\ i_op x = STORERAW) /\
  (forall b i x, In i (insns_of f b) -> f_insn f i = Some x -> i_op x <> THROW).
Proof. exact msan_applies. Qed.
Print Assumptions C71_applies.
(** A function that reads a stack slot nobody has written returns normally. *)
Theorem C71_reports_refuted : exists fuel reach f g a s0 n,
  (cfg_ok f /\ operands_live f /\ NoDup reach /\ (forall b, ~ In sp_id (insns_of f b)) /\ msan fuel sp_id reach f = Ok g /\ shadows f g sp_id reach a) /\
  s_env s0 sp_id = Some 1000%Z /\ s_env s0 a = Some 5000%Z /\
  (exists b i x, In b reach /\ In i (insns_of f b) /\ stack_access f sp_id i x /\ i_op x = LOADRAW) /\
  (forall b i x, In i (insns_of f b) -> f_insn f i = Some x -> ~ In (i_op x) [STORERAW; STORE; CALL]) /\
  (exists r m k, returns_in w_mem bi0 (take_out a g) n s0 r m k).
Proof. exact msan_misses. Qed.
Print Assumptions C71_reports_refuted.
(** The shadow of a slot below r10 - 256 is another slot of the program: the result changes. *)
Theorem C71_clobbers_refuted : exists fuel reach f g a s0 n,
  (cfg_ok f /\ operands_live f /\ NoDup reach /\ (forall b, ~ In sp_id (insns_of f b)) /\ msan fuel sp_id reach f = Ok g /\ shadows f g sp_id reach a) /\
  s_env s0 sp_id = Some 1000%Z /\ s_env s0 a = Some 5000%Z /\
  (exists m k, returns_in w_mem bi0 f n s0 1 m k) /\ (exists m k, returns_in w_mem bi0 (take_out a g) n s0 0 m k).
Proof. exact msan_clobbers. Qed.
Print Assumptions C71_clobbers_refuted.
(** In the final frame the shadow of a slot need not be in the array: here it is the place of a spilled
    value. *)
Theorem C71_slots_refuted : exists fuel reach f g a h l sc s3 s4 i x v o,
  (cfg_ok f /\ operands_live f /\ NoDup reach /\ (forall b, ~ In sp_id (insns_of f b)) /\ msan fuel sp_id reach f = Ok g /\ shadows f g sp_id reach a) /\
  laid g = Ok (h, l) /\ compiled h l sp_id [2;3;4;5;6] 100 (fun _ => ident) (fun _ => ident) Ok sc s3 s4 /\
  region s4 a = Some (-256, 256)%Z /\ v <> a /\ region s4 v = Some (o, 8%Z) /\
  f_insn f i = None /\ linked s4 i /\ f_insn (c_f s4) i = Some x /\ i_op x = STORERAW /\ i_vrt x = VR_64 /\ a_off (i_addr x) = o.
Proof. exact msan_slots. Qed.
Print Assumptions C71_slots_refuted.
