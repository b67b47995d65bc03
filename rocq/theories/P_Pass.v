(** Properties C40, C42, C43, C44: compaction, optimiser, throw translation, checker. *)
From Verif Require Import SpecWord SpecFlat SpecSsa.
From Verif Require Import M_Base M_Ir M_Edit M_EditHist M_Ra M_Pass M_Check.
From Verif Require Import SpecIr SpecEdit SpecPass SpecCheck.
From Verif Require Import L_Hist L_PassDce L_PassAlloc L_PassThrow L_PassCompact L_Check L_PassWit.
Open Scope nat_scope.

(** ** C40 *)
(** Pairs that follow each other and have the same width are replaced by an equivalent 32-bit move. *)
Theorem C40_compaction_partial : forall f reach g,
  tidy f -> NoDup reach -> pairs_ok f reach -> compaction reach f = Ok g -> tidy g /\ preserves f g.
Proof. exact compaction_ok. Qed.
Print Assumptions C40_compaction_partial.
Theorem C40_succeeds_partial : forall f reach,
  tidy f -> NoDup reach -> pairs_ok f reach -> (forall b, In b reach -> f_block f b <> None) ->
  (forall b l i u, In b reach -> shift_pair f b l i -> u <> i -> uses f u l = 0) -> exists g, compaction reach f = Ok g.
Proof. exact compaction_total. Qed.
Print Assumptions C40_succeeds_partial.
Example C40_applies : tidy (zext A_64 A_64) /\ pairs_ok (zext A_64 A_64) [1] /\
  (exists g, compaction [1] (zext A_64 A_64) = Ok g /\ insns_of g 1 = [1; 3; 4]) /\
  returned (zext A_64 A_64) (2 ^ 40 + 9)%Z = Some 9%Z /\ returned (compacted (zext A_64 A_64)) (2 ^ 40 + 9)%Z = Some 9%Z.
Proof.
  split; [apply mixed_wit|]. split; [exact zext_pairs|]. split.
  - exists (compacted (zext A_64 A_64)). split; [apply get_ok_spec|]; vm_compute; reflexivity.
  - split; vm_compute; reflexivity.
Qed.
(** The pass does not compare the widths of the two shifts. *)
Theorem C40_mixed_width_refuted : exists f g, tidy f /\ compaction [1] f = Ok g /\ ~ preserves f g.
Proof.
  exists (zext A_64 A_32), (compacted (zext A_64 A_32)). split; [apply mixed_wit|]. split; [apply get_ok_spec; vm_compute; reflexivity|].
  apply not_preserved with (z := 9%Z) (a := 0%Z) (b := 9%Z); try discriminate; vm_compute; reflexivity.
Qed.
Print Assumptions C40_mixed_width_refuted.
(** It fails on a valid function when the shifted value has another user. *)
Theorem C40_other_user_refuted : exists f, tidy f /\ (exists s, returned f 9%Z = Some s) /\ compaction [1] f = Err.
Proof.
  exists zext_used. split; [apply built_tidy; vm_compute; reflexivity|]. split; [exists (9 + 9 * 2 ^ 32)%Z; vm_compute; reflexivity|vm_compute; reflexivity].
Qed.
Print Assumptions C40_other_user_refuted.

(** ** C42 *)
Theorem C42_dead_code : forall fuel reach f,
  tidy f -> (forall b, In b reach -> f_block f b <> None) -> size_of f reach < fuel ->
  exists g rm, dce fuel reach f = Ok g /\ tidy g /\ without rm f g /\
    (forall j, In j rm -> exists x, f_insn f j = Some x /\ (pure_op (i_op x) \/ i_op x = ECALL)) /\
    (forall j u, In j rm -> 0 < uses f u j -> In u rm) /\
    (forall b i x, In b reach -> In i (insns_of g b) -> f_insn g i = Some x ->
       is_void_op (i_op x) = false -> i_op x <> CALL -> i_users x <> []) /\
    (no_ecall f reach -> preserves f g).
Proof. exact dead_code. Qed.
Print Assumptions C42_dead_code.
Theorem C42_unused_variables_partial : forall reach f g,
  tidy f -> cells_ok f -> remove_unused_alloc reach f = Ok g ->
  exists rm, tidy g /\ without rm f g /\ preserves f g /\ forall j, In j rm -> gone f j.
Proof. exact unused_variables. Qed.
Print Assumptions C42_unused_variables_partial.
Theorem C42_unused_variables_succeeds_partial : forall reach f,
  tidy f -> cells_ok f -> stores_unused f -> NoDup reach -> (forall b, In b reach -> f_block f b <> None) ->
  (forall a, never_loaded f a -> (exists y, f_insn f a = Some y /\ i_op y = ALLOC) -> one_store f a) ->
  exists g, remove_unused_alloc reach f = Ok g.
Proof. exact (fun reach f => remove_unused_total reach f). Qed.
Print Assumptions C42_unused_variables_succeeds_partial.
Theorem C42_optimize_partial : forall fuel nd no reach f g,
  tidy f -> cells_ok f -> no_ecall f reach -> (forall b, In b reach -> f_block f b <> None) ->
  optimize_ir fuel nd no reach f = Ok g -> size_of f reach < fuel -> tidy g /\ preserves f g /\ exists rm, without rm f g /\
    forall j, In j rm -> exists x, f_insn f j = Some x /\ i_op x <> CALL /\ is_jmp_op (i_op x) = false.
Proof. exact optimize_ok. Qed.
Print Assumptions C42_optimize_partial.
Example C42_applies : tidy opt_demo /\ cells_ok opt_demo /\ no_ecall opt_demo [1] /\ size_of opt_demo [1] < 20 /\
  exists g, optimize_ir 20 false false [1] opt_demo = Ok g /\ insns_of g 1 = [1; 6; 7; 8; 9].
Proof.
  split; [apply built_tidy; vm_compute; reflexivity|]. split; [apply cells_okb_ok; [apply built_wf|vm_compute; reflexivity]|].
  split. { apply no_ecallb. vm_compute. reflexivity. }
  split; [apply Nat.ltb_lt; vm_compute; reflexivity|].
  exists (get_ok empty_func (optimize_ir 20 false false [1] opt_demo)). split; [apply get_ok_spec|]; vm_compute; reflexivity.
Qed.
(** Two stores to a variable that is never read: the loop that erases them skips every second one. *)
Theorem C42_two_stores_refuted : exists f, tidy f /\ cells_ok f /\ (exists r, returned f 0 = Some r) /\
  optimize_ir 20 false false [1] f = Err.
Proof.
  exists two_stores. split; [apply built_tidy; vm_compute; reflexivity|]. split; [apply cells_okb_ok; [apply built_wf|vm_compute; reflexivity]|].
  split; [exists 0%Z; vm_compute; reflexivity|vm_compute; reflexivity].
Qed.
Print Assumptions C42_two_stores_refuted.

(** ** C43 *)
Theorem C43_translates : forall reach f, linked_ok f -> (forall b, In b reach -> f_block f b <> None) ->
  exists g, translate_throw reach f = Ok g.
Proof. exact throw_total. Qed.
Print Assumptions C43_translates.
Theorem C43_throw : forall reach f g, translate_throw reach f = Ok g ->
  (forall b, f_block g b = f_block f b) /\ f_entry g = f_entry f /\
  (forall i x, f_insn f i = Some x -> i_op x <> THROW \/ ~ placed_in f reach i -> f_insn g i = Some x) /\
  (forall i x, f_insn f i = Some x -> i_op x = THROW -> placed_in f reach i ->
     f_insn g i = Some (set_vals [mkVal (VConst 1) A_32 B_NONE] (set_op RET x))) /\
  (forall i, f_insn f i = None -> f_insn g i = None).
Proof. exact throw_exact. Qed.
Print Assumptions C43_throw.
Theorem C43_returns : forall reach f g, translate_throw reach f = Ok g -> closed f reach -> In (f_entry f) reach ->
  (forall b i x, In b reach -> In i (insns_of f b) -> f_insn f i = Some x -> i_op x = THROW -> i_vals x = []) ->
  ops_in g reach (fun o => o <> THROW) /\
  forall w bi n s, srun w bi g n 0 (f_entry g) s = option_map thr_out (srun w bi f n 0 (f_entry f) s).
Proof. exact throw_runs. Qed.
Print Assumptions C43_returns.
Example C43_applies : closed thr_demo [1; 2; 3] /\
  exists g, translate_throw [1; 2; 3] thr_demo = Ok g /\ returned g 0 = Some 1%Z /\ returned thr_demo 0 = None /\ returned g 5 = Some 5%Z.
Proof.
  split; [apply closedb_ok; vm_compute; reflexivity|].
  exists (get_ok empty_func (translate_throw [1; 2; 3] thr_demo)). split; [apply get_ok_spec; vm_compute; reflexivity|]. repeat split; vm_compute; reflexivity.
Qed.

(** ** C44 *)
Theorem C44_checker_partial : forall f reach sp args u, prog_check f reach sp args = Ok u -> forall b, In b reach -> block_good f b.
Proof. exact good_block. Qed.
Print Assumptions C44_checker_partial.
Theorem C44_special : forall f reach sp args u, prog_check f reach sp args = Ok u ->
  forall i, In i (sp :: args) -> forall v, In v (users_of f i) -> 0 < uses f v i.
Proof. exact special_good. Qed.
Print Assumptions C44_special.
(** Executions of a checked function only follow edges of the control-flow graph. *)
Theorem C44_control : forall f reach sp args u, prog_check f reach sp args = Ok u -> forall w bi prev b s c s', In b reach ->
  sblock w bi f prev b s = Some (SJmp c s') -> In c (succs_of f b) /\ In b (preds_of f c).
Proof. exact checked_jump. Qed.
Print Assumptions C44_control.
Example C44_applies : accepted ok_demo [1; 2; 3] /\ succs_of ok_demo 1 = [2; 3].
Proof. split; vm_compute; reflexivity. Qed.
Theorem C44_phi_coverage_refuted : exists f b i x p, accepted f [1; 2; 3] /\ In i (insns_of f b) /\ f_insn f i = Some x /\ i_op x = PHI /\
  In p (preds_of f b) /\ In p [1; 2; 3] /\ ~ In p (map snd (i_phi x)) /\ forall w bi s, sblock w bi f p b s = None.
Proof. exact short_phi_wit. Qed.
Print Assumptions C44_phi_coverage_refuted.
Theorem C44_use_before_definition_refuted : exists f, accepted f [1] /\ forall w bi, srun w bi f 1 0 (f_entry f) s_zero = None.
Proof. exists early_use. split; [vm_compute; reflexivity|]. intros w bi. vm_compute. reflexivity. Qed.
Print Assumptions C44_use_before_definition_refuted.
Theorem C44_operand_count_refuted : exists f i x, accepted f [1] /\ In i (insns_of f 1) /\ f_insn f i = Some x /\ i_op x = ASSIGN /\ i_vals x = [].
Proof.
  exists (no_operand bad_assign 1), 1, (mkInsn ASSIGN [] VR_UNKNOWN (i_addr (insn0 0)) A_UNKNOWN 0 0 [] 0 0 0 1 [2]).
  split; [vm_compute; reflexivity|]. split; [apply existsb_in; vm_compute; reflexivity|]. split; [vm_compute; reflexivity|]. split; reflexivity.
Qed.
Print Assumptions C44_operand_count_refuted.
