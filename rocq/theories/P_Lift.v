(** Properties C07, C14, C15, C16, C17, C18, C52, C53, C54: from bytecode to SSA form. *)
From Coq Require Import ZArith List Bool Arith Lia.
From Verif Require Import M_Base M_Ir M_Edit SpecWord SpecIsa SpecIr SpecEdit SpecSsa SpecCfg SpecLift SpecLiftOne M_GenBB M_Lift
  L_GenBBEx L_LiftMain L_LiftProp L_LiftEx L_LiftOne L_LiftWit.
Import ListNotations.
Open Scope nat_scope.

(** A loop over memory with a helper call, a store and two ways to the exit. *)
Definition ex_lift : list bpf_insn :=
  [ mkBpf 0xb7 0 0 0 0;        (*  0: r0 = 0 *)
    mkBpf 0xbf 6 1 0 0;        (*  1: r6 = r1 *)
    mkBpf 0xb7 7 0 0 3;        (*  2: r7 = 3 *)
    mkBpf 0x15 7 0 7 0;        (*  3: if r7 == 0 goto 11 *)
    mkBpf 0x79 1 6 0 0;        (*  4: r1 = load64 r6 *)
    mkBpf 0xbf 2 0 0 0;        (*  5: r2 = r0 *)
    mkBpf 0x85 0 0 0 1;        (*  6: r0 = helper 1 (r1, r2) *)
    mkBpf 0x7b 10 0 (-8) 0;    (*  7: store64 (r10 - 8) r0 *)
    mkBpf 0x04 0 0 0 5;        (*  8: w0 += 5 *)
    mkBpf 0x07 7 0 0 (-1);     (*  9: r7 += -1 *)
    mkBpf 0x05 0 0 (-8) 0;     (* 10: goto 3 *)
    mkBpf 0x95 0 0 0 0 ].      (* 11: exit *)
Definition ex_f : func := lifted ex_lift.
Example ex_lift_applies : wf_prog ex_lift /\ (Z.of_nat (length ex_lift) <= 32768)%Z /\ ~ jump_target ex_lift 0 /\ all_reach ex_lift /\
  (forall j i, at_pos ex_lift j i -> plain ar_table i) /\ (forall j i, at_pos ex_lift j i -> in_limits i) /\
  agrees ar_table /\ respects w_sum ar_table /\ lift 20 400 ex_lift = Ok ex_f.
Proof.
  split; [apply wf_chk_ok; vm_compute; reflexivity|]. split; [simpl; lia|]. split; [apply jt_chk_ok; vm_compute; reflexivity|].
  split; [apply reach_chk_ok; vm_compute; reflexivity|]. split; [apply plain_chk_ok; vm_compute; reflexivity|].
  split; [apply lim_chk_ok; vm_compute; reflexivity|]. split; [exact ar_agrees|]. split; [exact w_sum_respects|].
  apply get_ok_spec. vm_compute. reflexivity.
Qed.
Example ex_lift_runs : let s := st_of 64 0 0 0 0 (fun a => (a mod 3)%Z) in
  st_ok s /\ enters s (sst_of s) sp_id arg_id /\
  match crun w_sum ar_table ex_lift 40 0 s clean, srun w_sum bi0 ex_f 20 0 (f_entry ex_f) (sst_of s) with
  | Some (IExit r _, _), Some (ORet r' _) => r = r' /\ r <> 0%Z
  | _, _ => False
  end.
Proof. split; [apply st_of_ok; vm_compute; reflexivity|]. split; [apply enters_of|]. vm_compute. split; [reflexivity | discriminate]. Qed.
Example ex_lift_blocks : map (fun b => map (fun i => match f_insn ex_f i with Some x => (i_op x, map snd (i_phi x)) | None => (RET, []) end) (insns_of ex_f b)) (f_all ex_f) =
  [ []; [(PHI, [1; 3]); (PHI, [1; 3]); (PHI, [1; 3]); (JEQ, [])];
    [(LOADRAW, []); (CALL, []); (STORERAW, []); (ADD, []); (ADD, []); (JA, [])]; [(RET, [])] ].
Proof. vm_compute. reflexivity. Qed.

(** ** C52: an execution of the bytecode that exits is an execution of the lifted function that
    returns the same value with the same memory and the same helper calls. *)
Theorem C52_lift_exit_partial : forall w bi ar p m n f st t k r st' d,
  wf_prog p -> (Z.of_nat (length p) <= 32768)%Z -> ~ jump_target p 0 -> all_reach p ->
  (forall j i, at_pos p j i -> plain ar i) -> agrees ar -> respects w ar -> lift m n p = Ok f ->
  st_ok st -> enters st t sp_id arg_id -> crun w ar p k 0 st clean = Some (IExit r st', d) ->
  exists k' t', srun w bi f k' 0 (f_entry f) t = Some (ORet r t') /\ s_mem t' = mem st' /\ s_nc t' = ncall st'.
Proof. exact lift_exit. Qed.
Print Assumptions C52_lift_exit_partial.
(** The lifted function never gets stuck and returns only what the bytecode returns. *)
Theorem C52_lift_run_partial : forall w bi ar p m n f st t k,
  wf_prog p -> (Z.of_nat (length p) <= 32768)%Z -> ~ jump_target p 0 -> all_reach p ->
  (forall j i, at_pos p j i -> plain ar i) -> agrees ar -> respects w ar -> lift m n p = Ok f ->
  st_ok st -> enters st t sp_id arg_id -> (forall k, crun w ar p k 0 st clean <> None) ->
  (exists prev b t', srun w bi f k 0 (f_entry f) t = Some (OAt prev b t')) \/
  (exists k' r st' d t', crun w ar p k' 0 st clean = Some (IExit r st', d) /\
     srun w bi f k 0 (f_entry f) t = Some (ORet r t') /\ s_mem t' = mem st' /\ s_nc t' = ncall st').
Proof. exact lift_any. Qed.
Print Assumptions C52_lift_run_partial.
(** [crun] is execution in the instruction set, cut off at the first read of a destroyed register. *)
Theorem C52_crun_is_execution : forall w ar p n pc s d r s' d',
  crun w ar p n pc s d = Some (IExit r s', d') -> isa_run w p n pc s = IExit r s'.
Proof. exact crun_isa. Qed.
Print Assumptions C52_crun_is_execution.

(** ** C14, C15: one instruction in any context.  The instructions added to the block take the IR
    state described by the register table to the one described by the new table. *)
Definition ex_block : list pblock := [mkPB 0 2 [] [] []].
Definition ex_state : lst := mkL (l_f (init_lst ex_block))
  (fun r b => if (b =? 1) then if (r =? 0)%Z then Some (val_insn 2) else if (r =? 3)%Z then Some (val_insn 3) else None else None)
  (fun _ _ => None) (fun _ => true) (fun _ => false) false.
(** r0 = 5 and r3 = 7, described by the function arguments *)
Definition ex_machine (m : memory) : st := mkSt [5; 0; 0; 7; 0; 0; 0; 0; 0; 0; 1000]%Z m 0.
Definition ex_ir (m : memory) : sst :=
  mkS (fun i => if i =? 1 then Some 1000%Z else if i =? 2 then Some 5%Z else if i =? 3 then Some 7%Z else None) (fun _ => None) m 0.
Example ex_one i x m : In i [mkBpf 0x0f 0 3 0 0; mkBpf 0x1c 0 3 0 0; mkBpf 0x47 0 0 0 9; mkBpf 0x84 0 0 0 0; mkBpf 0xdc 0 0 0 16;
    mkBpf 0x61 0 3 (-4) 0; mkBpf 0x7b 10 3 (-8) 0; mkBpf 0x62 3 0 2 5] ->
  x = mkPre (b_code i) (b_dst i) (b_src i) (b_off i) false (b_imm i) (u32 (b_imm i)) 0 ->
  plain (fun _ => None) i /\ pre_form i x /\ describes bi0 ex_state 1 (ex_ir m) (ex_machine m) /\ table_live ex_state 1 /\
  (forall ar r, In r (reads ar i) -> known ex_state 1 r) /\ is_ok (lift_insn 5 ex_block 1 ex_state x) = true /\
  (exists s', isa_step w_sum [i] 0 (ex_machine m) = INext 1 s').
Proof.
  intros H ->.
  split. { repeat (destruct H as [<-|H]; [split; [discriminate | split; [discriminate | split; [intros [A B]; vm_compute in A, B; congruence | discriminate]]]|]). destruct H. }
  split; [repeat split|]. split.
  { constructor; try reflexivity. intros r v L E. cbn in E.
    destruct (Z.eqb_spec r 0) as [->|]; [injection E as <-; reflexivity|]. destruct (Z.eqb_spec r 3) as [->|]; [injection E as <-; reflexivity | discriminate]. }
  split. { split; [cbn; lia|]. intros r v j E D. cbn in E. destruct (r =? 0)%Z; [injection E as <-; injection D as <-; cbn; lia|].
           destruct (r =? 3)%Z; [injection E as <-; injection D as <-; cbn; lia | discriminate]. }
  split. { intros ar r Hr. unfold known.
    assert (K : r = 10%Z \/ r = 0%Z \/ r = 3%Z) by (repeat (destruct H as [<-|H]; [vm_compute in Hr; intuition|]); destruct H).
    destruct K as [->|[->| ->]]; [now left| |]; right; discriminate. }
  split; [repeat (destruct H as [<-|H]; [vm_compute; reflexivity|]); destruct H|].
  repeat (destruct H as [<-|H]; [eexists; reflexivity|]). destruct H.
Qed.

Theorem C14_alu_partial : forall bs b w bi p pc st pc' st' i x n s s' t,
  at_pos p pc i -> isa_step w p (Z.of_nat pc) st = INext pc' st' -> st_ok st ->
  (b_code i mod 8 = 4 \/ b_code i mod 8 = 7)%Z ->
  plain (fun _ => None) i -> pre_form i x ->
  describes bi s b t st -> table_live s b -> (forall ar r, In r (reads ar i) -> known s b r) ->
  lift_insn (S n) bs b s x = Ok s' ->
  exists ids t', insns_of (l_f s') b = insns_of (l_f s) b ++ ids /\
    sbody w bi (l_f s') t ids = Some (SNext t') /\ describes bi s' b t' st' /\ table_live s' b.
Proof. exact one_alu. Qed.
Print Assumptions C14_alu_partial.
(** 32-bit moves are lifted to 64-bit copies. *)
Theorem C14_mov32_reg_refuted : exists p, In (mkBpf 0xbc 0 1 0 0) p /\ differs w_sum p.
Proof. exact mov32_reg_wit. Qed.
Print Assumptions C14_mov32_reg_refuted.
Theorem C14_mov32_imm_refuted : exists p, In (mkBpf 0xb4 0 0 0 (-1)) p /\ differs w_sum p.
Proof. exact mov32_imm_wit. Qed.
Print Assumptions C14_mov32_imm_refuted.

Theorem C15_memory_partial : forall bs b w bi p pc st pc' st' i x n s s' t,
  at_pos p pc i -> isa_step w p (Z.of_nat pc) st = INext pc' st' -> st_ok st ->
  (b_code i mod 8 = 1 \/ b_code i mod 8 = 2 \/ b_code i mod 8 = 3)%Z ->
  plain (fun _ => None) i -> pre_form i x ->
  describes bi s b t st -> table_live s b -> (forall ar r, In r (reads ar i) -> known s b r) ->
  lift_insn (S n) bs b s x = Ok s' ->
  exists ids t', insns_of (l_f s') b = insns_of (l_f s) b ++ ids /\
    sbody w bi (l_f s') t ids = Some (SNext t') /\ describes bi s' b t' st' /\ table_live s' b.
Proof. exact one_mem. Qed.
Print Assumptions C15_memory_partial.
(** Sign-extending loads of 4, 2 and 1 bytes are lifted to zero-extending ones. *)
Theorem C15_sign_extending_load_refuted : forall c, In c [0x81; 0x89; 0x91]%Z -> exists p, In (mkBpf c 0 1 0 0) p /\ differs w_sum p.
Proof. exact memsx_wit. Qed.
Print Assumptions C15_sign_extending_load_refuted.

(** ** C16 *)
Theorem C16_accepted_partial : forall p m n f j i,
  wf_prog p -> (Z.of_nat (length p) <= 32768)%Z -> ~ jump_target p 0 -> lift m n p = Ok f ->
  reach p (Z.of_nat j) -> at_pos p j i ->
  supported helper_id i \/ tolerated i \/ (two_way (b_code i) = true /\ b_off i = 0%Z).
Proof. intros p m n f j i W L N. exact (lift_supported p W L N m n f j i). Qed.
Print Assumptions C16_accepted_partial.
(** every supported instruction has a meaning *)
Theorem C16_supported_executes : forall ids w p pc s i, wf_prog p -> at_pos p pc i -> b_code i <> 0%Z -> (0 <= b_src i)%Z ->
  supported ids i -> isa_step w p (Z.of_nat pc) s <> IStuck.
Proof. exact supported_runs. Qed.
Print Assumptions C16_supported_executes.
(** a program with an unsupported reachable instruction is rejected *)
Example ex_rejected : let p := [mkBpf 0xb7 0 0 0 0; mkBpf 0xdb 10 0 (-8) 0; mkBpf 0x95 0 0 0 0] in
  wf_prog p /\ ~ jump_target p 0 /\ reach p (Z.of_nat 1) /\ lift 20 400 p = Err.
Proof.
  split; [apply wf_chk_ok; vm_compute; reflexivity|]. split; [apply jt_chk_ok; vm_compute; reflexivity|].
  split; [|vm_compute; reflexivity]. eapply re_s; [apply re_0 | reflexivity | now left].
Qed.
(** Instructions without any meaning are lifted: writes to r10, byte swaps of another width,
    sign-extending loads of 8 bytes, calls of unknown kinds, calls and jumps in the wrong class. *)
Theorem C16_meaningless_refuted : forall i, In i odd_insns ->
  is_ok (lift 20 400 (odd_prog i)) = true /\ forall w s, isa_step w (odd_prog i) 0 s = IStuck.
Proof. exact odd_wit. Qed.
Print Assumptions C16_meaningless_refuted.
(** as last instruction: two other exits and half of a wide load *)
Theorem C16_last_instruction_refuted : forall i, In i [mkBpf 0x9d 0 0 0 0; mkBpf 0x96 0 0 0 0; mkBpf 0x18 0 0 0 0] ->
  is_ok (lift 20 400 [mkBpf 0xb7 0 0 0 0; i]) = true /\ forall w s, isa_step w [mkBpf 0xb7 0 0 0 0; i] 1 s = IStuck.
Proof. exact odd_end_wit. Qed.
Print Assumptions C16_last_instruction_refuted.
(** a program without exit *)
Theorem C16_no_exit_refuted : is_ok (lift 20 400 [mkBpf 0xb7 0 0 0 0]) = true /\
  forall w s, isa_run w [mkBpf 0xb7 0 0 0 0] 2 0 s = IStuck.
Proof. exact no_exit_wit. Qed.
Print Assumptions C16_no_exit_refuted.

(** ** C17: see C52 for the values; this is the shape of the phis. *)
Theorem C17_phis_partial : forall p m n f, wf_prog p -> (Z.of_nat (length p) <= 32768)%Z -> ~ jump_target p 0 -> all_reach p ->
  lift m n p = Ok f -> forall b, f_block f b <> None ->
  exists phs ids, insns_of f b = phs ++ ids /\
    (forall i, In i phs -> exists x, f_insn f i = Some x /\ i_op x = PHI /\ map snd (i_phi x) = preds_of f b) /\
    (forall i, In i ids -> ~ is_phi f i) /\ (length (preds_of f b) <= 1 -> phs = []).
Proof. exact lift_phis. Qed.
Print Assumptions C17_phis_partial.
(** A reachable block with an unreachable predecessor keeps a phi without operands: the program
    returns 1, the lifted function is stuck. *)
Theorem C17_dead_predecessor_refuted : exists p f i x, wf_prog p /\ (length p <= 10) /\ ~ jump_target p 0 /\ lift 20 400 p = Ok f /\
  f_insn f i = Some x /\ i_op x = PHI /\ i_phi x = [] /\ In i (insns_of f (i_parent x)) /\ length (preds_of f (i_parent x)) = 2 /\
  forall w bi st t, st_ok st -> isa_run w p 3 0 st = IExit 1 (rset st 0 1) /\ srun w bi f 5 0 (f_entry f) t = None.
Proof. exact dead_wit. Qed.
Print Assumptions C17_dead_predecessor_refuted.

(** ** C18 *)
Theorem C18_no_bad_access_partial : forall p m n,
  wf_prog p -> (Z.of_nat (length p) <= 32768)%Z -> ~ jump_target p 0 -> (forall j i, at_pos p j i -> in_limits i) ->
  lift m n p <> UB /\ lift m n p <> Crit.
Proof. intros p m n W L N. exact (lift_safe p W L N m n). Qed.
Print Assumptions C18_no_bad_access_partial.
(** and lifting ends: recursion depth is bounded by the program length *)
Theorem C18_lifting_ends_partial : forall p m n,
  wf_prog p -> (Z.of_nat (length p) <= 32768)%Z -> ~ jump_target p 0 -> (forall j i, at_pos p j i -> in_limits i) ->
  length p + 1 <= m -> (length p + 2) * (length p + 2) <= n ->
  lift m n p = Err \/ exists f, lift m n p = Ok f.
Proof. intros p m n W L N. exact (lift_total p W L N m n). Qed.
Print Assumptions C18_lifting_ends_partial.
(** a register field above 10 *)
Theorem C18_register_field_refuted : exists p, wf_prog p /\ ~ jump_target p 0 /\ length p <= 10 /\
  (forall j i, at_pos p j i -> (0 <= b_dst i < 16 /\ 0 <= b_src i < 16)%Z) /\ lift 20 400 p = UB.
Proof. exact reg_ub_wit. Qed.
Print Assumptions C18_register_field_refuted.
(** a library call with six arguments *)
Theorem C18_call_arguments_refuted : exists p, wf_prog p /\ ~ jump_target p 0 /\ length p <= 10 /\
  (forall j i, at_pos p j i -> (0 <= b_dst i <= 10 /\ 0 <= b_src i <= 10)%Z) /\ lift 20 400 p = UB.
Proof. exact args_ub_wit. Qed.
Print Assumptions C18_call_arguments_refuted.

(** ** C53 *)
Theorem C53_call_arguments_partial : forall p m n f, wf_prog p -> (Z.of_nat (length p) <= 32768)%Z -> ~ jump_target p 0 -> all_reach p ->
  lift m n p = Ok f -> forall b i x k, In i (insns_of f b) -> f_insn f i = Some x -> i_op x = CALL -> i_u x <> 6%Z ->
  nth_error helper_args (Z.to_nat (i_u x)) = Some k -> (0 <= k)%Z -> Z.of_nat (length (i_vals x)) = k.
Proof. exact lift_calls. Qed.
Print Assumptions C53_call_arguments_partial.
Example ex_call : exists b i x, In i (insns_of ex_f b) /\ f_insn ex_f i = Some x /\ i_op x = CALL /\ i_u x = 1%Z /\
  nth_error helper_args (Z.to_nat (i_u x)) = Some 2%Z.
Proof.
  exists 3. set (l := insns_of ex_f 3). vm_compute in l.
  match eval vm_compute in l with _ :: ?c :: _ => exists c end. eexists. split; [cbn; tauto|].
  split; [vm_compute; reflexivity|]. repeat split.
Qed.
(** printk gets its format and the size of the format, and at most three values *)
Theorem C53_printk_arguments_partial : forall p m n f, wf_prog p -> (Z.of_nat (length p) <= 32768)%Z -> ~ jump_target p 0 -> all_reach p ->
  lift m n p = Ok f -> forall b i x, In i (insns_of f b) -> f_insn f i = Some x -> i_op x = CALL -> i_u x = 6%Z -> 2 <= length (i_vals x) <= 5.
Proof. exact lift_printk. Qed.
Print Assumptions C53_printk_arguments_partial.
Example ex_printk : exists p f b i x, wf_prog p /\ all_reach p /\ lift 20 400 p = Ok f /\ In i (insns_of f b) /\ f_insn f i = Some x /\ i_op x = CALL /\ i_u x = 6%Z /\
  length (i_vals x) = 4.
Proof. exact printk_ex. Qed.

(** printk is given the third argument only when r3 was set in the block of the call. *)
Theorem C53_printk_refuted : exists p, In (mkBpf 0x85 0 0 0 6) p /\ differs w_third p.
Proof. exact printk_wit. Qed.
Print Assumptions C53_printk_refuted.

(** ** C54 *)
Theorem C54_lifted_structure_partial : forall p m n f,
  wf_prog p -> (Z.of_nat (length p) <= 32768)%Z -> ~ jump_target p 0 -> lift m n p = Ok f ->
  In (f_entry f) (f_all f) /\ NoDup (f_all f) /\ (forall b, In b (f_all f) <-> f_block f b <> None) /\ preds_of f (f_entry f) = [] /\
  mirrored f /\ fresh_ok f /\ linked_ok f /\ (forall b, NoDup (insns_of f b)) /\
  (forall i x, 7 <= i -> f_insn f i = Some x -> In i (insns_of f (i_parent x))) /\
  (forall u d, In u (users_of f d) <-> uses f u d > 0) /\ (forall d, NoDup (users_of f d)).
Proof. exact lift_struct. Qed.
Print Assumptions C54_lifted_structure_partial.

(** ** C07 *)
Theorem C07_lifted_registered_partial : forall p m n f,
  wf_prog p -> (Z.of_nat (length p) <= 32768)%Z -> ~ jump_target p 0 -> lift m n p = Ok f -> registered f.
Proof. exact lift_registered. Qed.
Print Assumptions C07_lifted_registered_partial.
Theorem C07_lifted_program_refuted : exists p f g u d, wf_prog p /\ lift 20 400 p = Ok f /\ registered f /\ uses f u d = 2 /\
  change_value f u (SVal 0) (val_const64 7) = Ok g /\ uses g u d = 1 /\ ~ In u (users_of g d).
Proof. exact twice_wit. Qed.
Print Assumptions C07_lifted_program_refuted.
