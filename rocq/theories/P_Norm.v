(** Properties of normalisation, translation, relocation and synthesis. *)
From Verif Require Import M_Base M_Ir M_Norm SpecWord SpecIsa SpecFlat SpecNormCond SpecProg SpecOut L_Norm L_Trans L_Prog L_Out.
Open Scope Z_scope.

(** ** Sample programs *)
Definition rg (r : Z) : vrpos := mkPos true 0 r 0.
Definition sk (o : Z) : vrpos := mkPos true 8 0 o.
Definition vr (r : Z) : value := val_pos (rg r).
Definition vs (o : Z) : value := val_pos (sk o).
Definition k32 := val_const32.
Definition k64 := val_const64.
Definition ins (o : iop) (vals : list value) (a : alut) (t : vrt) (ad : addrval) (b1 b2 : nat) : insn :=
  mkInsn o vals t ad a b1 b2 [] 0 0 0 0 [].
Definition alu (o : iop) (a : alut) (d : vrpos) (v0 v1 : value) : ninsn := mkN (ins o [v0; v1] a VR_64 (addr_val val_undef 0) 0 0) d.
Definition asg (a : alut) (d : vrpos) (v : value) : ninsn := mkN (ins ASSIGN [v] a VR_64 (addr_val val_undef 0) 0 0) d.
Definition una (o : iop) (d : vrpos) (v : value) : ninsn := mkN (ins o [v] A_64 VR_64 (addr_val val_undef 0) 0 0) d.
Definition ldr (t : vrt) (d : vrpos) (v : value) (o : Z) : ninsn := mkN (ins LOADRAW [] A_64 t (addr_val v o) 0 0) d.
Definition sto (t : vrt) (v : value) (o : Z) (x : value) : ninsn := mkN (ins STORERAW [x] A_64 t (addr_val v o) 0 0) (rg 0).
Definition ja (b : nat) : ninsn := mkN (ins JA [] A_64 VR_64 (addr_val val_undef 0) b 0) (rg 0).
Definition jc (o : iop) (a : alut) (v0 v1 : value) (b1 b2 : nat) : ninsn := mkN (ins o [v0; v1] a VR_64 (addr_val val_undef 0) b1 b2) (rg 0).
Definition ret : ninsn := mkN (ins RET [] A_64 VR_64 (addr_val val_undef 0) 0 0) (rg 0).
Definition retv (v : value) : ninsn := mkN (ins RET [v] A_64 VR_64 (addr_val val_undef 0) 0 0) (rg 0).
Definition blk (l : list ninsn) : nprog := [mkNB 0 false [] l].
Definition st0 (r0 r1 : Z) : st := mkSt [r0; r1; 0; 0; 0; 0; 0; 0; 0; 0; 2 ^ 40] (fun a => a mod 7) 0.

Ltac wrong c s := exists (get_ok [] (cg_norm 10 c)), s; split; [vm_compute; reflexivity|]; split;
  [split; [reflexivity|repeat constructor; intros Q; vm_compute in Q; discriminate]|];
  intros w; eexists _, _, _, _; split; [exists 5%nat; vm_compute; reflexivity|]; split; [exists 10%nat; vm_compute; reflexivity|discriminate].

(** ** C31: normalisation *)
Theorem C31_normalize_partial : forall w bi n s l r,
  norm_ok bi n -> normalize_one n = Ok l -> st_ok s -> fexec w bi n s = Some r ->
  exists r', fseq w bi l s = Some r' /\ agrees (not_taken (n_i n)) r r'.
Proof. intros w bi n s l r K N O X. exact (proj1 (normalize_one_good w bi n s l r K N O X)). Qed.
Print Assumptions C31_normalize_partial.

Theorem C31_sub_same_reg_refuted : miscompiled (blk [alu SUB A_64 (rg 0) (vr 0) (vr 0); ret]).
Proof. wrong (blk [alu SUB A_64 (rg 0) (vr 0) (vr 0); ret]) (st0 5 0). Qed.
Print Assumptions C31_sub_same_reg_refuted.

(** the excluded cases below are each accepted and give the wrong result *)
Theorem C31_add32_zero_refuted : miscompiled (blk [alu ADD A_32 (rg 0) (vr 0) (k32 0); ret]).
Proof. wrong (blk [alu ADD A_32 (rg 0) (vr 0) (k32 0); ret]) (st0 (2 ^ 32 + 1) 0). Qed.
Print Assumptions C31_add32_zero_refuted.

Theorem C31_move32_refuted : miscompiled (blk [asg A_32 (rg 0) (vr 1); ret]).
Proof. wrong (blk [asg A_32 (rg 0) (vr 1); ret]) (st0 0 (2 ^ 32 + 1)). Qed.
Print Assumptions C31_move32_refuted.

Theorem C31_ret_const64_refuted : miscompiled (blk [retv (k64 (2 ^ 32 + 1))]).
Proof. wrong (blk [retv (k64 (2 ^ 32 + 1))]) (st0 0 0). Qed.
Print Assumptions C31_ret_const64_refuted.

Theorem C31_const64_to_stack_refuted : miscompiled (blk [asg A_64 (sk (-8)) (k64 (2 ^ 32 + 1)); asg A_64 (rg 0) (vs (-8)); ret]).
Proof. wrong (blk [asg A_64 (sk (-8)) (k64 (2 ^ 32 + 1)); asg A_64 (rg 0) (vs (-8)); ret]) (st0 0 0). Qed.
Print Assumptions C31_const64_to_stack_refuted.

Theorem C33_storeraw_const64_refuted : miscompiled (blk [sto VR_64 (vr 10) (-8) (k64 (2 ^ 32 + 1)); ldr VR_64 (rg 0) (vr 10) (-8); ret]).
Proof. wrong (blk [sto VR_64 (vr 10) (-8) (k64 (2 ^ 32 + 1)); ldr VR_64 (rg 0) (vr 10) (-8); ret]) (st0 0 0). Qed.
Print Assumptions C33_storeraw_const64_refuted.

Theorem C33_loadraw_const_refuted : miscompiled (blk [ldr VR_64 (rg 0) (k64 1000) 0; ret]).
Proof. wrong (blk [ldr VR_64 (rg 0) (k64 1000) 0; ret]) (st0 0 0). Qed.
Print Assumptions C33_loadraw_const_refuted.

Theorem C31_narrow_variable_refuted :
  miscompiled (blk [mkN (ins STORE [vr 0; k32 257] A_64 VR_8 (addr_val val_undef 0) 0 0) (rg 0); ret]).
Proof. wrong (blk [mkN (ins STORE [vr 0; k32 257] A_64 VR_8 (addr_val val_undef 0) 0 0) (rg 0); ret]) (st0 0 0). Qed.
Print Assumptions C31_narrow_variable_refuted.

Theorem C33_offset_overflow_refuted : miscompiled (blk [ldr VR_8 (rg 0) (vs (-8)) (-32768); ret]).
Proof. wrong (blk [ldr VR_8 (rg 0) (vs (-8)) (-32768); ret]) (st0 0 0). Qed.
Print Assumptions C33_offset_overflow_refuted.

Theorem C32_const_jump32_refuted :
  miscompiled [mkNB 0 false [] [jc JNE A_32 (k64 (2 ^ 32)) (k32 0) 1 2]; mkNB 1 false [0%nat] [retv (k32 1)]; mkNB 2 false [0%nat] [retv (k32 2)]].
Proof.
  wrong [mkNB 0 false [] [jc JNE A_32 (k64 (2 ^ 32)) (k32 0) 1 2]; mkNB 1 false [0%nat] [retv (k32 1)]; mkNB 2 false [0%nat] [retv (k32 2)]] (st0 0 0).
Qed.
Print Assumptions C32_const_jump32_refuted.

(** negating or byte-swapping a value on the stack aborts *)
Theorem C33_neg_stack_refuted : rejected (blk [una NEG (rg 0) (vs (-8)); ret]).
Proof.
  split; [vm_compute; reflexivity|]. exists (st0 0 0). split; [split; [reflexivity|repeat constructor; intros Q; vm_compute in Q; discriminate]|].
  intros w. eexists _, _. exists 5%nat. vm_compute. reflexivity.
Qed.
Print Assumptions C33_neg_stack_refuted.
Theorem C31_getelemptr_stack_refuted : rejected (blk [mkN (ins GETELEMPTR [vs (-8); vs (-32)] A_64 VR_64 (addr_val val_undef 0) 0 0) (rg 0); ret]).
Proof.
  split; [vm_compute; reflexivity|]. exists (st0 0 0). split; [split; [reflexivity|repeat constructor; intros Q; vm_compute in Q; discriminate]|].
  intros w. eexists _, _. exists 5%nat. vm_compute. reflexivity.
Qed.
Print Assumptions C31_getelemptr_stack_refuted.

(** ** C32: conditional jumps *)
Theorem C32_cond_jump_partial : forall w bi n cm v0 v1 wd a b l s,
  norm_ok bi n -> Forall plain (i_vals (n_i n)) -> i_bb1 (n_i n) <> i_bb2 (n_i n) ->
  cmp_op_of (i_op (n_i n)) = Some cm -> i_vals (n_i n) = [v0; v1] -> width_of (i_alu (n_i n)) = Some wd ->
  evalv bi s v0 = Some a -> evalv bi s v1 = Some b -> st_ok s -> normalize_one n = Ok l ->
  (l = [] /\ cmp_fn cm wd a b = false) \/
  (exists m, l = [m] /\ forall c o pc prog, translate_one m = Ok [c] -> s16_range o -> 0 <= pc ->
    fetch prog pc = Some (mkBpf (p_op c) (p_dst c mod 16) (p_src c mod 16) o (p_imm c)) -> p_wide c = false ->
    isa_step w prog pc s = INext (if cmp_fn cm wd a b then pc + 1 + o else pc + 1) s).
Proof. exact cond_jump_exact. Qed.
Print Assumptions C32_cond_jump_partial.

Example C32_demo : forall bi,
  norm_ok bi (jc JSLT A_32 (k32 7) (vr 1) 1 2) /\
  exists m c, normalize_one (jc JSLT A_32 (k32 7) (vr 1) 1 2) = Ok [m] /\ translate_one m = Ok [c] /\ p_op c = 102 /\ p_wide c = false.
Proof.
  intros bi. split.
  - split; [|split; [cbn; unfold s16_range; lia|exact I]].
    constructor; [cbn; unfold s32_range; lia|]. constructor; [cbn; unfold s16_range; lia|constructor].
  - eexists _, _. split; [reflexivity|]. split; [vm_compute; reflexivity|]. split; reflexivity.
Qed.

(** ** C33: translation of normalised instructions other than jumps *)
Theorem C33_translate_partial : forall w bi n s c r prog pos,
  tr_ok bi n -> resolved_insn bi n -> translate_one n = Ok c -> st_ok s -> fexec w bi n s = Some r ->
  0 <= pos -> (forall k i, nth_error (flat_map halves c) k = Some i -> fetch prog (pos + Z.of_nat k) = Some i) ->
  i_op (n_i n) <> JA -> is_cond_jmp_op (i_op (n_i n)) = false ->
  match r with
  | FNext s' => isa_run w prog (length c) pos s = INext (pos + Z.of_nat (length (flat_map halves c))) s'
  | FRet v s' => isa_run w prog (length c) pos s = IExit v s'
  | FJmp _ _ => False
  end.
Proof.
  intros w bi n s c r prog pos T R Tr O X P Cd J1 J2.
  rewrite halves_encs in *. rewrite encs_length.
  exact (translate_one_runs w bi n s c r prog pos T R Tr O X (conj P Cd) J1 J2).
Qed.
Print Assumptions C33_translate_partial.

Example C33_demo : forall bi,
  tr_ok bi (alu ARSH A_32 (rg 3) (vr 3) (k32 4)) /\ resolved_insn bi (alu ARSH A_32 (rg 3) (vr 3) (k32 4)) /\
  exists c, translate_one (alu ARSH A_32 (rg 3) (vr 3) (k32 4)) = Ok [c] /\ halves c = [mkBpf 196 3 0 0 4].
Proof.
  intros bi. split; [|split].
  - split; [|split; [|exact I]].
    { constructor; [cbn; unfold s16_range; lia|]. constructor; [cbn; unfold s32_range; lia|constructor]. }
    intros _ v Hv _. injection Hv as <-. reflexivity.
  - constructor; [exact I|]. constructor; [intros Q; destruct (Q eq_refl)|constructor].
  - eexists. split; [vm_compute; reflexivity|reflexivity].
Qed.

(** ** C34: jump offsets *)
Theorem C34_jumps_land_partial : forall fuel p code,
  NoDup (map nb_id p) -> cg_norm fuel p = Ok code -> Z.of_nat (length code) <= 2 ^ 15 ->
  exists p1 p2 t, normalize p = Ok p1 /\ replace_builtin fuel p1 = Ok p2 /\ translate p2 = Ok t /\
  forall tpre id l1 n c l2 tpost, t = tpre ++ (id, l1 ++ (n, c) :: l2) :: tpost -> is_jump n = true ->
  exists i, fetch code (sizes tpre + size l1) = Some i /\
  exists upre ul upost, t = upre ++ (target n, ul) :: upost /\
    sizes tpre + size l1 + 1 + b_off i = sizes upre.
Proof. exact jumps_land. Qed.
Print Assumptions C34_jumps_land_partial.

(** The generator accepts programs of more than 32768 slots, whose offsets wrap. *)
Definition big : nprog :=
  [mkNB 0 false [] [ja 2]; mkNB 1 false [] (repeat (asg A_64 (rg 1) (vr 2)) (Z.to_nat 40000)); mkNB 2 false [0%nat; 1%nat] [ret]].
Definition big1 := get_ok [] (normalize big).
Definition big2 := get_ok [] (replace_builtin 10 big1).
Definition big3 := get_ok [] (translate big2).
Definition big4 := get_ok [] (relocate big3).
Theorem C34_offset_wrap_refuted : exists p code i,
  NoDup (map nb_id p) /\ (exists b0 post, p = b0 :: post /\ nb_insns b0 = [ja 2]) /\ cg_norm 10 p = Ok code /\
  fetch code 0 = Some i /\ b_code i = 5 /\ 0 + 1 + b_off i < 0.
Proof.
  exists big, (flat_map halves big4), (mkBpf 5 0 0 (-25536) 0).
  split; [vm_compute; repeat (constructor; [cbn; intuition discriminate|]); constructor|].
  split; [eexists _, _; split; reflexivity|].
  split.
  - apply (cg_norm_ok 10 big big1 big2 big3 big4); try (apply get_ok_spec); vm_compute; reflexivity.
  - split; [vm_compute; reflexivity|]. split; [reflexivity|]. cbn. lia.
Qed.
Print Assumptions C34_offset_wrap_refuted.

(** ** C35: the output array *)
Theorem C35_output_exact : forall fuel p code, cg_norm fuel p = Ok code ->
  exists p1 p2 t, normalize p = Ok p1 /\ replace_builtin fuel p1 = Ok p2 /\ translate p2 = Ok t /\
    Z.of_nat (length code) = total_slots t /\
    Forall2 but_off code (flat_map (fun b => flat_map (fun i => flat_map halves (snd i)) (snd b)) t).
Proof. exact output_exact. Qed.
Print Assumptions C35_output_exact.

(** ** C36: simulation *)
Theorem C36_simulation_partial : forall w bi succ fuel p p1 code,
  layout_ok succ p -> normalize p = Ok p1 -> counts p1 bi ->
  (forall b, In b p -> Forall (norm_ok (bi (nb_id b))) (nb_insns b)) ->
  cg_norm fuel p = Ok code -> Z.of_nat (length code) <= 2 ^ 15 ->
  exists at_ : nat -> Z, at_ (entry p) = 0 /\
  forall k id s r, In id (map nb_id p) -> st_ok s -> prun w bi succ p k id s = Some r ->
  match r with
  | PGo u s' => exists n, isa_run w code n (at_ id) s = INext (at_ u) s'
  | PRet v s' => exists n, isa_run w code n (at_ id) s = IExit v s'
  end.
Proof. exact cg_norm_sim. Qed.
Print Assumptions C36_simulation_partial.

Theorem C36_returns_partial : forall w bi succ fuel p p1 code s r s',
  layout_ok succ p -> normalize p = Ok p1 -> counts p1 bi ->
  (forall b, In b p -> Forall (norm_ok (bi (nb_id b))) (nb_insns b)) ->
  cg_norm fuel p = Ok code -> Z.of_nat (length code) <= 2 ^ 15 -> st_ok s ->
  ir_returns w bi succ p s r s' -> code_returns w code s r s'.
Proof. exact cg_norm_returns. Qed.
Print Assumptions C36_returns_partial.

(** The hypotheses of C34 to C36 hold of a program with a loop, a conditional jump, spilled values and helper calls. *)
Definition callh (id : Z) : ninsn := mkN (mkInsn CALL [] VR_64 (addr_val val_undef 0) A_64 0 0 [] id 0 0 0 []) (rg 0).
Definition bcount : value := mkVal (VConst 0) A_32 B_INSN_COUNT.
Definition loop : nprog :=
  [mkNB 0 false [] [asg A_64 (sk (-8)) (k32 10); alu ADD A_64 (rg 6) (k32 1) (vr 1)];
   mkNB 1 false [0%nat; 3%nat] [callh 7; alu SUB A_64 (rg 1) (vr 6) (vr 0); asg A_64 (sk (-16)) (vr 1); jc JSLT A_64 (k32 3) (vr 1) 2 4];
   mkNB 2 false [1%nat] [alu MUL A_64 (rg 6) (vr 6) bcount];
   mkNB 3 false [2%nat] [ja 1];
   mkNB 4 false [1%nat] [asg A_64 (rg 0) (vs (-16)); ret]].
Definition loop_next (b : nat) : option nat := match b with O => Some 1%nat | 2%nat => Some 3%nat | _ => None end.
Definition loop1 := get_ok [] (normalize loop).
Definition loop_bi (b : nat) (k : bconst) : Z :=
  match k, b with
  | B_INSN_COUNT, O => 3 | B_INSN_COUNT, 1%nat => 5 | B_INSN_COUNT, 2%nat => 1 | B_INSN_COUNT, 3%nat => 1 | B_INSN_COUNT, 4%nat => 2
  | B_CRITICAL_INSN_COUNT, O => 3 | B_CRITICAL_INSN_COUNT, 1%nat => 5 | B_CRITICAL_INSN_COUNT, 2%nat => 6
  | B_CRITICAL_INSN_COUNT, 3%nat => 7 | B_CRITICAL_INSN_COUNT, 4%nat => 7 | _, _ => 0
  end.
Example C36_demo :
  layout_ok loop_next loop /\ normalize loop = Ok loop1 /\ counts loop1 loop_bi /\
  (forall b, In b loop -> Forall (norm_ok (loop_bi (nb_id b))) (nb_insns b)) /\
  is_ok (cg_norm 10 loop) = true /\ length (get_ok [] (cg_norm 10 loop)) = 12%nat.
Proof.
  split; [apply layoutb_ok; reflexivity|].
  split; [unfold loop1; apply get_ok_spec; vm_compute; reflexivity|].
  split; [apply (countsb_ok 10); vm_compute; reflexivity|].
  split.
  - intros b Hb.
    repeat (destruct Hb as [<-|Hb]; [cbn [nb_insns nb_id];
      repeat (apply Forall_cons; [split; [cbn; repeat (apply Forall_cons || apply Forall_nil); cbn; unfold s16_range, s32_range; try lia|split; [cbn; unfold s16_range; lia|]]|]);
      try apply Forall_nil|]); [..|destruct Hb].
    all: cbn; unfold assign_ok, narrow_const, nonzero_const; cbn.
    all: try exact I.
    all: intuition (try discriminate; try congruence).
  - split; vm_compute; reflexivity.
Qed.
(** and that program does run: with a helper that returns 2 and then 0 it returns after one round trip of the loop *)
Definition w_demo : world := mkWorld (fun k _ _ m => ([Z.of_nat (2 - 2 * k); 0; 0; 0; 0; 0], m)) (fun _ x => x).
Example C36_demo_runs : exists s', ir_returns w_demo loop_bi loop_next loop (st0 0 4) 5 s'.
Proof. eexists. exists 8%nat. vm_compute. reflexivity. Qed.
