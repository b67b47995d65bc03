(** Properties C10, C11, C12, C13: from bytecode to basic blocks. *)
From Coq Require Import ZArith List Bool Arith Lia.
From Verif Require Import M_Base SpecWord SpecIsa M_Ir M_Norm M_GenBB SpecCfg L_GenBB L_GenBBEx L_Wide.
Import ListNotations.
Open Scope nat_scope.

(** A program with a two-way jump, a loop, a wide load, a jump to the next instruction, dead code
    after a jump and two exits. *)
Definition ex_ok : list bpf_insn :=
  [ mkBpf 0xb7 0 0 0 1;        (* 0: r0 = 1 *)
    mkBpf 0x18 1 0 0 (-1);     (* 1: r1 = wide *)
    mkBpf 0 0 0 0 7;
    mkBpf 0x15 1 0 4 0;        (* 3: if r1 == 0 goto 8 *)
    mkBpf 0x15 0 0 0 3;        (* 4: if r0 == 3 goto 5 *)
    mkBpf 0x07 0 0 0 1;        (* 5: r0 += 1 *)
    mkBpf 0x05 0 0 (-4) 0;     (* 6: goto 3 *)
    mkBpf 0x05 0 0 0 0;        (* 7: dead, goto 8 *)
    mkBpf 0x95 0 0 0 0 ].      (* 8: exit *)
Example ex_applies : wf_prog ex_ok /\ (Z.of_nat (length ex_ok) <= 32768)%Z /\ ~ jump_target ex_ok 0.
Proof.
  split; [apply wf_chk_ok; vm_compute; reflexivity|]. split; [simpl; lia|].
  apply jt_chk_ok. vm_compute. reflexivity.
Qed.
Example ex_runs : match gen_bb ex_ok with
  | Ok bs => map (fun b => (pb_start b, pb_end b, pb_preds b, pb_succs b)) bs =
      [(0, 3, [], [1]); (3, 4, [0; 3], [2; 4]); (4, 5, [1], [3]); (5, 7, [2], [1]); (8, 9, [1], [])]
  | _ => False end.
Proof. vm_compute. reflexivity. Qed.

(** ** C10 *)
Theorem C10_blocks_partial : forall p, wf_prog p -> (Z.of_nat (length p) <= 32768)%Z -> ~ jump_target p 0 ->
  exists bs, gen_bb p = Ok bs /\ blocks_of p bs.
Proof. exact gen_bb_blocks. Qed.
Print Assumptions C10_blocks_partial.

(** A jump to instruction 0 gives two blocks there, and the entry is the empty one. *)
Theorem C10_jump_to_entry_refuted : exists p bs A i, wf_prog p /\ (length p <= 10) /\ gen_bb p = Ok bs /\
  nth_error bs 0 = Some A /\ at_pos p 0 i /\ next_pcs i 0 = [1%Z] /\ pb_insns A = [] /\ pb_succs A = [] /\ pb_end A = 0.
Proof. exact loop0_witness. Qed.
Print Assumptions C10_jump_to_entry_refuted.

(** ** C11 *)
Theorem C11_edges_partial : forall p, wf_prog p -> (Z.of_nat (length p) <= 32768)%Z -> ~ jump_target p 0 ->
  exists bs, gen_bb p = Ok bs /\ edges_of p bs.
Proof. exact gen_bb_edges. Qed.
Print Assumptions C11_edges_partial.

(** [next_pcs] is the control flow of the instruction set. *)
Theorem C11_isa_flow : forall w p pc s pc' s' i, fetch p pc = Some i -> isa_step w p pc s = INext pc' s' ->
  (0 <= b_code i < 256)%Z -> In pc' (next_pcs i pc).
Proof. exact next_pcs_sound. Qed.
Print Assumptions C11_isa_flow.

(** ** C12 *)
Theorem C12_targets_partial : forall p, wf_prog p -> (Z.of_nat (length p) <= 32768)%Z -> ~ jump_target p 0 ->
  exists bs, gen_bb p = Ok bs /\ forall A j i a,
    nth_error bs a = Some A -> (pb_start A <= j < pb_end A) -> at_pos p j i ->
    b_code i = 5%Z \/ two_way (b_code i) = true ->
    exists b B, nth_error bs b = Some B /\ Z.of_nat (pb_start B) = (Z.of_nat j + 1 + b_off i)%Z /\ In b (pb_succs A).
Proof. exact gen_bb_targets. Qed.
Print Assumptions C12_targets_partial.

(** Beyond position 32767 the target is computed from the position cut to 16 bits: out of bounds ... *)
Theorem C12_far_jump_refuted : exists p, wf_prog p /\ ~ jump_target p 0 /\ gen_bb p = UB.
Proof. exact far_ub_witness. Qed.
Print Assumptions C12_far_jump_refuted.
(** ... or silently wrong: the target of a jump does not start a block. *)
Theorem C12_wrong_target_refuted : exists p bs k, wf_prog p /\ ~ jump_target p 0 /\ gen_bb p = Ok bs /\
  boundary p k /\ ~ In k (map pb_start bs).
Proof. exact far_witness. Qed.
Print Assumptions C12_wrong_target_refuted.

(** ** C13: decode two slots, load the decoded immediate into any register [d], encode again. *)
Theorem C13_round_trip : forall i j d,
  b_code i = 24%Z -> b_code j = 0%Z -> (0 <= b_src i <= 6)%Z -> (0 <= d < 11)%Z ->
  (- 2 ^ 31 <= b_imm i < 2 ^ 31)%Z -> (- 2 ^ 31 <= b_imm j < 2 ^ 31)%Z ->
  exists x t, decode [i; j] 2 0 2 = Ok [x] /\
    (u64 (pi_imm64 x) = u32 (b_imm i) + 2 ^ 32 * u32 (b_imm j))%Z /\
    tr_loadimm (mk_loadimm (reg_pos d) (pi_src x) (pi_imm64 x)) = Ok [t] /\
    synthesize 2 [t] = Ok [mkBpf 24 d (b_src i) 0 (b_imm i); mkBpf 0 0 0 0 (b_imm j)].
Proof. exact wide_round_trip. Qed.
Print Assumptions C13_round_trip.
Example C13_applies : exists x t, decode [mkBpf 24 3 1 0 (-5); mkBpf 0 0 0 0 (-2147483648)] 2 0 2 = Ok [x] /\
  (pi_imm64 x = - 2 ^ 63 + 2 ^ 32 - 5)%Z /\ synthesize 2 [t] = Ok [mkBpf 24 3 1 0 (-5); mkBpf 0 0 0 0 (-2147483648)].
Proof. eexists _, (M_Norm.mkPre 24 3 1 0 true 0 (- 2 ^ 63 + 2 ^ 32 - 5)). vm_compute. repeat split. Qed.
