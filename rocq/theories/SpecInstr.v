(** Instrumentation passes: what the checks they add must guarantee. *)
From Coq Require Import ZArith List Bool Arith.
From Verif Require Import M_Base M_Ir SpecWord SpecFlat SpecSsa SpecIr SpecEdit SpecPass SpecStrict.
Import ListNotations.
Open Scope nat_scope.

(** Functions whose control-flow graph and block contents are consistent: edges are recorded on both
    sides, control only follows edges, an instruction stands once in one block, and an instruction that
    ends a block is the last one in it. *)
Record cfg_ok (f : func) : Prop := {
  cf_mirror : mirrored f;
  cf_fresh : fresh_ok f;
  cf_linked : linked_ok f;
  cf_once : forall b, NoDup (insns_of f b);
  cf_goes : forall b c, goes f b c -> In c (succs_of f b);
  cf_ends : forall b l1 i l2, insns_of f b = l1 ++ i :: l2 -> is_terminator f i -> l2 = [];
  cf_entry : f_block f (f_entry f) <> None }.
(** phis stand at the head of their blocks *)
Definition phis_first (f : func) : Prop :=
  forall b l1 i l2, insns_of f b = l1 ++ i :: l2 -> is_phi f i -> forall k, In k l1 -> is_phi f k.

(** Execution from the entry in state [s0] gets to instruction [i] (not a phi), about to execute it in
    state [s]. *)
Definition reaches (w : world) (bi : bconst -> Z) (g : func) (s0 : sst) (i : nat) (s : sst) : Prop :=
  exists n prev b s1 l1 l2 rest s2,
    srun w bi g n 0 (f_entry g) s0 = Some (OAt prev b s1) /\
    insns_of g b = l1 ++ i :: l2 /\
    sphis bi g prev s1 s1 l1 = Some (rest, s2) /\
    sbody w bi g s2 rest = Some (SNext s).

(** [i] is a division by the result of an instruction, and not the first instruction of its block. *)
Record division (f : func) (i : nat) (x : insn) (d : value) : Prop := {
  dv_insn : f_insn f i = Some x;
  dv_op : i_op x = DIV;
  dv_by : exists a r, i_vals x = a :: d :: r;
  dv_val : exists k, v_data d = VInsn k;
  dv_not_first : exists l1 p l2, insns_of f (i_parent x) = l1 ++ p :: i :: l2 }.

(** A value names only instructions that exist. *)
Definition operands_live (f : func) : Prop :=
  forall i x v d, f_insn f i = Some x -> In v (operand_values x) -> v_data v = VInsn d -> f_insn f d <> None.
(** The entry block is not the target of any edge. *)
Definition entry_apart (f : func) : Prop := preds_of f (f_entry f) = [].
(** Every execution ends within [N] blocks, by a return, by a throw, or because it is stuck. *)
Definition ends_within (bi : bconst -> Z) (g : func) (N : nat) : Prop :=
  forall w s0 n prev b s, srun w bi g n 0 (f_entry g) s0 = Some (OAt prev b s) -> n <= N.
(** Four instructions that advance the counter in variable [cell] by the first component of [rule]
    and leave for block [eb], which throws, when it exceeds the second. *)
Record check (g : func) (cell : nat) (rule : value * Z) (ld ad st j eb : nat) : Prop := {
  ck_ld : exists x, f_insn g ld = Some x /\ i_op x = LOAD /\ i_vals x = [val_insn cell];
  ck_ad : exists x, f_insn g ad = Some x /\ i_op x = ADD /\ i_vals x = [val_insn ld; fst rule] /\ i_alu x = A_64;
  ck_st : exists x, f_insn g st = Some x /\ i_op x = STORE /\ i_vals x = [val_insn cell; val_insn ad];
  ck_j : exists x, f_insn g j = Some x /\ i_op x = JGT /\ i_vals x = [val_insn ad; val_const32 (snd rule)] /\ i_alu x = A_64 /\ i_bb2 x = eb;
  ck_eb : exists t x, insns_of g eb = [t] /\ f_insn g t = Some x /\ i_op x = THROW /\ i_vals x = [] }.
(** The rule of the instruction counter: add the instruction count of the block, at most [limit]. *)
Definition by_size (limit : Z) : value * Z := (mkVal (VConst (-1)) A_32 B_INSN_COUNT, limit).
(** The rule of the jump counter: add one, at most [limit]. *)
Definition by_one (limit : Z) : value * Z := (mkVal (VConst 1) A_32 B_NONE, limit).
(** Block [b] ends with such a check. *)
Definition has_check (g : func) (cell : nat) (rule : value * Z) (b : nat) : Prop :=
  exists body ld ad st j eb, insns_of g b = body ++ [ld; ad; st; j] /\ check g cell rule ld ad st j eb.
(** [reach] lists the blocks that can be reached from the entry, each once. *)
Record explored (f : func) (reach : list nat) : Prop := {
  ex_once : NoDup reach;
  ex_block : forall b, In b reach -> f_block f b <> None;
  ex_entry : In (f_entry f) reach;
  ex_next : forall b c, In b reach -> In c (succs_of f b) -> In c reach }.
(** No block carries the mark of the counter pass (bit 0 of the flags) yet. *)
Definition unmarked (f : func) : Prop := forall b k, f_block f b = Some k -> Z.testbit (b_flag k) 0 = false.
(** The instructions of [f] are still there, except for their place and the record of their users. *)
Definition kept (f g : func) : Prop :=
  forall i x, f_insn f i = Some x -> exists u q, f_insn g i = Some (set_users u (set_parent q x)).
(** Some execution gets to [i], an operation [o] of width [wd], with a second operand that is zero at
    this width. *)
Definition by_zero (o : iop) (wd : bool) (bi : bconst -> Z) (g : func) (i : nat) : Prop :=
  exists w s0 s x a d r z, f_insn g i = Some x /\ i_op x = o /\ i_vals x = a :: d :: r /\ width_of (i_alu x) = Some wd /\
    reaches w bi g s0 i s /\ seval bi (s_env s) d = Some z /\ trunc wd z = 0%Z.
(** Some execution goes on for ever. *)
Definition runs_on (bi : bconst -> Z) (g : func) : Prop :=
  exists w s0, forall n, exists prev b s, srun w bi g n 0 (f_entry g) s0 = Some (OAt prev b s).
