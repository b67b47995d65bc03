(** Control flow of an eBPF program, read off the instruction set.  The predicates on programs are
    independent of the lifter; the last section relates them to the lifter's block list. *)
From Coq Require Import ZArith List Bool Arith.
From Verif Require Import SpecWord SpecIsa M_GenBB.
Import ListNotations.
Open Scope Z_scope.

(** the two-way jumps of the instruction set, in both jump classes *)
Definition two_way (c : Z) : bool :=
  ((c mod 8 =? 5) || (c mod 8 =? 6)) &&
  (let n := c / 16 in (1 <=? n) && (n <=? 7) || (10 <=? n) && (n <=? 13)).

(** where control can go after instruction [i] at [pc] *)
Definition next_pcs (i : bpf_insn) (pc : Z) : list Z :=
  let c := b_code i in
  if c =? 5 then [pc + 1 + b_off i]
  else if two_way c then [pc + 1 + b_off i; pc + 1]
  else if c =? 0x95 then []
  else if c =? 24 then [pc + 2]
  else [pc + 1].

Definition at_pos (p : list bpf_insn) (j : nat) (i : bpf_insn) : Prop := nth_error p j = Some i.

(** [t] is the target of a jump of the program *)
Definition jump_target (p : list bpf_insn) (t : Z) : Prop :=
  exists j i, at_pos p j i /\ (b_code i = 5 \/ two_way (b_code i) = true) /\ t = Z.of_nat j + 1 + b_off i.

(** A well-formed program: jump opcodes are the defined ones, wide loads have their second slot and
    nothing else has code 0, control stays inside the program and never enters a second slot. *)
Record wf_prog (p : list bpf_insn) : Prop := {
  wf_ne : p <> [];
  wf_jmp : forall j i, at_pos p j i -> b_code i mod 8 = 5 \/ b_code i mod 8 = 6 ->
    b_code i = 5 \/ b_code i = 0x85 \/ b_code i = 0x95 \/ two_way (b_code i) = true;
  wf_wide : forall j i, at_pos p j i -> b_code i = 24 -> exists i2, at_pos p (S j) i2 /\ b_code i2 = 0;
  wf_slot : forall j i, at_pos p j i -> b_code i = 0 ->
    exists j' i', j = S j' /\ at_pos p j' i' /\ b_code i' = 24;
  wf_next : forall j i t, at_pos p j i -> b_code i <> 0 -> In t (next_pcs i (Z.of_nat j)) ->
    exists k i', t = Z.of_nat k /\ at_pos p k i' /\ b_code i' <> 0
}.

(** the positions where a block has to start *)
Definition boundary (p : list bpf_insn) (k : nat) : Prop :=
  k = 0%nat \/ jump_target p (Z.of_nat k) \/
  exists j i, at_pos p j i /\ (two_way (b_code i) = true \/ b_code i = 0x95) /\ k = S j /\ (k < length p)%nat.

(** ** The lifter's blocks *)

(** A conditional jump to the next instruction may be replaced by an unconditional one. *)
Definition same_insn (i i' : bpf_insn) : Prop :=
  i' = i \/ (two_way (b_code i) = true /\ b_off i = 0 /\ i' = mkBpf 5 0 0 0 0).

(** the instructions of a block are those of the program from [s] to [e], in order *)
Inductive code_of (p : list bpf_insn) : nat -> nat -> list pre_insn -> Prop :=
| co_nil s : code_of p s s []
| co_one s e i i' l : at_pos p s i -> same_insn i i' -> b_code i <> 24 -> b_code i <> 0 ->
    code_of p (S s) e l ->
    code_of p s e (mkPre (b_code i') (b_dst i') (b_src i') (b_off i') false (b_imm i') (u32 (b_imm i')) s :: l)
| co_wide s e i j l : at_pos p s i -> b_code i = 24 -> at_pos p (S s) j -> b_code j = 0 ->
    code_of p (S (S s)) e l ->
    code_of p s e (mkPre 24 (b_dst i) (b_src i) (b_off i) true (b_imm i)
                         (s64 (u32 (b_imm i) + 2 ^ 32 * b_imm j)) s :: l).

Definition last_pos (b : pblock) (q : nat) : Prop :=
  exists l x, pb_insns b = l ++ [x] /\ pi_pos x = q.

(** C10 *)
Record blocks_of (p : list bpf_insn) (bs : list pblock) : Prop := {
  bo_start : forall k, In k (map pb_start bs) <-> boundary p k;
  bo_once : NoDup (map pb_start bs);
  bo_entry : exists b, nth_error bs 0 = Some b /\ pb_start b = 0%nat;
  bo_code : forall b, In b bs -> code_of p (pb_start b) (pb_end b) (pb_insns b) /\ pb_insns b <> [];
  (* jumps and exits only at the end, boundaries only at the start *)
  bo_last : forall b j i, In b bs -> at_pos p j i -> (pb_start b <= j < pb_end b)%nat ->
    b_code i = 5 \/ b_code i = 0x95 \/ two_way (b_code i) = true -> S j = pb_end b;
  bo_inner : forall b k, In b bs -> boundary p k -> (pb_start b < k)%nat -> (pb_end b <= k)%nat;
  (* in the order of the program; no conditional jump to the next instruction is left *)
  bo_sorted : forall a b A B, nth_error bs a = Some A -> nth_error bs b = Some B -> (a < b)%nat -> (pb_start A < pb_start B)%nat;
  bo_off : forall b x, In b bs -> In x (pb_insns b) -> two_way (pi_code x) = true -> pi_off x <> 0
}.

(** C11 *)
Record edges_of (p : list bpf_insn) (bs : list pblock) : Prop := {
  eo_succ : forall a b A B q i, nth_error bs a = Some A -> nth_error bs b = Some B ->
    last_pos A q -> at_pos p q i ->
    (In b (pb_succs A) <-> In (Z.of_nat (pb_start B)) (next_pcs i (Z.of_nat q)));
  eo_pred : forall a b A B, nth_error bs a = Some A -> nth_error bs b = Some B ->
    (In a (pb_preds B) <-> In b (pb_succs A));
  eo_nodup : forall A, In A bs -> NoDup (pb_succs A) /\ NoDup (pb_preds A);
  eo_range : forall A c, In A bs -> In c (pb_succs A) \/ In c (pb_preds A) -> (c < length bs)%nat;
  (* no control flow is lost: every place control can go to is the start of a block *)
  eo_total : forall A q i t, In A bs -> last_pos A q -> at_pos p q i ->
    In t (next_pcs i (Z.of_nat q)) -> exists B, In B bs /\ t = Z.of_nat (pb_start B)
}.
