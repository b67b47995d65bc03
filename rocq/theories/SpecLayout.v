(** What a block layout should be. *)
From Verif Require Import M_Base M_Ir SpecIr.
From Coq Require Export Permutation.
Open Scope nat_scope.

(** The last instruction of a block. *)
Definition terminator (f : func) (b : nat) (y : insn) : Prop :=
  exists l i, insns_of f b = l ++ [i] /\ f_insn f i = Some y.
(** Control reaches the end of [b] and continues in [s] without a jump: a conditional jump falls
    through to its first target; a block without jump or return goes on to its only successor. *)
Inductive falls (f : func) (b s : nat) : Prop :=
| falls_cond y : terminator f b y -> is_cond_jmp_op (i_op y) = true -> i_bb1 y = s -> falls f b s
| falls_plain y : terminator f b y -> is_jmp_op (i_op y) = false -> succs_of f b = [s] -> falls f b s
| falls_empty : insns_of f b = [] -> succs_of f b = [s] -> falls f b s.
Inductive reach (f : func) : nat -> nat -> Prop :=
| reach_refl a : reach f a a
| reach_step a b c : reach f a b -> In c (succs_of f b) -> reach f a c.

(** Successor lists agree with the terminators, up to order. *)
Definition terms_ok (f : func) : Prop :=
  (forall b y, terminator f b y ->
    (is_cond_jmp_op (i_op y) = true -> Permutation (succs_of f b) [i_bb1 y; i_bb2 y]) /\
    (i_op y = JA -> succs_of f b = [i_bb1 y]) /\
    (i_op y = RET \/ i_op y = THROW -> succs_of f b = []) /\
    (is_jmp_op (i_op y) = false -> length (succs_of f b) <= 1)) /\
  (forall b, insns_of f b = [] -> length (succs_of f b) <= 1).
(** Every listed instruction is alive; all_bbs lists the existing blocks, once each, and the entry. *)
Definition blocks_ok (f : func) : Prop :=
  (forall b i, In i (insns_of f b) -> exists y, f_insn f i = Some y) /\
  NoDup (f_all f) /\ (forall b, In b (f_all f) <-> exists x, f_block f b = Some x) /\
  In (f_entry f) (f_all f) /\ (forall b s, In s (succs_of f b) -> In s (f_all f)).

(** A layout: the reachable blocks, once each, from the entry on, each followed by the block it
    falls through to. *)
Definition valid_layout (f : func) (L : list nat) : Prop :=
  NoDup L /\ (exists r, L = f_entry f :: r) /\ (forall b, In b L <-> reach f (f_entry f) b) /\
  (forall b s, In b L -> falls f b s -> exists a c, L = a ++ b :: s :: c).
(** No unreachable block falls through into a reachable one. *)
Definition no_dead_fall (f : func) : Prop :=
  forall b s, falls f b s -> reach f (f_entry f) s -> reach f (f_entry f) b.
(** Two functions with the same instructions and the same control flow, up to the order of the
    successor lists. *)
Definition same_flow (f g : func) : Prop :=
  f_insn g = f_insn f /\ f_entry g = f_entry f /\ f_all g = f_all f /\
  (forall b, insns_of g b = insns_of f b /\ preds_of g b = preds_of f b /\ Permutation (succs_of g b) (succs_of f b)).
