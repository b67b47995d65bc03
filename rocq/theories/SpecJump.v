(** The jump counter. *)
From Coq Require Import ZArith List Bool Arith.
From Verif Require Import M_Base M_Ir SpecIr SpecEdit SpecPass SpecInstr.
Import ListNotations.
Open Scope nat_scope.

(** Walks in the control-flow graph, last block first. *)
Inductive walk (f : func) : list nat -> Prop :=
| wk_one b : walk f [b]
| wk_step b l c : walk f (b :: l) -> In c (succs_of f b) -> walk f (c :: b :: l).
(** Block [b] ends in a jump, a return or a throw. *)
Definition jumps (f : func) (b : nat) : Prop := exists i, In i (insns_of f b) /\ is_terminator f i.
(** No cycle consists of blocks that fall through. *)
Definition loops_jump (f : func) : Prop := forall x l, walk f (x :: l ++ [x]) -> exists b, In b (x :: l) /\ jumps f b.
