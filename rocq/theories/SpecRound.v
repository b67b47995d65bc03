(** The rounds of register allocation. *)
From Coq Require Import ZArith List.
From Verif Require Import M_Base M_Ir M_Ra.
Import ListNotations.

(** [rounds fuel om os n s z u]: starting from the prepared function [s], with [n] rounds left, the
    allocator spills in some rounds until in the last round, which starts from [z], nothing needs to be
    spilled; [u] is then the function in which every value has its place. *)
Inductive rounds (fuel : nat) (om os : nat -> nat -> list nat -> list nat) : nat -> cgs -> cgs -> cgs -> Prop :=
| rounds_last k s t t1 eps u : analysis fuel s = Ok t -> pre_spill fuel (om k) (os k) t = Ok (t1, ([], eps)) ->
    assign t1 = Ok u -> rounds fuel om os (S k) s s u
| rounds_more k s t t1 ts eps s1 z u : analysis fuel s = Ok t -> pre_spill fuel (om k) (os k) t = Ok (t1, (ts, eps)) ->
    ts <> [] -> spill t1 ts = Ok s1 -> rounds fuel om os k s1 z u -> rounds fuel om os (S k) s z u.

(** The rounds of the code generator on the function [f], after preparation. *)
Definition by_rounds (fuel : nat) (om os : nat -> nat -> list nat -> list nat) (f : func) (reach : list nat) (sp : nat) (args : list nat) (z u : cgs) : Prop :=
  exists s0 s, init_cg f reach sp args = Ok s0 /\ prepare s0 = Ok s /\ rounds fuel om os 6 s z u.
