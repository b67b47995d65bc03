(** Code that prints a message. *)
From Coq Require Import ZArith List Bool Arith.
From Verif Require Import M_Base M_Ir M_Edit SpecIr SpecEdit SpecRelease.
Import ListNotations.
Open Scope nat_scope.

(** [g] is [f] with the new instructions [ms] in block [b], between [l] and [r]; nothing else is different. *)
Record spliced (f g : func) (b : nat) (l ms r : list nat) : Prop := {
  sl_here : insns_of f b = l ++ r /\ insns_of g b = l ++ ms ++ r;
  sl_new : forall d, In d ms -> f_insn f d = None;
  sl_else : forall c, c <> b -> insns_of g c = insns_of f c;
  sl_old : forall j, f_insn f j <> None -> unchanged f g j;
  sl_succs : forall c, succs_of g c = succs_of f c;
  sl_preds : forall c, preds_of g c = preds_of f c;
  sl_blocks : forall c, f_block g c = None <-> f_block f c = None;
  sl_entry : f_entry g = f_entry f }.
(** Where code asked for before or behind instruction [i] goes: there, or behind the phis of the block if
    [i] is one of them. *)
Inductive place (f : func) (b i : nat) : ipos -> list nat -> list nat -> Prop :=
| pl_before l r : ~ is_phi f i -> insns_of f b = l ++ i :: r -> place f b i P_FRONT l (i :: r)
| pl_behind l r : ~ is_phi f i -> insns_of f b = l ++ i :: r -> place f b i P_BACK (l ++ [i]) r
| pl_phi p l r : is_phi f i -> insns_of f b = l ++ r -> (forall j, In j l -> is_phi f j) -> (forall z t, r = z :: t -> ~ is_phi f z) -> place f b i p l r.
