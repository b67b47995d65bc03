(** Functions with checks. *)
From Coq Require Import ZArith List.
From Verif Require Import M_Base M_Ir M_Edit SpecIr SpecEdit SpecPass SpecInstr SpecWeave M_Pass.
Open Scope nat_scope.

(** [g] is [f] with the checks of one of the passes, which inserts no block before a phi. *)
Inductive checked (f g : func) : Prop :=
| ck_fast limit reach : explored f reach -> apart_after f (meets f) -> counter_fast limit reach f = Ok g -> checked f g
| ck_accurate limit reach : apart_after f (fun b => exists m, In m (succs_of f b) /\ (meets f m \/ m = f_entry f)) -> counter_accurate limit reach f = Ok g -> checked f g
| ck_div reach : divisions_apart f -> div_by_zero reach f = Ok g -> checked f g.
