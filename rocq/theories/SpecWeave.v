(** Instrumentation that leaves executions alone. *)
From Coq Require Import ZArith List Bool Arith.
From Verif Require Import M_Base M_Ir SpecWord SpecFlat SpecSsa SpecIr SpecEdit SpecPass SpecStrict SpecInstr.
Import ListNotations.
Open Scope nat_scope.

(** Execution from the entry in state [s0] returns [r], leaves memory [m], and has called [k] helpers
    (within [n] blocks). *)
Definition returns_in (w : world) (bi : bconst -> Z) (f : func) (n : nat) (s0 : sst) (r : Z) (m : memory) (k : nat) : Prop :=
  exists t, srun w bi f n 0 (f_entry f) s0 = Some (ORet r t) /\ s_mem t = m /\ s_nc t = k.
Definition returns (w : world) (bi : bconst -> Z) (f : func) (s0 : sst) (r : Z) (m : memory) (k : nat) : Prop :=
  exists n, returns_in w bi f n s0 r m k.
(** Execution ends in a throw. *)
Definition throws (w : world) (bi : bconst -> Z) (f : func) (s0 : sst) : Prop :=
  exists n t, srun w bi f n 0 (f_entry f) s0 = Some (OThrow t).
(** [g] does what [f] does, or throws. *)
Record transparent (bi : bconst -> Z) (f g : func) : Prop := {
  tp_only : forall w s0 r m k, returns w bi g s0 r m k -> returns w bi f s0 r m k;
  tp_all : forall w s0 r m k, returns w bi f s0 r m k -> returns w bi g s0 r m k \/ throws w bi g s0;
  tp_throw : forall w s0, throws w bi f s0 -> throws w bi g s0 }.
(** The block has no phis. *)
Definition phi_free (f : func) (b : nat) : Prop := forall i, In i (insns_of f b) -> ~ is_phi f i.
(** No phis behind a block that contains a division by the result of an instruction. *)
Definition divisions_apart (f : func) : Prop :=
  forall b i x a d r k c, In i (insns_of f b) -> f_insn f i = Some x -> i_op x = DIV -> i_vals x = a :: d :: r -> v_data d = VInsn k ->
    In c (succs_of f b) -> phi_free f c.
(** No phis behind the blocks of [P] that end in a jump. *)
Definition apart_after (f : func) (P : nat -> Prop) : Prop :=
  forall b i c, P b -> In i (insns_of f b) -> is_terminator f i -> In c (succs_of f b) -> phi_free f c.
(** Two edges or more lead to [b]. *)
Definition meets (f : func) (b : nat) : Prop := 1 < length (preds_of f b).
(** Execution gets to a division by the result of an instruction when that result is 0. *)
Definition divides_by_zero (w : world) (bi : bconst -> Z) (f : func) (s0 : sst) : Prop :=
  exists i s x a d r k z, reaches w bi f s0 i s /\ f_insn f i = Some x /\ i_op x = DIV /\ i_vals x = a :: d :: r /\ v_data d = VInsn k /\
    seval bi (s_env s) d = Some z /\ trunc true z = 0%Z.
