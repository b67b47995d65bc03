(** Reading functions and well-formedness predicates for IR functions, used to state the
    properties of the editing API.  Nothing here refers to the editing operations. *)
From Verif Require Import M_Base M_Ir.
Open Scope nat_scope.

(** Successors, predecessors and instructions of a block (empty for a block that does not exist). *)
Definition succs_of (f : func) (b : nat) : list nat :=
  match f_block f b with Some x => b_succs x | None => [] end.
Definition preds_of (f : func) (b : nat) : list nat :=
  match f_block f b with Some x => b_preds x | None => [] end.
Definition insns_of (f : func) (b : nat) : list nat :=
  match f_block f b with Some x => b_insns x | None => [] end.

(** A lists B as a successor exactly when B lists A as a predecessor; no duplicates. *)
Definition mirrored (f : func) : Prop :=
  (forall a b, In b (succs_of f a) <-> In a (preds_of f b)) /\
  (forall a, NoDup (succs_of f a)) /\ (forall a, NoDup (preds_of f a)).

(** Identifiers at or above the counters are not allocated. *)
Definition fresh_ok (f : func) : Prop :=
  (forall i, f_ni f <= i -> f_insn f i = None) /\ (forall b, f_nb f <= b -> f_block f b = None).

(** All operand values of an instruction: its values, the incoming values of a phi, the address
    of a raw memory access. *)
Definition operand_values (x : insn) : list value :=
  i_vals x ++
  match i_op x with
  | PHI => map fst (i_phi x)
  | LOADRAW | STORERAW => [a_val (i_addr x)]
  | _ => []
  end.

(** How many operands of instruction [u] are the result of instruction [d]. *)
Definition is_use_of (d : nat) (v : value) : bool :=
  match v_data v with VInsn t => t =? d | _ => false end.
Definition uses (f : func) (u d : nat) : nat :=
  match f_insn f u with
  | Some x => length (filter (is_use_of d) (operand_values x))
  | None => 0
  end.
Definition users_of (f : func) (d : nat) : list nat :=
  match f_insn f d with Some x => i_users x | None => [] end.

(** Every users list contains each instruction exactly as often as it uses the value. *)
Definition uses_exact (f : func) : Prop :=
  forall d u, count_occ Nat.eq_dec (users_of f d) u = uses f u d.

(** Every instruction linked in a block is live and names that block as its parent. *)
Definition linked_ok (f : func) : Prop :=
  forall b i, In i (insns_of f b) -> exists x, f_insn f i = Some x /\ i_parent x = b.
