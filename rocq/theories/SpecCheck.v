(** What the program checker is meant to establish. *)
From Coq Require Import ZArith List Bool Arith.
From Verif Require Import M_Base M_Ir SpecWord SpecFlat SpecSsa SpecIr SpecEdit.
Import ListNotations.
Open Scope nat_scope.

(** Number of operands of each operation; [None] when it may vary or is not checked. *)
Definition arity (o : iop) : option nat :=
  match o with
  | LOADRAW | ALLOC | JA | PHI | ALLOCARRAY | THROW => Some 0
  | STORERAW | LOAD | RET | NEG | HTOBE | HTOLE => Some 1
  | STORE | GETELEMPTR | ADD | SUB | MUL | DIV | OR | AND | LSH | RSH | MOD | XOR | ARSH
  | JEQ | JGT | JGE | JLT | JLE | JNE | JSGE | JSLE | JSGT | JSLT => Some 2
  | _ => None
  end.
(** where a terminator can go *)
Definition targets (x : insn) : list nat :=
  match i_op x with
  | RET | THROW => []
  | JA => [i_bb1 x]
  | _ => [i_bb1 x; i_bb2 x]
  end.

Record block_good (f : func) (b : nat) : Prop := {
  bg_exists : f_block f b <> None;
  (** instructions are live and name the block as their parent *)
  bg_linked : forall i, In i (insns_of f b) -> exists x, f_insn f i = Some x /\ i_parent x = b;
  (** edges are symmetric *)
  bg_preds : forall p, In p (preds_of f b) -> In b (succs_of f p);
  bg_succs : forall c, In c (succs_of f b) -> In b (preds_of f c);
  (** phis come first *)
  bg_phis : exists phs ids, insns_of f b = phs ++ ids /\ (forall i, In i phs -> is_phi f i) /\ (forall i, In i ids -> ~ is_phi f i);
  (** a terminator is the last instruction and goes to the successors *)
  bg_term : forall i x, In i (insns_of f b) -> f_insn f i = Some x -> is_terminator f i ->
    (exists l, insns_of f b = l ++ [i]) /\ succs_of f b = targets x;
  (** without terminator control falls through to the only successor *)
  bg_fall : (forall i, In i (insns_of f b) -> ~ is_terminator f i) -> exists c, succs_of f b = [c];
  (** users and operands agree *)
  bg_users : forall i u, In i (insns_of f b) -> In u (users_of f i) -> 0 < uses f u i;
  bg_operands : forall i d, In i (insns_of f b) -> 0 < uses f i d -> In i (users_of f d);
  (** operand counts *)
  bg_arity : forall i x n, In i (insns_of f b) -> f_insn f i = Some x -> arity (i_op x) = Some n -> length (i_vals x) = n;
  (** variables are what loads and stores refer to *)
  bg_cells : forall i x, In i (insns_of f b) -> f_insn f i = Some x -> i_op x = LOAD \/ i_op x = STORE ->
    exists v r a y, i_vals x = v :: r /\ v_data v = VInsn a /\ f_insn f a = Some y /\ i_op y = ALLOC;
  (** operations and constants have a width *)
  bg_width : forall i x, In i (insns_of f b) -> f_insn f i = Some x ->
    (forall o, alu_op_of (i_op x) = Some o -> width_of (i_alu x) <> None) /\
    (forall c, cmp_op_of (i_op x) = Some c -> width_of (i_alu x) <> None) /\
    (forall v c, In v (operand_values x) -> v_data v = VConst c -> v_ct v <> A_UNKNOWN) }.
