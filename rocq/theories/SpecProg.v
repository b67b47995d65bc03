(** Meaning of whole flattened programs, and when the block order agrees with the control flow. *)
From Verif Require Import M_Base M_Ir M_Norm SpecWord SpecFlat SpecNormCond.
Open Scope Z_scope.

(** The block with a given identity. *)
Fixpoint lookup (p : nprog) (id : nat) : option nblock :=
  match p with
  | [] => None
  | b :: r => if Nat.eqb (nb_id b) id then Some b else lookup r id
  end.

(** Running one block: [PGo t s] continues at block [t]. *)
Inductive pres := PGo (t : nat) (s : st) | PRet (r : Z) (s : st).

(** [bi id] gives the built-in constants of block [id], [succ id] the block that follows a block
    which does not end in a jump. *)
Definition pstep (w : world) (bi : nat -> bconst -> Z) (succ : nat -> option nat) (p : nprog)
  (id : nat) (s : st) : option pres :=
  match lookup p id with
  | None => None
  | Some b =>
    match fseq w (bi id) (nb_insns b) s with
    | None => None
    | Some (FNext s') => match succ id with Some t => Some (PGo t s') | None => None end
    | Some (FJmp t s') => Some (PGo t s')
    | Some (FRet r s') => Some (PRet r s')
    end
  end.

(** [k] blocks. *)
Fixpoint prun (w : world) (bi : nat -> bconst -> Z) (succ : nat -> option nat) (p : nprog)
  (k : nat) (id : nat) (s : st) : option pres :=
  match k with
  | O => Some (PGo id s)
  | S k' => match pstep w bi succ p id s with
            | Some (PGo t s') => prun w bi succ p k' t s'
            | r => r
            end
  end.

(** The last instruction of a block and whether control can run off its end. *)
Fixpoint last_insn (l : list ninsn) : option ninsn :=
  match l with [] => None | [n] => Some n | _ :: r => last_insn r end.
Definition ends_open (b : nblock) : bool :=
  match last_insn (nb_insns b) with
  | Some n => negb (iop_eqb (i_op (n_i n)) JA || iop_eqb (i_op (n_i n)) RET || is_cond_jmp_op (i_op (n_i n)))
  | None => true
  end.

(** Conditional jumps stand at the end of their block; the not-taken target of a conditional jump and
    the successor of an open block are the next block in the order; block identities are distinct. *)
Definition hd_id (l : nprog) : option nat := match l with b :: _ => Some (nb_id b) | [] => None end.
Definition layout_ok (succ : nat -> option nat) (p : nprog) : Prop :=
  NoDup (map nb_id p) /\
  forall pre b post, p = pre ++ b :: post ->
    (forall l1 n l2, nb_insns b = l1 ++ n :: l2 -> is_cond_jmp_op (i_op (n_i n)) = true ->
       l2 = [] /\ hd_id post = Some (i_bb1 (n_i n))) /\
    (ends_open b = true -> forall t, succ (nb_id b) = Some t -> hd_id post = Some t).

(** The built-in constants of the blocks of [p]: number of instructions other than allocations in the
    block, and in the block together with the unbranched chain of blocks before it up to a block with a counter. *)
Definition insn_number (b : nblock) : Z :=
  fold_right (fun n c => match i_op (n_i n) with ALLOC | ALLOCARRAY => c | _ => 1 + c end) 0 (nb_insns b).
Inductive chain_number (p : nprog) : nblock -> Z -> Prop :=
| chain_stop b : (forall q, nb_preds b <> [q]) -> chain_number p b (insn_number b)
| chain_counter b q c : nb_preds b = [q] -> lookup p q = Some c -> nb_counter c = true ->
    chain_number p b (insn_number b)
| chain_more b q c z : nb_preds b = [q] -> lookup p q = Some c -> nb_counter c = false ->
    chain_number p c z -> chain_number p b (insn_number b + z).
Definition counts (p : nprog) (bi : nat -> bconst -> Z) : Prop :=
  forall b, In b p -> bi (nb_id b) B_INSN_COUNT = insn_number b /\
    (forall z, chain_number p b z -> bi (nb_id b) B_CRITICAL_INSN_COUNT = z).
