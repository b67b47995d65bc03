(** Block layout: gen_bb_succ, find_chain_head, add_reach, gen_reachable_bbs, gen_end_bbs,
    core/bpf_ir.c 1586-1760.  [_visited] is set exactly when a block is pushed to reachable_bbs
    (1701-1703) and cleared before (1741), so "visited" is membership in the list being built. *)
From Verif Require Import M_Base M_Ir.
Open Scope nat_scope.

(** bpf_ir_get_last_insn, ir_bb.c: None for an empty block *)
Definition last_of (f : func) (x : block) : outcome (option insn) :=
  match rev (b_insns x) with
  | [] => Ok None
  | i :: _ => do y <- get_insn f i; Ok (Some y)
  end.
Definition ends_ja (l : option insn) : bool := match l with Some y => iop_eqb (i_op y) JA | None => false end.

(** gen_bb_succ, 1586-1625: one block *)
Definition fix_succs (f : func) (b : nat) : outcome func :=
  do x <- get_block f b;
  do l <- last_of f x;
  match l with
  | None => Ok f
  | Some y =>
    if is_cond_jmp_op (i_op y) then
      if length (b_succs x) =? 2
      then Ok (with_block (upd (f_block f) b (Some (set_succs [i_bb1 y; i_bb2 y] x))) f)
      else Err
    else if iop_eqb (i_op y) JA then
      if length (b_succs x) =? 1
      then Ok (with_block (upd (f_block f) b (Some (set_succs [i_bb1 y] x))) f)
      else Err
    else Ok f
  end.
Definition gen_bb_succ (f : func) : outcome func := ofold fix_succs f (f_all f).

(** find_chain_head, 1628-1671.  [None] is NULL.  The loop over the predecessors: *)
Fixpoint scan_preds (f : func) (bb : nat) (ps : list nat) (pred : option nat) : outcome (option (option nat)) :=
  match ps with
  | [] => Ok (Some pred)
  | p :: r =>
    do x <- get_block f p;
    match b_succs x with
    | [_] =>
      do l <- last_of f x;
      if ends_ja l then scan_preds f bb r pred
      else match pred with Some _ => Ok None | None => scan_preds f bb r (Some p) end
    | [s0; _] =>
      if s0 =? bb then match pred with Some _ => Ok None | None => scan_preds f bb r (Some p) end
      else scan_preds f bb r pred
    | _ => Ok None
    end
  end.
Fixpoint find_chain_head (fuel : nat) (f : func) (bb : nat) : outcome (option nat) :=
  match fuel with
  | O => NoFuel
  | S k =>
    do x <- get_block f bb;
    do r <- scan_preds f bb (b_preds x) None;
    match r with
    | None => Ok None
    | Some None => Ok (Some bb)
    | Some (Some p) => find_chain_head k f p
    end
  end.

(** add_reach, 1696-1731: visiting one chain; returns reachable_bbs and todo *)
Fixpoint walk (fuel : nat) (f : func) (bb : nat) (acc todo : list nat) : outcome (list nat * list nat) :=
  match fuel with
  | O => NoFuel
  | S k =>
    do x <- get_block f bb;
    let acc' := acc ++ [bb] in
    match b_succs x with
    | [] => Ok (acc', todo)
    | [s] =>
      do l <- last_of f x;
      match l with
      | Some y => if iop_eqb (i_op y) JA then Ok (acc', todo ++ [i_bb1 y]) else walk k f s acc' todo
      | None => walk k f s acc' todo
      end
    | [s0; s1] => walk k f s0 acc' (todo ++ [s1])
    | _ => Err
    end
  end.
(** add_reach, 1673-1734 *)
Fixpoint add_reach (fuel : nat) (f : func) (acc todo : list nat) : outcome (list nat) :=
  match fuel with
  | O => NoFuel
  | S k =>
    match todo with
    | [] => Ok acc
    | bb :: r =>
      if existsb (Nat.eqb bb) acc then add_reach k f acc r
      else
        do h <- find_chain_head fuel f bb;
        match h with
        | None => Err
        | Some h =>
          if existsb (Nat.eqb h) acc then Crit
          else do w <- walk fuel f h acc r; add_reach k f (fst w) (snd w)
        end
    end
  end.
Definition gen_reachable (fuel : nat) (f : func) : outcome (list nat) := add_reach fuel f [] [f_entry f].

(** gen_end_bbs, 1749-1760 *)
Fixpoint gen_end (f : func) (l : list nat) : outcome (list nat) :=
  match l with
  | [] => Ok []
  | b :: r => do x <- get_block f b; do e <- gen_end f r; Ok (match b_succs x with [] => b :: e | _ => e end)
  end.

(** bpf_ir_pass_postprocess, 1762-1771, without the checker: the function, reachable_bbs, end_bbs *)
Definition layout (fuel : nat) (f : func) : outcome (func * (list nat * list nat)) :=
  do f1 <- gen_bb_succ f;
  do l <- gen_reachable fuel f1;
  do e <- gen_end f1 l;
  Ok (f1, (l, e)).
