(** The numbers by which blocks and instructions are printed: bpf_ir_clean_id, bpf_ir_clean_visited,
    assign_id and tag_ir, core/ir_helper.c 36-65, 600-629.  The fields _visited, _id and _insn_id are kept
    apart from the function; [None] is (size_t)(-1).  Simplification: counters do not wrap (a function has
    less than 2^64 instructions). *)
From Verif Require Import M_Base M_Ir.
Open Scope nat_scope.

Record tags := mkTags { t_vis : nat -> bool; t_bid : nat -> option nat; t_iid : nat -> option nat; t_cnt : nat; t_bcnt : nat }.
(** the loops of 36-65; the _visited flags of instructions are not read *)
Definition clean_id_bb (f : func) (s : tags) (b : nat) : outcome tags :=
  do x <- get_block f b;
  Ok (mkTags (t_vis s) (upd (t_bid s) b None) (fold_left (fun m i => upd m i None) (b_insns x) (t_iid s)) (t_cnt s) (t_bcnt s)).
Definition clean_id (f : func) (s : tags) : outcome tags := ofold (clean_id_bb f) s (f_all f).
Definition clean_visited (f : func) (s : tags) : outcome tags :=
  ofold (fun s b => do x <- get_block f b; Ok (mkTags (upd (t_vis s) b false) (t_bid s) (t_iid s) (t_cnt s) (t_bcnt s))) s (f_all f).
(** 609-614 *)
Definition name_insn (f : func) (s : tags) (i : nat) : outcome tags :=
  do x <- get_insn f i;
  Ok (if negb (is_void_op (i_op x)) then mkTags (t_vis s) (t_bid s) (upd (t_iid s) i (Some (t_cnt s))) (S (t_cnt s)) (t_bcnt s) else s).
(** 606-607 *)
Definition enter (s : tags) (b : nat) : tags :=
  mkTags (upd (t_vis s) b true) (upd (t_bid s) b (Some (t_bcnt s))) (t_iid s) (t_cnt s) (S (t_bcnt s)).
Fixpoint assign_id (fuel : nat) (f : func) (bb : nat) (s : tags) : outcome tags :=
  match fuel with
  | O => NoFuel
  | S k =>
    do x <- get_block f bb;
    if t_vis s bb then Ok s
    else
      do s1 <- ofold (name_insn f) (enter s bb) (b_insns x);
      ofold (fun s n => assign_id k f n s) s1 (b_succs x)
  end.
(** [s]: whatever the fields hold before *)
Definition tag_ir (fuel : nat) (f : func) (s : tags) : outcome tags :=
  do s1 <- clean_id f s;
  do s2 <- clean_visited f (mkTags (t_vis s1) (t_bid s1) (t_iid s1) 0 0);
  do s3 <- assign_id fuel f (f_entry f) s2;
  clean_visited f s3.
