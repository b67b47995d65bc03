(** Model of the first stage of the lifter: finding basic blocks (core/bpf_ir.c, gen_bb and its
    helpers).  No proofs here.

    Simplifications.  Positions are natural numbers; a target computed as a negative [int] becomes
    a huge [size_t] in the code and is an out-of-bounds read of the instruction array ([UB]).
    qsort is an insertion sort: the keys are distinct, except that a jump to position 0 makes a
    second entrance 0; the two orders differ only in which of the two blocks comes first, the
    first is empty and has no successor in both.  Allocation failure is not modelled. *)
From Coq Require Import ZArith List Bool Arith.
From Verif Require Import M_Base SpecWord SpecIsa.
Import ListNotations.
Open Scope nat_scope.

(** BPF_CLASS, BPF_OP tests, include/linux/bpf_common.h *)
Definition cls (c : Z) : Z := (c mod 8)%Z.
Definition opn (c : Z) : Z := (c / 16)%Z.
Definition jmp_cls (c : Z) : bool := (cls c =? 5)%Z || (cls c =? 6)%Z.
(** OP between JEQ and JSGE or between JLT and JSLE, 375-378 (this includes JSET) *)
Definition cond_op (c : Z) : bool :=
  ((1 <=? opn c) && (opn c <=? 7) || (10 <=? opn c) && (opn c <=? 13))%Z.
Definition ja_op (c : Z) : bool := (opn c =? 0)%Z.
Definition exit_op (c : Z) : bool := (opn c =? 9)%Z.

(** is_raw_insn_breakpoint, 247-260 *)
Definition breakpoint (i : bpf_insn) : bool := jmp_cls (b_code i) && negb (opn (b_code i) =? 8)%Z.

(** gen_bb, 370-391: conditional jumps to the next instruction become plain jumps *)
Definition fix_pc0 (i : bpf_insn) : bpf_insn :=
  if jmp_cls (b_code i) && cond_op (b_code i) && (b_off i =? 0)%Z then mkBpf 5 0 0 0 0 else i.

(** struct bb_entrance_info, ir.h 115-122: a block start and the positions that lead to it *)
Record ent := mkEnt { e_pos : nat; e_preds : list nat }.

Definition has_pos (es : list ent) (k : nat) : bool := existsb (fun e => e_pos e =? k) es.

Definition push_uniq (l : list nat) (x : nat) : list nat :=
  if existsb (Nat.eqb x) l then l else l ++ [x].

(** append to the predecessors of the entrance [k] *)
Fixpoint add_pred (es : list ent) (k cur : nat) : list ent :=
  match es with
  | [] => []
  | e :: r => if e_pos e =? k then mkEnt k (e_preds e ++ [cur]) :: r else e :: add_pred r k cur
  end.

(** add_entrance_info, 263-298 *)
Definition add_entrance (p : list bpf_insn) (es : list ent) (k : Z) (cur : nat) : outcome (list ent) :=
  if (k <? 0)%Z then UB
  else
    let k := Z.to_nat k in
    if has_pos es k then Ok (add_pred es k cur)
    else
      match k with
      | O => Ok (es ++ [mkEnt 0 (push_uniq [] cur)])
      | S l =>
        match nth_error p l with
        | None => UB
        | Some i =>
          Ok (es ++ [mkEnt k (push_uniq (if breakpoint i then [] else push_uniq [] l) cur)])
        end
      end.

(** init_entrance_info, 325-344 *)
Definition init_entrance (es : list ent) (k : nat) : list ent :=
  if has_pos es k then es else es ++ [mkEnt k []].

(** Target of the jump [i] at position [n]: the position is cut to 16 bits, 406 and 423. *)
Definition raw_target (i : bpf_insn) (n : nat) : Z := (s16 (Z.of_nat n) + b_off i + 1)%Z.

(** gen_bb, 395-441: one instruction of the scan *)
Definition scan_insn (p : list bpf_insn) (es : list ent) (n : nat) (i : bpf_insn) : outcome (list ent) :=
  let c := b_code i in
  if negb (jmp_cls c) then Ok es
  else if ja_op c then
    if (cls c =? 5)%Z then add_entrance p es (raw_target i n) n else Err
  else if cond_op c then
    do es1 <- add_entrance p es (raw_target i n) n;
    add_entrance p es1 (Z.of_nat (n + 1)) n
  else if exit_op c then
    Ok (if n + 1 <? length p then init_entrance es (n + 1) else es)
  else Ok es.

Fixpoint scan (p : list bpf_insn) (es : list ent) (n : nat) (l : list bpf_insn) : outcome (list ent) :=
  match l with
  | [] => Ok es
  | i :: r => do es1 <- scan_insn p es n i; scan p es1 (n + 1) r
  end.

(** qsort with compare_num, 451, 232-245 *)
Fixpoint insert_ent (e : ent) (l : list ent) : list ent :=
  match l with
  | [] => [e]
  | x :: r => if e_pos e <=? e_pos x then e :: x :: r else x :: insert_ent e r
  end.
Fixpoint sort_ents (l : list ent) : list ent :=
  match l with
  | [] => []
  | e :: r => insert_ent e (sort_ents r)
  end.

(** 482-487: the instruction ends its block *)
Definition ends_bb (i : bpf_insn) : bool :=
  jmp_cls (b_code i) && (ja_op (b_code i) || cond_op (b_code i) || exit_op (b_code i)).

(** 477-493: end position of the block starting at [j] when the next one starts [n] later *)
Fixpoint find_end (p : list bpf_insn) (n j : nat) : outcome nat :=
  match n with
  | O => Ok j
  | S n' =>
    match nth_error p j with
    | None => UB
    | Some i => if ends_bb i then Ok (j + 1) else find_end p n' (j + 1)
    end
  end.

(** struct pre_ir_insn, ir.h 56-68; [pi_wide] is it = IMM64 *)
Record pre_insn := mkPre {
  pi_code : Z; pi_dst : Z; pi_src : Z; pi_off : Z; pi_wide : bool;
  pi_imm : Z; pi_imm64 : Z; pi_pos : nat }.

(** to_s64, 360-364 *)
Definition to_s64 (imm next : Z) : Z := s64 (Z.lor (Z.shiftl next 32) (Z.land imm (Z.ones 32))).

(** 507-528.  [n] bounds the number of rounds; each consumes at least one position. *)
Fixpoint decode (p : list bpf_insn) (n pos e : nat) : outcome (list pre_insn) :=
  match n with
  | O => Ok []
  | S n' =>
    if e <=? pos then Ok []
    else
      match nth_error p pos with
      | None => UB
      | Some i =>
        let nxt := if pos + 1 <? e then nth_error p (pos + 1) else None in
        match nxt with
        | Some j =>
          if (b_code j =? 0)%Z then
            do r <- decode p n' (pos + 2) e;
            Ok (mkPre (b_code i) (b_dst i) (b_src i) (b_off i) true (b_imm i)
                      (to_s64 (b_imm i) (b_imm j)) pos :: r)
          else
            do r <- decode p n' (pos + 1) e;
            Ok (mkPre (b_code i) (b_dst i) (b_src i) (b_off i) false (b_imm i)
                      (Z.land (b_imm i) (Z.ones 32)) pos :: r)
        | None =>
            do r <- decode p n' (pos + 1) e;
            Ok (mkPre (b_code i) (b_dst i) (b_src i) (b_off i) false (b_imm i)
                      (Z.land (b_imm i) (Z.ones 32)) pos :: r)
        end
      end
  end.

(** struct pre_ir_basic_block, ir.h 79-105 (the static part; blocks are named by their index) *)
Record pblock := mkPB {
  pb_start : nat; pb_end : nat; pb_insns : list pre_insn; pb_preds : list nat; pb_succs : list nat }.

(** 466-497: the ranges.  No start lies after the next one or after the end of the program. *)
Fixpoint ranges (p : list bpf_insn) (es : list ent) : outcome (list (nat * nat)) :=
  match es with
  | [] => Ok []
  | e :: r =>
    let nj := match r with x :: _ => e_pos x | [] => length p end in
    do k <- find_end p (nj - e_pos e) (e_pos e);
    do t <- ranges p r;
    Ok ((e_pos e, k) :: t)
  end.

(** get_bb_parent, 301-323 *)
Fixpoint parent_idx (l : list (nat * nat)) (pos : nat) : nat :=
  match l with
  | [] => 0
  | r :: l' => if fst r <=? pos then S (parent_idx l' pos) else 0
  end.
Definition bb_parent (rs : list (nat * nat)) (pos : nat) : option nat :=
  let k := parent_idx (tl rs) pos in
  match nth_error rs k with
  | Some r => if snd r <=? pos then None else Some k
  | None => None
  end.

(** 531-554: the new predecessor list of one block *)
Fixpoint parents (rs : list (nat * nat)) (l : list nat) : list nat :=
  match l with
  | [] => []
  | q :: r => match bb_parent rs q with Some a => a :: parents rs r | None => parents rs r end
  end.
(** all (predecessor, successor) pairs in the order in which they are added *)
Fixpoint edges (rs : list (nat * nat)) (n : nat) (es : list ent) : list (nat * nat) :=
  match es with
  | [] => []
  | e :: r => map (fun a => (a, n)) (parents rs (e_preds e)) ++ edges rs (n + 1) r
  end.

Fixpoint mk_blocks (p : list bpf_insn) (ed : list (nat * nat)) (n : nat) (rs : list (nat * nat))
  : outcome (list pblock) :=
  match rs with
  | [] => Ok []
  | (s, e) :: r =>
    do l <- decode p (e - s) s e;
    do t <- mk_blocks p ed (n + 1) r;
    Ok (mkPB s e l (map fst (filter (fun x => snd x =? n) ed))
                   (map snd (filter (fun x => fst x =? n) ed)) :: t)
  end.

(** gen_bb, 366-558; the first block is the entry *)
Definition gen_bb (p0 : list bpf_insn) : outcome (list pblock) :=
  let p := map fix_pc0 p0 in
  do es <- scan p [] 0 p;
  let es := sort_ents (es ++ [mkEnt 0 []]) in
  do rs <- ranges p es;
  mk_blocks p (edges rs 0 es) 0 rs.
