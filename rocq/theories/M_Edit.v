(** Model of the IR editing API: core/ir_bb.c, core/ir_insn.c 5-367 and the constructors,
    core/ir_value.c 130-136.  Definitions only. *)
From Verif Require Import M_Base M_Ir.
Open Scope nat_scope.

(** bpf_ir_array_push_unique (core/array.c) on an array of pointers. *)
Definition push_unique (l : list nat) (x : nat) : list nat :=
  if existsb (Nat.eqb x) l then l else l ++ [x].

(** Erase the first occurrence: the search loops of bpf_ir_disconnect_bb (ir_bb.c 57-68) and
    bpf_ir_val_remove_user (ir_insn.c 277-284), with bpf_ir_array_erase. *)
Fixpoint erase_first (x : nat) (l : list nat) : list nat :=
  match l with
  | [] => []
  | y :: r => if (y =? x) then r else y :: erase_first x r
  end.

(** ** Control-flow graph: core/ir_bb.c *)

(** bpf_ir_init_bb_raw + bpf_ir_create_bb, ir_bb.c 20-45 *)
Definition create_bb (f : func) : func * nat :=
  let b := f_nb f in
  (mkFunc (f_insn f) (upd (f_block f) b (Some (mkBlock [] [] [] 0%Z)))
          (f_ni f) (S b) (f_all f ++ [b]) (f_entry f), b).

(** bpf_ir_connect_bb, ir_bb.c 47-52 *)
Definition connect_bb (f : func) (from to : nat) : outcome func :=
  do bf <- get_block f from;
  let f1 := put_block f from (set_succs (push_unique (b_succs bf) to) bf) in
  do bt <- get_block f1 to;
  Ok (put_block f1 to (set_preds (push_unique (b_preds bt) from) bt)).

(** bpf_ir_disconnect_bb, ir_bb.c 54-69 *)
Definition disconnect_bb (f : func) (from to : nat) : outcome func :=
  do bf <- get_block f from;
  let f1 := put_block f from (set_succs (erase_first to (b_succs bf)) bf) in
  do bt <- get_block f1 to;
  Ok (put_block f1 to (set_preds (erase_first from (b_preds bt)) bt)).

(** enum insert_position, bpf_ir.h 668-674 *)
Inductive ipos := P_BACK | P_FRONT | P_BACK_BEFORE_JMP | P_FRONT_AFTER_PHI.

(** Position of a node in a doubly linked list. *)
Fixpoint index_of (x : nat) (l : list nat) : option nat :=
  match l with
  | [] => None
  | y :: r => if (y =? x) then Some 0 else option_map S (index_of x r)
  end.

(** The loop of bpf_ir_split_bb moving one instruction (ir_bb.c 101-107): list_del,
    list_add_tail to the new block, parent_bb update. *)
Definition move_insn (bb nb : nat) (f : func) (i : nat) : outcome func :=
  do x <- get_insn f i;
  do b <- get_block f bb;
  let f1 := put_block f bb (set_insns (erase_first i (b_insns b)) b) in
  do n <- get_block f1 nb;
  let f2 := put_block f1 nb (set_insns (b_insns n ++ [i]) n) in
  Ok (put_insn f2 i (set_parent nb x)).

(** bpf_ir_split_bb, ir_bb.c 71-109.  The second component is the function state at return;
    note that the error branches are taken after the CFG has been edited, so the model returns
    the edited state together with the error. *)
Definition split_bb (f : func) (i : nat) (p : ipos) : outcome (func * option nat) :=
  do x <- get_insn f i;
  let bb := i_parent x in
  let '(f0, nb) := create_bb f in
  do b <- get_block f0 bb;
  let old := b_succs b in
  let f1 := put_block f0 bb (set_succs [] b) in
  do f2 <- connect_bb f1 bb nb;
  do f3 <- ofold (fun g s => do g1 <- disconnect_bb g bb s; connect_bb g1 nb s) f2 old;
  do b3 <- get_block f3 bb;
  match index_of i (b_insns b3) with
  | None => UB            (* the node is not linked in its parent block *)
  | Some k =>
    match p with
    | P_FRONT | P_BACK =>
      let rest := skipn (match p with P_FRONT => k | _ => S k end) (b_insns b3) in
      match rest with
      | [] => Ok (f3, None)               (* RAISE_ERROR_RET, ir_bb.c 98-100 *)
      | _ => do f4 <- ofold (move_insn bb nb) f3 rest; Ok (f4, Some nb)
      end
    | _ => Ok (f3, None)                  (* RAISE_ERROR_RET, ir_bb.c 95-97 *)
    end
  end.

(** ** Def-use lists *)

Definition val_target (v : value) : option nat :=
  match v_data v with VInsn i => Some i | _ => None end.

(** bpf_ir_get_operands, ir_insn.c 134-159 (as values; the C returns pointers to the slots) *)
Definition operands (x : insn) : list value :=
  i_vals x
  ++ (if iop_eqb (i_op x) PHI then map fst (i_phi x) else [])
  ++ (if iop_eqb (i_op x) LOADRAW || iop_eqb (i_op x) STORERAW then [a_val (i_addr x)] else []).

(** bpf_ir_val_remove_user, ir_insn.c 272-286 *)
Definition remove_user (f : func) (v : value) (u : nat) : outcome func :=
  match val_target v with
  | None => Ok f
  | Some d => do x <- get_insn f d; Ok (put_insn f d (set_users (erase_first u (i_users x)) x))
  end.

(** bpf_ir_val_add_user, ir_insn.c 291-299 *)
Definition add_user (f : func) (v : value) (u : nat) : outcome func :=
  match val_target v with
  | None => Ok f
  | Some d => do x <- get_insn f d; Ok (put_insn f d (set_users (i_users x ++ [u]) x))
  end.

(** The lifter's own add_user, core/bpf_ir.c 836-850: push_unique instead of push. *)
Definition lift_add_user (f : func) (u : nat) (v : value) : outcome func :=
  match val_target v with
  | None => Ok f
  | Some d => do x <- get_insn f d; Ok (put_insn f d (set_users (push_unique (i_users x) u) x))
  end.

(** A slot of an instruction that holds an operand. *)
Inductive slot := SVal (k : nat) | SPhi (k : nat) | SAddr.

Definition slot_get (x : insn) (s : slot) : option value :=
  match s with
  | SVal k => nth_error (i_vals x) k
  | SPhi k => if iop_eqb (i_op x) PHI then option_map fst (nth_error (i_phi x) k) else None
  | SAddr => if iop_eqb (i_op x) LOADRAW || iop_eqb (i_op x) STORERAW
             then Some (a_val (i_addr x)) else None
  end.

Fixpoint set_nth {A} (k : nat) (v : A) (l : list A) : list A :=
  match l, k with
  | [], _ => []
  | _ :: r, O => v :: r
  | a :: r, S k' => a :: set_nth k' v r
  end.

Definition slot_set (x : insn) (s : slot) (v : value) : insn :=
  match s with
  | SVal k => set_vals (set_nth k v (i_vals x)) x
  | SPhi k => match nth_error (i_phi x) k with
              | Some (_, b) => set_phi (set_nth k (v, b) (i_phi x)) x
              | None => x
              end
  | SAddr => set_addr (mkAddr v (a_off (i_addr x)) (a_ot (i_addr x))) x
  end.

(** bpf_ir_change_value, ir_value.c 130-136, on the slot [s] of instruction [u]. *)
Definition change_value (f : func) (u : nat) (s : slot) (new : value) : outcome func :=
  do x <- get_insn f u;
  match slot_get x s with
  | None => UB
  | Some old =>
    do f1 <- remove_user f old u;
    do x1 <- get_insn f1 u;
    let f2 := put_insn f1 u (slot_set x1 s new) in
    add_user f2 new u
  end.

(** Rewriting every operand of [x] that refers to [d]: the inner loop of
    bpf_ir_replace_all_usage, ir_insn.c 86-96. *)
Definition subst_val (d : nat) (rep v : value) : value :=
  match val_target v with
  | Some t => if t =? d then rep else v
  | None => v
  end.

Definition subst_insn (d : nat) (rep : value) (x : insn) : insn :=
  let x1 := set_vals (map (subst_val d rep) (i_vals x)) x in
  let x2 := if iop_eqb (i_op x) PHI
            then set_phi (map (fun e => (subst_val d rep (fst e), snd e)) (i_phi x1)) x1 else x1 in
  if iop_eqb (i_op x) LOADRAW || iop_eqb (i_op x) STORERAW
  then set_addr (mkAddr (subst_val d rep (a_val (i_addr x2))) (a_off (i_addr x2)) (a_ot (i_addr x2))) x2
  else x2.

Definition refers (d : nat) (v : value) : bool :=
  match val_target v with Some t => t =? d | None => false end.

Fixpoint add_user_n (n : nat) (f : func) (v : value) (u : nat) : outcome func :=
  match n with
  | O => Ok f
  | S n' => do f1 <- add_user f v u; add_user_n n' f1 v u
  end.

(** One user of the outer loop: every matching operand is overwritten by [rep] and the user is
    registered once per overwritten operand (ir_insn.c 85-97).  Simplification: the C interleaves
    overwriting and registering; the registrations only touch users lists, the overwriting only
    operand slots, so the model does all of the overwriting first. *)
Definition replace_in_user (d : nat) (rep : value) (f : func) (u : nat) : outcome func :=
  do x <- get_insn f u;
  let n := length (filter (refers d) (operands x)) in
  let f1 := put_insn f u (subst_insn d rep x) in
  add_user_n n f1 rep u.

(** bpf_ir_replace_all_usage, ir_insn.c 77-100 *)
Definition replace_all (f : func) (d : nat) (rep : value) : outcome func :=
  do x <- get_insn f d;
  let f1 := put_insn f d (set_users [] x) in
  ofold (replace_in_user d rep) f1 (i_users x).

(** bpf_ir_replace_all_usage_except, ir_insn.c 102-130 *)
Definition replace_all_except (f : func) (d : nat) (rep : value) (except : nat) : outcome func :=
  do x <- get_insn f d;
  let f1 := put_insn f d (set_users [] x) in
  ofold (fun g u =>
           if u =? except
           then do y <- get_insn g d; Ok (put_insn g d (set_users (i_users y ++ [u]) y))
           else replace_in_user d rep g u) f1 (i_users x).

(** list_del of an instruction: unlink it from its block. *)
Definition unlink (f : func) (i : nat) : outcome func :=
  do x <- get_insn f i;
  do b <- get_block f (i_parent x);
  Ok (put_block f (i_parent x) (set_insns (erase_first i (b_insns b)) b)).

(** bpf_ir_erase_insn, ir_insn.c 166-199.  The error branch leaves the function as it is. *)
Definition erase_insn (f : func) (i : nat) : outcome func :=
  do x <- get_insn f i;
  if existsb (fun u => negb (u =? i)) (i_users x) then Err
  else
    do f1 <- ofold (fun g v => remove_user g v i) f (operands x);
    do f2 <- unlink f1 i;
    Ok (with_insn (upd (f_insn f2) i None) f2).

(** ** Insertion *)

(** list_add_tail(new, node) / list_add(new, node) for a node of the list: insert before / after. *)
Definition insert_before (new node : nat) (l : list nat) : outcome (list nat) :=
  match index_of node l with
  | None => UB
  | Some k => Ok (firstn k l ++ new :: skipn k l)
  end.
Definition insert_after (new node : nat) (l : list nat) : outcome (list nat) :=
  match index_of node l with
  | None => UB
  | Some k => Ok (firstn (S k) l ++ new :: skipn (S k) l)
  end.

(** The scan of INSERT_FRONT_AFTER_PHI, ir_insn.c 256-261: index of the first non-phi.  When the
    loop runs off the end, the C variable designates the list head, and inserting before the head
    appends. *)
Fixpoint first_non_phi (isphi : nat -> bool) (l : list nat) : nat :=
  match l with
  | [] => 0
  | x :: r => if isphi x then S (first_non_phi isphi r) else 0
  end.

Definition op_of (f : func) (i : nat) : iop :=
  match f_insn f i with Some x => i_op x | None => ALLOC end.

Definition insert_list_bb (f : func) (new : nat) (l : list nat) (p : ipos) : list nat :=
  match p with
  | P_BACK => l ++ [new]
  | P_FRONT => new :: l
  | P_BACK_BEFORE_JMP =>
      match rev l with
      | [] => l ++ [new]
      | z :: r => if is_jmp_op (op_of f z) then rev r ++ [new; z] else l ++ [new]
      end
  | P_FRONT_AFTER_PHI =>
      let k := first_non_phi (fun i => iop_eqb (op_of f i) PHI) l in
      firstn k l ++ new :: skipn k l
  end.

(** bpf_ir_insert_at_bb, ir_insn.c 229-270 *)
Definition insert_at_bb (f : func) (new bb : nat) (p : ipos) : outcome func :=
  do b <- get_block f bb;
  Ok (put_block f bb (set_insns (insert_list_bb f new (b_insns b) p) b)).

(** bpf_ir_insert_at, ir_insn.c 212-227.  Simplification: the node [i] is looked up in the list
    of its parent_bb (the C links next to the node wherever it is). *)
Definition insert_at (f : func) (new i : nat) (p : ipos) : outcome func :=
  do x <- get_insn f i;
  do n <- get_insn f new;
  if iop_eqb (i_op x) PHI && negb (iop_eqb (i_op n) PHI)
  then insert_at_bb f new (i_parent x) P_FRONT_AFTER_PHI
  else
    do b <- get_block f (i_parent x);
    match p with
    | P_BACK => do l <- insert_after new i (b_insns b);
                Ok (put_block f (i_parent x) (set_insns l b))
    | P_FRONT => do l <- insert_before new i (b_insns b);
                 Ok (put_block f (i_parent x) (set_insns l b))
    | _ => Crit
    end.

(** ** Constructors: core/ir_insn.c 371-715 *)

Inductive ctor : Type :=
| K_alloc (t : vrt)                                  (* 371-380 *)
| K_allocarray (t : vrt) (num : Z)                   (* 393-404 *)
| K_loadimm (ty imm : Z)                             (* 406-415 *)
| K_getelemptr (arr : nat) (off : value)             (* 429-442 *)
| K_neg (a : alut) (v : value)                       (* 444-456 *)
| K_end (o : iop) (width : Z) (v : value)            (* 473-485 *)
| K_store (dst : nat) (v : value)                    (* 487-501 *)
| K_load (v : value)                                 (* 519-529 *)
| K_bin (v1 v2 : value) (o : iop) (a : alut)         (* 543-557 *)
| K_ja (to : nat)                                    (* 575-583 *)
| K_jbin (v1 v2 : value) (t1 t2 : nat) (o : iop) (a : alut) (* 585-603 *)
| K_ret (v : value)                                  (* 605-615 *)
| K_throw                                            (* 617-624 *)
| K_call (fid : Z)                                   (* 626-634 *)
| K_loadraw (t : vrt) (a : addrval)                  (* 636-648 *)
| K_storeraw (t : vrt) (a : addrval) (v : value)     (* 650-665 *)
| K_assign (v : value)                               (* 667-677 *)
| K_phi.                                             (* 708-715 *)

(** The record built by each constructor before its operands are registered. *)
Definition build (bb : nat) (k : ctor) : insn :=
  let z := insn0 bb in
  match k with
  | K_alloc t => set_vrt t (set_op ALLOC z)
  | K_allocarray t n => set_u n (set_vrt t (set_op ALLOCARRAY z))
  | K_loadimm ty imm => set_imm ty imm (set_op LOADIMM_EXTRA z)
  | K_getelemptr arr off => set_vals [off; val_insn arr] (set_op GETELEMPTR z)
  | K_neg a v => set_alu a (set_vals [v] (set_op NEG z))
  | K_end o w v => set_u w (set_vals [v] (set_op o z))
  | K_store d v => set_vals [val_insn d; v] (set_op STORE z)
  | K_load v => set_vals [v] (set_op LOAD z)
  | K_bin v1 v2 o a => set_alu a (set_vals [v1; v2] (set_op o z))
  | K_ja t => set_bb1 t (set_op JA z)
  | K_jbin v1 v2 t1 t2 o a =>
      set_alu a (set_bb2 t2 (set_bb1 t1 (set_vals [v1; v2] (set_op o z))))
  | K_ret v => set_vals [v] (set_op RET z)
  | K_throw => set_op THROW z
  | K_call fid => set_u fid (set_op CALL z)
  | K_loadraw t a => set_vrt t (set_addr a (set_op LOADRAW z))
  | K_storeraw t a v => set_vrt t (set_addr a (set_vals [v] (set_op STORERAW z)))
  | K_assign v => set_vals [v] (set_op ASSIGN z)
  | K_phi => set_op PHI z
  end.

(** Allocation of the record followed by bpf_ir_val_add_user for each operand. *)
Definition create_insn (f : func) (bb : nat) (k : ctor) : outcome (func * nat) :=
  let i := f_ni f in
  let x := build bb k in
  let f1 := mkFunc (upd (f_insn f) i (Some x)) (f_block f) (S i) (f_nb f) (f_all f) (f_entry f) in
  do f2 <- ofold (fun g v => add_user g v i) f1 (operands x);
  Ok (f2, i).

(** bpf_ir_create_*_insn_bb / bpf_ir_create_*_insn, core/ir_insn.c 719-1303 *)
Definition create_at_bb (f : func) (bb : nat) (k : ctor) (p : ipos) : outcome (func * nat) :=
  do r <- create_insn f bb k;
  do f2 <- insert_at_bb (fst r) (snd r) bb p;
  Ok (f2, snd r).
Definition create_at (f : func) (at_ : nat) (k : ctor) (p : ipos) : outcome (func * nat) :=
  do x <- get_insn f at_;
  do r <- create_insn f (i_parent x) k;
  do f2 <- insert_at (fst r) (snd r) at_ p;
  Ok (f2, snd r).

(** bpf_ir_phi_add_operand, ir_insn.c 351-360 *)
Definition phi_add_operand (f : func) (i bb : nat) (v : value) : outcome func :=
  do x <- get_insn f i;
  add_user (put_insn f i (set_phi (i_phi x ++ [(v, bb)]) x)) v i.

(** bpf_ir_add_call_arg, ir_insn.c 362-367: values[] has MAX_FUNC_ARG = 5 entries and the index
    is not checked. *)
Definition add_call_arg (f : func) (i : nat) (v : value) : outcome func :=
  do x <- get_insn f i;
  if 5 <=? length (i_vals x) then UB
  else add_user (put_insn f i (set_vals (i_vals x ++ [v]) x)) v i.

(** bpf_ir_bb_create_error_block, ir_bb.c 127-144: returns (state, (err_bb, new_bb)). *)
Definition create_error_block (f : func) (i : nat) (p : ipos)
  : outcome (func * option (nat * nat)) :=
  do x <- get_insn f i;
  do r <- split_bb f i p;
  match r with
  | (f1, None) => Ok (f1, None)
  | (f1, Some nb) =>
    let '(f2, eb) := create_bb f1 in
    do r2 <- create_at_bb f2 eb K_throw P_BACK;
    do f3 <- connect_bb (fst r2) (i_parent x) eb;
    Ok (f3, Some (eb, nb))
  end.
