(** Model of the IR passes: core/passes/phi_pass.c, optimization.c, code_compaction.c,
    translate_throw.c (translate_throw), div_by_zero.c, insn_counter_pass.c, jmp_complexity.c, msan.c
    and bpf_ir_cg_add_stack_offset_pre_cg of cg_prepare.c.  [reach] is fun->reachable_bbs.
    Definitions only.

    Simplification common to all passes: an error raised inside a callee ends the model run with [Err];
    in C the pass may go on, but run_single_pass (core/bpf_ir.c 1777-1791) then fails as well. *)
From Verif Require Import SpecWord.
From Verif Require Import M_Base M_Ir M_Edit M_Ra.
Open Scope nat_scope.

(** The instructions of the reachable blocks that satisfy [P], in order. *)
Definition collect (P : insn -> bool) (f : func) (reach : list nat) : outcome (list nat) :=
  do l <- insns_in f reach;
  ofold (fun acc i => do x <- get_insn f i; Ok (if P x then acc ++ [i] else acc)) [] l.

(** ** phi_pass.c *)

(** The loop of try_remove_trivial_phi, 10-27: [None] is "return false"; otherwise the value found. *)
Fixpoint same_value (p : nat) (l : list value) (same : option value) : option (option value) :=
  match l with
  | [] => Some same
  | v :: r =>
    let again := match v_data v with
                 | VInsn d => match same with
                              | Some s => match v_data s with VInsn e => d =? e | _ => false end
                              | None => false
                              end || (d =? p)
                 | _ => false
                 end in
    if again then same_value p r same
    else match same with
         | Some _ => None
         | None => same_value p r (Some v)
         end
  end.
(** try_remove_trivial_phi, 4-38 *)
Definition try_phi (f : func) (p : nat) : outcome (func * bool) :=
  do x <- get_insn f p;
  match same_value p (map fst (i_phi x)) None with
  | None => Ok (f, false)
  | Some None => Err
  | Some (Some same) =>
    do f1 <- replace_all_except f p same p;
    do f2 <- erase_insn f1 p;
    Ok (f2, true)
  end.
(** The list of a block is walked with list_for_each_entry_safe; only the current instruction is
    erased, so the walk visits the instructions the list had at the start. *)
Definition phi_round (reach : list nat) (f : func) : outcome (func * bool) :=
  ofold (fun s b =>
    do k <- get_block (fst s) b;
    ofold (fun s i =>
      do x <- get_insn (fst s) i;
      if iop_eqb (i_op x) PHI
      then do r <- try_phi (fst s) i; Ok (fst r, snd s || snd r)
      else Ok s) s (b_insns k)) (f, false) reach.
(** remove_trivial_phi, 40-61 *)
Fixpoint remove_trivial_phi (fuel : nat) (reach : list nat) (f : func) : outcome func :=
  match fuel with
  | O => NoFuel
  | S k => do r <- phi_round reach f; if snd r : bool then remove_trivial_phi k reach (fst r) else Ok (fst r)
  end.

(** ** optimization.c *)

(** remove_no_user_insn, 4-28 *)
Definition dce_insn (s : func * bool) (i : nat) : outcome (func * bool) :=
  do x <- get_insn (fst s) i;
  if is_void_op (i_op x) || iop_eqb (i_op x) CALL then Ok s
  else match i_users x with
       | [] => do g <- erase_insn (fst s) i; Ok (g, true)
       | _ => Ok s
       end.
Definition dce_round (reach : list nat) (f : func) : outcome (func * bool) :=
  ofold (fun s b => do k <- get_block (fst s) b; ofold dce_insn s (b_insns k)) (f, false) reach.
Fixpoint dce (fuel : nat) (reach : list nat) (f : func) : outcome func :=
  match fuel with
  | O => NoFuel
  | S k => do r <- dce_round reach f; if snd r : bool then dce k reach (fst r) else Ok (fst r)
  end.

(** The loop of remove_unused_alloc that erases the users, 65-70: the index goes up by one although
    the erased user has left the array. *)
Fixpoint erase_users (n : nat) (f : func) (a k : nat) : outcome func :=
  do x <- get_insn f a;
  match nth_error (i_users x) k with
  | None => Ok f
  | Some u =>
    match n with
    | O => NoFuel
    | S n' => do g <- erase_insn f u; erase_users n' g a (S k)
    end
  end.
Fixpoint any_load (f : func) (l : list nat) : outcome bool :=
  match l with
  | [] => Ok false
  | u :: r => do x <- get_insn f u; if iop_eqb (i_op x) LOAD then Ok true else any_load f r
  end.
(** remove_unused_alloc, 30-79 *)
Definition unused_alloc (f : func) (a : nat) : outcome func :=
  do x <- get_insn f a;
  do l <- any_load f (i_users x);
  if (l : bool) then Ok f
  else do g <- erase_users (length (i_users x)) f a 0; erase_insn g a.
Definition remove_unused_alloc (reach : list nat) (f : func) : outcome func :=
  do l <- collect (fun x => iop_eqb (i_op x) ALLOC) f reach;
  ofold unused_alloc f l.
(** bpf_ir_optimize_ir, 86-107 *)
Definition optimize_ir (fuel : nat) (no_dead no_opt : bool) (reach : list nat) (f : func) : outcome func :=
  if no_opt then Ok f
  else do g <- (if no_dead then Ok f else dce fuel reach f); remove_unused_alloc reach g.

(** ** code_compaction.c *)

Definition is_shift32 (o : iop) (x : insn) : bool :=
  iop_eqb (i_op x) o && match nth_error (i_vals x) 1 with
                        | Some v => match v_data v with VConst c => (c =? 32)%Z | _ => false end
                        | None => false
                        end.
Definition value0 (x : insn) : option nat :=
  match i_vals x with v :: _ => val_target v | [] => None end.
(** The scan, 17-49: [prev] is prev_insn; it is kept over block boundaries and is not advanced by the
    two "continue" statements. *)
Definition compact_scan (f : func) (s : option nat * list nat) (i : nat) : outcome (option nat * list nat) :=
  let '(prev, opt) := s in
  match prev with
  | None => Ok (Some i, opt)
  | Some p =>
    do x <- get_insn f p;
    do y <- get_insn f i;
    if iop_eqb (i_op x) LSH && iop_eqb (i_op y) RSH then
      if negb (is_shift32 LSH x && is_shift32 RSH y) then Ok (Some p, opt)
      else match value0 x, value0 y with
           | Some _, Some d => Ok (Some i, if d =? p then opt ++ [i] else opt)
           | _, _ => Ok (Some i, opt)
           end
    else Ok (Some i, opt)
  end.
(** 55-69 *)
Definition compact_one (f : func) (i : nat) : outcome func :=
  do x <- get_insn f i;
  match i_vals x with
  | v :: _ =>
    match val_target v with
    | Some l =>
      do y <- get_insn f l;
      if negb (iop_eqb (i_op x) RSH && iop_eqb (i_op y) LSH) then Crit
      else match i_vals y with
           | w :: _ =>
             do f1 <- change_value f i (SVal 0) w;
             do x1 <- get_insn f1 i;
             let f2 := put_insn f1 i
               (set_vals (firstn 1 (i_vals x1)) (set_alu A_32 (set_vrt VR_32 (set_op ASSIGN x1)))) in
             erase_insn f2 l
           | [] => UB
           end
    | None => UB
    end
  | [] => UB
  end.
Definition compaction (reach : list nat) (f : func) : outcome func :=
  do l <- insns_in f reach;
  do r <- ofold (compact_scan f) (None, []) l;
  ofold compact_one f (snd r).

(** ** translate_throw.c 304-323 (translate_throw) *)
Definition throw_insn (f : func) (i : nat) : outcome func :=
  do x <- get_insn f i;
  Ok (if iop_eqb (i_op x) THROW then put_insn f i (set_vals [val_const32 1] (set_op RET x)) else f).
Definition translate_throw (reach : list nat) (f : func) : outcome func :=
  do l <- insns_in f reach; ofold throw_insn f l.

(** ** div_by_zero.c *)

(** bpf_ir_prev_insn, core/ir_insn.c 301-308 *)
Definition prev_insn (f : func) (i : nat) : outcome (option nat) :=
  do x <- get_insn f i;
  do b <- get_block f (i_parent x);
  match index_of i (b_insns b) with
  | None => UB
  | Some O => Ok None
  | Some (S k) => Ok (nth_error (b_insns b) k)
  end.
(** one division, 20-43 *)
Definition check_div (f : func) (i : nat) : outcome func :=
  do x <- get_insn f i;
  match nth_error (i_vals x) 1 with
  | None => UB
  | Some d =>
    match v_data d with
    | VInsn _ =>
      do p <- prev_insn f i;
      match p with
      | None => Ok f
      | Some p =>
        do r <- split_bb f p P_BACK;
        match r with
        | (_, None) => Err
        | (f1, Some nb) =>
          let '(f2, eb) := create_bb f1 in
          do t <- create_at_bb f2 eb K_throw P_BACK;
          do j <- create_at (fst t) p (K_jbin d (val_const32 0) nb eb JEQ A_64) P_BACK;
          connect_bb (fst j) (i_parent x) eb
        end
      end
    | _ => Ok f
    end
  end.
(** bpf_ir_div_by_zero, 4-46 *)
Definition div_by_zero (reach : list nat) (f : func) : outcome func :=
  do l <- collect (fun x => iop_eqb (i_op x) DIV) f reach;
  ofold check_div f l.

(** ** insn_counter_pass.c *)

(** the three instructions that advance the counter: load, add, store; [k] creates at the right place *)
Definition count_value : value := mkVal (VConst (-1)) A_32 B_INSN_COUNT.
Definition bump (f : func) (ld alloc : nat) (cnt : value) : outcome (func * (nat * nat)) :=
  do a <- create_at f ld (K_bin (val_insn ld) cnt ADD A_64) P_BACK;
  do s <- create_at (fst a) (snd a) (K_store alloc (val_insn (snd a))) P_BACK;
  Ok (fst s, (snd a, snd s)).
(** add_counter_to_bb, 18-75 *)
Definition add_counter (limit : Z) (alloc : nat) (f : func) (bb : nat) : outcome func :=
  do b <- get_block f bb;
  do last <- match rev (b_insns b) with
             | [] => Ok None
             | i :: _ => do x <- get_insn f i; Ok (if is_jmp_op (i_op x) then Some i else None)
             end;
  match last with
  | None =>
    match b_succs b with
    | [succ] =>
      do l <- create_at_bb f bb (K_load (val_insn alloc)) P_BACK;
      do r <- bump (fst l) (snd l) alloc count_value;
      let '(f1, (added, store)) := r in
      let '(f2, eb) := create_bb f1 in
      do t <- create_at_bb f2 eb K_throw P_BACK;
      do j <- create_at (fst t) store (K_jbin (val_insn added) (val_const32 limit) succ eb JGT A_64) P_BACK;
      connect_bb (fst j) bb eb
    | _ => Crit
    end
  | Some i =>
    do l <- create_at f i (K_load (val_insn alloc)) P_FRONT;
    do r <- bump (fst l) (snd l) alloc count_value;
    let '(f1, (added, store)) := r in
    do e <- create_error_block f1 store P_BACK;
    match e with
    | (_, None) => Err
    | (f2, Some (eb, nb)) =>
      do j <- create_at f2 store (K_jbin (val_insn added) (val_const32 limit) nb eb JGT A_64) P_BACK;
      Ok (fst j)
    end
  end.
(** 91-96 *)
Definition make_counter (f : func) : outcome (func * nat) :=
  do a <- create_at_bb f (f_entry f) (K_alloc VR_32) P_FRONT;
  do s <- create_at (fst a) (snd a) (K_store (snd a) (val_const32 0)) P_BACK;
  Ok (fst s, snd a).
(** fast mode, 124-133 *)
Definition counter_fast (limit : Z) (reach : list nat) (f : func) : outcome func :=
  do c <- make_counter f;
  ofold (fun g bb => do b <- get_block g bb;
                     if length (b_preds b) <=? 1 then Ok g else add_counter limit (snd c) g bb)
        (fst c) reach.
(** accurate mode, 99-123: the predecessors of the blocks where paths meet.  IR_BB_HAS_COUNTER = 1
    (bpf_ir.h) is bit 0 of the flag. *)
Definition mark_pred (s : func * list nat) (p : nat) : outcome (func * list nat) :=
  do b <- get_block (fst s) p;
  if Z.testbit (b_flag b) 0 then Ok s
  else Ok (put_block (fst s) p (mkBlock (b_insns b) (b_preds b) (b_succs b) (Z.lor (b_flag b) 1)), snd s ++ [p]).
Definition mark_block (s : func * list nat) (bb : nat) : outcome (func * list nat) :=
  do b <- get_block (fst s) bb;
  let n := length (b_preds b) + (if bb =? f_entry (fst s) then 1 else 0) in
  if n <=? 1 then Ok s else ofold mark_pred s (b_preds b).
Definition counter_accurate (limit : Z) (reach : list nat) (f : func) : outcome func :=
  do c <- make_counter f;
  do m <- ofold mark_block (fst c, []) reach;
  ofold (add_counter limit (snd c)) (fst m) (snd m).

(** ** jmp_complexity.c *)
Definition jmp_check (alloc : nat) (f : func) (i : nat) : outcome func :=
  do l <- create_at f i (K_load (val_insn alloc)) P_FRONT;
  do r <- bump (fst l) (snd l) alloc (val_const32 1);
  let '(f1, (added, store)) := r in
  do e <- create_error_block f1 store P_BACK;
  match e with
  | (_, None) => Err
  | (f2, Some (eb, nb)) =>
    do j <- create_at f2 store (K_jbin (val_insn added) (val_const32 100) nb eb JGT A_64) P_BACK;
    Ok (fst j)
  end.
Definition jmp_complexity (reach : list nat) (f : func) : outcome func :=
  do l <- collect (fun x => is_jmp_op (i_op x)) f reach;
  match l with
  | [] => Ok f
  | _ => do c <- make_counter f; ofold (jmp_check (snd c)) (fst c) l
  end.

(** ** msan.c *)

(** is_sp_access, 57-78 *)
Fixpoint is_sp_access (fuel : nat) (f : func) (sp i : nat) : outcome bool :=
  match fuel with
  | O => NoFuel
  | S k =>
    if i =? sp then Ok true
    else
      do x <- get_insn f i;
      if is_bin_alu_op (i_op x) then
        let at_ n := match nth_error (i_vals x) n with
                     | Some v => match val_target v with Some d => is_sp_access k f sp d | None => Ok false end
                     | None => UB
                     end in
        do a <- at_ 0;
        if (a : bool) then Ok true else at_ 1
      else Ok false
  end.
(** modify_storeraw / modify_loadraw, 4-30; the offset is an s16 *)
Definition shadow_addr (a : addrval) : addrval := mkAddr (a_val a) (s16 (a_off a + 256)) (a_ot a).
Definition shadow_store (f : func) (i : nat) : outcome func :=
  do x <- get_insn f i;
  do r <- create_at f i (K_storeraw (i_vrt x) (shadow_addr (i_addr x)) (val_const32 0)) P_BACK;
  Ok (fst r).
Definition shadow_load (f : func) (i : nat) : outcome func :=
  do x <- get_insn f i;
  do r <- create_at f i (K_loadraw (i_vrt x) (shadow_addr (i_addr x))) P_BACK;
  Ok (fst r).
Definition if_stack (fuel sp : nat) (act : func -> nat -> outcome func) (f : func) (i : nat) : outcome func :=
  do x <- get_insn f i;
  match val_target (a_val (i_addr x)) with
  | Some d => do b <- is_sp_access fuel f sp d; if (b : bool) then act f i else Ok f
  | None => Ok f
  end.
(** msan, 80-127 *)
Definition msan (fuel sp : nat) (reach : list nat) (f : func) : outcome func :=
  do ss <- collect (fun x => iop_eqb (i_op x) STORERAW) f reach;
  do ls <- collect (fun x => iop_eqb (i_op x) LOADRAW) f reach;
  do a <- create_at_bb f (f_entry f) (K_allocarray VR_64 32) P_FRONT_AFTER_PHI;
  do f1 <- ofold (fun g k => do r <- create_at g (snd a)
                               (K_storeraw VR_64 (addr_val (val_insn (snd a)) (Z.of_nat k * 8)) (val_const64 (-1))) P_BACK;
                             Ok (fst r)) (fst a) (seq 0 32);
  do f2 <- ofold (if_stack fuel sp shadow_store) f1 ss;
  ofold (if_stack fuel sp shadow_load) f2 ls.

(** ** bpf_ir_cg_add_stack_offset_pre_cg, cg_prepare.c 50-97.

    The loop runs over a copy of the array header of sp->users, that is over the buffer itself, while
    the array is edited.  [cap] is the capacity (max_elem) of the array, [ok] says that the buffer has
    not been reallocated since the copy was made (reading it after that is a use after free).  Every
    use replaced pushes one entry and erases one, so the buffer always holds at least the number of
    entries of the copy. *)
Definition sp_slots (sp : nat) (x : insn) : list slot :=
  map fst (filter (fun e => refers sp (snd e))
    (combine (map SVal (seq 0 (length (i_vals x)))) (i_vals x) ++
     (if iop_eqb (i_op x) PHI then combine (map SPhi (seq 0 (length (i_phi x)))) (map fst (i_phi x)) else []) ++
     (if iop_eqb (i_op x) LOADRAW || iop_eqb (i_op x) STORERAW then [(SAddr, a_val (i_addr x))] else []))).
(** tmp = SP + hole(0), 74-90 *)
Definition shift_slot (sp u : nat) (s : func * (nat * bool)) (sl : slot) : outcome (func * (nat * bool)) :=
  let '(f, (cap, ok)) := s in
  do x <- get_insn f u;
  match slot_get x sl with
  | None => UB
  | Some v =>
    do n <- get_insn f sp;
    let full := cap <=? length (i_users n) in
    do r <- create_at f u (K_bin v (val_rawoff32 0) ADD A_64) P_FRONT;
    do g <- change_value (fst r) u sl (val_insn (snd r));
    Ok (g, (if full then cap * 2 else cap, ok && negb full))
  end.
Definition mark_offset (x : insn) : insn :=
  match i_vals x with
  | v0 :: v1 :: r => match v_data v1 with
                     | VConst c => set_vals (v0 :: mkVal (VRawOff c) (v_ct v1) (v_bi v1) :: r) x
                     | _ => x
                     end
  | _ => x
  end.
Definition pre_user (sp : nat) (s : func * (nat * bool)) (k : nat) : outcome (func * (nat * bool)) :=
  let '(f, (cap, ok)) := s in
  if negb ok then UB
  else
    do n <- get_insn f sp;
    match nth_error (i_users n) k with
    | None => UB
    | Some u =>
      do x <- get_insn f u;
      if is_raw (i_op x) then Ok s
      else if is_bin_alu_op (i_op x) &&
              match i_vals x with
              | v0 :: v1 :: _ => refers sp v0 && match v_data v1 with VConst _ => true | _ => false end
              | _ => false
              end
      then Ok (put_insn f u (mark_offset x), (cap, ok))
      else ofold (shift_slot sp u) s (sp_slots sp x)
    end.
Definition stack_offset_pre (sp cap : nat) (f : func) : outcome func :=
  do n <- get_insn f sp;
  do r <- ofold (pre_user sp) (f, (cap, true)) (seq 0 (length (i_users n)));
  Ok (fst r).
