(** The translation of the ECALL instructions, passes/ecall.c.  [reach] is fun->reachable_bbs, which
    the pass does not change: the blocks made by splitting are not in it.  Definitions only.

    Simplification as in M_Pass: an error raised inside a callee ends the model run with [Err]. *)
From Verif Require Import SpecWord.
From Verif Require Import M_Base M_Ir M_Edit M_Ra M_Pass.
Open Scope nat_scope.

(** is_nonptr, 5-21.  The recursion of C has no bound; the model has fuel. *)
Fixpoint is_nonptr (fuel : nat) (f : func) (v : value) : outcome bool :=
  match fuel with
  | O => NoFuel
  | S k =>
    match v_data v with
    | VInsn d =>
      do x <- get_insn f d;
      if iop_eqb (i_op x) LOADRAW then Ok true
      else if is_bin_alu_op (i_op x) then
        match i_vals x with
        | a :: b :: _ => do p <- is_nonptr k f a; if p : bool then is_nonptr k f b else Ok false
        | _ => UB
        end
      else Ok false
    | _ => Ok true
    end
  end.

(** translate_heap, 83-131: one of the LOADRAW instructions found *)
Definition heap_load (fuel map : nat) (f : func) (i : nat) : outcome func :=
  do x <- get_insn f i;
  match v_data (a_val (i_addr x)) with
  | VInsn v0 =>
    do np <- is_nonptr fuel f (a_val (i_addr x));
    if negb np then Ok f
    else
      do r0 <- (if (a_off (i_addr x) =? 0)%Z then Ok (f, v0)
                else create_at f i (K_bin (val_insn v0) (val_const32 (a_off (i_addr x))) ADD A_64) P_FRONT);
      do r1 <- create_at (fst r0) i (K_allocarray VR_64 1) P_FRONT;
      do r2 <- create_at (fst r1) i (K_storeraw VR_64 (addr_val (val_insn (snd r1)) 0) (val_insn (snd r0))) P_FRONT;
      do r3 <- create_at (fst r2) i (K_getelemptr (snd r1) (val_const32 0)) P_FRONT;
      do r4 <- create_at (fst r3) i (K_call 1) P_FRONT;
      let c := snd r4 in
      do f5 <- add_call_arg (fst r4) c (val_insn map);
      do f6 <- add_call_arg f5 c (val_insn (snd r3));
      do f7 <- change_value f6 i SAddr (val_insn c);
      do y <- get_insn f7 i;
      let f8 := put_insn f7 i (set_addr (mkAddr (a_val (i_addr y)) 0 (a_ot (i_addr y))) y) in
      do e <- create_error_block f8 c P_BACK;
      match e with
      | (_, None) => Err
      | (f9, Some (eb, nb)) =>
        do j <- create_at f9 c (K_jbin (val_insn c) (val_const32 0) nb eb JEQ A_64) P_BACK;
        Ok (fst j)
      end
  | _ => Ok f
  end.

(** translate_heap, 133-150: one of the STORERAW instructions found *)
Definition heap_store (fuel map : nat) (f : func) (i : nat) : outcome func :=
  do x <- get_insn f i;
  match v_data (a_val (i_addr x)) with
  | VInsn v0 =>
    do np <- is_nonptr fuel f (a_val (i_addr x));
    if negb np then Ok f
    else
      do r <- create_at f i (K_bin (val_insn map) (val_insn v0) ADD A_64) P_FRONT;
      change_value (fst r) i SAddr (val_insn (snd r))
  | _ => Ok f
  end.

(** translate_heap, 23-151 *)
Definition translate_heap (fuel : nat) (reach : list nat) (f : func) (i : nat) : outcome func :=
  do x <- get_insn f i;
  match i_vals x with
  | [a0; a1] =>
    match v_data a0, v_data a1 with
    | VInsn map, VConst _ =>
      do f1 <- erase_insn f i;
      do ls <- collect (fun x => iop_eqb (i_op x) LOADRAW) f1 reach;
      do ss <- collect (fun x => iop_eqb (i_op x) STORERAW) f1 reach;
      do f2 <- ofold (heap_load fuel map) f1 ls;
      ofold (heap_store fuel map) f2 ss
    | _, _ => Err
    end
  | _ => Err
  end.

(** A node of a circular list: an instruction, or the head that is embedded in a block. *)
Inductive node := At (i : nat) | Head (b : nat).
Definition next_node (f : func) (i : nat) : outcome node :=
  do x <- get_insn f i;
  do b <- get_block f (i_parent x);
  match index_of i (b_insns b) with
  | None => UB
  | Some k => Ok (match nth_error (b_insns b) (S k) with Some j => At j | None => Head (i_parent x) end)
  end.
(** list_for_each_entry_safe, 169-181.  The next node is read before the body.  The loop ends at the
    head of the list it started with; the head of another list is taken for an instruction. *)
Fixpoint ecall_walk (fuel : nat) (reach : list nat) (bb : nat) (f : func) (at_ : node) : outcome func :=
  match fuel with
  | O => NoFuel
  | S k =>
    match at_ with
    | Head c => if c =? bb then Ok f else UB
    | At i =>
      do x <- get_insn f i;
      do nx <- next_node f i;
      do f1 <- (if iop_eqb (i_op x) ECALL && (i_u x =? 0)%Z then translate_heap fuel reach f i else Ok f);
      ecall_walk k reach bb f1 nx
    end
  end.
(** bpf_ir_handle_ecalls, 160-182 *)
Definition handle_ecalls (fuel : nat) (reach : list nat) (f : func) : outcome func :=
  ofold (fun g bb => do b <- get_block g bb;
                     ecall_walk fuel reach bb g (match b_insns b with i :: _ => At i | [] => Head bb end)) f reach.
