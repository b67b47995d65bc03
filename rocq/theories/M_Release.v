(** The variant of the throw pass that releases ring buffer references, core/passes/translate_throw.c
    1-303 (translate_throw_df; not called by the pipeline, which uses translate_throw).  Arrays are lists
    (C01).  A block without user_data is dereferenced as NULL: [UB].  RAISE_ERROR is [Err]; freeing is
    not modelled.  A call without arguments has type IR_VALUE_CONSTANT in the unused values[0]. *)
From Verif Require Import M_Base M_Ir M_Edit SpecIr.
Open Scope list_scope.
Open Scope nat_scope.

(** struct bb_extra, 8-13 *)
Record bx := mkBx { x_gen : list nat; x_kill : list nat; x_in : list nat; x_out : list nat }.
Definition extra := nat -> option bx.
Definition RESERVE : Z := 131. Definition SUBMIT : Z := 132. Definition DISCARD : Z := 133.
Definition is_reserve (x : insn) : bool := iop_eqb (i_op x) CALL && (i_u x =? RESERVE)%Z.

(** array_contains 39-49, equal_set 51-66, array_delta 68-82, array_intersect 84-98 *)
Definition contains (l : list nat) (i : nat) : bool := existsb (Nat.eqb i) l.
Definition equal_set (a b : list nat) : bool := (length a =? length b) && forallb (contains b) a.
Definition delta (a b : list nat) : list nat := filter (fun i => negb (contains b i)) a.
Definition intersect (a b : list nat) : list nat := filter (contains b) a.
(** array.c 93-103 *)
Definition merge (a b : list nat) : list nat := fold_left push_unique b a.

(** the two conditions on one instruction, 202-231 *)
Definition scan_insn (f : func) (s : list nat * list nat) (i : nat) : outcome (list nat * list nat) :=
  do x <- get_insn f i;
  if iop_eqb (i_op x) CALL then
    let gen := if (i_u x =? RESERVE)%Z then fst s ++ [i] else fst s in
    if (i_u x =? DISCARD)%Z || (i_u x =? SUBMIT)%Z then
      match nth_error (i_vals x) 0 with
      | Some v =>
        match v_data v with
        | VInsn r => do y <- get_insn f r; if is_reserve y then Ok (gen, snd s ++ [r]) else Err
        | _ => Err
        end
      | None => Err
      end
    else Ok (gen, snd s)
  else Ok s.
(** 193-233 *)
Definition scan_block (f : func) (e : extra) (b : nat) : outcome extra :=
  do bb <- get_block f b;
  do s <- ofold (scan_insn f) ([], []) (b_insns bb);
  Ok (upd e b (Some (mkBx (fst s) (snd s) [] []))).

Definition get_extra (e : extra) (b : nat) : outcome bx := match e b with Some x => Ok x | None => UB end.
(** IN, 246-266; [None] while in_null *)
Definition meet (e : extra) (acc : option (list nat)) (p : nat) : outcome (option (list nat)) :=
  do x <- get_extra e p;
  Ok (Some match acc with None => x_out x | Some l => intersect l (x_out x) end).
Definition in_of (f : func) (e : extra) (b : nat) : outcome (list nat) :=
  do bb <- get_block f b;
  do r <- ofold (meet e) None (b_preds bb);
  Ok match r with Some l => l | None => [] end.
(** one block of a round, 242-280 *)
Definition df_block (f : func) (s : extra * bool) (b : nat) : outcome (extra * bool) :=
  do x <- get_extra (fst s) b;
  do i <- in_of f (fst s) b;
  let out := delta (merge i (x_gen x)) (x_kill x) in
  Ok (upd (fst s) b (Some (mkBx (x_gen x) (x_kill x) i out)), snd s || negb (equal_set (x_in x) i)).
(** while (changed), 238-281 *)
Fixpoint df_loop (fuel : nat) (f : func) (reach : list nat) (e : extra) : outcome extra :=
  match fuel with
  | O => NoFuel
  | S k =>
    do s <- ofold (df_block f) (e, false) reach;
    if snd s then df_loop k f reach (fst s) else Ok (fst s)
  end.
Definition df (fuel : nat) (f : func) (reach : list nat) : outcome extra :=
  do e <- ofold (scan_block f) (fun _ => None) reach;
  df_loop fuel f reach e.

(** translate_throw_helper, 100-186 *)
Definition last_throw (f : func) (acc : list nat) (b : nat) : outcome (list nat) :=
  do bb <- get_block f b;
  match rev (b_insns bb) with
  | [] => Ok acc
  | i :: _ => do x <- get_insn f i; Ok (if iop_eqb (i_op x) THROW then acc ++ [i] else acc)
  end.
(** 121-146 *)
Definition release (t : nat) (f : func) (r : nat) : outcome func :=
  do y <- get_insn f r;
  if is_reserve y then
    do c <- create_at f t (K_call DISCARD) P_FRONT;
    do f1 <- add_call_arg (fst c) (snd c) (val_insn r);
    add_call_arg f1 (snd c) (val_const32 0)
  else Err.
(** the message, 148-181 *)
Definition message (t : nat) (f : func) : outcome func :=
  do a <- create_at f t (K_allocarray VR_64 1) P_FRONT;
  do s1 <- create_at (fst a) (snd a) (K_storeraw VR_8 (addr_val (val_insn (snd a)) 4) (val_const32 0)) P_BACK;
  do s2 <- create_at (fst s1) (snd s1) (K_storeraw VR_32 (addr_val (val_insn (snd a)) 0) (val_const32 1953069157)) P_BACK;
  do p <- create_at (fst s2) (snd s2) (K_getelemptr (snd a) (val_const32 0)) P_BACK;
  do c <- create_at (fst p) (snd p) (K_call 6) P_BACK;
  do f1 <- add_call_arg (fst c) (snd c) (val_insn (snd p));
  add_call_arg f1 (snd c) (val_const32 5).
Definition end_throw (msg : bool) (e : extra) (f : func) (t : nat) : outcome func :=
  do x <- get_insn f t;
  do ex <- get_extra e (i_parent x);
  do f1 <- ofold (release t) f (x_out ex);
  do f2 <- (if msg then message t f1 else Ok f1);
  do x2 <- get_insn f2 t;
  Ok (put_insn f2 t (set_vals [val_const32 0] (set_op RET x2))).
Definition translate_throw_df (fuel : nat) (msg : bool) (reach : list nat) (f : func) : outcome func :=
  do e <- df fuel f reach;
  do l <- ofold (last_throw f) [] reach;
  ofold (end_throw msg e) f l.
