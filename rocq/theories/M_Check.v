(** Model of the program checker, core/aux/prog_check.c, and of check_userdata,
    core/aux/cg_prog_check.c.  [reach] is fun->reachable_bbs, [sp] and [args] the special
    instructions of the function.  Definitions only. *)
From Verif Require Import M_Base M_Ir M_Edit M_Ra.
Open Scope nat_scope.

Definition assert (b : bool) : outcome unit := if b then Ok tt else Err.
(** the body of a loop that only checks *)
Fixpoint oall {A} (f : A -> outcome unit) (l : list A) : outcome unit :=
  match l with
  | [] => Ok tt
  | a :: r => do _ <- f a; oall f r
  end.

(** check_insn_users_use_insn, 5-35 *)
Definition users_use (f : func) (i : nat) : outcome unit :=
  do x <- get_insn f i;
  oall (fun u => do y <- get_insn f u; assert (existsb (refers i) (operands y))) (i_users x).

Definition is_one_of (l : list iop) (o : iop) : bool := existsb (iop_eqb o) l.
(** bpf_ir_valid_alu_type, bpf_ir_valid_vr_type *)
Definition valid_alu (a : alut) : bool := match a with A_UNKNOWN => false | _ => true end.
Definition valid_vr (t : vrt) : bool := match t with VR_UNKNOWN => false | _ => true end.
(** values[k] is the result of an instruction with operation [o] *)
Definition value_is (f : func) (x : insn) (k : nat) (o : iop) : outcome bool :=
  match nth_error (i_vals x) k with
  | Some v => match val_target v with
              | Some d => do y <- get_insn f d; Ok (iop_eqb (i_op y) o)
              | None => Ok false
              end
  | None => Ok false
  end.
(** check_insn, 37-170, one instruction *)
Definition check_one (f : func) (bb i : nat) : outcome unit :=
  do x <- get_insn f i;
  let o := i_op x in
  let n := length (i_vals x) in
  do _ <- assert (i_parent x =? bb);
  do _ <- assert (negb (is_one_of [LOADRAW; ALLOC; JA; PHI; ALLOCARRAY; THROW] o) || (n =? 0));
  do _ <- assert (negb (is_one_of [STORERAW; LOAD; RET; NEG; HTOBE; HTOLE] o) || (n =? 1));
  do _ <- assert (negb (is_one_of [HTOBE; HTOLE] o) || ((i_u x =? 16) || (i_u x =? 32) || (i_u x =? 64))%Z);
  do _ <- assert (negb (iop_eqb o STORE || is_bin_alu_op o || is_cond_jmp_op o || iop_eqb o GETELEMPTR) || (n =? 2));
  do a <- (if is_one_of [STORE; LOAD] o then value_is f x 0 ALLOC else Ok true);
  do _ <- assert a;
  do b <- (if iop_eqb o GETELEMPTR then value_is f x 1 ALLOCARRAY else Ok true);
  do _ <- assert b;
  do _ <- assert (negb (iop_eqb o CALL) || negb (i_u x =? 0)%Z);
  do _ <- assert (negb (is_bin_alu_op o || is_cond_jmp_op o) || valid_alu (i_alu x));
  do _ <- assert (negb (is_one_of [ALLOC; LOADRAW; STORERAW] o) || valid_vr (i_vrt x));
  assert (forallb (fun v => match v_data v with VConst _ => valid_alu (v_ct v) | _ => true end) (operands x)).

(** for each block, for each of its instructions *)
Definition each_insn (f : func) (reach : list nat) (P : nat -> nat -> outcome unit) : outcome unit :=
  oall (fun b => do k <- get_block f b; oall (P b) (b_insns k)) reach.

Definition check_insns (f : func) (reach : list nat) : outcome unit := each_insn f reach (check_one f).

(** check_phi, 372-396 *)
Fixpoint phis_first (f : func) (all_phi : bool) (l : list nat) : outcome unit :=
  match l with
  | [] => Ok tt
  | i :: r => do x <- get_insn f i;
              if iop_eqb (i_op x) PHI then do _ <- assert all_phi; phis_first f all_phi r
              else phis_first f false r
  end.
Definition check_phis (f : func) (reach : list nat) : outcome unit :=
  oall (fun b => do k <- get_block f b; phis_first f true (b_insns k)) reach.

(** check_insn_operand, 172-210 *)
Definition operands_registered (f : func) (i : nat) : outcome unit :=
  do x <- get_insn f i;
  oall (fun v => match val_target v with
                 | None => Ok tt
                 | Some d => do y <- get_insn f d; assert (existsb (Nat.eqb i) (i_users y))
                 end) (operands x).
(** check_users, 213-237 *)
Definition check_users (f : func) (reach : list nat) (sp : nat) (args : list nat) : outcome unit :=
  do _ <- oall (users_use f) args;
  do _ <- users_use f sp;
  each_insn f reach (fun _ i => do _ <- users_use f i; operands_registered f i).

(** check_jumping, 239-369, one block *)
Definition list_eqb (l m : list nat) : bool := if list_eq_dec Nat.eq_dec l m then true else false.
Definition check_jump (f : func) (bb i : nat) : outcome unit :=
  do x <- get_insn f i;
  if is_jmp_op (i_op x) then
    do p <- get_block f (i_parent x);
    do _ <- assert (match rev (b_insns p) with z :: _ => z =? i | [] => false end);
    do b <- get_block f bb;
    if iop_eqb (i_op x) RET || iop_eqb (i_op x) THROW then assert (length (b_succs b) =? 0)
    else if is_cond_jmp_op (i_op x) then assert (list_eqb (b_succs b) [i_bb1 x; i_bb2 x])
    else assert (list_eqb (b_succs b) [i_bb1 x])
  else Ok tt.
Fixpoint any_jump (f : func) (l : list nat) : outcome bool :=
  match l with
  | [] => Ok false
  | i :: r => do x <- get_insn f i; do t <- any_jump f r; Ok (is_jmp_op (i_op x) || t)
  end.
Definition check_block (f : func) (bb : nat) : outcome unit :=
  do b <- get_block f bb;
  do _ <- oall (fun p => do y <- get_block f p; assert (existsb (Nat.eqb bb) (b_succs y))) (b_preds b);
  do _ <- oall (fun s => do y <- get_block f s; assert (existsb (Nat.eqb bb) (b_preds y))) (b_succs b);
  do _ <- oall (check_jump f bb) (b_insns b);
  do j <- any_jump f (b_insns b);
  assert (j || (length (b_succs b) =? 1)).
Definition check_jumping (f : func) (reach : list nat) : outcome unit := oall (check_block f) reach.

(** bpf_ir_prog_check, 414-434 *)
Definition prog_check (f : func) (reach : list nat) (sp : nat) (args : list nat) : outcome unit :=
  do _ <- check_insns f reach;
  do _ <- check_phis f reach;
  do _ <- check_users f reach sp args;
  check_jumping f reach.

(** check_userdata, cg_prog_check.c 5-19 *)
Definition check_userdata (s : cgs) : outcome unit :=
  each_insn (c_f s) (c_reach s) (fun _ i => assert (match c_ex s i with Some _ => true | None => false end)).
