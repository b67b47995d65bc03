(** Histories of IR edits: one constructor per API entry point of M_Edit. *)
From Verif Require Import M_Base M_Ir M_Edit.
Open Scope nat_scope.

Inductive edit : Type :=
| E_create_bb
| E_connect (a b : nat)
| E_disconnect (a b : nat)
| E_split (i : nat) (p : ipos)
| E_error_block (i : nat) (p : ipos)
| E_create_at_bb (bb : nat) (k : ctor) (p : ipos)
| E_create_at (at_ : nat) (k : ctor) (p : ipos)
| E_change (u : nat) (s : slot) (v : value)
| E_replace (d : nat) (rep : value)
| E_replace_except (d : nat) (rep : value) (ex : nat)
| E_phi_add (i bb : nat) (v : value)
| E_add_arg (i : nat) (v : value)
| E_erase (i : nat).

(** The state after the call; the error returns of split leave an edited state behind. *)
Definition apply_edit (f : func) (e : edit) : outcome func :=
  match e with
  | E_create_bb => Ok (fst (create_bb f))
  | E_connect a b => connect_bb f a b
  | E_disconnect a b => disconnect_bb f a b
  | E_split i p => do r <- split_bb f i p; Ok (fst r)
  | E_error_block i p => do r <- create_error_block f i p; Ok (fst r)
  | E_create_at_bb bb k p => do r <- create_at_bb f bb k p; Ok (fst r)
  | E_create_at i k p => do r <- create_at f i k p; Ok (fst r)
  | E_change u s v => change_value f u s v
  | E_replace d rep => replace_all f d rep
  | E_replace_except d rep ex => replace_all_except f d rep ex
  | E_phi_add i bb v => phi_add_operand f i bb v
  | E_add_arg i v => add_call_arg f i v
  | E_erase i => erase_insn f i
  end.

(** A function with one empty entry block (block 1; 0 is the null pointer) and no instruction. *)
Definition empty_func : func :=
  mkFunc (fun _ => None) (upd (fun _ => None) 1 (Some (mkBlock [] [] [] 0%Z))) 1 2 [1] 1.
