(** Common vocabulary of the model: outcomes of a C function. *)
From Coq Require Export List Arith ZArith Bool Lia.
Export ListNotations.

(** Outcome of running a C function.
    - [Ok a]   : returned normally.
    - [Err]    : RAISE_ERROR was executed (include/linux/bpf_ir.h 333-350: sets env->err and
                 returns from the current function).
    - [Crit]   : CRITICAL or a failed DBGASSERT (process exit / panic).
    - [UB]     : out-of-bounds access, use after free, modulo by zero, ...
    - [NoFuel] : the model's recursion bound was reached (no statement about the code). *)
Inductive outcome (A : Type) : Type :=
| Ok (a : A)
| Err
| Crit
| UB
| NoFuel.
Arguments Ok {A} a.
Arguments Err {A}.
Arguments Crit {A}.
Arguments UB {A}.
Arguments NoFuel {A}.

Definition bind {A B} (x : outcome A) (f : A -> outcome B) : outcome B :=
  match x with
  | Ok a => f a
  | Err => Err
  | Crit => Crit
  | UB => UB
  | NoFuel => NoFuel
  end.

Declare Scope outcome_scope.
Delimit Scope outcome_scope with outcome.
Notation "'do' x <- e ; f" := (bind e (fun x => f))
  (at level 200, x pattern, e at level 100, f at level 200, right associativity) : outcome_scope.
Open Scope outcome_scope.

Fixpoint ofold {S A} (f : S -> A -> outcome S) (s : S) (l : list A) : outcome S :=
  match l with
  | [] => Ok s
  | a :: r => do s' <- f s a; ofold f s' r
  end.

(** Reading the result of a run that is known to succeed (used in examples). *)
Definition is_ok {A} (o : outcome A) : bool := match o with Ok _ => true | _ => false end.
Definition get_ok {A} (d : A) (o : outcome A) : A := match o with Ok a => a | _ => d end.
Lemma get_ok_spec {A} (d : A) o : is_ok o = true -> o = Ok (get_ok d o).
Proof. destruct o; simpl; intros H; try discriminate; reflexivity. Qed.
