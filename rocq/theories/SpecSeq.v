(** Specification: plain sequences.  Nothing here comes from the code base. *)
From Coq Require Import List ZArith.
From Verif Require Import M_Array.
Import ListNotations.

(** remove the element at index [i]; out of range: unchanged *)
Fixpoint seq_remove {A} (i : nat) (l : list A) : list A :=
  match l, i with
  | [], _ => []
  | _ :: r, 0 => r
  | x :: r, S i' => x :: seq_remove i' r
  end.

Definition seq_add (l : list Z) (x : Z) : list Z :=
  if in_dec Z.eq_dec x l then l else l ++ [x].

Definition seq_step (l : list Z) (o : arr_op) : list Z * option (option Z) :=
  match o with
  | OPush x => (l ++ [x], None)
  | OPushU x => (seq_add l x, None)
  | OErase i => (seq_remove i l, None)
  | OClear => ([], None)
  | OClone => (l, None)
  | OMerge m => (fold_left seq_add m l, None)
  | OGet i => (l, Some (nth_error l i))
  end.

Fixpoint seq_run (l : list Z) (os : list arr_op) : list Z * list (option (option Z)) :=
  match os with
  | [] => (l, [])
  | o :: r => let '(l', out) := seq_step l o in
              let '(l'', outs) := seq_run l' r in (l'', out :: outs)
  end.
