(** Specification: finite sets of integers as duplicate-free lists.  Nothing here comes from the code base. *)
From Coq Require Import List ZArith.
From Verif Require Import M_Ptrset.
Import ListNotations.

Definition memb (k : Z) (s : list Z) : bool := if in_dec Z.eq_dec k s then true else false.

Definition set_step (s : list Z) (o : ps_op) : list Z * ps_out :=
  match o with
  | PIns k => (if memb k s then s else k :: s, RUnit)
  | PDel k => (remove Z.eq_dec k s, RBool (memb k s))
  | PMem k => (s, RBool (memb k s))
  | PCount => (s, RNat (length s))
  | PClean => ([], RUnit)
  end.

Fixpoint set_run (s : list Z) (os : list ps_op) : list Z * list ps_out :=
  match os with
  | [] => (s, [])
  | o :: r => let '(s', out) := set_step s o in
              let '(s'', outs) := set_run s' r in (s'', out :: outs)
  end.

(** [no_dup_insert s d os]: starting from set [s], where [d] tells whether an element was deleted since the set
    was last empty, the history never inserts an element that is already a member after a deletion. *)
Fixpoint no_dup_insert (s : list Z) (d : bool) (os : list ps_op) : bool :=
  match os with
  | [] => true
  | o :: r =>
    (match o with PIns k => negb d || negb (memb k s) | _ => true end)
    && no_dup_insert (fst (set_step s o))
         (match o with PDel k => d || memb k s | PClean => false | _ => d end) r
  end.
