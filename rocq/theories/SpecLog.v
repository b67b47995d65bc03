(** What a log should hold. *)
From Verif Require Import M_Base M_Log.
Open Scope Z_scope.

(** the text in the buffer *)
Definition text (l : log) : list ascii := map (fun k => lg_buf l (Z.of_nat k)) (seq 0 (Z.to_nat (lg_pos l))).
(** the messages of a history that are printed at verbosity [v] *)
Definition shown (v : Z) (h : list (Z * list ascii)) : list (list ascii) :=
  map snd (filter (fun m => fst m <=? v) h).
Definition log_history (v : Z) (h : list (Z * list ascii)) (l : log) : outcome log :=
  ofold (fun l m => print_to_log v (fst m) (snd m) l) l h.
Definition empty_log (b : Z -> ascii) : log := mkLog b 0.
(** No line (with its newline) of the text has 1000 characters or more. *)
Definition short_lines (t : list ascii) : Prop :=
  forall a l b, t = a ++ l ++ b -> ~ In nl l -> zlen l <= 998.
