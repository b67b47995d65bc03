(** Model of core/array.c: the growable array used for every list in the IR.
    Elements are abstracted to integers (the code copies opaque bytes, elements of one array all
    have the same size; equality is bytewise).  malloc is assumed to succeed. *)
From Verif Require Import M_Base.

(** include/linux/bpf_ir.h, struct array {data, num_elem, max_elem, elem_size}.
    [a_data = None] is the NULL pointer; a cell holding [None] is allocated but not yet written. *)
Record arr := mkArr { a_data : option (list (option Z)); a_num : nat; a_max : nat }.

(** array.c 4-10 bpf_ir_array_init *)
Definition arr_init : arr := mkArr None 0 0.

(** write one cell of the buffer; outside it is undefined behaviour *)
Fixpoint set_cell (l : list (option Z)) (i : nat) (v : option Z) : option (list (option Z)) :=
  match l, i with
  | [], _ => None
  | _ :: r, 0 => Some (v :: r)
  | x :: r, S i' => match set_cell r i' v with Some r' => Some (x :: r') | None => None end
  end.

(** array.c 22-41 bpf_ir_array_push *)
Definition arr_push (a : arr) (x : Z) : outcome arr :=
  (* 24-27 *)
  let '(d, mx) := match a_data a with
                  | None => (repeat None 2, 2)
                  | Some d => (d, a_max a)
                  end in
  (* 28-36 *)
  do dm <- (if mx <=? a_num a then
              if length d <? a_num a then UB       (* memcpy reads num_elem elements *)
              else if mx * 2 <? a_num a then UB    (* memcpy writes num_elem elements *)
              else Ok (firstn (a_num a) d ++ repeat None (mx * 2 - a_num a), mx * 2)
            else Ok (d, mx));
  let '(d', mx') := dm in
  (* 38-40 *)
  match set_cell d' (a_num a) (Some x) with
  | None => UB
  | Some d'' => Ok (mkArr (Some d'') (a_num a + 1) mx')
  end.

(** read of one element by index, as done through arr->data *)
Definition arr_cell (a : arr) (i : nat) : outcome Z :=
  match a_data a with
  | None => UB
  | Some d => match nth_error d i with
              | Some (Some z) => Ok z
              | _ => UB
              end
  end.

(** array.c 46-51: the search loop of bpf_ir_array_push_unique, from index [i], [n] elements left *)
Fixpoint arr_mem_from (a : arr) (i n : nat) (x : Z) : outcome bool :=
  match n with
  | 0 => Ok false
  | S n' => do z <- arr_cell a i; if Z.eqb z x then Ok true else arr_mem_from a (i + 1) n' x
  end.

(** array.c 43-53 bpf_ir_array_push_unique *)
Definition arr_push_unique (a : arr) (x : Z) : outcome arr :=
  do b <- arr_mem_from a 0 (a_num a) x;
  if (b : bool) then Ok a else arr_push a x.

(** array.c 61-65: the shifting loop, [n] iterations from index [i] *)
Fixpoint arr_shift (d : list (option Z)) (i n : nat) : outcome (list (option Z)) :=
  match n with
  | 0 => Ok d
  | S n' => match nth_error d (i + 1) with
            | None => UB
            | Some c => match set_cell d i c with
                        | None => UB
                        | Some d' => arr_shift d' (i + 1) n'
                        end
            end
  end.

(** array.c 55-67 bpf_ir_array_erase *)
Definition arr_erase (a : arr) (idx : nat) : outcome arr :=
  if a_num a <=? idx then Ok a
  else match a_data a with
       | None => UB
       | Some d => do d' <- arr_shift d idx (a_num a - 1 - idx);
                   Ok (mkArr (Some d') (a_num a - 1) (a_max a))
       end.

(** array.c 69-75 bpf_ir_array_clear *)
Definition arr_clear (a : arr) : arr := mkArr (Some (repeat None 4)) 0 4.

(** array.c 78-90 bpf_ir_array_clone *)
Definition arr_clone (a : arr) : outcome arr :=
  if a_num a =? 0 then Ok (mkArr None 0 (a_max a))
  else match a_data a with
       | None => UB
       | Some d => if length d <? a_num a then UB
                   else if a_max a <? a_num a then UB
                   else Ok (mkArr (Some (firstn (a_num a) d ++ repeat None (a_max a - a_num a)))
                                  (a_num a) (a_max a))
       end.

(** array.c 93-103 bpf_ir_array_merge: push_unique of every element of [b] *)
Fixpoint arr_merge_from (a b : arr) (i n : nat) : outcome arr :=
  match n with
  | 0 => Ok a
  | S n' => do z <- arr_cell b i; do a' <- arr_push_unique a z; arr_merge_from a' b (i + 1) n'
  end.
Definition arr_merge (a b : arr) : outcome arr := arr_merge_from a b 0 (a_num b).

(** array.c 112-118 bpf_ir_array_get_void ([None] is the NULL result) *)
Definition arr_get (a : arr) (idx : nat) : outcome (option Z) :=
  if a_num a <=? idx then Ok None else do z <- arr_cell a idx; Ok (Some z).

(** One call on an array; [OMerge l] merges an array that was itself built by pushing [l]. *)
Inductive arr_op :=
| OPush (x : Z) | OPushU (x : Z) | OErase (i : nat) | OClear | OClone | OMerge (l : list Z) | OGet (i : nat).

Definition arr_step (a : arr) (o : arr_op) : outcome (arr * option (option Z)) :=
  match o with
  | OPush x => do a' <- arr_push a x; Ok (a', None)
  | OPushU x => do a' <- arr_push_unique a x; Ok (a', None)
  | OErase i => do a' <- arr_erase a i; Ok (a', None)
  | OClear => Ok (arr_clear a, None)
  | OClone => do a' <- arr_clone a; Ok (a', None)
  | OMerge l => do b <- ofold arr_push arr_init l; do a' <- arr_merge a b; Ok (a', None)
  | OGet i => do r <- arr_get a i; Ok (a, Some r)
  end.

Fixpoint arr_run (a : arr) (os : list arr_op) : outcome (arr * list (option (option Z))) :=
  match os with
  | [] => Ok (a, [])
  | o :: r => do s <- arr_step a o;
              let '(a', out) := s in
              do t <- arr_run a' r;
              let '(a'', outs) := t in Ok (a'', out :: outs)
  end.

(** All elements, read through the API. *)
Fixpoint arr_dump_from (a : arr) (i n : nat) : outcome (list Z) :=
  match n with
  | 0 => Ok []
  | S n' => do z <- arr_cell a i; do r <- arr_dump_from a (i + 1) n'; Ok (z :: r)
  end.
Definition arr_dump (a : arr) : outcome (list Z) := arr_dump_from a 0 (a_num a).
