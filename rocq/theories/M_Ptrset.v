(** Model of core/ptrset.c: the open-addressing pointer set.
    Pointers are 64-bit integers.  [size] is assumed below 2^32-31, so that the u32 probe index
    does not wrap.  malloc_proto returns zeroed memory (core/lli.c 8-37), so a new table is all-empty. *)
From Verif Require Import M_Base.

(** bpf_ir.h 279-282 struct ptrset_entry: occupy 0 / 1 / -1.  The key left in a deleted slot is never read. *)
Inductive slot := SEmpty | SOcc (k : Z) | SDel.

(** bpf_ir.h struct ptrset {set, size, cnt}; size = length of the table *)
Record pset := mkPset { ps_tab : list slot; ps_cnt : nat }.
Definition ps_size (s : pset) : nat := length (ps_tab s).

(** ptrset.c 6 *)
Definition STEP : nat := 31.

(** core/include/hash.h 14-20 hash32_ptr: val ^= val >> 32; return (u32)val *)
Definition hash32_ptr (k : Z) : Z := Z.land (Z.lxor k (Z.shiftr k 32)) (2 ^ 32 - 1).

(** hash32_ptr(key) % set->size *)
Definition start_index (k : Z) (size : nat) : nat := Z.to_nat (hash32_ptr k mod Z.of_nat size).

Fixpoint set_slot (l : list slot) (i : nat) (v : slot) : list slot :=
  match l, i with
  | [], _ => []
  | _ :: r, 0 => v :: r
  | x :: r, S i' => x :: set_slot r i' v
  end.

(** ptrset.c 9-14 bpf_ir_ptrset_init *)
Definition ps_init (size : nat) : pset := mkPset (repeat SEmpty size) 0.
(** bpf_ir.h 273 INIT_PTRSET_DEF *)
Definition ps_def : pset := ps_init 8.

(** ptrset.c 19-32: the probe loop of insert_raw, [n] iterations left; the result is the table and
    whether a slot was taken (set->cnt++) *)
Fixpoint insert_loop (tab : list slot) (key : Z) (index n : nat) : outcome (list slot * bool) :=
  match n with
  | 0 => Crit                                  (* 32: CRITICAL("Impossible") *)
  | S n' => match nth_error tab index with
            | None => UB
            | Some SEmpty | Some SDel => Ok (set_slot tab index (SOcc key), true)
            | Some (SOcc k) => if Z.eqb k key then Ok (tab, false)
                               else insert_loop tab key ((index + STEP) mod length tab) n'
            end
  end.

(** ptrset.c 16-33 bpf_ir_ptrset_insert_raw *)
Definition insert_raw (s : pset) (key : Z) : outcome pset :=
  if ps_size s =? 0 then UB                    (* 18: modulo by zero *)
  else do r <- insert_loop (ps_tab s) key (start_index key (ps_size s)) (ps_size s);
       let '(tab, added) := r in
       Ok (mkPset tab (if (added : bool) then ps_cnt s + 1 else ps_cnt s)).

(** keys of the occupied slots in table order (loops at 42-47, 148-152, 166-171, 191-195, 202-206, 212-216,
    and bpf_ir_ptrset_next 126-141 / ptrset_for) *)
Fixpoint occ_keys (tab : list slot) : list Z :=
  match tab with
  | [] => []
  | SOcc k :: r => k :: occ_keys r
  | _ :: r => occ_keys r
  end.

(** ptrset.c 35-53 bpf_ir_ptrset_insert; growing keeps set->cnt as it was *)
Definition ps_insert (s : pset) (key : Z) : outcome pset :=
  do s' <- (if ps_size s <=? ps_cnt s
            then do t <- ofold insert_raw (ps_init (ps_size s * 2)) (occ_keys (ps_tab s));
                 Ok (mkPset (ps_tab t) (ps_cnt s))
            else Ok s);
  insert_raw s' key.

(** ptrset.c 58-73: the probe loop of delete; [None] is the result -1 *)
Fixpoint delete_loop (tab : list slot) (key : Z) (index n : nat) : outcome (option (list slot)) :=
  match n with
  | 0 => Ok None
  | S n' => match nth_error tab index with
            | None => UB
            | Some SEmpty => Ok None
            | Some SDel => delete_loop tab key ((index + STEP) mod length tab) n'
            | Some (SOcc k) => if Z.eqb k key then Ok (Some (set_slot tab index SDel))
                               else delete_loop tab key ((index + STEP) mod length tab) n'
            end
  end.

(** ptrset.c 55-74 bpf_ir_ptrset_delete; the boolean is "returned 0" *)
Definition ps_delete (s : pset) (key : Z) : outcome (pset * bool) :=
  if ps_size s =? 0 then UB
  else do r <- delete_loop (ps_tab s) key (start_index key (ps_size s)) (ps_size s);
       match r with
       | None => Ok (s, false)
       | Some tab => Ok (mkPset tab (ps_cnt s - 1), true)
       end.

(** ptrset.c 79-92: the probe loop of exists *)
Fixpoint exists_loop (tab : list slot) (key : Z) (index n : nat) : outcome bool :=
  match n with
  | 0 => Ok false
  | S n' => match nth_error tab index with
            | None => UB
            | Some SEmpty => Ok false
            | Some SDel => exists_loop tab key ((index + STEP) mod length tab) n'
            | Some (SOcc k) => if Z.eqb k key then Ok true
                               else exists_loop tab key ((index + STEP) mod length tab) n'
            end
  end.

(** ptrset.c 76-93 bpf_ir_ptrset_exists *)
Definition ps_exists (s : pset) (key : Z) : outcome bool :=
  if ps_size s =? 0 then UB
  else exists_loop (ps_tab s) key (start_index key (ps_size s)) (ps_size s).

(** ptrset.c 107-114 bpf_ir_ptrset_clean *)
Definition ps_clean (s : pset) : pset := mkPset (repeat SEmpty (ps_size s)) 0.

(** ptrset.c 143-159 bpf_ir_ptrset_union *)
Definition ps_union (s1 s2 : pset) : outcome pset :=
  do r <- ofold ps_insert (ps_init (ps_cnt s1 + ps_cnt s2)) (occ_keys (ps_tab s1));
  ofold ps_insert r (occ_keys (ps_tab s2)).

(** ptrset.c 161-173 bpf_ir_ptrset_intersec *)
Definition ps_intersec (s1 s2 : pset) : outcome pset :=
  ofold (fun r k => do b <- ps_exists s2 k; if (b : bool) then ps_insert r k else Ok r)
        (ps_init (ps_cnt s1)) (occ_keys (ps_tab s1)).

(** ptrset.c 187-196 bpf_ir_ptrset_clone *)
Definition ps_clone (s2 : pset) : outcome pset :=
  ofold ps_insert (ps_init (ps_size s2)) (occ_keys (ps_tab s2)).

(** ptrset.c 199-207 bpf_ir_ptrset_add *)
Definition ps_add (s1 s2 : pset) : outcome pset := ofold ps_insert s1 (occ_keys (ps_tab s2)).

(** ptrset.c 210-217 bpf_ir_ptrset_minus *)
Definition ps_minus (s1 s2 : pset) : outcome pset :=
  ofold (fun s k => do r <- ps_delete s k; Ok (fst r)) s1 (occ_keys (ps_tab s2)).

(** ptrset.c 116-124 and 176-183 bpf_ir_ptrset_free / bpf_ir_ptrset_move: set1 takes the table of set2,
    set2 becomes a set without a table *)
Definition ps_move (s1 s2 : pset) : pset * pset := (s2, mkPset [] 0).

(** Histories *)
Inductive ps_op := PIns (k : Z) | PDel (k : Z) | PMem (k : Z) | PCount | PClean.
Inductive ps_out := RUnit | RBool (b : bool) | RNat (n : nat).

Definition ps_step (s : pset) (o : ps_op) : outcome (pset * ps_out) :=
  match o with
  | PIns k => do s' <- ps_insert s k; Ok (s', RUnit)
  | PDel k => do r <- ps_delete s k; Ok (fst r, RBool (snd r))
  | PMem k => do b <- ps_exists s k; Ok (s, RBool b)
  | PCount => Ok (s, RNat (ps_cnt s))
  | PClean => Ok (ps_clean s, RUnit)
  end.

Fixpoint ps_run (s : pset) (os : list ps_op) : outcome (pset * list ps_out) :=
  match os with
  | [] => Ok (s, [])
  | o :: r => do t <- ps_step s o;
              let '(s', out) := t in
              do u <- ps_run s' r;
              let '(s'', outs) := u in Ok (s'', out :: outs)
  end.
