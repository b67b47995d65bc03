(** Runs of a function in SSA form that leave a set of addresses alone: they stop where a memory
    access touches the set.  Nothing here refers to the passes or the code generator. *)
From Coq Require Import ZArith List Bool Arith.
From Verif Require Import M_Base M_Ir SpecWord SpecFlat SpecSsa SpecIr.
Import ListNotations.
Open Scope Z_scope.

(** A set of addresses, and the addresses from [lo] to [hi]. *)
Definition addrs := Z -> bool.
Definition between (lo hi : Z) : addrs := fun x => existsb (fun j => u64 (lo + Z.of_nat j) =? x) (seq 0 (Z.to_nat (hi - lo))).
Definition touches (R : addrs) (a : Z) (k : nat) : bool := existsb (fun j => R (u64 (a + Z.of_nat j))) (seq 0 k).
(** Memory outside the set. *)
Definition agree (R : addrs) (m m' : memory) : Prop := forall x, R x = false -> m x = m' x.

(** The memory access of an instruction stays out of the set. *)
Definition squiet (R : addrs) (bi : bconst -> Z) (x : insn) (t : sst) : bool :=
  match i_op x with
  | LOADRAW | STORERAW =>
    match vr_bytes (i_vrt x), seval bi (s_env t) (a_val (i_addr x)) with
    | Some k, Some z => negb (touches R (z + a_off (i_addr x)) k)
    | _, _ => true
    end
  | _ => true
  end.
(** As [sexec], [sbody], [sblock] and [srun]. *)
Definition gsexec (R : addrs) (w : world) (bi : bconst -> Z) (f : func) (i : nat) (x : insn) (s : sst) : option sres :=
  if squiet R bi x s then sexec w bi f i x s else None.
Fixpoint gsbody (R : addrs) (w : world) (bi : bconst -> Z) (f : func) (s : sst) (l : list nat) : option sres :=
  match l with
  | [] => Some (SNext s)
  | i :: r =>
    let? x := f_insn f i in
    let? q := gsexec R w bi f i x s in
    match q with SNext s' => gsbody R w bi f s' r | _ => Some q end
  end.
Definition gsblock (R : addrs) (w : world) (bi : bconst -> Z) (f : func) (prev b : nat) (s : sst) : option sres :=
  let? k := f_block f b in
  let? q := sphis bi f prev s s (b_insns k) in
  let '(l, s1) := q in
  let? t := gsbody R w bi f s1 l in
  match t with
  | SNext s2 => match b_succs k with b' :: _ => Some (SJmp b' s2) | [] => None end
  | _ => Some t
  end.
Fixpoint gsrun (R : addrs) (w : world) (bi : bconst -> Z) (f : func) (n : nat) (prev b : nat) (s : sst) : option sout :=
  match n with
  | O => Some (OAt prev b s)
  | S k =>
    let? t := gsblock R w bi f prev b s in
    match t with
    | SJmp b' s' => gsrun R w bi f k b b' s'
    | SRet r s' => Some (ORet r s')
    | SThrow s' => Some (OThrow s')
    | SNext _ => None
    end
  end.
