(** Machine words, arithmetic and memory.  Independent of the repository: this is the meaning of
    the eBPF arithmetic instructions (Documentation/bpf/standardization/instruction-set.rst). *)
From Coq Require Import ZArith List Bool.
Import ListNotations.
Open Scope Z_scope.

Definition u64 (x : Z) : Z := x mod 2 ^ 64.
Definition u32 (x : Z) : Z := x mod 2 ^ 32.
(** two's complement reading of the low [n] bits *)
Definition sgn (n x : Z) : Z := let y := x mod 2 ^ n in if y <? 2 ^ (n - 1) then y else y - 2 ^ n.
Definition s64 := sgn 64.
Definition s32 := sgn 32.
Definition s16 := sgn 16.

(** Width of an operation: [true] is 64 bit, [false] is 32 bit with a zero-extended result. *)
Definition bits (w : bool) : Z := if w then 64 else 32.
Definition trunc (w : bool) (x : Z) : Z := x mod 2 ^ bits w.

Inductive aluop := AAdd | ASub | AMul | ADiv | AOr | AAnd | ALsh | ARsh | AArsh | AMod | AXor.

(** Division by zero gives 0, remainder by zero gives the (truncated) dividend; shift amounts are
    masked to the width. *)
Definition alu_fn (o : aluop) (w : bool) (x y : Z) : Z :=
  let a := trunc w x in let b := trunc w y in
  trunc w
    match o with
    | AAdd => a + b
    | ASub => a - b
    | AMul => a * b
    | ADiv => if b =? 0 then 0 else a / b
    | AMod => if b =? 0 then a else a mod b
    | AOr => Z.lor a b
    | AAnd => Z.land a b
    | AXor => Z.lxor a b
    | ALsh => Z.shiftl a (b mod bits w)
    | ARsh => Z.shiftr a (b mod bits w)
    | AArsh => Z.shiftr (sgn (bits w) a) (b mod bits w)
    end.

Definition neg_fn (w : bool) (x : Z) : Z := trunc w (- trunc w x).

Inductive cmpop := CEq | CNe | CGt | CGe | CLt | CLe | CSgt | CSge | CSlt | CSle.

Definition cmp_fn (o : cmpop) (w : bool) (x y : Z) : bool :=
  let a := trunc w x in let b := trunc w y in
  let c := sgn (bits w) x in let d := sgn (bits w) y in
  match o with
  | CEq => a =? b
  | CNe => negb (a =? b)
  | CGt => b <? a
  | CGe => b <=? a
  | CLt => a <? b
  | CLe => a <=? b
  | CSgt => d <? c
  | CSge => d <=? c
  | CSlt => c <? d
  | CSle => c <=? d
  end.

(** Reverse the order of the [n] low bytes. *)
Fixpoint bswap (n : nat) (x acc : Z) : Z :=
  match n with
  | O => acc
  | S k => bswap k (x / 256) (acc * 256 + x mod 256)
  end.
(** htole / htobe of the low [width] bits on a little-endian machine. *)
Definition end_fn (to_be : bool) (width x : Z) : Z :=
  if to_be then bswap (Z.to_nat (width / 8)) x 0 else x mod 2 ^ width.

(** Byte-addressed little-endian memory; addresses wrap at 2^64. *)
Definition memory := Z -> Z.
Definition mem_set (m : memory) (a v : Z) : memory := fun x => if x =? a then v else m x.
Fixpoint load (m : memory) (a : Z) (n : nat) : Z :=
  match n with
  | O => 0
  | S k => m (u64 a) mod 256 + 256 * load m (a + 1) k
  end.
Fixpoint store (m : memory) (a : Z) (n : nat) (v : Z) : memory :=
  match n with
  | O => m
  | S k => store (mem_set m (u64 a) (v mod 256)) (a + 1) k (v / 256)
  end.

(** Machine state: registers r0..r10, memory, number of helper calls made so far. *)
Record st := mkSt { regs : list Z; mem : memory; ncall : nat }.

Definition rget (s : st) (r : Z) : Z := nth (Z.to_nat r) (regs s) 0.
Fixpoint lset (l : list Z) (n : nat) (v : Z) : list Z :=
  match l, n with
  | [], _ => []
  | _ :: r, O => v :: r
  | x :: r, S k => x :: lset r k v
  end.
Definition rset (s : st) (r v : Z) : st := mkSt (lset (regs s) (Z.to_nat r) (u64 v)) (mem s) (ncall s).
Definition mset (s : st) (m : memory) : st := mkSt (regs s) m (ncall s).

Definition is_reg (r : Z) : bool := (0 <=? r) && (r <=? 10).
(** r10 is read-only *)
Definition is_wreg (r : Z) : bool := (0 <=? r) && (r <=? 9).

(** The environment: helper functions (which see the arguments r1..r5, the memory and the number of
    calls made before, and produce new values for r0..r5 and a new memory) and the addresses that
    the loader substitutes in the relocated forms of the 64-bit immediate load. *)
Record world := mkWorld {
  helper : nat -> Z -> list Z -> memory -> list Z * memory;
  ldext : Z -> Z -> Z }.

Definition call_helper (w : world) (id : Z) (s : st) : st :=
  let '(r, m) := helper w (ncall s) id [rget s 1; rget s 2; rget s 3; rget s 4; rget s 5] (mem s) in
  mkSt (map (fun i => u64 (nth i r 0)) [0%nat; 1%nat; 2%nat; 3%nat; 4%nat; 5%nat] ++ skipn 6 (regs s)) m (S (ncall s)).

(** All registers present and in range. *)
Definition st_ok (s : st) : Prop := length (regs s) = 11%nat /\ Forall (fun v => 0 <= v < 2 ^ 64) (regs s).
