(** What lifting has to preserve: executions of the bytecode that never read a register whose
    content a helper call has destroyed. *)
From Coq Require Import ZArith List Bool Arith.
From Verif Require Import M_Ir SpecWord SpecIsa SpecSsa SpecCfg.
Import ListNotations.
Open Scope Z_scope.

(** Number of arguments of each helper function; [None] for helpers outside the interface. *)
Definition arity_table := Z -> option nat.

(** registers an instruction reads *)
Definition reads (ar : arity_table) (i : bpf_insn) : list Z :=
  let c := b_code i in
  let x := Z.odd (c / 8) in
  match c mod 8 with
  | 1 => [b_src i]
  | 2 => [b_dst i]
  | 3 => [b_dst i; b_src i]
  | 4 | 7 =>
    (if c / 16 =? 11 then [] else [b_dst i]) ++ (if x && negb (c / 16 =? 13) then [b_src i] else [])
  | 5 | 6 =>
    if c / 16 =? 0 then []
    else if c / 16 =? 9 then [0]
    else if c / 16 =? 8 then match ar (b_imm i) with Some k => firstn k [1; 2; 3; 4; 5] | None => [1; 2; 3; 4; 5] end
    else b_dst i :: (if x then [b_src i] else [])
  | _ => []
  end.

(** the register an instruction other than a call writes *)
Definition writes (i : bpf_insn) : list Z :=
  match b_code i mod 8 with
  | 0 | 1 | 4 | 7 => [b_dst i]
  | _ => []
  end.

(** registers destroyed by calls and not written since *)
Definition dirty := Z -> bool.
Definition dirty_after (i : bpf_insn) (d : dirty) : dirty :=
  if b_code i =? 0x85 then fun r => (1 <=? r) && (r <=? 5) || d r && negb (r =? 0)
  else fun r => d r && negb (existsb (Z.eqb r) (writes i)).

(** At most [n] steps; [None] when the machine gets stuck or reads a destroyed register. *)
Fixpoint crun (w : world) (ar : arity_table) (p : list bpf_insn) (n : nat) (pc : Z) (s : st) (d : dirty)
  : option (ires * dirty) :=
  match n with
  | O => Some (INext pc s, d)
  | S k =>
    match fetch p pc with
    | None => None
    | Some i =>
      if existsb d (reads ar i) then None
      else match isa_step w p pc s with
           | INext pc' s' => crun w ar p k pc' s' (dirty_after i d)
           | IExit r s' => Some (IExit r s', d)
           | IStuck => None
           end
    end
  end.

Definition clean : dirty := fun _ => false.

(** helpers look at their declared arguments only *)
Definition respects (w : world) (ar : arity_table) : Prop :=
  forall id k a a' n m, ar id = Some k -> firstn k a = firstn k a' ->
    length a = 5%nat -> length a' = 5%nat -> helper w n id a m = helper w n id a' m.

(** the IR state that corresponds to the machine state at program entry *)
Definition enters (s : st) (t : sst) (spi : nat) (argi : Z -> nat) : Prop :=
  s_env t spi = Some (rget s 10) /\ (forall r, 1 <= r <= 5 -> s_env t (argi r) = Some (rget s r)) /\
  s_mem t = mem s /\ s_nc t = ncall s.

(** every instruction can be reached from the first one *)
Inductive reach (p : list bpf_insn) : Z -> Prop :=
| re_0 : reach p 0
| re_s pc i t : reach p pc -> fetch p pc = Some i -> In t (next_pcs i pc) -> reach p t.
Definition all_reach (p : list bpf_insn) : Prop :=
  forall j i, at_pos p j i -> b_code i <> 0 -> reach p (Z.of_nat j).

(** The forms that the lifter gives another meaning (see the refutations): 32-bit moves of a
    register or of a negative constant, sign-extending loads, helpers without a fixed arity. *)
Definition plain (ar : arity_table) (i : bpf_insn) : Prop :=
  b_code i <> 0xbc /\ (b_code i = 0xb4 -> 0 <= b_imm i < 2 ^ 31) /\
  ~ (b_code i mod 8 = 1 /\ b_code i / 32 = 4) /\
  (b_code i = 0x85 -> ar (b_imm i) <> None).

(** ** The supported instruction set *)

(** Instructions with a meaning in the instruction set that the lifter can express. *)
Definition supported (ids : Z -> Prop) (i : bpf_insn) : Prop :=
  let c := b_code i in
  let n := c / 16 in
  let x := Z.odd (c / 8) in
  match c mod 8 with
  | 0 => c = 24 /\ 0 <= b_dst i <= 9 /\ b_src i <= 6
  | 1 => c / 32 = 3 /\ 0 <= b_dst i <= 9 /\ 0 <= b_src i <= 10
  | 2 => c / 32 = 3 /\ 0 <= b_dst i <= 10
  | 3 => c / 32 = 3 /\ 0 <= b_dst i <= 10 /\ 0 <= b_src i <= 10
  | 4 | 7 =>
    b_off i = 0 /\ 0 <= b_dst i <= 9 /\
    (n = 8 /\ x = false \/
     n = 13 /\ c mod 8 = 4 /\ (b_imm i = 16 \/ b_imm i = 32 \/ b_imm i = 64) \/
     (n = 11 \/ alu_of n <> None) /\ (x = true -> 0 <= b_src i <= 10))
  | 5 | 6 =>
    c = 5 \/ c = 0x95 \/ c = 0x85 /\ b_src i = 0 /\ ids (b_imm i) \/
    cmp_of n <> None /\ 0 <= b_dst i <= 10 /\ (x = true -> 0 <= b_src i <= 10)
  | _ => False
  end.

(** Instructions outside that set which the lifter does not reject (see the refutations): ALU and
    load instructions that write r10, byte swaps of another width, sign-extending loads, calls
    whose source register is neither 0 nor one of the two pseudo calls it knows. *)
Definition tolerated (i : bpf_insn) : Prop :=
  let c := b_code i in
  (In (c mod 8) [0; 1; 4; 7] /\ b_dst i = 10) \/
  (c mod 8 = 4 /\ c / 16 = 13 /\ b_imm i <> 16 /\ b_imm i <> 32 /\ b_imm i <> 64) \/
  (c mod 8 = 1 /\ c / 32 = 4) \/
  (c = 0x85 /\ b_src i <> 0 /\ b_src i <> 1 /\ b_src i <> 2).

(** the register fields name registers, a library call passes at most five arguments *)
Definition in_limits (i : bpf_insn) : Prop :=
  0 <= b_dst i <= 10 /\ 0 <= b_src i <= 10 /\ (b_code i = 0x85 -> b_src i = 6 -> b_dst i <= 5).

(** what the lifter is given: a well formed program within the limit on its length, all of it reachable, no
    jump to its first instruction *)
Record liftable (p : list bpf_insn) : Prop := {
  lb_wf : wf_prog p; lb_len : Z.of_nat (length p) <= 32768; lb_no0 : ~ jump_target p 0; lb_reach : all_reach p }.
