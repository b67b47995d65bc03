(** The eBPF instruction set, as an executable step function over instruction arrays.
    Independent of the repository.  Not covered (the step is [IStuck]): atomic operations, legacy
    packet access (LD ABS/IND), bpf-to-bpf and kfunc calls, the 32-bit-offset jump, byte swap in the ALU64 class. *)
From Coq Require Import ZArith List Bool.
From Verif Require Import SpecWord.
Import ListNotations.
Open Scope Z_scope.

Record bpf_insn := mkBpf { b_code : Z; b_dst : Z; b_src : Z; b_off : Z; b_imm : Z }.

Inductive ires := INext (pc : Z) (s : st) | IExit (r : Z) (s : st) | IStuck.

Definition alu_of (nib : Z) : option aluop :=
  match nib with
  | 0 => Some AAdd | 1 => Some ASub | 2 => Some AMul | 3 => Some ADiv | 4 => Some AOr
  | 5 => Some AAnd | 6 => Some ALsh | 7 => Some ARsh | 9 => Some AMod | 10 => Some AXor
  | 12 => Some AArsh | _ => None
  end.
Definition cmp_of (nib : Z) : option cmpop :=
  match nib with
  | 1 => Some CEq | 2 => Some CGt | 3 => Some CGe | 5 => Some CNe | 6 => Some CSgt | 7 => Some CSge
  | 10 => Some CLt | 11 => Some CLe | 12 => Some CSlt | 13 => Some CSle | _ => None
  end.
(** bytes accessed: W, H, B, DW *)
Definition size_of (z : Z) : nat :=
  match z with 0 => 4%nat | 1 => 2%nat | 2 => 1%nat | _ => 8%nat end.

(** signed division and remainder (offset 1) *)
Definition sdiv_fn (w : bool) (x y : Z) : Z :=
  let a := sgn (bits w) x in let b := sgn (bits w) y in
  trunc w (if b =? 0 then 0 else Z.quot a b).
Definition smod_fn (w : bool) (x y : Z) : Z :=
  let a := sgn (bits w) x in let b := sgn (bits w) y in
  trunc w (if b =? 0 then a else Z.rem a b).

Definition fetch (p : list bpf_insn) (pc : Z) : option bpf_insn :=
  if pc <? 0 then None else nth_error p (Z.to_nat pc).

(** ALU and ALU64 *)
Definition isa_alu (w : bool) (i : bpf_insn) (pc : Z) (s : st) : ires :=
  let nib := b_code i / 16 in
  let x := Z.odd (b_code i / 8) in
  let src := if x then rget s (b_src i) else b_imm i in
  if negb (is_wreg (b_dst i)) || (x && negb (nib =? 13) && negb (is_reg (b_src i))) then IStuck
  else
    let ret v := INext (pc + 1) (rset s (b_dst i) v) in
    if nib =? 8 then ret (neg_fn w (rget s (b_dst i)))
    else if nib =? 11 then
      match b_off i with
      | 0 => ret (trunc w src)
      | 8 => if x then ret (trunc w (sgn 8 src)) else IStuck
      | 16 => if x then ret (trunc w (sgn 16 src)) else IStuck
      | 32 => if x && w then ret (trunc w (sgn 32 src)) else IStuck
      | _ => IStuck
      end
    else if nib =? 13 then
      if w then IStuck
      else if (b_imm i =? 16) || (b_imm i =? 32) || (b_imm i =? 64)
           then ret (end_fn x (b_imm i) (rget s (b_dst i))) else IStuck
    else
      match alu_of nib, b_off i with
      | Some o, 0 => ret (alu_fn o w (rget s (b_dst i)) src)
      | Some ADiv, 1 => ret (sdiv_fn w (rget s (b_dst i)) src)
      | Some AMod, 1 => ret (smod_fn w (rget s (b_dst i)) src)
      | _, _ => IStuck
      end.

(** JMP and JMP32 *)
Definition isa_jmp (w : world) (wide : bool) (i : bpf_insn) (pc : Z) (s : st) : ires :=
  let nib := b_code i / 16 in
  let x := Z.odd (b_code i / 8) in
  if nib =? 0 then (if wide && negb x then INext (pc + 1 + b_off i) s else IStuck)
  else if nib =? 8 then
    (if wide && negb x && (b_src i =? 0) then INext (pc + 1) (call_helper w (b_imm i) s) else IStuck)
  else if nib =? 9 then (if wide && negb x then IExit (rget s 0) s else IStuck)
  else if negb (is_reg (b_dst i)) || (x && negb (is_reg (b_src i))) then IStuck
  else
    let src := if x then rget s (b_src i) else b_imm i in
    let taken :=
      if nib =? 4 then Some (negb (Z.land (trunc wide (rget s (b_dst i))) (trunc wide src) =? 0))
      else option_map (fun o => cmp_fn o wide (rget s (b_dst i)) src) (cmp_of nib) in
    match taken with
    | Some t => INext (if t then pc + 1 + b_off i else pc + 1) s
    | None => IStuck
    end.

Definition isa_step (w : world) (p : list bpf_insn) (pc : Z) (s : st) : ires :=
  match fetch p pc with
  | None => IStuck
  | Some i =>
    let size := size_of ((b_code i / 8) mod 4) in
    let mode := b_code i / 32 in
    match b_code i mod 8 with
    | 0 => (* LD: only the 64-bit immediate load *)
      match b_code i, fetch p (pc + 1) with
      | 24, Some j =>
        if is_wreg (b_dst i) && (0 <=? b_src i) && (b_src i <=? 6) && (b_code j =? 0)
        then let imm := u32 (b_imm i) + 2 ^ 32 * u32 (b_imm j) in
             INext (pc + 2) (rset s (b_dst i) (if b_src i =? 0 then imm else ldext w (b_src i) imm))
        else IStuck
      | _, _ => IStuck
      end
    | 1 => (* LDX *)
      if is_wreg (b_dst i) && is_reg (b_src i) then
        let v := load (mem s) (rget s (b_src i) + b_off i) size in
        match mode with
        | 3 => INext (pc + 1) (rset s (b_dst i) v)
        | 4 => match size with
               | 8%nat => IStuck
               | _ => INext (pc + 1) (rset s (b_dst i) (sgn (8 * Z.of_nat size) v))
               end
        | _ => IStuck
        end
      else IStuck
    | 2 => (* ST *)
      if is_reg (b_dst i) && (mode =? 3)
      then INext (pc + 1) (mset s (store (mem s) (rget s (b_dst i) + b_off i) size (b_imm i)))
      else IStuck
    | 3 => (* STX *)
      if is_reg (b_dst i) && is_reg (b_src i) && (mode =? 3)
      then INext (pc + 1) (mset s (store (mem s) (rget s (b_dst i) + b_off i) size (rget s (b_src i))))
      else IStuck
    | 4 => isa_alu false i pc s
    | 5 => isa_jmp w true i pc s
    | 6 => isa_jmp w false i pc s
    | 7 => isa_alu true i pc s
    | _ => IStuck
    end
  end.

(** Run at most [n] steps. *)
Fixpoint isa_run (w : world) (p : list bpf_insn) (n : nat) (pc : Z) (s : st) : ires :=
  match n with
  | O => INext pc s
  | S k => match isa_step w p pc s with
           | INext pc' s' => isa_run w p k pc' s'
           | r => r
           end
  end.
