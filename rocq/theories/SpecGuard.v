(** Runs that leave a set of addresses alone: they stop where a memory access
    touches the set.  Nothing here refers to the passes or the code generator. *)
From Coq Require Import ZArith List Bool Arith.
From Verif Require Import M_Base M_Ir SpecWord SpecIsa SpecFlat SpecProg SpecSsa SpecCfg SpecLift SpecIr SpecPass SpecShift SpecRa SpecSpill.
From Verif Require Export SpecGs.
Import ListNotations.
Open Scope Z_scope.

(** Bytecode: as [crun]. *)
Definition iquiet (R : addrs) (i : bpf_insn) (s : st) : bool :=
  match b_code i mod 8 with
  | 1 => negb (touches R (rget s (b_src i) + b_off i) (SpecIsa.size_of ((b_code i / 8) mod 4)))
  | 2 | 3 => negb (touches R (rget s (b_dst i) + b_off i) (SpecIsa.size_of ((b_code i / 8) mod 4)))
  | _ => true
  end.
Fixpoint gcrun (R : addrs) (w : world) (ar : arity_table) (p : list bpf_insn) (n : nat) (pc : Z) (s : st) (d : dirty)
  : option (ires * dirty) :=
  match n with
  | O => Some (INext pc s, d)
  | S k =>
    match fetch p pc with
    | None => None
    | Some i =>
      if existsb d (SpecLift.reads ar i) then None
      else if iquiet R i s then
        match isa_step w p pc s with
        | INext pc' s' => gcrun R w ar p k pc' s' (dirty_after i d)
        | IExit r s' => Some (IExit r s', d)
        | IStuck => None
        end
      else None
    end
  end.

(** Relocation of guarded runs: see [relocates]. *)
Definition relocates_guarded (sp : nat) (f g : func) : Prop :=
  forall R o w bi n prev b s z r, gsrun R w bi f n prev b (at_sp sp (z + o) s) = Some r ->
    exists r', gsrun R w bi (fill o g) n prev b (at_sp sp z s) = Some r' /\ same_effect r r'.
