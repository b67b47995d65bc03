(** What the program checker accepts. *)
From Coq Require Import ZArith List Bool Arith.
From Verif Require Import M_Base M_Ir SpecWord SpecIsa SpecFlat SpecSsa SpecIr SpecEdit SpecCheck.
Import ListNotations.
Open Scope nat_scope.

(** The instructions of a block have the parameters that their operations need. *)
Record block_known (f : func) (b : nat) : Prop := {
  bk_swap : forall i x, In i (insns_of f b) -> f_insn f i = Some x -> i_op x = HTOBE \/ i_op x = HTOLE -> i_u x = 16%Z \/ i_u x = 32%Z \/ i_u x = 64%Z;
  bk_call : forall i x, In i (insns_of f b) -> f_insn f i = Some x -> i_op x = CALL -> i_u x <> 0%Z;
  bk_size : forall i x, In i (insns_of f b) -> f_insn f i = Some x -> i_op x = ALLOC \/ i_op x = LOADRAW \/ i_op x = STORERAW -> i_vrt x <> VR_UNKNOWN;
  bk_elem : forall i x, In i (insns_of f b) -> f_insn f i = Some x -> i_op x = GETELEMPTR ->
    exists v a y, nth_error (i_vals x) 1 = Some v /\ v_data v = VInsn a /\ f_insn f a = Some y /\ i_op y = ALLOCARRAY }.
(** The frame pointer and the arguments of the function are there and know their users. *)
Definition bases_good (f : func) (l : list nat) : Prop := forall i, In i l -> f_insn f i <> None /\ forall u, In u (users_of f i) -> 0 < uses f u i.

(** Instructions of the bytecode that the checker has no objection to: byte swaps have one of the three
    widths, and no helper has the number 0. *)
Definition unobjectionable (i : bpf_insn) : Prop :=
  (b_code i mod 8 = 4 -> b_code i / 16 = 13 -> b_imm i = 16 \/ b_imm i = 32 \/ b_imm i = 64)%Z /\
  (b_code i = 0x85 -> b_src i <> 6 -> b_imm i <> 0)%Z.
