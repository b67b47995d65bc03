(** Programs that read only registers that have been set, and the instructions that can be translated. *)
From Coq Require Import ZArith List Bool Arith.
From Verif Require Import SpecWord SpecIsa SpecCfg SpecLift.
Import ListNotations.
Open Scope Z_scope.

(** registers an instruction sets: its destination, and r0 for a call *)
Definition sets (i : bpf_insn) : list Z := writes i ++ (if b_code i =? 0x85 then [0] else []).

(** Some path from the start of the program to [pc] never sets the register: at the start r1 to r5 hold
    arguments and r10 the frame, the others are unset. *)
Inductive unset (p : list bpf_insn) : Z -> Z -> Prop :=
| un_0 r : In r [0; 6; 7; 8; 9] -> unset p r 0
| un_s r pc i t : unset p r pc -> fetch p pc = Some i -> ~ In r (sets i) -> In t (next_pcs i pc) -> unset p r t.

(** registers whose content an instruction looks at; the arguments of a call are set at the start of the
    program, and a conditional jump to the next instruction looks at nothing *)
Definition needs (i : bpf_insn) : list Z :=
  if two_way (b_code i) && (b_off i =? 0) then [] else reads (fun _ => Some 0%nat) i.

Definition initialised (p : list bpf_insn) : Prop :=
  forall pc i r, unset p r pc -> fetch p pc = Some i -> ~ In r (needs i).

(** the instructions the lifter has a translation for, right or wrong (see [supported] and [tolerated]) *)
Definition translatable (i : bpf_insn) : Prop :=
  let c := b_code i in
  let n := c / 16 in
  match c mod 8 with
  | 0 => c = 24 /\ b_src i <= 6
  | 1 => c / 32 = 3 \/ c / 32 = 4
  | 2 | 3 => c / 32 = 3
  | 4 | 7 =>
    b_off i = 0 /\
    (alu_of n <> None \/ n = 11 \/ n = 8 /\ Z.odd (c / 8) = false \/ n = 13 /\ c mod 8 = 4)
  | _ =>
    c = 5 \/ c = 0x95 \/ cmp_of n <> None \/ two_way c = true /\ b_off i = 0 \/
    c = 0x85 /\ b_src i <> 1 /\ b_src i <> 2 /\ 0 <= b_imm i /\ (b_src i = 6 \/ b_imm i <= 211)
  end.
