(** What the output array should contain. *)
From Verif Require Import M_Base M_Ir M_Norm SpecWord SpecIsa SpecFlat SpecProg.
Open Scope Z_scope.

(** The one or two 8-byte slots of an instruction. *)
Definition halves (t : preinsn) : list bpf_insn :=
  if p_wide t
  then [mkBpf (p_op t) (p_dst t mod 16) (p_src t mod 16) (p_off t) (s32 (p_imm64 t));
        mkBpf 0 0 0 0 (s32 (p_imm64 t / 2 ^ 32))]
  else [mkBpf (p_op t) (p_dst t mod 16) (p_src t mod 16) (p_off t) (p_imm t)].
Definition size (l : list tinsn) : Z := Z.of_nat (length (flat_map (fun i => flat_map halves (snd i)) l)).
Definition sizes (t : list tblock) : Z := Z.of_nat (length (flat_map (fun b => flat_map (fun i => flat_map halves (snd i)) (snd b)) t)).

(** The same instruction up to its jump offset. *)
Definition but_off (a b : bpf_insn) : Prop :=
  b_code a = b_code b /\ b_dst a = b_dst b /\ b_src a = b_src b /\ b_imm a = b_imm b.
Definition is_jump (n : ninsn) : bool := iop_eqb (i_op (n_i n)) JA || is_cond_jmp_op (i_op (n_i n)).
Definition target (n : ninsn) : nat := if iop_eqb (i_op (n_i n)) JA then i_bb1 (n_i n) else i_bb2 (n_i n).

(** Starting at the first block with memory and registers [s] the program returns [r] and [s']. *)
Definition entry (p : nprog) : nat := match p with b :: _ => nb_id b | [] => O end.
Definition ir_returns (w : world) (bi : nat -> bconst -> Z) (succ : nat -> option nat) (p : nprog) (s : st) (r : Z) (s' : st) : Prop :=
  exists k, prun w bi succ p k (entry p) s = Some (PRet r s').
Definition code_returns (w : world) (code : list bpf_insn) (s : st) (r : Z) (s' : st) : Prop :=
  exists n, isa_run w code n 0 s = IExit r s'.

(** The generator accepts [p], and on some state the code returns something else than the program. *)
Definition miscompiled (p : nprog) : Prop :=
  exists code s, cg_norm 10 p = Ok code /\ st_ok s /\
  forall w, exists r s' r2 s2, ir_returns w (fun _ _ => 0) (fun _ => None) p s r s' /\
    code_returns w code s r2 s2 /\ r <> r2.
(** [p] runs to its end, but the generator aborts. *)
Definition rejected (p : nprog) : Prop :=
  cg_norm 10 p = Crit /\ exists s, st_ok s /\ forall w, exists r s', ir_returns w (fun _ _ => 0) (fun _ => None) p s r s'.
