(** What lifting one instruction means: the register table of the block being lifted. *)
From Coq Require Import ZArith List Bool Arith.
From Verif Require Import M_Base M_Ir SpecWord SpecIsa SpecSsa SpecCfg SpecLift M_GenBB M_Lift.
Import ListNotations.
Open Scope Z_scope.

(** The table of block [b] describes the machine state [st]: evaluated in the IR state [t], the
    value recorded for a register is the content of the register. *)
Record describes (bi : bconst -> Z) (s : lst) (b : nat) (t : sst) (st : st) : Prop := {
  ds_reg : forall r v, 0 <= r <= 9 -> l_def s r b = Some v -> seval bi (s_env t) v = Some (rget st r);
  ds_sp : s_env t sp_id = Some (rget st 10);
  ds_mem : s_mem t = mem st;
  ds_nc : s_nc t = ncall st }.

(** recorded values are results of instructions that exist *)
Definition table_live (s : lst) (b : nat) : Prop :=
  (7 <= f_ni (l_f s))%nat /\ forall r v i, l_def s r b = Some v -> v_data v = VInsn i -> (i < f_ni (l_f s))%nat.

(** the register has a recorded value *)
Definition known (s : lst) (b : nat) (r : Z) : Prop := r = 10 \/ l_def s r b <> None.

(** the pre-IR form of an instruction of one slot *)
Definition pre_form (i : bpf_insn) (x : pre_insn) : Prop :=
  pi_code x = b_code i /\ pi_dst x = b_dst i /\ pi_src x = b_src i /\ pi_off x = b_off i /\ pi_imm x = b_imm i.

(** The lifted program returns something else than the program, on some input. *)
Definition differs (w : world) (p : list bpf_insn) : Prop :=
  wf_prog p /\ ~ jump_target p 0 /\ all_reach p /\
  exists m n f s t bi k k' r s' r' t', lift m n p = Ok f /\ st_ok s /\ enters s t sp_id arg_id /\
    isa_run w p k 0 s = IExit r s' /\ srun w bi f k' 0 (f_entry f) t = Some (ORet r' t') /\ r <> r'.
