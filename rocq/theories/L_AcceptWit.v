(** Programs the checker accepts, and programs it rejects. *)
From Coq Require Import ZArith List Bool Arith Lia.
From Verif Require Import SpecWord SpecIsa SpecFlat SpecCfg SpecLift SpecIr SpecEdit SpecSsa SpecNormCond SpecOut M_Base M_Ir M_Edit M_GenBB M_Lift M_Layout M_Norm M_Pass M_Check M_Ecall M_Pipe
  L_Layout L_LiftMain L_LiftSafe L_LiftEx L_LiftWit SpecPass SpecStrict SpecPrep SpecAccept SpecCheck L_RaWit L_VirtWit L_EndWit L_RoundWit L_Pipe L_PipeWit L_EcallWit L_Accept L_AcceptPipe.
From Verif Require Import SpecIr SpecVirt SpecPrep.
Import ListNotations.
Open Scope nat_scope.

Definition unobj_b (i : bpf_insn) : bool :=
  (negb ((b_code i mod 8 =? 4) && (b_code i / 16 =? 13)) || (b_imm i =? 16) || (b_imm i =? 32) || (b_imm i =? 64))%Z &&
  (negb (b_code i =? 0x85) || (b_src i =? 6) || negb (b_imm i =? 0))%Z.
Lemma unobj_ok i : unobj_b i = true -> unobjectionable i.
Proof.
  unfold unobj_b, unobjectionable. rewrite andb_true_iff, !orb_true_iff, !negb_true_iff, andb_false_iff, !Z.eqb_eq, !Z.eqb_neq. intros (A & B). split; intros; intuition congruence.
Qed.
Lemma unobj_all p : forallb unobj_b p = true -> forall j i, at_pos p j i -> unobjectionable i.
Proof. intros H j i A. apply unobj_ok. rewrite forallb_forall in H. apply H. unfold at_pos in A. now apply nth_error_In in A. Qed.
(** a byte swap and calls *)
Lemma pipe_unobj : forall j i, at_pos w_pipe j i -> unobjectionable i.
Proof. apply unobj_all. vm_compute. reflexivity. Qed.
Definition w_swap : list bpf_insn := [Bl 6 1 0; mkBpf 0xd4 6 0 0 32; mkBpf 0x55 6 0 1 5; mkBpf 0xdc 6 0 0 16; Bcall 7; Bmov 0 6; Bexit]%Z.
Lemma swap_unobj : forall j i, at_pos w_swap j i -> unobjectionable i.
Proof. apply unobj_all. vm_compute. reflexivity. Qed.
Lemma swap_meets : exists f, liftable w_swap /\ lift pk pk w_swap = Ok f /\ 2 * length (f_all f) + 1 < pk /\ (forall j i, at_pos w_swap j i -> unobjectionable i).
Proof.
  assert (E : exists f, lift pk pk w_swap = Ok f /\ length (f_all f) = 3) by (eexists; split; vm_compute; reflexivity). destruct E as (f & E & F). exists f.
  split; [apply lift_chk_ok; vm_compute; reflexivity|]. split; [exact E|]. split; [rewrite F; now apply Nat.ltb_lt|exact swap_unobj].
Qed.
(** a helper with the number 0, and a byte swap of eight bits *)
Definition w_call0 : list bpf_insn := [Bcall 0; Bk 0 0; Bexit]%Z.
Definition w_swap8 : list bpf_insn := [Bl 6 1 0; mkBpf 0xd4 6 0 0 8; Bmov 0 6; Bexit]%Z.
Definition rejb (p : list bpf_insn) : bool := match lift pk pk p with Ok f => match postprocess pk f with Err => true | _ => false end | _ => false end.
Lemma rejb_ok p : lift_chk p && rejb p = true -> exists f, liftable p /\ lift pk pk p = Ok f /\ postprocess pk f = Err.
Proof.
  rewrite andb_true_iff. intros (A & B). unfold rejb in B. destruct (lift pk pk p) as [f| | | |] eqn:E; try discriminate B. exists f. split; [exact (lift_chk_ok p A)|]. split; [reflexivity|]. destruct (postprocess pk f); try discriminate B. reflexivity.
Qed.
Lemma call0_rejected : exists f, liftable w_call0 /\ lift pk pk w_call0 = Ok f /\ postprocess pk f = Err.
Proof. apply rejb_ok. vm_compute. reflexivity. Qed.
Lemma swap8_rejected : exists f, liftable w_swap8 /\ lift pk pk w_swap8 = Ok f /\ postprocess pk f = Err.
Proof. apply rejb_ok. vm_compute. reflexivity. Qed.
Lemma all_accepted_not : exists p k f, liftable p /\ lift k k p = Ok f /\ postprocess k f = Err.
Proof. destruct call0_rejected as (f & H). exists w_call0, pk, f. exact H. Qed.
Lemma passes_meet : exists f g L, liftable w_pipe /\ fields_fit w_pipe /\ (forall j i, at_pos w_pipe j i -> SpecLift.plain ar_table i) /\ agrees ar_table /\
  (forall j i, at_pos w_pipe j i -> b_code i = 0x85%Z -> b_src i <> 6%Z) /\
  lift pk pk w_pipe = Ok f /\ 2 * length (f_all f) + 1 < pk /\ f_ni f < pk /\ (forall j i, at_pos w_pipe j i -> unobjectionable i) /\
  front pk false false w_pipe = Ok (g, L) /\ tame g sp_id /\ stack_tame g sp_id.
Proof.
  destruct pipe_meets as (f & g & L & h & L' & z & u & code & A1 & A2 & A3 & A4 & A5 & A6 & A7 & A8 & _ & A9 & A10 & A11 & _). exists f, g, L. exact (conj A1 (conj A2 (conj A3 (conj A4 (conj A5 (conj A6 (conj A7 (conj A8 (conj pipe_unobj (conj A9 (conj A10 A11))))))))))).
Qed.
