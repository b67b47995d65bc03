(** Witnesses for phi removal and the front end. *)
From Coq Require Import ZArith List Bool Arith Lia.
From Verif Require Import SpecWord SpecIsa SpecFlat SpecCfg SpecLift SpecIr SpecEdit SpecSsa M_Base M_Ir M_Edit M_EditHist M_GenBB M_Lift M_Pass
  L_Word L_Hist L_Sim L_GenBBEx L_PassWit L_PassPhi L_PhiPass L_LiftEx L_LiftWit L_LiftStrict L_Front SpecPass SpecStrict L_LiftMain.
Import ListNotations.
Open Scope nat_scope.

Lemma lifted_strict p m n f : wf_prog p -> (Z.of_nat (length p) <= 32768)%Z -> ~ jump_target p 0 -> all_reach p -> lift m n p = Ok f ->
  tidy f /\ strict f /\ forall b, f_block f b <> None -> reachable f b.
Proof. intros W L N R H. destruct (lifted_ok p m n f W L N R H) as (A & B & C & _). auto. Qed.

Definition ex_loop : list bpf_insn :=
  [ mkBpf 0xb7 0 0 0 0;        (*  0: r0 = 0 *)
    mkBpf 0xbf 6 1 0 0;        (*  1: r6 = r1 *)
    mkBpf 0xb7 7 0 0 3;        (*  2: r7 = 3 *)
    mkBpf 0x15 7 0 7 0;        (*  3: if r7 == 0 goto 11 *)
    mkBpf 0x79 1 6 0 0;        (*  4: r1 = load64 r6 *)
    mkBpf 0xbf 2 0 0 0;        (*  5: r2 = r0 *)
    mkBpf 0x85 0 0 0 1;        (*  6: r0 = helper 1 (r1, r2) *)
    mkBpf 0x7b 10 0 (-8) 0;    (*  7: store64 (r10 - 8) r0 *)
    mkBpf 0x04 0 0 0 5;        (*  8: w0 += 5 *)
    mkBpf 0x07 7 0 0 (-1);     (*  9: r7 += -1 *)
    mkBpf 0x05 0 0 (-8) 0;     (* 10: goto 3 *)
    mkBpf 0x95 0 0 0 0 ].      (* 11: exit *)
Lemma ex_loop_ok : wf_prog ex_loop /\ (Z.of_nat (length ex_loop) <= 32768)%Z /\ ~ jump_target ex_loop 0 /\ all_reach ex_loop /\ lift 20 400 ex_loop = Ok (lifted ex_loop).
Proof.
  split; [apply wf_chk_ok; vm_compute; reflexivity|]. split; [simpl; lia|]. split; [apply jt_chk_ok; vm_compute; reflexivity|].
  split; [apply reach_chk_ok; vm_compute; reflexivity|]. apply get_ok_spec. vm_compute. reflexivity.
Qed.
Definition no_ecall_chk (p : list bpf_insn) : bool := forallb (fun i => negb ((b_code i =? 0x85) && (b_src i =? 6))%Z) p.
Lemma no_ecall_chk_ok p : no_ecall_chk p = true -> forall j i, at_pos p j i -> b_code i = 0x85%Z -> b_src i <> 6%Z.
Proof.
  intros H j i A C S. unfold no_ecall_chk in H. rewrite forallb_forall in H. specialize (H i (nth_error_In _ _ A)). rewrite C, S in H. discriminate H.
Qed.
Lemma ex_loop_no_ecall j i : at_pos ex_loop j i -> b_code i = 0x85%Z -> b_src i <> 6%Z.
Proof. apply no_ecall_chk_ok. vm_compute. reflexivity. Qed.
Lemma sst_words a b c d e m : forallb (fun v => (0 <=? v) && (v <? 2 ^ 64))%Z [a; b; c; d; e] = true -> words (sst_of (st_of a b c d e m)).
Proof.
  intros H i z E. assert (K : In z [1000; a; b; c; d; e]%Z).
  { unfold sst_of in E. cbn [s_env] in E. destruct (Nat.eqb_spec i 1) as [->|]; [injection E as <-; left; reflexivity|].
    destruct ((2 <=? i) && (i <=? 6)) eqn:R; [|discriminate E]. apply andb_prop in R as [R1 R2]. apply Nat.leb_le in R1, R2.
    assert (Q : i = 2 \/ i = 3 \/ i = 4 \/ i = 5 \/ i = 6) by lia. destruct Q as [->|[->|[->|[->| ->]]]]; injection E as <-; cbn; tauto. }
  destruct K as [<-|K]; [reflexivity|]. rewrite forallb_forall in H. specialize (H z K). apply andb_prop in H as [H1 H2]. apply Z.leb_le in H1. apply Z.ltb_lt in H2.
  apply u64_small. lia.
Qed.
Definition phis_in (f : func) (b : nat) : list nat :=
  filter (fun i => match f_insn f i with Some x => match i_op x with PHI => true | _ => false end | None => false end) (insns_of f b).

Definition no_value_phi : func := run_get
  [ E_create_bb; E_connect 1 2; E_create_at_bb 1 (K_ret (val_const32 7)) P_BACK; E_create_at_bb 2 K_phi P_BACK; E_create_at_bb 2 (K_ret (val_insn 2)) P_BACK ].
