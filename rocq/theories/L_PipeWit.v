(** A program for which every pass of the pipeline has something to do. *)
From Coq Require Import ZArith List Bool Arith Lia.
From Verif Require Import SpecWord SpecIsa SpecFlat SpecCfg SpecLift SpecIr SpecEdit SpecSsa SpecNormCond SpecOut M_Base M_Ir M_Edit M_GenBB M_Lift M_Layout M_Norm M_Pass M_Check M_Ecall M_Pipe
  L_GenBBEx L_Lift L_LiftSim L_LiftMain L_LiftSafe L_LiftProp L_LiftEx L_LiftWit
  SpecPass SpecStrict SpecShift SpecLayout SpecPrep L_LiftLay L_RaWit L_RaCheck L_VirtCheck L_VirtWit L_End L_EndWit M_Ra SpecRa SpecVirt SpecSpill SpecGuard SpecRound L_RaProp L_PrepStr L_SpillEnd L_RoundWit L_Pipe.
From Verif Require Import SpecIr SpecVirt SpecPrep.
Import ListNotations.
Open Scope nat_scope.

(** A branch (so that r6 and r9 become phis, of which one is trivial), a computation that is not used, three
    helper calls, ten values that live at the same time, and stack accesses. *)
Definition w_pipe : list bpf_insn := [Bmov 6 1; Bs 10 6 (-8); Bl 9 6 8; mkBpf 0x55 9 0 1 5; Bak 9 1; Bl 0 6 24; Bl 3 6 16; Bl 7 6 32; Badd 0 7; Badd 3 0; Bl 5 6 8; Bcall 7; Bl 7 6 32; Bl 1 6 8; Bcall 7;
  Bl 3 6 56; Bl 8 6 16; Bl 2 6 48; Bl 4 6 24; Bl 1 6 48; Bl 5 6 32; Badd 7 1; Badd 4 0; Bcall 7; Bl 1 6 8; Bl 4 6 24; Bl 5 6 0; Badd 7 0; Badd 4 5; Badd 7 1; Bl 5 6 48; Bl 2 6 56;
  Bmov 0 10; Bak 0 (-8); Bl 0 0 0; Badd 0 2; Badd 0 4; Badd 0 5; Badd 0 6; Badd 0 7; Badd 0 8; Badd 0 9; Bexit]%Z.
Definition pk := 400.
Definition lift_of p := get_ok f0 (lift pk pk p).
Definition front_of p := get_ok (f0, []) (front pk false false p).
Definition input_of p := get_ok (f0, []) (cg_input pk 4 false false p).
Definition init3_of p : cgs := get_ok s_none (init_cg (fst (input_of p)) (snd (input_of p)) sp_id arg_ids).
Definition prep3_of p : cgs := get_ok s_none (prepare (init3_of p)).
Fixpoint last3 (n : nat) (s : cgs) : outcome (cgs * cgs) :=
  match n with
  | O => NoFuel
  | S k =>
    do s1 <- analysis pk s; do r <- pre_spill pk ident ident s1;
    match fst (snd r) with
    | [] => do u <- assign (fst r); Ok (s, u)
    | ts => do s2 <- spill (fst r) ts; last3 k s2
    end
  end.
Lemma last3_ok : forall n s z u, last3 n s = Ok (z, u) -> rounds pk ids ids n s z u.
Proof.
  induction n as [|k IH]; intros s z u H; cbn [last3] in H; [discriminate H|]. bo H s1 E1. bo H r E2. destruct r as (t1 & ts & eps). cbn [fst snd] in H. destruct ts as [|a ts].
  - bo H u0 E3. injection H as <- <-. eapply rounds_last; eauto.
  - bo H s2 E3. eapply rounds_more; eauto. discriminate.
Qed.
Definition ends3_of p : cgs * cgs := get_ok (s_none, s_none) (last3 6 (prep3_of p)).
Definition code3_of p : list bpf_insn := get_ok [] (codegen pk ids ids Ok (fst (input_of p)) (snd (input_of p)) sp_id arg_ids).
Definition pipeb (p : list bpf_insn) : bool :=
  let z := fst (ends3_of p) in let u := snd (ends3_of p) in
  wf_chk p && negb (jt_chk p 0) && reach_chk p && forallb plain_chk p && fieldsb p && is_ok (lift pk pk p) && (2 * length (f_all (lift_of p)) + 1 <? pk) && (f_ni (lift_of p) <? pk) && (length p <? 100) &&
  forallb (fun i => negb (b_code i =? 0x85)%Z || negb (b_src i =? 6)%Z) p &&
  is_ok (front pk false false p) && is_ok (cg_input pk 4 false false p) && tameb (fst (front_of p)) sp_id && stameb (fst (front_of p)) sp_id &&
  is_ok (init_cg (fst (input_of p)) (snd (input_of p)) sp_id arg_ids) && is_ok (prepare (init3_of p)) && is_ok (last3 6 (prep3_of p)) &&
  apartb z u (arity_of ar_table) (TL z) (TN z (arity_of ar_table)) && forallb (fun i => opt (f_insn (c_f z) i) (fitb (c_off z))) (linsns z) && s16b (c_off z) &&
  is_ok (codegen pk ids ids Ok (fst (input_of p)) (snd (input_of p)) sp_id arg_ids) && (length (code3_of p) <? 100).
Lemma pipe_by : pipeb w_pipe = true.
Proof. vm_compute. reflexivity. Qed.
Lemma pipe_off : c_off (fst (ends3_of w_pipe)) = (-8)%Z.
Proof. vm_compute. reflexivity. Qed.
Lemma pipe_removes : map (insns_of (fst (front_of w_pipe))) [1; 2; 3] <> map (insns_of (lift_of w_pipe)) [1; 2; 3] /\ (exists x, f_insn (lift_of w_pipe) 11 = Some x /\ i_op x = PHI) /\ f_insn (fst (front_of w_pipe)) 11 = None.
Proof. split; [vm_compute; discriminate|]. split; [eexists; split; [vm_compute; reflexivity|reflexivity]|vm_compute; reflexivity]. Qed.
Theorem pipe_meets_by p : pipeb p = true -> exists f g L h L' z u code, liftable p /\ fields_fit p /\ (forall j i, at_pos p j i -> SpecLift.plain ar_table i) /\ agrees ar_table /\
  (forall j i, at_pos p j i -> b_code i = 0x85%Z -> b_src i <> 6%Z) /\
  lift pk pk p = Ok f /\ 2 * length (f_all f) + 1 < pk /\ f_ni f < pk /\ (48 * Z.of_nat pk <= 2 ^ 31)%Z /\
  front pk false false p = Ok (g, L) /\ tame g sp_id /\ stack_tame g sp_id /\ cg_input pk 4 false false p = Ok (h, L') /\
  codegen pk ids ids Ok h L' sp_id arg_ids = Ok code /\ by_rounds pk ids ids h L' sp_id arg_ids z u /\ apart (arity_of ar_table) z u /\ all_fit z /\
  (Z.of_nat (length code) <= 2 ^ 15)%Z /\ z = fst (ends3_of p) /\ code = code3_of p.
Proof.
  intros H. unfold pipeb in H. cbv zeta in H. rewrite !andb_true_iff in H.
  destruct H as (((((((((((((((((((((A & B) & C) & D) & E) & F) & G) & I) & J) & N) & Fr) & In) & T) & S) & I0) & Pr) & La) & Ap) & Fi) & Of) & Cg) & Le).
  assert (P : liftable p). { apply Nat.ltb_lt in J. constructor; [now apply wf_chk_ok|lia|apply jt_chk_ok; now apply negb_true_iff|now apply reach_chk_ok]. }
  assert (Hl : lift pk pk p = Ok (lift_of p)) by now apply get_ok_spec. apply Nat.ltb_lt in G, I, Le.
  assert (Ne : forall j i, at_pos p j i -> b_code i = 0x85%Z -> b_src i <> 6%Z).
  { intros j i At Cd Sr. rewrite forallb_forall in N. specialize (N i (nth_error_In _ _ At)). rewrite Cd, Sr in N. discriminate N. }
  assert (Hf : front pk false false p = Ok (fst (front_of p), snd (front_of p))) by (rewrite <- surjective_pairing; now apply get_ok_spec).
  assert (Ff : fields_fit p) by now apply fieldsb_ok. assert (Pl : forall j i, at_pos p j i -> SpecLift.plain ar_table i) by now apply plain_chk_ok.
  destruct (front_stage w_kill ar_table p pk false false _ P Ff Pl ar_agrees Ne Hl G I _ _ Hf) as (e & Sg & _). destruct (stage_tidy _ _ _ _ _ Sg) as (_ & _ & (FR & _)).
  exists (lift_of p), (fst (front_of p)), (snd (front_of p)), (fst (input_of p)), (snd (input_of p)), (fst (ends3_of p)), (snd (ends3_of p)), (code3_of p).
  split; [exact P|]. split; [exact Ff|]. split; [exact Pl|]. split; [exact ar_agrees|]. split; [exact Ne|]. split; [exact Hl|]. split; [exact G|]. split; [exact I|]. split; [vm_compute; discriminate|]. split; [exact Hf|].
  split; [now apply tameb_ok|]. split; [now apply stameb_ok|]. split; [rewrite <- surjective_pairing; now apply get_ok_spec|]. split; [now apply get_ok_spec|]. split.
  { exists (init3_of p), (prep3_of p). split; [now apply get_ok_spec|]. split; [now apply get_ok_spec|]. apply last3_ok. rewrite <- surjective_pairing. now apply get_ok_spec. }
  split; [now apply (apart_by _ _ _ (TL (fst (ends3_of p))) (TN (fst (ends3_of p)) (arity_of ar_table)))|]. split.
  { split; [now apply s16b_ok|]. intros i x Li X. rewrite forallb_forall in Fi. specialize (Fi i (proj2 (linsns_in _ i) Li)). rewrite X in Fi. cbn in Fi. now apply fitb_ok. }
  split; [lia|]. split; reflexivity.
Qed.
Lemma pipe_meets : exists f g L h L' z u code, liftable w_pipe /\ fields_fit w_pipe /\ (forall j i, at_pos w_pipe j i -> SpecLift.plain ar_table i) /\ agrees ar_table /\
  (forall j i, at_pos w_pipe j i -> b_code i = 0x85%Z -> b_src i <> 6%Z) /\
  lift pk pk w_pipe = Ok f /\ 2 * length (f_all f) + 1 < pk /\ f_ni f < pk /\ (48 * Z.of_nat pk <= 2 ^ 31)%Z /\
  front pk false false w_pipe = Ok (g, L) /\ tame g sp_id /\ stack_tame g sp_id /\ cg_input pk 4 false false w_pipe = Ok (h, L') /\
  codegen pk ids ids Ok h L' sp_id arg_ids = Ok code /\ by_rounds pk ids ids h L' sp_id arg_ids z u /\ apart (arity_of ar_table) z u /\ all_fit z /\
  (Z.of_nat (length code) <= 2 ^ 15)%Z /\ c_off z = (-8)%Z /\ code = code3_of w_pipe.
Proof.
  destruct (pipe_meets_by w_pipe pipe_by) as (f & g & L & h & L' & z & u & code & H). exists f, g, L, h, L', z, u, code.
  repeat (destruct H as (H1 & H); split; [exact H1|]; clear H1). destruct H as (-> & ->). split; [exact pipe_off|reflexivity].
Qed.
Definition pipe_runs : bool :=
  match gcrun (between 4088 4096) w_kill ar_table w_pipe 100 0 (rset (st_mem 64) 10 4088) SpecLift.clean, isa_run w_kill (code3_of w_pipe) 100 0 (st_mem 64) with
  | Some (IExit a s, _), IExit b t => (a =? b)%Z && negb (a =? 0)%Z && (ncall s =? 3) && (ncall t =? 3)
  | _, _ => false
  end.
Lemma pipe_runs_ok : pipe_runs = true.
Proof. vm_compute. reflexivity. Qed.
