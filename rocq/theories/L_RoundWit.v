(** Programs for which values have to be spilled, and a program for which the allocator gives up. *)
From Coq Require Import ZArith List Bool Arith Lia.
From Verif Require Import SpecWord SpecIsa SpecFlat SpecCfg SpecLift SpecIr SpecEdit SpecSsa SpecNormCond SpecOut M_Base M_Ir M_Edit M_GenBB M_Lift M_Layout M_Norm M_Pass
  L_GenBBEx L_Lift L_LiftSim L_LiftMain L_LiftSafe L_LiftProp L_LiftEx L_LiftWit
  SpecPass SpecStrict SpecShift SpecLayout SpecPrep L_LiftLay L_RaWit L_RaCheck L_VirtCheck L_VirtWit L_End L_EndWit M_Ra SpecRa SpecVirt SpecSpill SpecGuard SpecRound L_RaProp L_PrepStr L_SpillEnd.
From Verif Require Import SpecIr SpecVirt SpecPrep.
Import ListNotations.
Open Scope nat_scope.

Definition stame_insn (sp : nat) (x : insn) : bool :=
  let raw := iop_eqb (i_op x) LOADRAW || iop_eqb (i_op x) STORERAW in
  (negb raw || match a_ot (i_addr x) with O_RAWOFF => is_use_of sp (a_val (i_addr x)) | O_CONST => negb (is_use_of sp (a_val (i_addr x))) | _ => false end) &&
  (negb (existsb (is_use_of sp) (operand_values x)) || (raw && negb (existsb (is_use_of sp) (i_vals x))) ||
   (iop_eqb (i_op x) ADD && match i_alu x with A_64 => true | _ => false end &&
    match i_vals x with [v; c] => is_use_of sp v && match v_data c with VConst k => (- 2 ^ 31 + 2 ^ 15 <=? k)%Z && (k <? 2 ^ 31 - 2 ^ 15)%Z | _ => false end | _ => false end)).
Definition stameb (f : func) (sp : nat) : bool := forallb (fun i => match f_insn f i with Some x => stame_insn sp x | None => true end) (seq 0 (f_ni f)).
Lemma raw_ops x : iop_eqb (i_op x) LOADRAW || iop_eqb (i_op x) STORERAW = true <-> i_op x = LOADRAW \/ i_op x = STORERAW.
Proof. destruct (i_op x); cbn; split; try discriminate; auto; intros [E|E]; discriminate E. Qed.
Lemma stameb_ok f sp : (forall i, f_ni f <= i -> f_insn f i = None) -> stameb f sp = true -> stack_tame f sp.
Proof.
  intros Fr H. unfold stameb in H. rewrite forallb_forall in H.
  assert (K : forall i x, f_insn f i = Some x -> stame_insn sp x = true).
  { intros i x X. specialize (H i). rewrite X in H. apply H. apply in_seq. destruct (Nat.lt_ge_cases i (f_ni f)); [lia|]. rewrite Fr in X by assumption. discriminate X. }
  constructor.
  - intros i x X O. specialize (K i x X). unfold stame_insn in K. apply raw_ops in O. cbv zeta in K. rewrite O in K. cbn [negb orb] in K. apply andb_prop in K as (K & _).
    destruct (a_ot (i_addr x)); [now apply negb_true_iff in K; rewrite K|now rewrite K|discriminate K].
  - intros i x X U. specialize (K i x X). unfold stame_insn in K. cbv zeta in K. apply andb_prop in K as (_ & K).
    assert (Q : existsb (is_use_of sp) (operand_values x) = true).
    { unfold uses in U. rewrite X in U. destruct (existsb (is_use_of sp) (operand_values x)) eqn:Q; [reflexivity|]. exfalso. replace (filter (is_use_of sp) (operand_values x)) with (@nil value) in U; [cbn in U; lia|].
      symmetry. clear -Q. induction (operand_values x) as [|a l IH]; [reflexivity|]. cbn in Q |- *. apply orb_false_iff in Q as (-> & Q). now apply IH. }
    rewrite Q in K. cbn [negb orb] in K. apply orb_prop in K as [K|K].
    + left. apply andb_prop in K as (K1 & K2). split; [now apply raw_ops|]. intros v V. apply negb_true_iff in K2. destruct (is_use_of sp v) eqn:E; [|reflexivity]. rewrite <- K2. symmetry. apply existsb_exists. eauto.
    + right. rewrite !andb_true_iff in K. destruct K as ((K1 & K2) & K3). split; [destruct (i_op x); try discriminate K1; reflexivity|]. split; [destruct (i_alu x); try discriminate K2; reflexivity|].
      destruct (i_vals x) as [|v [|c [|]]]; try discriminate K3. apply andb_prop in K3 as (K3 & K4). destruct (v_data c) as [k| | | | |] eqn:Dc; try discriminate K4. apply andb_prop in K4 as (K4 & K5). exists v, c, k.
      rewrite Dc. apply Z.leb_le in K4. apply Z.ltb_lt in K5. auto.
Qed.

(** ** The chain of functions *)
Definition Bl d s o := mkBpf 0x79 d s o 0.
Definition Bs d s o := mkBpf 0x7b d s o 0.
Definition mark_of (p : list bpf_insn) : func := get_ok f0 (stack_offset_pre sp_id 4 (fst (lay_of p))).
Definition lay2_of (p : list bpf_insn) : func * (list nat * list nat) := get_ok (f0, ([], [])) (layout 100 (mark_of p)).
Definition init2_of (p : list bpf_insn) : cgs := get_ok s_none (init_cg (fst (lay2_of p)) (fst (snd (lay2_of p))) sp_id [2;3;4;5;6]).
Definition prep2_of (p : list bpf_insn) : cgs := get_ok s_none (prepare (init2_of p)).
Fixpoint last_round (n : nat) (s : cgs) : outcome (cgs * cgs) :=
  match n with
  | O => NoFuel
  | S k =>
    do s1 <- analysis 100 s; do r <- pre_spill 100 ident ident s1;
    match fst (snd r) with
    | [] => do u <- assign (fst r); Ok (s, u)
    | ts => do s2 <- spill (fst r) ts; last_round k s2
    end
  end.
Lemma last_ok : forall n s z u, last_round n s = Ok (z, u) -> rounds 100 ids ids n s z u.
Proof.
  induction n as [|k IH]; intros s z u H; cbn [last_round] in H; [discriminate H|]. bo H s1 E1. bo H r E2. destruct r as (t1 & ts & eps). cbn [fst snd] in H. destruct ts as [|a ts].
  - bo H u0 E3. injection H as <- <-. eapply rounds_last; eauto.
  - bo H s2 E3. eapply rounds_more; eauto. discriminate.
Qed.
Definition ends_of (p : list bpf_insn) : cgs * cgs := get_ok (s_none, s_none) (last_round 6 (prep2_of p)).
Definition code2_of (p : list bpf_insn) : list bpf_insn := get_ok [] (codegen 100 ids ids Ok (fst (lay2_of p)) (fst (snd (lay2_of p))) sp_id [2;3;4;5;6]).
Definition chainb (p : list bpf_insn) : bool :=
  wf_chk p && negb (jt_chk p 0) && reach_chk p && forallb plain_chk p && fieldsb p && is_ok (lift 20 400 p) && tameb (lifted p) sp_id && stameb (lifted p) sp_id &&
  is_ok (layout 100 (lifted p)) && (2 * length (f_all (lifted p)) + 1 <? 100) && is_ok (stack_offset_pre sp_id 4 (fst (lay_of p))) && is_ok (layout 100 (mark_of p)) && (length p <? 100).
Definition roundb (p : list bpf_insn) : bool :=
  let z := fst (ends_of p) in let u := snd (ends_of p) in
  is_ok (init_cg (fst (lay2_of p)) (fst (snd (lay2_of p))) sp_id [2;3;4;5;6]) && is_ok (prepare (init2_of p)) && is_ok (last_round 6 (prep2_of p)) &&
  apartb z u (arity_of ar_table) (TL z) (TN z (arity_of ar_table)) && forallb (fun i => opt (f_insn (c_f z) i) (fitb (c_off z))) (linsns z) && s16b (c_off z) &&
  is_ok (codegen 100 ids ids Ok (fst (lay2_of p)) (fst (snd (lay2_of p))) sp_id [2;3;4;5;6]) && (length (code2_of p) <? 100).
Theorem chain_by p : chainb p = true ->
  exists f g L e h h' L' e', liftable p /\ fields_fit p /\ lift 20 400 p = Ok f /\ tame f sp_id /\ stack_tame f sp_id /\ 2 * length (f_all f) + 1 < 100 /\
    layout 100 f = Ok (g, (L, e)) /\ stack_offset_pre sp_id 4 g = Ok h /\ layout 100 h = Ok (h', (L', e')) /\
    (forall j i, at_pos p j i -> SpecLift.plain ar_table i) /\ agrees ar_table /\ h' = fst (lay2_of p) /\ L' = fst (snd (lay2_of p)).
Proof.
  intros H. unfold chainb in H. rewrite !andb_true_iff in H. destruct H as ((((((((((((A & B) & C) & D) & E) & F) & G) & G2) & Hh) & I) & J) & K) & T).
  assert (Lf : lift 20 400 p = Ok (lifted p)) by (now apply get_ok_spec). apply Nat.ltb_lt in I, T.
  assert (P : liftable p). { constructor; [now apply wf_chk_ok|lia|apply jt_chk_ok; now apply negb_true_iff|now apply reach_chk_ok]. }
  assert (FR : forall i, f_ni (lifted p) <= i -> f_insn (lifted p) i = None). { destruct (lift_struct p 20 400 (lifted p) (lb_wf _ P) (lb_len _ P) (lb_no0 _ P) Lf) as (_ & _ & _ & _ & _ & (FR & _) & _). exact FR. }
  exists (lifted p), (fst (lay_of p)), (fst (snd (lay_of p))), (snd (snd (lay_of p))), (mark_of p), (fst (lay2_of p)), (fst (snd (lay2_of p))), (snd (snd (lay2_of p))).
  split; [exact P|]. split; [now apply fieldsb_ok|]. split; [exact Lf|]. split; [now apply tameb_ok|]. split; [now apply stameb_ok|]. split; [exact I|].
  split; [rewrite <- !surjective_pairing; now apply get_ok_spec|]. split; [now apply get_ok_spec|]. split; [rewrite <- !surjective_pairing; now apply get_ok_spec|].
  split; [now apply plain_chk_ok|]. split; [exact ar_agrees|]. auto.
Qed.
Theorem round_by p : roundb p = true ->
  exists z u, codegen 100 ids ids Ok (fst (lay2_of p)) (fst (snd (lay2_of p))) sp_id [2;3;4;5;6] = Ok (code2_of p) /\
    by_rounds 100 ids ids (fst (lay2_of p)) (fst (snd (lay2_of p))) sp_id [2;3;4;5;6] z u /\ apart (arity_of ar_table) z u /\ all_fit z /\
    (Z.of_nat (length (code2_of p)) <= 2 ^ 15)%Z /\ z = fst (ends_of p).
Proof.
  intros H. unfold roundb in H. cbv zeta in H. rewrite !andb_true_iff in H. destruct H as (((((((A & B) & C) & D) & E) & F) & G) & I). apply Nat.ltb_lt in I.
  exists (fst (ends_of p)), (snd (ends_of p)). split; [now apply get_ok_spec|]. split.
  { exists (init2_of p), (prep2_of p). split; [now apply get_ok_spec|]. split; [now apply get_ok_spec|]. apply last_ok. rewrite <- surjective_pairing. now apply get_ok_spec. }
  split; [now apply (apart_by _ _ _ (TL (fst (ends_of p))) (TN (fst (ends_of p)) (arity_of ar_table)))|]. split; [|split; [lia|reflexivity]].
  split; [now apply s16b_ok|]. intros i x Li X. rewrite forallb_forall in E. specialize (E i (proj2 (linsns_in _ i) Li)). rewrite X in E. cbn in E. now apply fitb_ok.
Qed.

(** Three helper calls, ten values that live at the same time, and stack accesses, one of them through a
    computed address. *)
Definition w_spill : list bpf_insn := [Bmov 6 1; Bs 10 6 (-8); Bl 0 6 24; Bl 3 6 16; Bl 7 6 32; Badd 0 7; Badd 3 0; Bl 5 6 8; Bcall 7; Bl 7 6 32; Bl 9 6 8; Bl 1 6 8; Bcall 7;
  Bl 3 6 56; Bl 8 6 16; Bl 2 6 48; Bl 4 6 24; Bl 1 6 48; Bl 5 6 32; Badd 7 1; Badd 4 0; Bcall 7; Bl 1 6 8; Bl 4 6 24; Bl 5 6 0; Badd 7 0; Badd 4 5; Badd 7 1; Bl 5 6 48; Bl 2 6 56;
  Bmov 0 10; Bak 0 (-8); Bl 0 0 0; Badd 0 2; Badd 0 4; Badd 0 5; Badd 0 6; Badd 0 7; Badd 0 8; Badd 0 9; Bexit]%Z.
Lemma spill_chain : chainb w_spill = true.
Proof. vm_compute. reflexivity. Qed.
Lemma spill_rounds : roundb w_spill = true.
Proof. vm_compute. reflexivity. Qed.
Lemma spill_off : c_off (fst (ends_of w_spill)) = (-8)%Z.
Proof. vm_compute. reflexivity. Qed.
Lemma spill_len : length (f_all (lifted w_spill)) = 1.
Proof. vm_compute. reflexivity. Qed.
(** a helper that counts its calls and clobbers the argument registers *)
Lemma kill_hidden R : hidden w_kill R.
Proof. intros n id a m m' A. cbn. auto. Qed.
Lemma kill_respects ar : respects w_kill ar.
Proof. intros id k a a' n m _ _ _ _. reflexivity. Qed.
(** r1 points to memory that holds some bytes, r10 to the end of the stack *)
Definition st_mem (a : Z) : st := mkSt [0; a; 0; 0; 0; 0; 0; 0; 0; 0; 4096]%Z (fun x => ((x * 7 + 3) mod 256)%Z) 0.
Definition spill_runs : bool :=
  match gcrun (between 4088 4096) w_kill ar_table w_spill 100 0 (rset (st_mem 64) 10 4088) SpecLift.clean, isa_run w_kill (code2_of w_spill) 100 0 (st_mem 64) with
  | Some (IExit a s, _), IExit b t => (a =? b)%Z && negb (a =? 0)%Z && (ncall s =? 3) && (ncall t =? 3)
  | _, _ => false
  end.
Lemma spill_runs_ok : spill_runs = true.
Proof. vm_compute. reflexivity. Qed.

(** A program that runs in the ten registers, and for which the allocator finds no register. *)
Definition w_stuck : list bpf_insn := [Bmov 6 1; Bs 10 6 (-8); Bl 3 6 24; Bl 8 6 16; Badd 3 8; Bl 4 6 40; Bl 8 6 8; Badd 8 4; Badd 8 3; Bl 3 6 8; Badd 8 3; Bl 1 6 16; Bl 0 6 24; Bl 9 6 40; Bl 4 6 24; Bl 7 6 48; Bl 2 6 40; Bcall 7;
  Bl 2 6 32; Badd 0 9; Badd 0 8; Badd 7 0; Bl 3 6 0; Bl 5 6 24; Bl 8 6 56; Bl 1 6 32; Bl 4 6 16; Badd 5 1; Bl 0 10 (-8); Badd 0 2; Badd 0 3; Badd 0 4; Badd 0 5; Badd 0 6; Badd 0 7; Badd 0 8; Bexit]%Z.
Definition stuck_runs : bool :=
  match crun w_kill ar_table w_stuck 100 0 (st_mem 64) SpecLift.clean with Some (IExit _ _, _) => true | _ => false end.
Definition stuckb : bool := chainb w_stuck && stuck_runs && is_ok (init_cg (fst (lay2_of w_stuck)) (fst (snd (lay2_of w_stuck))) sp_id [2;3;4;5;6]) && is_ok (prepare (init2_of w_stuck)) &&
  match analysis 100 (prep2_of w_stuck) with
  | Ok t => match pre_spill 100 ident ident t with Ok (t1, ([], _)) => match coloring t1 with Err => true | _ => false end | _ => false end
  | _ => false
  end.
Lemma stuck_ok : stuckb = true.
Proof. vm_compute. reflexivity. Qed.
Lemma gives_up : exists p f g L e h h' L' e' s0 s t t1 eps, liftable p /\ lift 20 400 p = Ok f /\ layout 100 f = Ok (g, (L, e)) /\ stack_offset_pre sp_id 4 g = Ok h /\ layout 100 h = Ok (h', (L', e')) /\
  (exists w q r q' d, st_ok q /\ crun w ar_table p 100 0 q SpecLift.clean = Some (IExit r q', d)) /\
  init_cg h' L' sp_id [2;3;4;5;6] = Ok s0 /\ prepare s0 = Ok s /\ analysis 100 s = Ok t /\ pre_spill 100 ident ident t = Ok (t1, ([], eps)) /\ coloring t1 = Err /\
  codegen 100 ids ids Ok h' L' sp_id [2;3;4;5;6] = Err.
Proof.
  pose proof stuck_ok as H. unfold stuckb in H. rewrite !andb_true_iff in H. destruct H as ((((A & B) & C) & D) & E). destruct (chain_by _ A) as (f & g & L & e & h & h' & L' & e' & P & _ & Lf & _ & _ & _ & L1 & S1 & L2 & _ & _ & -> & ->).
  assert (I0 : init_cg (fst (lay2_of w_stuck)) (fst (snd (lay2_of w_stuck))) sp_id [2;3;4;5;6] = Ok (init2_of w_stuck)) by (now apply get_ok_spec). assert (Pr : prepare (init2_of w_stuck) = Ok (prep2_of w_stuck)) by (now apply get_ok_spec).
  destruct (analysis 100 (prep2_of w_stuck)) as [t| | | |] eqn:An; try discriminate E. destruct (pre_spill 100 ident ident t) as [(t1 & [|a ts] & eps)| | | |] eqn:Ps; try discriminate E. destruct (coloring t1) eqn:Co; try discriminate E.
  exists w_stuck, f, g, L, e, h, (fst (lay2_of w_stuck)), (fst (snd (lay2_of w_stuck))), e', (init2_of w_stuck), (prep2_of w_stuck), t, t1, eps. do 5 (split; [assumption|]). split.
  { unfold stuck_runs in B. destruct (crun w_kill ar_table w_stuck 100 0 (st_mem 64) SpecLift.clean) as [[[|r q'|] d]|] eqn:R; try discriminate B. exists w_kill, (st_mem 64), r, q', d. split; [|exact R].
    split; [reflexivity|]. unfold st_mem. cbn [regs]. repeat (constructor; [lia|]). constructor. }
  do 5 (split; [assumption|]). unfold codegen. rewrite I0. cbn [bind]. rewrite Pr. cbn [bind ra_loop]. rewrite An. cbn [bind]. unfold ids at 1 2. rewrite Ps. cbn [bind fst snd]. unfold assign. rewrite Co. reflexivity.
Qed.
(** the hypotheses of the theorem are met *)
Lemma spill_meets : exists f g L e h h' L' e' z u code, liftable w_spill /\ fields_fit w_spill /\ lift 20 400 w_spill = Ok f /\ tame f sp_id /\ stack_tame f sp_id /\ 2 * length (f_all f) + 1 < 100 /\
    layout 100 f = Ok (g, (L, e)) /\ stack_offset_pre sp_id 4 g = Ok h /\ layout 100 h = Ok (h', (L', e')) /\
    (forall j i, at_pos w_spill j i -> SpecLift.plain ar_table i) /\ agrees ar_table /\
    codegen 100 ids ids Ok h' L' sp_id [2;3;4;5;6] = Ok code /\ by_rounds 100 ids ids h' L' sp_id [2;3;4;5;6] z u /\ apart (arity_of ar_table) z u /\ all_fit z /\
    (Z.of_nat (length code) <= 2 ^ 15)%Z /\ c_off z = (-8)%Z /\ code = code2_of w_spill.
Proof.
  destruct (chain_by _ spill_chain) as (f & g & L & e & h & h' & L' & e' & P & F & Lf & T & S & K & L1 & S1 & L2 & Pl & Ag & -> & ->). destruct (round_by _ spill_rounds) as (z & u & Cg & Br & Ap & Fi & Lc & ->).
  exists f, g, L, e, h, (fst (lay2_of w_spill)), (fst (snd (lay2_of w_spill))), e', (fst (ends_of w_spill)), u, (code2_of w_spill). do 16 (split; [assumption|]). split; [exact spill_off|reflexivity].
Qed.
