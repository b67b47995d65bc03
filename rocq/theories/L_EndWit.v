(** A program that meets the hypotheses of the end-to-end theorem, and one that shows why the entry must
    not be in a loop. *)
From Coq Require Import ZArith List Bool Arith Lia Permutation.
From Verif Require Import SpecWord SpecIsa SpecFlat SpecCfg SpecLift SpecIr SpecSsa SpecNormCond SpecOut M_Base M_Ir M_Edit M_GenBB M_Lift M_Layout M_Norm M_Pass
  L_GenBBEx L_Lift L_LiftSim L_LiftMain L_LiftSafe L_LiftProp L_LiftEx L_LiftWit
  SpecPass SpecStrict SpecShift SpecLayout SpecPrep L_LiftLay L_RaWit L_RaCheck L_VirtCheck L_VirtWit L_End M_Ra SpecRa SpecVirt L_RaProp.
Import ListNotations.
Open Scope nat_scope.

Definition is_id (d : nat) (v : value) : bool := match v_data v with VInsn e => e =? d | _ => false end.
Definition is_k (c : Z) (v : value) : bool := match v_data v with VConst z => (z =? c)%Z | _ => false end.
Definition is_anyk (v : value) : bool := match v_data v with VConst _ => true | _ => false end.
Definition tame_insn (sp : nat) (x : insn) : bool :=
  negb (is_bin_alu_op (i_op x) && match nth_error (i_vals x) 1 with Some v => is_id sp v | None => false end) &&
  negb (iop_eqb (i_op x) CALL && existsb (is_id sp) (i_vals x)) &&
  negb ((iop_eqb (i_op x) ADD || iop_eqb (i_op x) SUB) && match i_alu x with A_32 => true | _ => false end && existsb (is_k 0) (i_vals x)) &&
  negb (iop_eqb (i_op x) LOADRAW && is_anyk (a_val (i_addr x))).
Definition tameb (f : func) (sp : nat) : bool := forallb (fun i => match f_insn f i with Some x => tame_insn sp x | None => true end) (seq 0 (f_ni f)).
Lemma tameb_ok f sp : (forall i, f_ni f <= i -> f_insn f i = None) -> tameb f sp = true -> tame f sp.
Proof.
  intros Fr H. unfold tameb in H. rewrite forallb_forall in H.
  assert (K : forall i x, f_insn f i = Some x -> tame_insn sp x = true).
  { intros i x X. specialize (H i). rewrite X in H. apply H. apply in_seq. destruct (Nat.lt_ge_cases i (f_ni f)); [lia|]. rewrite Fr in X by assumption. discriminate X. }
  constructor.
  - intros i x v X O V D. specialize (K i x X). unfold tame_insn in K. rewrite O, V in K. unfold is_id at 1 in K. rewrite D, Nat.eqb_refl in K. discriminate K.
  - intros i x v X O V D. specialize (K i x X). unfold tame_insn in K. rewrite O in K. cbn [iop_eqb] in K. assert (Q : existsb (is_id sp) (i_vals x) = true) by (apply existsb_exists; exists v; split; [exact V|]; unfold is_id; rewrite D; apply Nat.eqb_refl).
    rewrite Q in K. cbn in K. discriminate K.
  - intros i x v X O A V D. specialize (K i x X). unfold tame_insn in K. assert (Q : existsb (is_k 0) (i_vals x) = true) by (apply existsb_exists; exists v; split; [exact V|]; unfold is_k; rewrite D; reflexivity).
    rewrite Q, A, !andb_true_iff in K. destruct K as ((_ & K) & _). destruct O as [O|O]; rewrite O in K; discriminate K.
  - intros i x c X O D. specialize (K i x X). unfold tame_insn in K. rewrite !andb_true_iff in K. destruct K as (_ & K). unfold is_anyk in K. rewrite O, D in K. discriminate K.
Qed.
Definition fieldsb (p : list bpf_insn) : bool := forallb (fun i => (- 2 ^ 31 <=? b_imm i)%Z && (b_imm i <? 2 ^ 31)%Z && (- 2 ^ 15 <=? b_off i)%Z && (b_off i <? 2 ^ 15)%Z) p.
Lemma fieldsb_ok p : fieldsb p = true -> fields_fit p.
Proof. unfold fieldsb, fields_fit, s32_range, s16_range. rewrite forallb_forall. intros H i I. specialize (H i I). rewrite !andb_true_iff, !Z.leb_le, !Z.ltb_lt in H. lia. Qed.

(** the parts of a compilation *)
Definition lay_of (p : list bpf_insn) : func * (list nat * list nat) := get_ok (f0, ([], [])) (layout 100 (lifted p)).
Definition init_of (p : list bpf_insn) : cgs := get_ok s_none (init_cg (fst (lay_of p)) (fst (snd (lay_of p))) sp_id [2;3;4;5;6]).
Definition prep_of (p : list bpf_insn) : cgs := get_ok s_none (prepare (init_of p)).
Definition asg_of (p : list bpf_insn) : cgs := placed (prep_of p).
Definition ids (_ : nat) := ident.
Definition code_of (p : list bpf_insn) : list bpf_insn := get_ok [] (codegen 100 ids ids Ok (fst (lay_of p)) (fst (snd (lay_of p))) sp_id [2;3;4;5;6]).
Definition endb (p : list bpf_insn) : bool :=
  wf_chk p && negb (jt_chk p 0) && reach_chk p && forallb plain_chk p && fieldsb p && is_ok (lift 20 400 p) && tameb (lifted p) sp_id &&
  is_ok (layout 100 (lifted p)) && (2 * length (f_all (lifted p)) + 1 <? 100) &&
  is_ok (init_cg (fst (lay_of p)) (fst (snd (lay_of p))) sp_id [2;3;4;5;6]) && is_ok (prepare (init_of p)) &&
  is_ok (analysis 100 (prep_of p)) && (length (c_all (get_ok s_none (analysis 100 (prep_of p)))) <? 100) &&
  is_ok (pre_spill 100 ident ident (get_ok s_none (analysis 100 (prep_of p)))) && is_ok (round (prep_of p)) &&
  apartb (prep_of p) (asg_of p) (arity_of ar_table) (TL (prep_of p)) (TN (prep_of p) (arity_of ar_table)) &&
  is_ok (codegen 100 ids ids Ok (fst (lay_of p)) (fst (snd (lay_of p))) sp_id [2;3;4;5;6]) && (length (code_of p) <? 100) && (length p <? 100).
Theorem end_by p : endb p = true ->
  exists f g L e s u code, liftable p /\ fields_fit p /\ lift 20 400 p = Ok f /\ tame f sp_id /\ layout 100 f = Ok (g, (L, e)) /\ 2 * length (f_all f) + 1 < 100 /\
    (forall j i, at_pos p j i -> SpecLift.plain ar_table i) /\ agrees ar_table /\
    codegen 100 ids ids Ok g L sp_id [2;3;4;5;6] = Ok code /\ one_round 100 ids ids g L sp_id [2;3;4;5;6] s u /\ apart (arity_of ar_table) s u /\
    (Z.of_nat (length code) <= 2 ^ 15)%Z /\ code = code_of p.
Proof.
  intros H. unfold endb in H. rewrite !andb_true_iff in H. destruct H as ((((((((((((((((((A & B) & C) & D) & E) & F) & G) & Hh) & I) & J) & K) & Lq) & M) & N) & O) & Q) & R) & S) & T).
  assert (Lf : lift 20 400 p = Ok (lifted p)) by (now apply get_ok_spec). apply Nat.ltb_lt in I, M, S, T.
  assert (P : liftable p). { constructor; [now apply wf_chk_ok|lia|apply jt_chk_ok; now apply negb_true_iff|now apply reach_chk_ok]. }
  exists (lifted p), (fst (lay_of p)), (fst (snd (lay_of p))), (snd (snd (lay_of p))), (prep_of p), (asg_of p), (code_of p).
  split; [exact P|]. split; [now apply fieldsb_ok|]. split; [exact Lf|]. split.
  { apply tameb_ok; [|exact G]. destruct (lift_struct p 20 400 (lifted p) (lb_wf _ P) (lb_len _ P) (lb_no0 _ P) Lf) as (_ & _ & _ & _ & _ & (FR & _) & _). exact FR. }
  split; [rewrite <- !surjective_pairing; now apply get_ok_spec|]. split; [exact I|]. split; [now apply plain_chk_ok|]. split; [exact ar_agrees|].
  split; [now apply get_ok_spec|]. split.
  { exists (init_of p), (get_ok s_none (analysis 100 (prep_of p))). assert (An : analysis 100 (prep_of p) = Ok (get_ok s_none (analysis 100 (prep_of p)))) by (now apply get_ok_spec).
    assert (Ro : round (prep_of p) = Ok (asg_of p)) by (now apply get_ok_spec). unfold round in Ro. rewrite An in Ro. cbn [bind] in Ro. unfold ids.
    destruct (pre_spill 100 ident ident (get_ok s_none (analysis 100 (prep_of p)))) as [[t1 [ts eps]]| | | |]; try discriminate N. cbn [bind fst snd] in Ro. destruct ts; [|discriminate Ro].
    exists t1, eps. split; [now apply get_ok_spec|]. split; [now apply get_ok_spec|]. split; [exact An|]. split; [exact M|]. split; [reflexivity|exact Ro]. }
  split; [now apply (apart_by _ _ _ (TL (prep_of p)) (TN (prep_of p) (arity_of ar_table)))|]. split; [lia|reflexivity].
Qed.
Lemma loop_end : endb w_loop = true.
Proof. vm_compute. reflexivity. Qed.

(** The entry is the target of a jump: the copy that fetches the argument is executed again, after a
    helper call has destroyed the register.  The function is a loop that starts at its first block. *)
Definition w_again : list bpf_insn := [Bmov 6 1; Bcall 7; Beq 0 (-2) 0; Bmov 0 6; Bexit]%Z.
Definition f_again : func :=
  let f := get_ok f0 (M_Pass.remove_trivial_phi 10 [1; 2; 3] (lifted w_again)) in
  mkFunc (f_insn f) (fun b => match b with 2 => option_map (fun k => mkBlock (b_insns k) [2] (b_succs k) (b_flag k)) (f_block f 2) | 3 => f_block f 3 | _ => None end)
    (f_ni f) (f_nb f) [2; 3] 2.
Definition w_kill : world := mkWorld (fun k _ a m => ([Z.of_nat k; 77; 0; 0; 0; 0]%Z, m)) (fun _ x => x).
Definition s0_again : cgs := get_ok s_none (init_cg f_again [2; 3] sp_id [2;3;4;5;6]).
Definition s_again : cgs := get_ok s_none (prepare s0_again).
Definition againb : bool :=
  is_ok (init_cg f_again [2; 3] sp_id [2;3;4;5;6]) && is_ok (prepare s0_again) &&
  match srun w_kill (fun _ => 0%Z) (fill 0 f_again) 9 0 2 (first_state (st_of 5 0)), vrun w_kill (fun _ _ => 0%Z) s_again 0 9 0 2 (mkV (fun _ => None) (st_of 5 0)) with
  | Some (ORet a _), Some (VDone b _) => (a =? 5)%Z && (b =? 77)%Z
  | _, _ => false
  end.
Definition loopb : bool :=
  existsb (fun i => match f_insn f_again i with Some x => iop_eqb (i_op x) JEQ && (i_bb2 x =? 2) | None => false end) (insns_of f_again 2).
Lemma again_goes : goes f_again 2 2.
Proof.
  assert (H : loopb = true) by (vm_compute; reflexivity). unfold loopb in H. apply existsb_exists in H as (i & I & K). destruct (f_insn f_again i) as [x|] eqn:X; [|discriminate K].
  apply andb_true_iff in K as (K1 & K2). apply Nat.eqb_eq in K2. rewrite <- K2 at 2. apply (go_c2 f_again 2 i x CEq I X). destruct (i_op x); try discriminate K1. reflexivity.
Qed.
Lemma both_of (a : option sout) (b : option vout) :
  match a, b with Some (ORet x _), Some (VDone y _) => (x =? 5)%Z && (y =? 77)%Z | _, _ => false end = true ->
  (exists t, a = Some (ORet 5 t)) /\ exists q, b = Some (VDone 77 q).
Proof.
  destruct a as [[|x t|]|]; try discriminate. destruct b as [[|y q]|]; try discriminate. intros D. apply andb_true_iff in D as (D1 & D2). apply Z.eqb_eq in D1, D2. subst x y. eauto.
Qed.
Lemma again_wrong : exists f reach s0 s w bi bb m t t' q z z', init_cg f reach sp_id [2;3;4;5;6] = Ok s0 /\ prepare s0 = Ok s /\ In (f_entry f) reach /\ goes f (f_entry f) (f_entry f) /\
  st_ok m /\ begins sp_id [2;3;4;5;6] m t /\ srun w bi (fill 0 f) 9 0 (f_entry f) t = Some (ORet z t') /\
  vrun w bb s 0 9 0 (f_entry f) (mkV (fun _ => None) m) = Some (VDone z' q) /\ z <> z'.
Proof.
  assert (H : againb = true) by (vm_compute; reflexivity). unfold againb in H. rewrite !andb_true_iff in H. destruct H as ((B & C) & D).
  apply both_of in D as ((t' & S) & (q & V)).
  exists f_again, [2; 3], s0_again, s_again, w_kill, (fun _ => 0%Z), (fun _ _ => 0%Z), (st_of 5 0), (first_state (st_of 5 0)), t', q, 5%Z, 77%Z.
  assert (E2 : f_entry f_again = 2) by (vm_compute; reflexivity). rewrite E2.
  split; [unfold s0_again; apply get_ok_spec; exact B|]. split; [unfold s_again; apply get_ok_spec; exact C|]. split; [now left|]. split; [exact again_goes|].
  split; [split; [reflexivity|]; repeat constructor; cbn; lia|]. split; [apply first_begins|]. split; [exact S|]. split; [exact V|discriminate].
Qed.
