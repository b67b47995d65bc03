(** Programs on which the allocator goes wrong, and the function used in the examples. *)
From Coq Require Import ZArith List Permutation.
From Verif Require Import SpecWord SpecIsa SpecSsa SpecLift M_Base M_Ir M_Edit M_Layout M_Norm M_GenBB M_Lift M_Ra SpecIr SpecRa
  L_GenBBEx L_LiftEx L_LiftWit L_RaGraph L_RaLive L_RaMain L_RaProp L_RaCheck.
Import ListNotations.
Open Scope nat_scope.

(** ** From bytecode to the allocator: lifting, bpf_ir_prepare_... of the block lists, init_cg,
    change_call .. spill_const *)
Definition laid (f : func) : outcome (func * list nat) :=
  do f1 <- gen_bb_succ f; do l <- gen_reachable 100 f1; Ok (f1, l).
Definition prepared (f : func) : outcome cgs :=
  do r <- laid f; do s <- init_cg (fst r) (snd r) sp_id [2;3;4;5;6]; prepare s.
Definition s_none : cgs := mkCg f0 [] (fun _ => None) [] 0 [] [] [] 0%Z.
Definition prepd (f : func) : cgs := restrict (get_ok s_none (prepared f)).
(** bytecode to bytecode, without passes *)
Definition translate (fuel : nat) (om os : nat -> nat -> list nat -> list nat) (p : list bpf_insn) : outcome (list bpf_insn) :=
  do f <- lift 20 400 p;
  do r <- laid f;
  codegen fuel om os Ok (fst r) (snd r) sp_id [2;3;4;5;6].
Definition translated (p : list bpf_insn) : list bpf_insn := get_ok [] (translate 100 (fun _ => ident) (fun _ => ident) p).

Definition goodb (s : cgs) : bool :=
  readyb s && tidyb s && operandsb s && fullb s && strictb s (get_ok s_none (analysis 100 s)) && (length (c_reach s) <? 100).
Lemma good_ok f s : s = prepd f -> goodb s = true ->
  ready s /\ tidy s /\ operands_ok s /\ empties_below s 0 /\ strict s /\ length (c_reach s) < 100 /\
  exists t, analysis 100 s = Ok t /\ analysed s t.
Proof.
  intros -> H. set (s := prepd f) in *. unfold goodb in H. rewrite !Bool.andb_true_iff in H. destruct H as (((((Ra & Ta) & Oa) & Fa) & H1) & H0). apply Nat.ltb_lt in H0.
  assert (R : ready s) by (apply readyb_ok; assumption).
  assert (T : tidy s) by (apply tidyb_ok; [assumption|]; intros v; apply restrict_none).
  assert (O : operands_ok s) by (apply operandsb_ok; assumption).
  assert (E : empties_below s 0) by (apply fullb_ok; assumption).
  destruct (analysis_ok 100 0 s R T O E H0) as (t & Rt & A); [apply Nat.lt_0_succ|].
  split; [exact R|]. split; [exact T|]. split; [exact O|]. split; [exact E|]. split.
  - eapply strictb_ok; [exact A|]. rewrite Rt in H1. exact H1.
  - split; [exact H0|]. exists t. auto.
Qed.

(** ** Programs *)
Definition Bmov d s := mkBpf 0xbf d s 0 0.
Definition Badd d s := mkBpf 0x0f d s 0 0.
Definition Bexit := mkBpf 0x95 0 0 0 0.
Definition Bld d := mkBpf 0x79 d 10 (-8) 0.
Definition Bst d := mkBpf 0x7b 10 d (-16) 0.
Definition Bcall n := mkBpf 0x85 0 0 0 n.

(** nine values live together, none of which may clash with more than ten others, and no register left *)
Definition w_tight : list bpf_insn :=
  [Bld 6; Bcall 5; Bld 1; Bld 2; Bld 3; Bld 4; Bst 6; Bld 0; Bld 5; Bld 6; Bld 7; Bld 8; Bld 9;
   Badd 0 1; Badd 0 2; Badd 0 3; Badd 0 4; Badd 0 5; Badd 0 6; Badd 0 7; Badd 0 8; Badd 0 9; Bexit]%Z.
(** r3 + r1 + r2 *)
Definition w_args : list bpf_insn := [Bmov 0 3; Badd 0 1; Badd 0 2; Bexit]%Z.
(** the frame pointer is passed to a helper *)
Definition w_frame : list bpf_insn := [Bmov 1 10; Bmov 2 10; Bcall 1; Bld 0; Bexit]%Z.

(** a function that keeps a copy of a value in a variable, overwrites the variable and returns the
    value: [a = ALLOC; x = LOADRAW; STORE a x; STORE a 2; RET x] *)
Definition w_var : outcome func :=
  do f <- lift 20 400 [Bld 0; Bexit]%Z;
  match insns_of f (f_entry f) with
  | x :: _ =>
    do a <- create_at_bb f (f_entry f) (K_alloc VR_64) P_FRONT;
    do b <- create_at (fst a) x (K_store (snd a) (val_insn x)) P_BACK;
    do c <- create_at (fst b) (snd b) (K_store (snd a) (val_const64 2)) P_BACK;
    Ok (fst c)
  | _ => Err
  end.

(** ** The witnesses at work *)
Definition in_regb (s : cgs) (v : nat) (r : Z) : bool :=
  opt (c_ex s v) (fun e => vp_alloc (x_pos e) && (vp_spilled (x_pos e) =? 0)%Z && (vp_reg (x_pos e) =? r)%Z).
Lemma in_regb_ok s v r : in_regb s v r = true -> in_reg s v r.
Proof.
  unfold in_regb, in_reg. intros H. apply opt_ok in H. destruct H as (e & He & H). rewrite !Bool.andb_true_iff, !Z.eqb_eq in H.
  exists e. intuition.
Qed.
Lemma live_before_mem t i v : opt (c_ex t i) (fun e => mem v (x_in e)) = true -> live_before t i v.
Proof. intros H. apply opt_ok in H. destruct H as (e & He & H). exists e. split; [exact He|apply mem_In, H]. Qed.

Definition s_var : cgs := prepd (get_ok f0 w_var).
Lemma s_var_start : start s_var 1.
Proof. split; vm_compute; auto. Qed.
Definition ok_pair (o : outcome (cgs * cgs)) := get_ok (s_none, s_none) o.

(** coalescing puts the variable and the value into the same register *)
Lemma var_merged : exists s t u u' a b p,
  ready s /\ tidy s /\ operands_ok s /\ strict s /\ copies_ok s /\ analysis 100 s = Ok t /\
  coloured 100 s = Ok (t, u) /\ sound_assignment s u /\
  coalescing u = Ok u' /\ tracked s a /\ tracked s b /\ a <> b /\ arrives s p /\ live s a p /\ live s b p /\
  adjacent t a b /\ share u' a b.
Proof.
  assert (G : goodb s_var = true) by (vm_compute; reflexivity).
  destruct (good_ok _ s_var eq_refl G) as (R & T & O & E & St & L & t & Rt & A).
  assert (Lt : length (c_all t) < 100).
  { replace t with (get_ok s_none (analysis 100 s_var)) by (rewrite Rt; reflexivity). apply Nat.ltb_lt. vm_compute. reflexivity. }
  destruct (spill_and_color 100 0 ident ident s_var t R T O E St L (Nat.lt_0_succ 99) ident_orders ident_orders Rt Lt)
    as (t1 & ts & eps & Rp & S1 & Pm & _ & _ & _ & _ & _ & C).
  assert (K : is_ok (do r <- coloured 100 s_var; coalescing (snd r)) = true) by (vm_compute; reflexivity).
  destruct (coloured_spec 100 s_var t t1 (ts, eps) Rt Rp) as (K1 & K2).
  destruct C as [C|(u & C & Pl & Sa)]; [rewrite (K1 C) in K; discriminate K|].
  pose proof (K2 u C) as Ec. rewrite Ec in K. cbn [bind snd] in K. destruct (coalescing u) as [u'| | | |] eqn:Ku; [|discriminate K ..].
  assert (Et : t = fst (ok_pair (coloured 100 s_var))) by (rewrite Ec; reflexivity).
  assert (Eu : u' = get_ok s_none (do r <- coloured 100 s_var; coalescing (snd r))).
  { rewrite Ec. cbn [bind snd]. rewrite Ku. reflexivity. }
  assert (T9 : tracked s_var 9) by (apply trackedb_ok; vm_compute; reflexivity).
  assert (T7 : tracked s_var 7) by (apply trackedb_ok; vm_compute; reflexivity).
  assert (I1 : In 1 (c_reach s_var)) by apply s_var_start.
  assert (At : insn_at s_var 1 2 10) by (vm_compute; reflexivity).
  exists s_var, t, u, u', 9, 7, (1, 2).
  split; [exact R|]. split; [exact T|]. split; [exact O|]. split; [exact St|].
  split. { apply copies_okb_ok. vm_compute. reflexivity. }
  split; [exact Rt|]. split; [exact Ec|]. split; [exact Sa|]. split; [exact Ku|]. split; [exact T9|]. split; [exact T7|]. split; [discriminate|].
  split.
  { exists 1. split; [exact s_var_start|]. eapply reaches_step; [eapply reaches_step; [apply reaches_refl|]|].
    - apply (flow_step s_var 1 0 9 I1). vm_compute. reflexivity.
    - apply (flow_step s_var 1 1 7 I1). vm_compute. reflexivity. }
  split. { destruct (an_exact s_var t A 9 T9) as (X & _). apply (X 1 2 10 I1 At). apply live_before_mem. rewrite Et. vm_compute. reflexivity. }
  split. { destruct (an_exact s_var t A 7 T7) as (X & _). apply (X 1 2 10 I1 At). apply live_before_mem. rewrite Et. vm_compute. reflexivity. }
  split. { assert (X : adjcb t 9 7 = true) by (rewrite Et; vm_compute; reflexivity). apply opt_ok in X. destruct X as (e & He & X).
    exists e. split; [exact He|apply mem_In, X]. }
  exists 2%Z. split; apply in_regb_ok; rewrite Eu; vm_compute; reflexivity.
Qed.

(** every candidate clique has at most ten members, and yet colouring runs out of registers *)
Definition stuckb (s : cgs) : bool :=
  match pre_spill 100 ident ident (get_ok s_none (analysis 100 s)) with
  | Ok (t1, ([], _)) => match coloring t1 with Err => true | _ => false end
  | _ => false
  end.
Lemma stuckb_ok s t : analysis 100 s = Ok t -> stuckb s = true ->
  exists t1 eps, pre_spill 100 ident ident t = Ok (t1, ([], eps)) /\ coloring t1 = Err.
Proof.
  intros Rt H. unfold stuckb in H. rewrite Rt in H. cbn [get_ok] in H.
  destruct (pre_spill 100 ident ident t) as [[t1 [[|a l] eps]]| | | |] eqn:E; try discriminate H.
  exists t1, eps. split; [reflexivity|]. destruct (coloring t1); try discriminate H. reflexivity.
Qed.
Definition s_tight : cgs := prepd (lifted w_tight).
Lemma tight_fails : exists s t t1 eps,
  ready s /\ tidy s /\ operands_ok s /\ empties_below s 0 /\ strict s /\ analysis 100 s = Ok t /\ length (c_all t) < 100 /\
  pre_spill 100 ident ident t = Ok (t1, ([], eps)) /\ (forall q, In q eps -> length q <= 10) /\ coloring t1 = Err.
Proof.
  assert (G : goodb s_tight = true) by (vm_compute; reflexivity).
  destruct (good_ok _ s_tight eq_refl G) as (R & T & O & E & St & L & t & Rt & A).
  assert (Lt : length (c_all t) < 100).
  { replace t with (get_ok s_none (analysis 100 s_tight)) by (rewrite Rt; reflexivity). apply Nat.ltb_lt. vm_compute. reflexivity. }
  destruct (stuckb_ok s_tight t Rt) as (t1 & eps & Rp & C); [vm_compute; reflexivity|].
  exists s_tight, t, t1, eps.
  destruct (spill_and_color 100 0 ident ident s_tight t R T O E St L (Nat.lt_0_succ 99) ident_orders ident_orders Rt Lt)
    as (t1' & ts & eps' & Rp' & _ & _ & _ & _ & B & _).
  rewrite Rp in Rp'. injection Rp' as <- <- <-. auto 12.
Qed.
Lemma tight_rejected : translate 100 (fun _ => ident) (fun _ => ident) w_tight = Err.
Proof. vm_compute. reflexivity. Qed.

(** the frame pointer is moved to the register of an argument *)
Definition s_frame : cgs := prepd (lifted w_frame).
Lemma frame_moved : exists s t u u',
  ready s /\ tidy s /\ operands_ok s /\ strict s /\ copies_ok s /\ coloured 100 s = Ok (t, u) /\ coalescing u = Ok u' /\
  in_reg s (c_sp s) 10 /\ fixed s (c_sp s) /\ in_reg u (c_sp s) 10 /\ in_reg u' (c_sp s) 2.
Proof.
  assert (G : goodb s_frame = true) by (vm_compute; reflexivity).
  destruct (good_ok _ s_frame eq_refl G) as (R & T & O & E & St & L & t & Rt & A).
  destruct (coloured 100 s_frame) as [[t' u]| | | |] eqn:Ec; [|exfalso; assert (K : is_ok (coloured 100 s_frame) = true) by (vm_compute; reflexivity); rewrite Ec in K; discriminate K ..].
  assert (Eu : u = snd (ok_pair (coloured 100 s_frame))) by (rewrite Ec; reflexivity).
  destruct (coalescing u) as [u'| | | |] eqn:Ku; [|exfalso; assert (K : is_ok (coalescing u) = true) by (rewrite Eu; vm_compute; reflexivity); rewrite Ku in K; discriminate K ..].
  assert (Ev : u' = get_ok s_none (coalescing (snd (ok_pair (coloured 100 s_frame))))) by (rewrite <- Eu, Ku; reflexivity).
  exists s_frame, t', u, u'. split; [exact R|]. split; [exact T|]. split; [exact O|]. split; [exact St|].
  split. { apply copies_okb_ok. vm_compute. reflexivity. }
  split; [exact Ec|]. split; [exact Ku|].
  split. { apply in_regb_ok. vm_compute. reflexivity. }
  split. { apply finb_ok. vm_compute. reflexivity. }
  split; apply in_regb_ok; [rewrite Eu|rewrite Ev]; vm_compute; reflexivity.
Qed.

(** the generated code does something else than the program *)
Lemma args_wrong : exists w p q s r1 s1 r2 s2,
  translate 100 (fun _ => ident) (fun _ => ident) p = Ok q /\
  isa_run w p 20 0 s = IExit r1 s1 /\ isa_run w q 20 0 s = IExit r2 s2 /\ r1 <> r2.
Proof.
  exists w_sum, w_args, (translated w_args), (st_of 1 2 3 0 0 (fun _ => 0%Z)).
  do 4 eexists. split; [apply get_ok_spec; vm_compute; reflexivity|].
  split; [vm_compute; reflexivity|]. split; [vm_compute; reflexivity|]. vm_compute. discriminate.
Qed.
Lemma frame_wrong : exists w p q s r1 s1 r2 s2,
  translate 100 (fun _ => ident) (fun _ => ident) p = Ok q /\
  isa_run w p 20 0 s = IExit r1 s1 /\ isa_run w q 20 0 s = IExit r2 s2 /\ r1 <> r2.
Proof.
  exists w_sum, w_frame, (translated w_frame), (st_of 1 2 3 0 0 (fun a => (a mod 7)%Z)).
  do 4 eexists. split; [apply get_ok_spec; vm_compute; reflexivity|].
  split; [vm_compute; reflexivity|]. split; [vm_compute; reflexivity|]. vm_compute. discriminate.
Qed.
Definition laid_var : func * list nat := get_ok (f0, []) (do f <- w_var; laid f).
Lemma var_wrong : exists w bi f l q s t r1 t1 r2 s2, laid_var = (f, l) /\
  codegen 100 (fun _ => ident) (fun _ => ident) Ok f l sp_id [2;3;4;5;6] = Ok q /\
  enters s t sp_id arg_id /\
  srun w bi f 20 0 (f_entry f) t = Some (ORet r1 t1) /\ isa_run w q 20 0 s = IExit r2 s2 /\ r1 <> r2.
Proof.
  exists w_sum, bi0, (fst laid_var), (snd laid_var),
   (get_ok [] (codegen 100 (fun _ => ident) (fun _ => ident) Ok (fst laid_var) (snd laid_var) sp_id [2;3;4;5;6])),
   (st_of 1 2 3 0 0 (fun a => (a mod 7)%Z)), (sst_of (st_of 1 2 3 0 0 (fun a => (a mod 7)%Z))).
  do 4 eexists. split; [destruct laid_var; reflexivity|]. split; [apply get_ok_spec; vm_compute; reflexivity|].
  split; [apply enters_of|].
  split; [vm_compute; reflexivity|]. split; [vm_compute; reflexivity|]. vm_compute. discriminate.
Qed.

(** a function in which twelve loaded values are live together *)
Definition w_many : outcome func :=
  do f <- lift 20 400 [Bld 0; Bexit]%Z;
  match insns_of f (f_entry f) with
  | [x; r] =>
    do y <- get_insn f x;
    do a <- ofold (fun (q : func * list nat) _ => do c <- create_at_bb (fst q) (f_entry f) (K_loadraw VR_64 (i_addr y)) P_FRONT; Ok (fst c, snd c :: snd q))
                  (f, []) (seq 0 11);
    do b <- ofold (fun (q : func * nat) d => do c <- create_at (fst q) (snd q) (K_bin (val_insn (snd q)) (val_insn d) ADD A_64) P_BACK; Ok (fst c, snd c))
                  (fst a, x) (snd a);
    change_value (fst b) r (SVal 0) (val_insn (snd b))
  | _ => Err
  end.
