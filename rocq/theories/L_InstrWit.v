(** Deciders and example functions for the instrumentation passes. *)
From Coq Require Import ZArith List Bool Arith Lia.
From Verif Require Import M_Base M_Ir M_Edit M_EditHist M_Pass SpecWord SpecFlat SpecSsa SpecIr SpecEdit SpecPass SpecStrict SpecInstr
  L_Edit L_Uses L_Hist L_PassWit L_Ins L_Div L_Count L_CountRun.
Import ListNotations.
Open Scope nat_scope.

Definition memb (i : nat) (l : list nat) : bool := existsb (Nat.eqb i) l.
Lemma memb_in i l : memb i l = true <-> In i l.
Proof. apply L_CountRun.existsb_in. Qed.
Definition jump_okb (f : func) (b i : nat) : bool :=
  match f_insn f i with
  | Some x => (negb (iop_eqb (i_op x) JA) || memb (i_bb1 x) (succs_of f b)) &&
              match cmp_op_of (i_op x) with Some _ => memb (i_bb1 x) (succs_of f b) && memb (i_bb2 x) (succs_of f b) | None => true end
  | None => true
  end.
Definition cfgb (f : func) : bool :=
  forallb (fun b => forallb (jump_okb f b) (insns_of f b) && forallb (fun i => negb (is_jmp_op (op_of f i))) (removelast (insns_of f b))) (seq 0 (f_nb f)) &&
  match f_block f (f_entry f) with Some _ => true | None => false end.
Lemma removelast_in (A : Type) (l1 : list A) i l2 : l2 <> [] -> In i (removelast (l1 ++ i :: l2)).
Proof.
  intros N. rewrite removelast_app by discriminate. apply in_or_app. right. cbn. destruct l2; [congruence|now left].
Qed.
Lemma cfgb_ok f : wf_func f -> cfgb f = true -> cfg_ok f.
Proof.
  intros W E. apply andb_prop in E as (E & EN). rewrite forallb_forall in E.
  assert (K : forall b i, In i (insns_of f b) -> forallb (jump_okb f b) (insns_of f b) = true /\ forallb (fun i => negb (is_jmp_op (op_of f i))) (removelast (insns_of f b)) = true).
  { intros b i H. apply andb_prop. apply E. apply in_seq. split; [lia|]. destruct (Nat.lt_ge_cases b (f_nb f)) as [?|G]; [lia|].
    apply (proj2 (wf_fresh _ W)) in G. unfold insns_of in H. rewrite G in H. destruct H. }
  constructor; try apply W.
  - intros b c G. destruct G as [i x H X O|i x k H X O|i x k H X O|c l H].
    4: rewrite H; now left.
    all: destruct (K b i H) as (K1 & _); rewrite forallb_forall in K1; specialize (K1 i H); unfold jump_okb in K1; rewrite X, O in K1; apply andb_prop in K1 as (A & B).
    + apply memb_in. apply orb_prop in A as [A|A]; [discriminate|exact A].
    + apply andb_prop in B as (B & _). now apply memb_in.
    + apply andb_prop in B as (_ & B). now apply memb_in.
  - intros b l1 i l2 L T. destruct l2 as [|z l2]; auto. exfalso.
    destruct (K b i) as (_ & K2); [rewrite L; apply in_or_app; right; now left|]. rewrite forallb_forall in K2.
    assert (I : In i (removelast (insns_of f b))) by (rewrite L; apply removelast_in; discriminate). apply K2 in I.
    apply op_term in T. rewrite T in I. discriminate.
  - destruct (f_block f (f_entry f)); congruence.
Qed.
Definition liveb (f : func) : bool :=
  forallb (fun i => match f_insn f i with
                    | Some x => forallb (fun v => match v_data v with VInsn d => match f_insn f d with Some _ => true | None => false end | _ => true end) (operand_values x)
                    | None => true
                    end) (seq 0 (f_ni f)).
Lemma liveb_ok f : fresh_ok f -> liveb f = true -> operands_live f.
Proof.
  intros F E i x v d X I D. unfold liveb in E. rewrite forallb_forall in E. specialize (E i (live_below f i x F X)). rewrite X in E.
  rewrite forallb_forall in E. specialize (E v I). rewrite D in E. destruct (f_insn f d); congruence.
Qed.
Definition no_phib (f : func) : bool := forallb (fun i => negb (iop_eqb (op_of f i) PHI)) (seq 0 (f_ni f)).
Lemma no_phib_first f : fresh_ok f -> no_phib f = true -> phis_first f.
Proof.
  intros F E b l1 i l2 L P. exfalso. unfold no_phib in E. rewrite forallb_forall in E. assert (P' := P). destruct P as (x & X & _).
  specialize (E i (live_below f i x F X)). apply op_phi in P'. rewrite P' in E. discriminate.
Qed.
Definition exploredb (f : func) (reach : list nat) : bool :=
  memb (f_entry f) reach && forallb (fun b => match f_block f b with Some k => forallb (fun c => memb c reach) (b_succs k) | None => false end) reach.
Lemma exploredb_ok f reach : NoDup reach -> exploredb f reach = true -> explored f reach.
Proof.
  intros N E. apply andb_prop in E as (E1 & E2). rewrite forallb_forall in E2. constructor; auto.
  - intros b I. specialize (E2 b I). destruct (f_block f b); congruence.
  - now apply memb_in.
  - intros b c I S. specialize (E2 b I). unfold succs_of in S. destruct (f_block f b) as [k|]; [|destruct S]. rewrite forallb_forall in E2. apply memb_in. auto.
Qed.
Definition unmarkedb (f : func) : bool := forallb (fun b => match f_block f b with Some k => negb (Z.testbit (b_flag k) 0) | None => true end) (seq 0 (f_nb f)).
Lemma unmarkedb_ok f : fresh_ok f -> unmarkedb f = true -> unmarked f.
Proof.
  intros F E b k K. unfold unmarkedb in E. rewrite forallb_forall in E. specialize (E b). rewrite K in E.
  assert (I : In b (seq 0 (f_nb f))). { apply in_seq. destruct (Nat.lt_ge_cases b (f_nb f)) as [?|G]; [lia|]. rewrite (proj2 F b G) in K. discriminate. }
  specialize (E I). destruct (Z.testbit (b_flag k) 0); auto; discriminate.
Qed.

(** Running up to an instruction *)
Fixpoint upto (i : nat) (l : list nat) : list nat := match l with [] => [] | x :: r => if x =? i then [] else x :: upto i r end.
Lemma upto_spec i l : In i l -> exists r, l = upto i l ++ i :: r.
Proof.
  induction l as [|x l IH]; intros I; [destruct I|]. cbn. destruct (Nat.eqb_spec x i) as [->|N]; [exists l; reflexivity|].
  destruct I as [I|I]; [contradiction|]. destruct (IH I) as (r & E). exists r. cbn. now rewrite <- E.
Qed.
Definition arrive (w : world) (bi : bconst -> Z) (g : func) (s0 : sst) (n i : nat) : option sst :=
  match srun w bi g n 0 (f_entry g) s0 with
  | Some (OAt prev b s1) =>
    if memb i (insns_of g b) then
      match sphis bi g prev s1 s1 (upto i (insns_of g b)) with
      | Some (rest, s2) => match sbody w bi g s2 rest with Some (SNext s) => Some s | _ => None end
      | None => None
      end
    else None
  | _ => None
  end.
Lemma arrive_reaches w bi g s0 n i s : arrive w bi g s0 n i = Some s -> reaches w bi g s0 i s.
Proof.
  unfold arrive. intros E. destruct (srun w bi g n 0 (f_entry g) s0) as [[prev b s1| |]|] eqn:R; try discriminate.
  destruct (memb i (insns_of g b)) eqn:M; [|discriminate]. apply memb_in in M. destruct (upto_spec _ _ M) as (r & L).
  destruct (sphis bi g prev s1 s1 (upto i (insns_of g b))) as [[rest s2]|] eqn:P; [|discriminate].
  destruct (sbody w bi g s2 rest) as [[s'| | |]|] eqn:B; try discriminate. injection E as ->.
  exists n, prev, b, s1, (upto i (insns_of g b)), r, rest, s2. auto.
Qed.
Definition zerob (o : iop) (wd : bool) (bi : bconst -> Z) (w : world) (s0 : sst) (g : func) (n i : nat) : bool :=
  match f_insn g i with
  | Some x => iop_eqb (i_op x) o &&
    match i_vals x, width_of (i_alu x), arrive w bi g s0 n i with
    | _ :: d :: _, Some wd', Some s => Bool.eqb wd' wd && match seval bi (s_env s) d with Some z => (trunc wd z =? 0)%Z | None => false end
    | _, _, _ => false
    end
  | None => false
  end.
Lemma zerob_ok o wd bi w s0 g n i : zerob o wd bi w s0 g n i = true -> by_zero o wd bi g i.
Proof.
  unfold zerob. intros E. destruct (f_insn g i) as [x|] eqn:X; [|discriminate]. apply andb_prop in E as (E1 & E).
  unfold iop_eqb in E1. destruct (iop_eq_dec (i_op x) o) as [O|]; [|discriminate].
  destruct (i_vals x) as [|a [|d r]] eqn:V; try discriminate. destruct (width_of (i_alu x)) as [wd'|] eqn:W; [|discriminate].
  destruct (arrive w bi g s0 n i) as [s|] eqn:A; [|discriminate]. apply andb_prop in E as (E2 & E). apply eqb_prop in E2. subst wd'.
  destruct (seval bi (s_env s) d) as [z|] eqn:Z; [|discriminate]. apply Z.eqb_eq in E. apply arrive_reaches in A.
  exists w, s0, s, x, a, d, r, z. auto 10.
Qed.

(** * Example functions *)
Definition after (o : outcome func) : func := match o with Ok f => f | _ => empty_func end.
Definition okb (o : outcome func) : bool := match o with Ok _ => true | _ => false end.
Lemma after_ok o : okb o = true -> o = Ok (after o).
Proof. destruct o; try discriminate. reflexivity. Qed.
(** a division by the result of a call *)
Definition divide (o : iop) (al : alut) (d : value) : func := run_get
  [ E_create_at_bb 1 (K_call 7) P_BACK;                                (* 1 *)
    E_create_at_bb 1 (K_bin (val_const32 12) d o al) P_BACK;           (* 2 *)
    E_create_at_bb 1 (K_ret (reg 2)) P_BACK ].                         (* 3 *)
(** the division is the first instruction of its block *)
Definition divide_first : func := run_get
  [ E_create_bb; E_connect 1 2;
    E_create_at_bb 1 (K_call 7) P_BACK;                                (* 1 *)
    E_create_at_bb 1 (K_ja 2) P_BACK;                                  (* 2 *)
    E_create_at_bb 2 (K_bin (val_const32 12) (reg 1) DIV A_64) P_BACK; (* 3 *)
    E_create_at_bb 2 (K_ret (reg 3)) P_BACK ].                         (* 4 *)
(** a loop controlled by a call, entered from the entry block *)
Definition loop : func := run_get
  [ E_create_bb; E_create_bb; E_connect 1 2; E_connect 2 3; E_connect 2 2;
    E_create_at_bb 1 (K_ja 2) P_BACK;                                      (* 1 *)
    E_create_at_bb 2 (K_call 7) P_BACK;                                    (* 2 *)
    E_create_at_bb 2 (K_jbin (reg 2) (val_const32 0) 2 3 JEQ A_64) P_BACK; (* 3 *)
    E_create_at_bb 3 (K_ret (reg 2)) P_BACK ].                             (* 4 *)
(** the same without an entry block of its own *)
Definition entry_loop : func := run_get
  [ E_create_bb; E_connect 1 2; E_connect 1 1;
    E_create_at_bb 1 (K_call 7) P_BACK;                                    (* 1 *)
    E_create_at_bb 1 (K_jbin (reg 1) (val_const32 0) 1 2 JEQ A_64) P_BACK; (* 2 *)
    E_create_at_bb 2 (K_ret (reg 1)) P_BACK ].                             (* 3 *)
Definition cnt5 : bconst -> Z := fun _ => 5%Z.
Definition end_of (w : world) (bi : bconst -> Z) (g : func) (n : nat) : nat :=
  match srun w bi g n 0 (f_entry g) s_zero with Some (OAt _ _ _) => 1 | Some (ORet _ _) => 2 | Some (OThrow _) => 3 | None => 0 end.

(** two blocks that go to each other whatever the state *)
Definition round (w : world) (bi : bconst -> Z) (g : func) (a b p : nat) (s : sst) : bool :=
  match sblock w bi g p a s with
  | Some (SJmp c s1) => (c =? b) && match sblock w bi g a b s1 with Some (SJmp d _) => d =? a | _ => false end
  | _ => false
  end.
Lemma round_on w bi g a b : (forall p s, round w bi g a b p s = true) -> forall n p s, exists prev c t, srun w bi g n p a s = Some (OAt prev c t).
Proof.
  intros H. enough (K : forall n p s, (exists prev c t, srun w bi g n p a s = Some (OAt prev c t)) /\ exists prev c t, srun w bi g (S n) p a s = Some (OAt prev c t)) by (intros n p s; apply (K n p s)).
  induction n as [|n IH]; intros p s.
  - split; [cbn; eauto|]. specialize (H p s). unfold round in H. cbn [srun]. destruct (sblock w bi g p a s) as [[|c s1| |]|]; try discriminate. cbn. eauto.
  - split; [apply IH|]. assert (R := H p s). unfold round in R. cbn [srun]. destruct (sblock w bi g p a s) as [[|c s1| |]|]; try discriminate. cbn [obind].
    apply andb_prop in R as (R1 & R2). apply Nat.eqb_eq in R1. subst c. destruct (sblock w bi g a b s1) as [[|d s2| |]|]; try discriminate. cbn [obind].
    apply Nat.eqb_eq in R2. subst d. apply IH.
Qed.
Lemma loop_cfg : cfg_ok loop /\ operands_live loop /\ explored loop [1; 2; 3] /\ entry_apart loop /\ unmarked loop.
Proof.
  assert (W := built_wf _ : wf_func loop). split; [apply cfgb_ok; auto; vm_compute; reflexivity|]. split; [apply liveb_ok; [exact (wf_fresh _ W)|vm_compute; reflexivity]|].
  split; [apply exploredb_ok; [repeat constructor; cbn; intuition discriminate|vm_compute; reflexivity]|]. split; [vm_compute; reflexivity|].
  apply unmarkedb_ok; [exact (wf_fresh _ W)|vm_compute; reflexivity].
Qed.
Lemma entry_loop_cfg : cfg_ok entry_loop /\ operands_live entry_loop /\ explored entry_loop [1; 2] /\ unmarked entry_loop.
Proof.
  assert (W := built_wf _ : wf_func entry_loop). split; [apply cfgb_ok; auto; vm_compute; reflexivity|]. split; [apply liveb_ok; [exact (wf_fresh _ W)|vm_compute; reflexivity]|].
  split; [apply exploredb_ok; [repeat constructor; cbn; intuition discriminate|vm_compute; reflexivity]|].
  apply unmarkedb_ok; [exact (wf_fresh _ W)|vm_compute; reflexivity].
Qed.
Definition entry_fast : func := after (counter_fast 20 [1; 2] entry_loop).
Definition entry_accurate : func := after (counter_accurate 20 [1; 2] entry_loop).
Lemma entry_fast_on : runs_on cnt5 entry_fast.
Proof.
  exists (w_one 1), s_zero. intros n. assert (E : f_entry entry_fast = 1) by (vm_compute; reflexivity). rewrite E.
  apply (round_on _ _ _ 1 1). intros p [e v m k]. vm_compute. reflexivity.
Qed.
Lemma entry_accurate_on : runs_on cnt5 entry_accurate.
Proof.
  exists (w_one 1), s_zero. intros n. assert (E : f_entry entry_accurate = 1) by (vm_compute; reflexivity). rewrite E.
  apply (round_on _ _ _ 1 3). intros p [e v m k]. vm_compute. reflexivity.
Qed.
(** no block of the function has four instructions ending in a check *)
Definition no_checkb (g : func) : bool :=
  forallb (fun b => match rev (insns_of g b) with j :: _ => negb (iop_eqb (op_of g j) JGT) | [] => true end) (seq 0 (f_nb g)).
Lemma no_checkb_ok g : no_checkb g = true -> forall cell limit b, b < f_nb g -> ~ has_check g cell limit b.
Proof.
  intros E cell limit b B (body & ld & ad & st & j & eb & L & CK). unfold no_checkb in E. rewrite forallb_forall in E.
  assert (I : In b (seq 0 (f_nb g))) by (apply in_seq; lia). specialize (E b I). rewrite L, rev_app_distr in E. cbn in E.
  destruct (ck_j _ _ _ _ _ _ _ _ CK) as (x & X & O & _). unfold op_of in E. rewrite X, O in E. discriminate.
Qed.
Lemma divide_cfg o al d l : divide o al d = run_get l -> cfgb (divide o al d) && no_phib (divide o al d) = true -> cfg_ok (divide o al d) /\ phis_first (divide o al d).
Proof.
  intros E H. apply andb_prop in H as (H1 & H2). assert (W : wf_func (divide o al d)) by (rewrite E; apply built_wf).
  split; [apply cfgb_ok; auto|apply no_phib_first; [exact (wf_fresh _ W)|exact H2]].
Qed.
Lemma divide_first_cfg : cfg_ok divide_first /\ phis_first divide_first.
Proof.
  assert (W := built_wf _ : wf_func divide_first). split; [apply cfgb_ok; auto; vm_compute; reflexivity|apply no_phib_first; [exact (wf_fresh _ W)|vm_compute; reflexivity]].
Qed.
Definition get_or {A} (d : A) (o : option A) : A := match o with Some a => a | None => d end.
Definition someb {A} (o : option A) : bool := match o with Some _ => true | None => false end.
Lemma get_or_some {A} (d : A) o : someb o = true -> o = Some (get_or d o).
Proof. destruct o; [reflexivity|discriminate]. Qed.
Lemma fast_cycles limit reach f g :
  cfg_ok f -> operands_live f -> explored f reach -> entry_apart f -> counter_fast limit reach f = Ok g ->
  exists cell, forall x l2 l3, rpath g (x :: l2 ++ x :: l3) -> exists c, In c (x :: l2) /\ has_check g cell (by_size limit) c.
Proof.
  intros C O X A E. destruct (fast_counted limit reach f g C O X E) as (cell & d & f0 & st0 & rest & K). exists cell. exact (counted_cycles _ _ _ _ _ _ _ _ _ K X A).
Qed.
Lemma accurate_cycles limit reach f g :
  cfg_ok f -> operands_live f -> explored f reach -> entry_apart f -> unmarked f -> counter_accurate limit reach f = Ok g ->
  exists cell, forall x l2 l3, rpath g (x :: l2 ++ x :: l3) -> exists c, In c (x :: l2) /\ has_check g cell (by_size limit) c.
Proof.
  intros C O X A U E. destruct (accurate_counted limit reach f g C O X U E) as (cell & d & f0 & st0 & rest & K). exists cell. exact (counted_cycles _ _ _ _ _ _ _ _ _ K X A).
Qed.
Lemma fast_ends limit reach f g bi :
  cfg_ok f -> operands_live f -> explored f reach -> entry_apart f -> counter_fast limit reach f = Ok g ->
  (1 <= bi B_INSN_COUNT)%Z -> (0 <= limit)%Z -> (limit + bi B_INSN_COUNT < 2 ^ 32)%Z ->
  ends_within bi g (Z.to_nat limit + 1 + (Z.to_nat limit + 2) * f_nb g).
Proof.
  intros C O X A E H1 H2 H3. destruct (fast_counted limit reach f g C O X E) as (cell & d & f0 & st0 & rest & K). exact (counted_ends _ _ _ count_value (bi B_INSN_COUNT) limit _ _ _ _ _ bi (fun _ => eq_refl) K X A H1 H2 H3).
Qed.
Lemma accurate_ends limit reach f g bi :
  cfg_ok f -> operands_live f -> explored f reach -> entry_apart f -> unmarked f -> counter_accurate limit reach f = Ok g ->
  (1 <= bi B_INSN_COUNT)%Z -> (0 <= limit)%Z -> (limit + bi B_INSN_COUNT < 2 ^ 32)%Z ->
  ends_within bi g (Z.to_nat limit + 1 + (Z.to_nat limit + 2) * f_nb g).
Proof.
  intros C O X A U E H1 H2 H3. destruct (accurate_counted limit reach f g C O X U E) as (cell & d & f0 & st0 & rest & K). exact (counted_ends _ _ _ count_value (bi B_INSN_COUNT) limit _ _ _ _ _ bi (fun _ => eq_refl) K X A H1 H2 H3).
Qed.
Lemma div_keeps reach f g : cfg_ok f -> phis_first f -> div_by_zero reach f = Ok g -> kept f g /\ cfg_ok g /\ phis_first g.
Proof.
  intros C P E. destruct (div_by_zero_ok reach f g C P E) as (A & B & _). split; auto. exact (div_by_zero_kept reach f g C P E).
Qed.
