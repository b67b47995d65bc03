(** Example functions for the jump counter. *)
From Coq Require Import ZArith List Bool Arith Lia.
From Verif Require Import M_Base M_Ir M_Edit M_EditHist M_Pass SpecWord SpecFlat SpecSsa SpecIr SpecEdit SpecPass SpecStrict SpecInstr SpecWeave SpecJump
  L_Edit L_Uses L_Hist L_PassWit L_Ins L_Div L_Count L_CountRun L_InstrWit L_Weave L_WeaveWit.
Import ListNotations.
Open Scope nat_scope.

(** every block jumps *)
Definition jumpsb (f : func) (b : nat) : bool := existsb (fun i => is_jmp_op (op_of f i)) (insns_of f b).
Lemma jumpsb_ok f b : jumpsb f b = true -> jumps f b.
Proof. unfold jumpsb. intros E. apply existsb_exists in E as (i & I & T). exists i. split; auto. apply op_term. exact T. Qed.
Lemma walk_from f : forall l c, walk f (c :: l) -> l <> [] -> exists b, In c (succs_of f b).
Proof. intros l c W N. inversion W; subst; [congruence|eauto]. Qed.
Lemma all_jump f : fresh_ok f -> (forall b, b < f_nb f -> f_block f b <> None -> jumpsb f b = true) -> mirrored f -> loops_jump f.
Proof.
  intros F H M x l W. exists x. split; [now left|]. apply jumpsb_ok. destruct (walk_from f (l ++ [x]) x W) as (b & B); [destruct l; discriminate|].
  assert (NB : f_block f x <> None). { apply (proj1 M) in B. intros Z. unfold preds_of in B. rewrite Z in B. exact B. }
  apply H; auto. destruct (Nat.lt_ge_cases x (f_nb f)) as [?|G]; auto. exfalso. apply NB. apply (proj2 F). exact G.
Qed.
Lemma loop_jumps : loops_jump loop.
Proof.
  assert (W := built_wf _ : wf_func loop). apply all_jump; [exact (wf_fresh _ W)| |exact (cf_mirror _ (proj1 loop_cfg))].
  intros b L N. assert (L' : b < 4) by exact L. do 4 (destruct b as [|b]; [first [exfalso; apply N; vm_compute; reflexivity|vm_compute; reflexivity]|]). lia.
Qed.
Lemma entry_loop_jumps : loops_jump entry_loop.
Proof.
  assert (W := built_wf _ : wf_func entry_loop). apply all_jump; [exact (wf_fresh _ W)| |exact (cf_mirror _ (proj1 entry_loop_cfg))].
  intros b L N. assert (L' : b < 3) by exact L. do 3 (destruct b as [|b]; [first [exfalso; apply N; vm_compute; reflexivity|vm_compute; reflexivity]|]). lia.
Qed.
Definition entry_jump : func := after (jmp_complexity [1; 2] entry_loop).
Lemma entry_jump_on : runs_on cnt5 entry_jump.
Proof.
  exists (w_one 1), s_zero. intros n. assert (E : f_entry entry_jump = 1) by (vm_compute; reflexivity). rewrite E.
  apply (round_on _ _ _ 1 3). intros p [e v m k]. vm_compute. reflexivity.
Qed.
(** a loop of two blocks, none of which jumps *)
Definition fall_loop : func := run_get
  [ E_create_bb; E_create_bb; E_connect 1 2; E_connect 2 3; E_connect 3 2;
    E_create_at_bb 2 (K_call 7) P_BACK ].
Lemma fall_loop_ok : cfg_ok fall_loop /\ operands_live fall_loop /\ explored fall_loop [1; 2; 3] /\ entry_apart fall_loop.
Proof.
  assert (W := built_wf _ : wf_func fall_loop). split; [apply cfgb_ok; auto; vm_compute; reflexivity|]. split; [apply liveb_ok; [exact (wf_fresh _ W)|vm_compute; reflexivity]|].
  split; [apply exploredb_ok; [repeat constructor; cbn; intuition discriminate|vm_compute; reflexivity]|]. vm_compute; reflexivity.
Qed.
Lemma fall_loop_on : runs_on cnt5 fall_loop.
Proof.
  exists (w_one 1), s_zero. intros n. destruct n as [|n]; [cbn; eauto|]. assert (E : sblock (w_one 1) cnt5 fall_loop 0 (f_entry fall_loop) s_zero = Some (SJmp 2 s_zero)) by (vm_compute; reflexivity).
  cbn [srun]. rewrite E. cbn [obind]. apply (round_on _ _ _ 2 3). intros p [e v m k]. vm_compute. reflexivity.
Qed.
