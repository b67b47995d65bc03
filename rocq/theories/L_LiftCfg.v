(** Lifted functions meet what the passes that add checks ask for. *)
From Coq Require Import ZArith List Bool Arith Lia Permutation.
From Verif Require Import SpecWord SpecIsa SpecFlat SpecCfg SpecLift SpecIr SpecEdit M_Base M_Ir M_Edit M_GenBB M_Lift SpecPass SpecInstr SpecLayout SpecWeave M_Tag SpecTag
  L_LiftRead L_LiftSafe L_LiftShape L_LiftEx L_LiftLay L_Tag
  SpecFlat SpecSsa SpecStrict M_EditHist M_Pass L_PassWit L_Div L_CountRun L_InstrWit L_PipeWit L_EcallWit.
Import ListNotations.
Open Scope nat_scope.

Lemma term_jmp o : In o [RET; THROW; JA; JEQ; JGT; JGE; JLT; JLE; JNE; JSGE; JSLE; JSGT; JSLT] -> is_jmp_op o = true.
Proof. cbn [In]. intros H. decompose [or] H; subst; try reflexivity; contradiction. Qed.

Theorem lift_cfg p m n f : liftable p -> lift m n p = Ok f -> cfg_ok f /\ entry_apart f /\ phi_free f (f_entry f).
Proof.
  intros P Hl. destruct (lay_facts p m n f P Hl) as (bs & Fi & Hbo & Heo & Re & Ops & Ph & Cf & Np & Jl & Be).
  destruct (lift_lays p m n f P Hl) as (_ & _ & _ & _ & _ & _ & _ & PE & E1). destruct P as [W Len No0 Ra].
  destruct (lift_struct p m n f W Len No0 Hl) as (EA & NA & AB & _ & MIR & FR & LK & ND & _).
  assert (LASTJ : forall b i x, In i (insns_of f b) -> f_insn f i = Some x -> is_jmp_op (i_op x) = true ->
    (is_cond_jmp_op (i_op x) = true /\ Permutation (succs_of f b) [i_bb1 x; i_bb2 x]) \/ (i_op x = JA /\ succs_of f b = [i_bb1 x]) \/ (i_op x = RET /\ succs_of f b = [])).
  { intros b i x I X J. assert (B : f_block f b <> None) by (intros N; unfold insns_of in I; rewrite N in I; destruct I).
    pose proof (L_LiftSafe.fi_blk bs f Fi b) as Q. destruct (blk bs b) as [pb|] eqn:Bb; [|contradiction].
    destruct (Be b pb Bb) as [(l & k & y & E & Y & K)|(NJ & _)]; [|rewrite (NJ i x I X) in J; discriminate J].
    apply in_split in I as (l1 & l2 & L). pose proof (Jl b l1 i l2 x L X J) as ->. rewrite L in E. apply app_inj_tail in E as (_ & <-).
    assert (y = x) by congruence. subst y. destruct K as [(K1 & K2 & _)|K]; auto. }
  split; [|split].
  - constructor; auto.
    + intros b c G. destruct G as [i x I X O|i x c I X O|i x c I X O|c l S].
      * destruct (LASTJ b i x I X) as [(K & _)|[(_ & ->)|(K & _)]]; [now rewrite O|rewrite O in K; discriminate K|now left|congruence].
      * pose proof (cmp_cond _ _ O) as C. destruct (cond_jmp _ C) as (J & N1 & N2 & N3). destruct (LASTJ b i x I X J) as [(_ & K)|[(K & _)|(K & _)]]; [|congruence|congruence].
        eapply Permutation_in; [apply Permutation_sym; exact K|now left].
      * pose proof (cmp_cond _ _ O) as C. destruct (cond_jmp _ C) as (J & N1 & N2 & N3). destruct (LASTJ b i x I X J) as [(_ & K)|[(K & _)|(K & _)]]; [|congruence|congruence].
        eapply Permutation_in; [apply Permutation_sym; exact K|right; now left].
      * rewrite S. now left.
    + intros b l1 i l2 L (x & X & T). exact (Jl b l1 i l2 x L X (term_jmp _ T)).
    + apply AB, EA.
  - exact PE.
  - intros i I (x & X & O). rewrite E1 in I. exact (Np i x I X O).
Qed.
Theorem lift_numbers p m n f : liftable p -> lift m n p = Ok f -> forall fuel s, List.length (f_all f) < fuel -> exists s', tag_ir fuel f s = Ok s' /\ numbered f s'.
Proof.
  intros P Hl. destruct (lift_lays p m n f P Hl) as (_ & BO & _). destruct (lift_cfg p m n f P Hl) as (C & _). exact (tag_spec f BO (cf_linked _ C) (cf_once _ C)).
Qed.

Theorem lift_meets p m n f : liftable p -> lift m n p = Ok f -> phis_first f /\ unmarked f /\ operands_live f /\ explored f (f_all f).
Proof.
  intros P Hl. destruct (lay_facts p m n f P Hl) as (bs & Fi & Hbo & Heo & Re & Ops & _).
  destruct (lift_lays p m n f P Hl) as (_ & BO & _). pose proof P as [W Len No0 Ra].
  destruct (lift_struct p m n f W Len No0 Hl) as (EA & NA & AB & _ & MIR & FR & LK & ND & _).
  split; [|split; [|split]].
  - intros b l1 i l2 L PI k K. assert (B : f_block f b <> None) by (intros N; unfold insns_of in L; rewrite N in L; destruct l1; discriminate L).
    destruct (lift_phis p m n f W Len No0 Ra Hl b B) as (phs & ids & E & Ph & Id & _).
    assert (NI : ~ In i ids) by (intros I; exact (Id i I PI)). rewrite L in E. clear - E NI K Ph. revert l1 E K. induction phs as [|a phs IH]; intros l1 E K.
    + exfalso. apply NI. cbn in E. rewrite <- E. apply in_or_app. right. now left.
    + destruct l1 as [|c l1]; [destruct K|]. cbn in E. injection E as -> E. destruct K as [<-|K]; [destruct (Ph a (or_introl eq_refl)) as (x & X & O & _); now exists x|].
      apply (IH (fun j J => Ph j (or_intror J)) l1 E K).
  - intros b k B. pose proof (L_LiftSafe.fi_blk bs f Fi b) as Q. destruct (blk bs b) as [pb|]; [|congruence]. destruct Q as (l & Q). rewrite Q in B. injection B as <-. reflexivity.
  - intros i x v d X I D. assert (LI := proj1 (L_LiftSafe.fi_live bs f Fi i)). rewrite X in LI. specialize (LI ltac:(discriminate)).
    destruct (Nat.lt_ge_cases i 7) as [L7|G7].
    + exfalso. destruct (L_LiftSafe.fi_base bs f Fi i) as (l & B); [lia|]. rewrite X in B.
      assert (Q : i = 1 \/ i = 2 \/ i = 3 \/ i = 4 \/ i = 5 \/ i = 6) by lia. decompose [or] Q; subst i; cbn in B; injection B as ->; cbn in I; contradiction.
    + destruct (Ops (i_parent x) i x (L_LiftSafe.fi_has bs f Fi i x G7 X) X) as (V & _). destruct (V v I) as (_ & K). rewrite D in K. pose proof (L_LiftSafe.fi_ni bs f Fi) as N7.
      destruct K as [->|[K|(b & y & _ & Y & _)]]; [| |congruence]; apply (L_LiftSafe.fi_live bs f Fi); unfold sp_id; lia.
  - destruct BO as (_ & _ & _ & _ & SA). constructor; auto; [intros b I; now apply AB|]. intros b c _ I. exact (SA b c I).
Qed.

Theorem lift_all_meet p m n f : liftable p -> lift m n p = Ok f ->
  cfg_ok f /\ phis_first f /\ operands_live f /\ unmarked f /\ entry_apart f /\ phi_free f (f_entry f) /\ explored f (f_all f).
Proof. intros P Hl. destruct (lift_cfg p m n f P Hl) as (A & B & C). destruct (lift_meets p m n f P Hl) as (D & E & F & G). tauto. Qed.
Theorem lift_fast_ends p m n f limit reach g bi : liftable p -> lift m n p = Ok f -> explored f reach -> counter_fast limit reach f = Ok g ->
  (1 <= bi B_INSN_COUNT)%Z -> (0 <= limit)%Z -> (limit + bi B_INSN_COUNT < 2 ^ 32)%Z -> ends_within bi g (Z.to_nat limit + 1 + (Z.to_nat limit + 2) * f_nb g).
Proof. intros P Hl. destruct (lift_all_meet p m n f P Hl) as (A & B & C & D & E & F & G). intros X. exact (fast_ends limit reach f g bi A C X E). Qed.
Theorem lift_accurate_ends p m n f limit reach g bi : liftable p -> lift m n p = Ok f -> explored f reach -> counter_accurate limit reach f = Ok g ->
  (1 <= bi B_INSN_COUNT)%Z -> (0 <= limit)%Z -> (limit + bi B_INSN_COUNT < 2 ^ 32)%Z -> ends_within bi g (Z.to_nat limit + 1 + (Z.to_nat limit + 2) * f_nb g).
Proof. intros P Hl. destruct (lift_all_meet p m n f P Hl) as (A & B & C & D & E & F & G). intros X. exact (accurate_ends limit reach f g bi A C X E D). Qed.
Theorem lift_div_checked p m n f reach g : liftable p -> lift m n p = Ok f -> div_by_zero reach f = Ok g ->
  cfg_ok g /\ phis_first g /\ forall i x d, division f i x d -> In (i_parent x) reach ->
  forall w bi s0 s z, reaches w bi g s0 i s -> seval bi (s_env s) d = Some z -> trunc true z <> 0%Z.
Proof.
  intros P Hl H. destruct (lift_all_meet p m n f P Hl) as (A & B & _). destruct (div_keeps reach f g A B H) as (_ & C & D). split; [exact C|]. split; [exact D|].
  exact (div_checked reach f g A B H).
Qed.

(** 0: r0 = 0   1: r0 += 1   2: if r0 != 3 goto 1   3: exit *)
Definition w_loop : list bpf_insn := [mkBpf 0xb7 0 0 0 0; mkBpf 0x07 0 0 0 1; mkBpf 0x55 0 0 (-2) 3; mkBpf 0x95 0 0 0 0].
Lemma w_loop_ok : liftable w_loop /\ lift pk pk w_loop = Ok (lift_of w_loop).
Proof. split; [apply lift_chk_ok; vm_compute; reflexivity|apply get_ok_spec; vm_compute; reflexivity]. Qed.
(** 0: r6 = 0   1: call 7   2: if r0 != 5 goto 1   3: exit *)
Definition w_wait : list bpf_insn := [mkBpf 0xb7 6 0 0 0; mkBpf 0x85 0 0 0 7; mkBpf 0x55 0 0 (-2) 5; mkBpf 0x95 0 0 0 0].
Lemma w_wait_ok : liftable w_wait /\ lift pk pk w_wait = Ok (lift_of w_wait).
Proof. split; [apply lift_chk_ok; vm_compute; reflexivity|apply get_ok_spec; vm_compute; reflexivity]. Qed.
(** 0: call 7   1: r3 = 12   2: r3 /= r0   3: r0 = r3   4: exit *)
Definition w_div : list bpf_insn := [mkBpf 0x85 0 0 0 7; mkBpf 0xb7 3 0 0 12; mkBpf 0x3f 3 0 0 0; mkBpf 0xbf 0 3 0 0; mkBpf 0x95 0 0 0 0].
Lemma w_div_ok : liftable w_div /\ lift pk pk w_div = Ok (lift_of w_div).
Proof. split; [apply lift_chk_ok; vm_compute; reflexivity|apply get_ok_spec; vm_compute; reflexivity]. Qed.
(** 0: call 7   1: r3 = 12   2: if r0 == 5 goto 4   3: r3 /= r0   4: r0 = r3   5: exit *)
Definition w_first : list bpf_insn := [mkBpf 0x85 0 0 0 7; mkBpf 0xb7 3 0 0 12; mkBpf 0x15 0 0 1 5; mkBpf 0x3f 3 0 0 0; mkBpf 0xbf 0 3 0 0; mkBpf 0x95 0 0 0 0].
Lemma w_first_ok : liftable w_first /\ lift pk pk w_first = Ok (lift_of w_first).
Proof. split; [apply lift_chk_ok; vm_compute; reflexivity|apply get_ok_spec; vm_compute; reflexivity]. Qed.
