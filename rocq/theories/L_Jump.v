(** The jump counter. *)
From Coq Require Import ZArith List Bool Arith Lia.
From Verif Require Import M_Base M_Ir M_Edit M_Pass SpecWord SpecFlat SpecSsa SpecIr SpecEdit SpecPass SpecStrict SpecInstr SpecWeave SpecJump
  L_Word L_Edit L_Uses L_Hist L_Ctor L_PassAlloc L_Ins L_Div L_Count L_CountRun L_Weave L_WeaveDiv L_WeaveCount.
Import ListNotations.
Open Scope nat_scope.

Lemma term_last f b i : cfg_ok f -> In i (insns_of f b) -> is_terminator f i -> exists l, insns_of f b = l ++ [i].
Proof.
  intros C I T. apply in_split in I as (l1 & l2 & E). assert (l2 = []) by (eapply (cf_ends _ C); eauto). subst l2. eauto.
Qed.
Lemma jump_fold f0 cell : cfg_ok f0 -> forall l g h done, cinv f0 g cell (by_one 100) done -> NoDup l ->
  (forall i, In i l -> exists c, In i (insns_of f0 c) /\ is_terminator f0 i /\ ~ In c done) ->
  ofold (jmp_check cell) g l = Ok h ->
  exists done', cinv f0 h cell (by_one 100) done' /\ (forall c, In c done' <-> In c done \/ exists i, In i l /\ In i (insns_of f0 c)).
Proof.
  intros C0. induction l as [|i l IH]; intros g h done I ND NI E.
  - cbn in E. injection E as <-. exists done. split; auto. intros c. split; auto. intros [?|(i & [] & _)]; auto.
  - cbn [ofold] in E. apply bind_ok in E as (g1 & E1 & E2). inversion ND as [|? ? NB ND']; subst.
    destruct (NI i (or_introl eq_refl)) as (c & IC & T & NC). destruct (term_last _ _ _ C0 IC T) as (l0 & L0).
    assert (BC : f_block f0 c <> None) by (apply (in_block f0 c i IC)).
    assert (LG : insns_of g c = l0 ++ [i]) by (rewrite (ci_rest _ _ _ _ _ I c BC NC); exact L0).
    assert (TG : is_terminator g i).
    { apply (like_term f0 g i); auto. apply I. destruct T as (x & X & _). congruence. }
    assert (S := jump_check_ok (val_const32 1) 100 cell g c i l0 g1 (ci_cfg _ _ _ _ _ I) LG TG E1).
    assert (I1 := cinv_step _ _ _ _ _ _ _ C0 I BC NC S).
    assert (ONE : forall c', In i (insns_of f0 c') -> c' = c).
    { intros c' H. destruct (cf_linked _ C0 _ _ H) as (x & X & P). destruct (cf_linked _ C0 _ _ IC) as (x' & X' & P'). congruence. }
    destruct (IH g1 h (c :: done) I1 ND') as (d & A1 & A2); auto.
    + intros j J. destruct (NI j (or_intror J)) as (c' & H1 & H2 & H3). exists c'. split; auto. split; auto. intros [<-|Z]; [|contradiction].
      destruct (term_last _ _ _ C0 H1 H2) as (l1 & L1). rewrite L0 in L1. apply app_inj_tail in L1 as (_ & ->). contradiction.
    + exists d. split; [exact A1|]. intros c'. rewrite A2. split.
      * intros [[<-|H]|(j & J & K)]; [right; exists i; cbn; auto|auto|right; exists j; cbn; auto].
      * intros [H|(j & [<-|J] & K)]; [left; now right|left; left; symmetry; auto|right; eauto].
Qed.
Lemma flat_once f reach : cfg_ok f -> NoDup reach -> NoDup (flat_map (insns_of f) reach).
Proof.
  intros C. induction 1 as [|b r N D IH]; [constructor|]. cbn.
  assert (K : forall l, NoDup l -> (forall i, In i l -> ~ In i (flat_map (insns_of f) r)) -> NoDup (l ++ flat_map (insns_of f) r)).
  { induction 1 as [|a l N' D' IH']; intros H; cbn; auto. constructor; [|apply IH'; intros i I; apply H; now right].
    intros I. apply in_app_or in I as [I|I]; [contradiction|]. apply (H a); auto. now left. }
  apply K; [apply (cf_once _ C)|]. intros i I J. apply in_flat_map in J as (c & H & J). destruct (cf_linked _ C _ _ I) as (x & X & P). destruct (cf_linked _ C _ _ J) as (y & Y & Q).
  apply N. congruence.
Qed.

(** what the pass does: nothing, or a check in each block that jumps *)
Lemma jumps_ok reach f g : cfg_ok f -> operands_live f -> explored f reach -> jmp_complexity reach f = Ok g ->
  ((forall b, In b reach -> ~ jumps f b) /\ g = f) \/
  exists f0 cell st0 done, cfg_ok f0 /\ f_entry f0 = f_entry f /\ (forall c, f_block f0 c = None <-> f_block f c = None) /\
    (forall i, f_insn f i <> None -> opt_like f f0 i) /\ f_insn f cell = None /\ f_insn f st0 = None /\
    (forall c, c <> f_entry f -> insns_of f0 c = insns_of f c) /\ (forall c, succs_of f0 c = succs_of f c) /\ (forall c, preds_of f0 c = preds_of f c) /\
    counter_at f0 cell st0 (insns_of f (f_entry f)) /\ cinv f0 g cell (by_one 100) done /\ (forall b, In b done <-> In b reach /\ jumps f b).
Proof.
  intros C OL [X1 XB X2 X3] E. unfold jmp_complexity in E. apply bind_ok in E as (l & El & E).
  assert (SP : forall i, In i l <-> exists b, In b reach /\ In i (insns_of f b) /\ is_terminator f i).
  { intros i. rewrite (collect_spec _ _ _ _ El i). split.
    - intros (x & I & X & P). apply in_flat_map in I as (b & B & I). exists b. split; auto. split; auto. apply op_term. unfold op_of. rewrite X. exact P.
    - intros (b & B & I & T). assert (T' := T). destruct T as (x & X & _). exists x. split; [apply in_flat_map; eauto|]. split; auto.
      apply op_term in T'. unfold op_of in T'. rewrite X in T'. exact T'. }
  assert (ND : NoDup l) by (eapply collect_nodup; [exact El|apply flat_once; auto]).
  assert (CS : (l = [] /\ g = f) \/ (exists c, make_counter f = Ok c /\ ofold (jmp_check (snd c)) (fst c) l = Ok g)).
  { destruct l; [left; split; [reflexivity|injection E as ->; reflexivity]|right]. apply bind_ok in E as (c & E1 & E). eauto. }
  clear E. destruct CS as [(-> & ->)|((f0 & cell) & E1 & E)].
  - left. split; auto. intros b B (i & I & T). apply (SP i). eauto.
  - right. cbn [fst snd] in E.
    destruct (make_counter_ok _ _ _ C OL E1) as (st0 & CA & C0 & EN & DM & PR & SU). destruct (make_counter_more _ _ _ C E1) as (LK & NC & (st1 & IE & NS) & OTH).
    assert (st1 = st0). { assert (Q := ca_entry _ _ _ _ CA). rewrite EN, IE in Q. injection Q as ->. reflexivity. } subst st1.
    assert (IN : forall b i, In i (insns_of f b) -> In i (insns_of f0 b)).
    { intros b i I. destruct (Nat.eq_dec b (f_entry f)) as [->|N]; [rewrite IE; right; now right|rewrite OTH; auto]. }
    assert (IB : forall b i, In i (insns_of f0 b) -> f_insn f i <> None -> In i (insns_of f b)).
    { intros b i I X. destruct (Nat.eq_dec b (f_entry f)) as [->|N]; [|rewrite OTH in I; auto]. rewrite IE in I. destruct I as [<-|[<-|I]]; congruence. }
    destruct (jump_fold f0 cell C0 l f0 g [] (cinv_start _ _ _ C0) ND) as (d & A1 & A2); auto.
    { intros i I. apply SP in I as (b & B & I & T). exists b. split; auto. split; [|intros []]. apply (like_term f f0 i); auto. apply LK. destruct T as (x & X & _). congruence. }
    exists f0, cell, st0, d. do 11 (split; [assumption|]). intros b. rewrite A2. split.
    + intros [[]|(i & I & J)]. apply SP in I as (b' & B & I & T). assert (XI : f_insn f i <> None) by (destruct T as (x & X & _); congruence).
      assert (I' := IB b i J XI). destruct (cf_linked _ C _ _ I) as (x & X & P). destruct (cf_linked _ C _ _ I') as (y & Y & Q). split; [replace b with b' by congruence; exact B|exists i; auto].
    + intros (B & i & I & T). right. exists i. split; [apply SP; eauto|]. auto.
Qed.

(** * Cycles *)
Section CYC.
Variables (f f0 g : func) (cell : nat) (rule : value * Z) (reach done : list nat).
Hypotheses (C0 : cfg_ok f0) (I : cinv f0 g cell rule done) (EN : f_entry f0 = f_entry f) (SU : forall c, succs_of f0 c = succs_of f c)
  (RE : In (f_entry f) reach) (RN : forall b c, In b reach -> In c (succs_of f b) -> In c reach) (LJ : loops_jump f)
  (DN : forall b, In b reach -> jumps f b -> In b done).

Lemma cyc_next a c q r : rpath g (a ++ c :: q :: r) -> goes g q c.
Proof. intros R. apply rpath_tail in R; [|discriminate]. inversion R; auto. Qed.
Lemma cyc_old c q : goes g q c -> ~ In q done -> f_block f0 c <> None.
Proof.
  intros G N Z. destruct (goes_pred f0 g cell rule done I _ _ G) as (P & B). destruct (ci_new _ _ _ _ _ I c Z B) as ((x & X & E) & _).
  rewrite E in P. destruct P as [<-|[]]. contradiction.
Qed.
Lemma cyc_walk x r : f_block f0 x <> None -> forall l c, rpath g (c :: l ++ x :: r) -> (forall y, In y (c :: l) -> f_block f0 y <> None) -> walk f (c :: l ++ [x]).
Proof.
  intros BX. assert (ST : forall c q, goes g q c -> f_block f0 c <> None -> f_block f0 q <> None -> In c (succs_of f q)).
  { intros c q G Bc Bq. destruct (goes_pred f0 g cell rule done I _ _ G) as (P & _). rewrite <- SU. apply (proj1 (cf_mirror _ C0)).
    destruct (ci_from _ _ _ _ _ I c q Bc P) as [F|(F & _)]; [exact F|contradiction]. }
  induction l as [|q l IH]; intros c R H; cbn in *.
  - apply wk_step; [apply wk_one|]. inversion R; subst. apply ST; auto.
  - inversion R; subst. apply wk_step; [apply IH; auto|]. apply ST; auto.
Qed.
Lemma cyc_none x l2 l3 : rpath g (x :: l2 ++ x :: l3) -> (forall c, In c (x :: l2) -> ~ In c done) -> False.
Proof.
  intros R U.
  assert (OLD : forall c, In c (x :: l2) -> f_block f0 c <> None).
  { intros c H. apply in_split in H as (a & b & E). assert (K : exists q r, x :: l2 ++ x :: l3 = a ++ c :: q :: r /\ In q (x :: l2)).
    { change (x :: l2 ++ x :: l3) with ((x :: l2) ++ x :: l3). rewrite E, <- app_assoc. destruct b as [|q b].
      - exists x, l3. split; [reflexivity|]. rewrite <- E. now left.
      - exists q, (b ++ x :: l3). split; [reflexivity|]. apply in_or_app. right. right. now left. }
    destruct K as (q & r & K & Q). rewrite K in R. apply (cyc_old c q); [eapply cyc_next; eauto|apply U; exact Q]. }
  assert (W : walk f (x :: l2 ++ [x])). { apply (cyc_walk x l3); auto. apply OLD. now left. }
  destruct (LJ _ _ W) as (b & B & J). apply (U b B). apply DN; auto.
  apply in_split in B as (a1 & a2 & E). assert (R' : rpath g (b :: a2 ++ x :: l3)).
  { apply (rpath_tail g a1); [|discriminate]. change (rpath g ((x :: l2) ++ x :: l3)) in R. rewrite E, <- app_assoc in R. exact R. }
  eapply (path_reach f0 g cell rule done reach); eauto.
  - rewrite EN. exact RE.
  - intros b0 c. rewrite SU. apply RN.
  - apply OLD. rewrite E. apply in_or_app. right. now left.
Qed.
End CYC.

Lemma run_path w bi g s0 : forall n prev b s, srun w bi g n 0 (f_entry g) s0 = Some (OAt prev b s) -> exists l, rpath g (b :: l) /\ length l = n.
Proof.
  induction n as [|n IH]; intros prev b s H.
  - cbn in H. injection H as <- <- <-. exists []. split; [constructor|reflexivity].
  - destruct (srun_last _ _ _ _ _ _ _ _ _ _ H) as (q & t & R & SBK). destruct (IH _ _ _ R) as (l & RP & LE).
    exists (prev :: l). split; [constructor; auto; eapply sblock_goes; eauto|cbn; congruence].
Qed.

Lemma jump_cycles reach f g : cfg_ok f -> operands_live f -> explored f reach -> loops_jump f -> jmp_complexity reach f = Ok g ->
  exists cell, forall x l2 l3, rpath g (x :: l2 ++ x :: l3) -> exists c, In c (x :: l2) /\ has_check g cell (by_one 100) c.
Proof.
  intros C OL X LJ E. destruct (jumps_ok _ _ _ C OL X E) as [(N & ->)|(f0 & cell & st0 & d & C0 & EN & DM & LK & NC & NS & OTH & SU & PR & CA & I & D)].
  - exists 0. intros x l2 l3 R. exfalso. apply (cyc_none f f f 0 (by_one 100) reach [] C (cinv_start _ _ _ C) eq_refl (fun _ => eq_refl) (SpecInstr.ex_entry _ _ X) (SpecInstr.ex_next _ _ X) LJ) with (x := x) (l2 := l2) (l3 := l3); auto.
  - exists cell. intros x l2 l3 R. destruct (first_checked d (x :: l2)) as [U|(w & c & l' & Q & _ & H)].
    + exfalso. apply (cyc_none f f0 g cell (by_one 100) reach d C0 I EN SU (SpecInstr.ex_entry _ _ X) (SpecInstr.ex_next _ _ X) LJ) with (x := x) (l2 := l2) (l3 := l3); auto. intros b B J. apply D. auto.
    + exists c. split; [rewrite Q; apply in_or_app; right; now left|]. eapply done_check; eauto.
Qed.
Lemma jump_ends reach f g bi : cfg_ok f -> operands_live f -> explored f reach -> entry_apart f -> loops_jump f -> jmp_complexity reach f = Ok g ->
  ends_within bi g (101 + 102 * f_nb g).
Proof.
  intros C OL X EA LJ E w s0 n prev b s R. destruct (jumps_ok _ _ _ C OL X E) as [(N & ->)|(f0 & cell & st0 & d & C0 & EN & DM & LK & NC & NS & OTH & SU & PR & CA & I & D)].
  - destruct (run_path _ _ _ _ _ _ _ _ R) as (l & RP & LE).
    assert (B : length l <= countd [] l + (countd [] l + 1) * f_nb f).
    { apply (bound_of_cycles f f 0 (by_one 100) [] (cinv_start _ _ _ C) b); auto. intros x l2 l3 R2 _.
      apply (cyc_none f f f 0 (by_one 100) reach [] C (cinv_start _ _ _ C) eq_refl (fun _ => eq_refl) (SpecInstr.ex_entry _ _ X) (SpecInstr.ex_next _ _ X) LJ) with (x := x) (l2 := l2) (l3 := l3); auto.
      }
    rewrite (countd_none [] l) in B by (intros ? ? []). lia.
  - assert (NE : preds_of f0 (f_entry f0) = []) by (rewrite PR, EN; exact EA).
    destruct (run_bound w bi f0 g cell st0 _ (val_const32 1) 1 100 d C0 I (fun _ => eq_refl) CA NE ltac:(lia) ltac:(lia) ltac:(reflexivity) s0 n prev b s R) as (l & RP & LE & K).
    assert (B : length l <= countd d l + (countd d l + 1) * f_nb g).
    { apply (bound_of_cycles f0 g cell (by_one 100) d I b); auto. intros x l2 l3 R2 U.
      apply (cyc_none f f0 g cell (by_one 100) reach d C0 I EN SU (SpecInstr.ex_entry _ _ X) (SpecInstr.ex_next _ _ X) LJ) with (x := x) (l2 := l2) (l3 := l3); auto. intros b' B J. apply D. auto. }
    assert (K2 : countd d l <= 101) by lia. nia.
Qed.
Lemma self_transparent bi f : transparent bi f f.
Proof. constructor; auto. Qed.
Lemma jump_counts reach f g : cfg_ok f -> operands_live f -> explored f reach -> jmp_complexity reach f = Ok g -> g = f \/ counts f g (by_one 100) (jumps f).
Proof.
  intros C OL X E. destruct (jumps_ok _ _ _ C OL X E) as [(N & ->)|(f0 & cell & st0 & d & C0 & EN & DM & LK & NC & NS & OTH & SU & PR & CA & I & D)]; [now left|right].
  constructor. exists f0, cell, st0, d. do 10 (split; [assumption|]). intros b B. apply D. exact B.
Qed.
Lemma jump_transparent reach f g bi : cfg_ok f -> operands_live f -> explored f reach -> phi_free f (f_entry f) -> apart_after f (jumps f) -> jmp_complexity reach f = Ok g ->
  transparent bi f g.
Proof.
  intros C OL X PE AP E. destruct (jump_counts _ _ _ C OL X E) as [->|K]; [apply self_transparent|].
  eapply (counts_transparent bi f g (val_const32 1) 1 100 (jumps f)); eauto.
Qed.
Lemma jump_within reach f g bi : cfg_ok f -> operands_live f -> explored f reach -> phi_free f (f_entry f) -> apart_after f (jumps f) -> jmp_complexity reach f = Ok g ->
  forall w n s0 r m k, n <= 100 -> returns_in w bi f n s0 r m k -> returns w bi g s0 r m k.
Proof.
  intros C OL X PE AP E w n s0 r m k L R. destruct (jump_counts _ _ _ C OL X E) as [->|K]; [exists n; exact R|].
  eapply (counts_within bi f g (val_const32 1) 1 100 (jumps f)); eauto; try lia.
Qed.
