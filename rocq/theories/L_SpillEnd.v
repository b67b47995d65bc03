(** From the bytecode to the generated code, with the stack addresses moved and values spilled: the
    functions of the lifter, the layout, the marking of stack offsets, the layout again and the code
    generator, one after the other. *)
From Coq Require Import ZArith List Bool Arith Lia Permutation.
From Verif Require Import SpecWord SpecIsa SpecFlat SpecCfg SpecLift SpecIr SpecEdit SpecSsa SpecNormCond SpecOut M_Base M_Ir M_Edit M_GenBB M_Lift M_Layout M_Norm M_Pass
  L_Word L_Edit L_GenBB L_GenBBEx L_Lift L_LiftRead L_LiftFill L_LiftDfs L_LiftSim L_LiftRun L_LiftMain L_LiftSafe L_LiftProp L_LiftEx
  SpecPass SpecStrict SpecShift SpecLayout L_Layout L_LiftStrict SpecPrep L_LiftShape L_LiftLay L_Whole L_End L_Shift M_Ra SpecRa SpecVirt SpecInstr SpecSpill SpecGuard SpecRound
  L_RaProp L_PrepStr L_Guard L_RoundMain L_Skin.
From Verif Require Import SpecPass SpecIr SpecVirt SpecPrep.
Import ListNotations.
Open Scope nat_scope.

(** ** Runs of functions that differ in the order of successors *)
Section Ext.
Variables (Rg : addrs) (w : world) (bi : bconst -> Z) (f g : func).
Hypothesis SI : f_insn g = f_insn f.
Hypothesis SN : forall b, insns_of g b = insns_of f b.
Hypothesis SB : forall b, f_block g b = None <-> f_block f b = None.
Hypothesis SS : forall b, (forall i x, In i (insns_of f b) -> f_insn f i = Some x -> is_jmp_op (i_op x) = false) -> succs_of g b = succs_of f b.
Lemma ext_phis prev s0 : forall l s, sphis bi g prev s0 s l = sphis bi f prev s0 s l.
Proof.
  induction l as [|i r IH]; intros s; cbn [sphis]; [reflexivity|]. rewrite SI. destruct (f_insn f i) as [x|]; [|reflexivity]. cbn [obind]. destruct (iop_eqb (i_op x) PHI); [|reflexivity].
  destruct (incoming x prev); [|reflexivity]. cbn [obind]. destruct (seval _ _ _); [|reflexivity]. apply IH.
Qed.
Lemma ext_exec i x s : gsexec Rg w bi g i x s = gsexec Rg w bi f i x s.
Proof. unfold gsexec, sexec. rewrite SI. reflexivity. Qed.
Lemma ext_body : forall l s, gsbody Rg w bi g s l = gsbody Rg w bi f s l.
Proof.
  induction l as [|i r IH]; intros s; cbn [gsbody]; [reflexivity|]. rewrite SI. destruct (f_insn f i) as [x|]; [|reflexivity]. cbn [obind]. rewrite ext_exec. destruct (gsexec _ _ _ _ _ _ _) as [[]|]; try reflexivity. cbn [obind]. apply IH.
Qed.
Lemma ext_next : forall l s s', gsbody Rg w bi f s l = Some (SNext s') -> forall i x, In i l -> f_insn f i = Some x -> is_jmp_op (i_op x) = false.
Proof.
  induction l as [|i l IH]; intros s s' E j y; [intros []|]. cbn [gsbody] in E. destruct (f_insn f i) as [x|] eqn:X; [|discriminate E]. cbn [obind] in E. destruct (gsexec Rg w bi f i x s) as [[]|] eqn:Ex; try discriminate E.
  intros [<-|J] Y; [|eapply IH; eassumption]. rewrite X in Y. injection Y as <-. unfold gsexec in Ex. destruct (squiet _ _ _ _); [|discriminate Ex]. eapply sexec_next; exact Ex.
Qed.
Lemma ext_block prev b s : gsblock Rg w bi g prev b s = gsblock Rg w bi f prev b s.
Proof.
  unfold gsblock. pose proof (SN b) as En. pose proof (SB b) as Eb. pose proof (SS b) as Es. unfold insns_of in En, Es. unfold succs_of in Es. destruct (f_block f b) as [k|] eqn:Bf.
  2: { now rewrite (proj2 Eb eq_refl). }
  destruct (f_block g b) as [k'|]; [|destruct Eb as (K & _); discriminate (K eq_refl)]. cbn [obind]. rewrite En, ext_phis. destruct (sphis bi f prev s s (b_insns k)) as [(l, s1)|] eqn:P; [|reflexivity]. cbn [obind].
  destruct (sphis_rest _ _ _ _ _ _ _ _ P) as (l1 & El & Kl). rewrite ext_body.
  destruct (gsbody Rg w bi f s1 l) as [[]|] eqn:Bo; try reflexivity. cbn [obind]. rewrite Es; [reflexivity|]. intros i x I X. rewrite El in I. apply in_app_or in I as [I|I]; [rewrite (Kl i x I X); reflexivity|]. eapply ext_next; eassumption.
Qed.
Lemma ext_run : forall n prev b s, gsrun Rg w bi g n prev b s = gsrun Rg w bi f n prev b s.
Proof. induction n as [|n IH]; intros prev b s; cbn [gsrun]; [reflexivity|]. rewrite ext_block. destruct (gsblock Rg w bi f prev b s) as [[]|]; try reflexivity. cbn [obind]. apply IH. Qed.
End Ext.

(** ** Marking the offsets *)
Section Mark.
Variables (g : func) (sp : nat).
Hypothesis TD : tidy g.
Hypothesis US : forall i x, f_insn g i = Some x -> 0 < uses g i sp -> is_raw (i_op x) = true \/
  (i_op x = ADD /\ i_alu x = A_64 /\ exists v c k, i_vals x = [v; c] /\ is_use_of sp v = true /\ v_data c = VConst k /\ v_bi c = B_NONE /\ v_ct c = A_32 /\ (- 2 ^ 31 + 2 ^ 15 <= k < 2 ^ 31 - 2 ^ 15)%Z).
Lemma mark_loop : forall R D h cap h' c, skin g h -> (forall i, ~ In i D -> f_insn h i = f_insn g i) -> users_of g sp = D ++ R ->
  ofold (pre_user sp) (h, (cap, true)) (seq (length D) (length R)) = Ok (h', c) -> skin g h'.
Proof.
  induction R as [|u R IH]; intros D h cap h' c S HD HU E; [cbn in E; injection E as <- _; exact S|]. cbn [length seq ofold] in E. bo E s1 E1. destruct s1 as (h1 & c1). unfold pre_user in E1. cbn [negb] in E1.
  bo E1 n Hn. apply get_insn_ok in Hn. assert (UN : i_users n = D ++ u :: R). { rewrite <- HU, <- (sn_users g h S). unfold users_of. now rewrite Hn. }
  assert (NE : nth_error (i_users n) (length D) = Some u). { rewrite UN, nth_error_app2, Nat.sub_diag by lia. reflexivity. }
  rewrite NE in E1. bo E1 y Hy. apply get_insn_ok in Hy. destruct (sn_get g h S u y Hy) as (x & X & K).
  pose proof (td_users _ TD u sp) as (_ & CT). rewrite HU, count_occ_app in CT. cbn [count_occ] in CT. destruct (Nat.eq_dec u u); [|congruence].
  assert (UU : 0 < uses g u sp) by lia.
  assert (SQ : seq (Datatypes.S (length D)) (length R) = seq (length (D ++ [u])) (length R)). { rewrite app_length. cbn. now rewrite Nat.add_1_r. }
  assert (HU' : users_of g sp = (D ++ [u]) ++ R) by (rewrite <- app_assoc; exact HU). rewrite SQ in E.
  destruct (US u x X UU) as [RW|(O & A & v & k & kk & V & U & Dc & Bc & Ct & Rk)].
  - rewrite (proj1 (sk_keeps _ _ K)), RW in E1. injection E1 as <- <-. apply (IH (D ++ [u]) h cap h' c); auto. intros i Ni. apply HD. intros J. apply Ni. apply in_or_app. now left.
  - assert (ND : ~ In u D).
    { intros J. apply (count_occ_In Nat.eq_dec) in J. unfold uses in CT. rewrite X in CT. unfold operand_values in CT. rewrite O, V, app_nil_r in CT. cbn [filter] in CT. rewrite U in CT.
      unfold is_use_of in CT. rewrite Dc in CT. cbn in CT. lia. }
    rewrite (HD u ND) in Hy. rewrite X in Hy. injection Hy as <-. assert (RW : is_raw (i_op x) = false) by now rewrite O. rewrite RW in E1.
    assert (CD : is_bin_alu_op (i_op x) && match i_vals x with v0 :: v1 :: _ => refers sp v0 && match v_data v1 with VConst _ => true | _ => false end | _ => false end = true) by (rewrite O, V, refers_use, U, Dc; reflexivity).
    rewrite CD in E1. injection E1 as <- <-. refine (IH (D ++ [u]) _ cap h' c _ _ HU' E).
    + destruct S as [S1 S2 S3 S4 S5 S6]. constructor; auto. intros i. rewrite f_insn_put. destruct (Nat.eqb_spec i u) as [->|Q]; [|apply S1]. rewrite X.
      unfold mark_offset. rewrite V, Dc. now apply sk_mark.
    + intros i Ni. rewrite f_insn_put. destruct (Nat.eqb_spec i u) as [->|Q]; [exfalso; apply Ni; apply in_or_app; right; now left|]. apply HD. intros J. apply Ni. apply in_or_app. now left.
Qed.
Lemma mark_skin cap h : stack_offset_pre sp cap g = Ok h -> skin g h.
Proof.
  intros E. unfold stack_offset_pre in E. bo E n Hn. bo E r Hr. injection E as <-. destruct r as (h & c). cbn [fst]. apply get_insn_ok in Hn. apply (mark_loop (i_users n) [] g cap h c); auto.
  - constructor; auto. intros i. destruct (f_insn g i); [constructor|exact I].
  - unfold users_of. now rewrite Hn.
Qed.
End Mark.

(** ** Laying out twice *)
Lemma same_fix g h b h' : skin g h -> f_insn h = f_insn g -> (forall y, terminator g b y -> is_cond_jmp_op (i_op y) = true -> succs_of g b = [i_bb1 y; i_bb2 y]) ->
  (forall y, terminator g b y -> i_op y = JA -> succs_of g b = [i_bb1 y]) -> fix_succs h b = Ok h' -> skin g h' /\ f_insn h' = f_insn g.
Proof.
  intros S EI H1 H2 E. unfold fix_succs in E. rewrite (sn_getb g h S) in E. unfold get_block in E. destruct (f_block g b) as [x|] eqn:X; [|discriminate E]. cbn [bind] in E. unfold last_of in E.
  destruct (rev (b_insns x)) as [|i l] eqn:Rv; [cbn [bind] in E; injection E as <-; auto|]. unfold get_insn in E. rewrite EI in E. destruct (f_insn g i) as [y|] eqn:Y; [|discriminate E]. cbn [bind] in E.
  assert (T : terminator g b y). { exists (rev l), i. split; [|exact Y]. unfold insns_of. rewrite X. rewrite <- (rev_involutive (b_insns x)), Rv. reflexivity. }
  assert (SX : succs_of g b = b_succs x) by (unfold succs_of; now rewrite X).
  assert (Q : forall l, b_succs x = l -> skin g (with_block (upd (f_block h) b (Some (set_succs l x))) h) /\ f_insn (with_block (upd (f_block h) b (Some (set_succs l x))) h) = f_insn g).
  { intros l0 <-. split; [|exact EI]. destruct S as [A B C D F G]. constructor; cbn; auto. intros c. unfold upd. destruct (Nat.eqb_spec c b) as [->|]; [|apply B]. rewrite X. f_equal. destruct x; reflexivity. }
  destruct (is_cond_jmp_op (i_op y)) eqn:Cj; [destruct (_ =? 2); [|discriminate E]; injection E as <-; apply Q; rewrite <- SX; now apply H1|].
  destruct (iop_eqb (i_op y) JA) eqn:Ja; [destruct (_ =? 1); [|discriminate E]; injection E as <-; apply Q; rewrite <- SX; apply H2; auto; destruct (i_op y); try discriminate Ja; reflexivity|]. injection E as <-. auto.
Qed.
Lemma same_fixes g : (forall b y, terminator g b y -> is_cond_jmp_op (i_op y) = true -> succs_of g b = [i_bb1 y; i_bb2 y]) -> (forall b y, terminator g b y -> i_op y = JA -> succs_of g b = [i_bb1 y]) ->
  forall l h h', skin g h -> f_insn h = f_insn g -> ofold fix_succs h l = Ok h' -> skin g h' /\ f_insn h' = f_insn g.
Proof.
  intros H1 H2. induction l as [|b l IH]; intros h h' S EI E; cbn [ofold] in E; [injection E as <-; auto|]. bo E h1 E1. destruct (same_fix g h b h1 S EI (H1 b) (H2 b) E1) as (S1 & I1). exact (IH _ _ S1 I1 E).
Qed.
Lemma layout_again k f g g2 L e L2 e2 : layout k f = Ok (g, (L, e)) -> layout k g = Ok (g2, (L2, e2)) ->
  (forall b y, terminator g b y -> is_cond_jmp_op (i_op y) = true -> succs_of g b = [i_bb1 y; i_bb2 y]) -> (forall b y, terminator g b y -> i_op y = JA -> succs_of g b = [i_bb1 y]) ->
  skin g g2 /\ L2 = L /\ e2 = e.
Proof.
  intros E1 E2 H1 H2. unfold layout in E1, E2. bo E1 f1 A1. bo E1 l1 A2. bo E1 d1 A3. injection E1 as -> -> ->. bo E2 f2 B1. bo E2 l2 B2. bo E2 d2 B3. injection E2 as -> -> ->.
  assert (S0 : skin g g) by (constructor; auto; intros i; destruct (f_insn g i); [constructor|exact I]).
  destruct (same_fixes g H1 H2 _ _ _ S0 eq_refl B1) as (S & _). split; [exact S|]. unfold gen_reachable in *. rewrite (sn_reach _ _ S), (sn_entry _ _ S), A2 in B2. injection B2 as <-. rewrite (sn_gend _ _ S), A3 in B3. injection B3 as <-. auto.
Qed.

Section End.
Variables (p : list bpf_insn) (m n : nat) (f : func).
Hypothesis P : liftable p.
Hypothesis Ff : fields_fit p.
Hypothesis Hl : lift m n p = Ok f.
Hypothesis Tm : tame f sp_id.
Hypothesis Sm : stack_tame f sp_id.
Variables (g : func) (L e : list nat) (k : nat).
Hypothesis Hk : 2 * length (f_all f) + 1 < k.
Hypothesis Hlay : layout k f = Ok (g, (L, e)).
Variables (cap : nat) (h h' : func) (L' e' : list nat).
Hypothesis Hpre : stack_offset_pre sp_id cap g = Ok h.
Hypothesis Hlay' : layout k h = Ok (h', (L', e')).
Let Res := lay_res p m n f P Hl g L e k Hk Hlay.

Lemma en_tidy : tidy f /\ fresh_ok f.
Proof.
  pose proof P as [W Len No0 Ra]. destruct (lifted_ok p m n f W Len No0 Ra Hl) as (TD & _). destruct (lift_struct p m n f W Len No0 Hl) as (_ & _ & _ & _ & _ & FR & _). auto.
Qed.
Lemma en_values i x v : f_insn f i = Some x -> In v (operand_values x) -> good_value p f v.
Proof.
  intros X V. destruct (lay_facts p m n f P Hl) as (bs & Fi & _ & _ & _ & Ops & _). destruct (Nat.lt_ge_cases i 7) as [Li|Li].
  - assert (Ri : 1 <= i < f_ni f) by (apply (fi_live bs f Fi); congruence). destruct (fi_base bs f Fi i) as (l & E); [lia|]. rewrite X in E. destruct i as [|[|[|[|[|[|[|i]]]]]]]; try lia; cbn in E; injection E as ->; destruct V.
  - destruct (Ops _ _ _ (fi_has bs f Fi i x Li X) X) as (G & _). now apply G.
Qed.
Lemma en_user i x : f_insn f i = Some x -> 0 < uses f i sp_id -> is_raw (i_op x) = true \/
  (i_op x = ADD /\ i_alu x = A_64 /\ exists v c k, i_vals x = [v; c] /\ is_use_of sp_id v = true /\ v_data c = VConst k /\ v_bi c = B_NONE /\ v_ct c = A_32 /\ (- 2 ^ 31 + 2 ^ 15 <= k < 2 ^ 31 - 2 ^ 15)%Z).
Proof.
  intros X U. destruct (sm_user _ _ Sm i x X U) as [([O|O] & _)|(O & A & v & c & kk & V & Uv & D & R)]; [left; now rewrite O|left; now rewrite O|right]. split; [exact O|]. split; [exact A|]. exists v, c, kk.
  assert (Ic : In c (operand_values x)) by (unfold operand_values; apply in_or_app; left; rewrite V; right; now left). destruct (en_values i x c X Ic) as (B & G). rewrite D in G. tauto.
Qed.
Lemma en_gtidy : tidy g /\ fresh_ok g.
Proof.
  pose proof (lift_prepable p m n f P Hl g L e k Hk Hlay) as (A & _). split; [exact (pp_tidy _ _ _ _ A)|exact (pp_fresh _ _ _ _ A)].
Qed.
Lemma en_spok : sp_ok g sp_id.
Proof.
  pose proof Res as ((SI & _ & _ & SF) & _). destruct (lay_facts p m n f P Hl) as (bs & Fi & _). constructor.
  - rewrite SI. destruct (base_insn p m n f P Hl sp_id) as (x & X & O); [unfold sp_id; lia|]. exists x. split; [exact X|]. rewrite O. discriminate.
  - intros b I. rewrite (proj1 (SF b)) in I. apply (fi_ge bs f Fi) in I. unfold sp_id in I. lia.
  - intros i x X. rewrite SI in X. exact (sm_raw _ _ Sm i x X).
  - intros l u r x HU X. left. assert (U : 0 < uses f u sp_id).
    { pose proof (proj2 (td_users _ (proj1 en_tidy) u sp_id)) as CT. unfold users_of in *. rewrite SI in HU. rewrite HU, count_occ_app in CT. cbn [count_occ] in CT. destruct (Nat.eq_dec u u); [lia|congruence]. }
    rewrite SI in X. destruct (sm_user _ _ Sm u x X U) as [(O & N)|(O & A & v & c & kk & V & Uv & D & R)]; [now apply in_raw|]. eapply in_add; eauto.
    assert (Ic : In c (operand_values x)) by (unfold operand_values; apply in_or_app; left; rewrite V; right; now left). exact (proj1 (en_values u x c X Ic)).
Qed.
Lemma en_noholes : no_holes g.
Proof.
  pose proof Res as ((SI & _) & _). intros i x v X V. rewrite SI in X. destruct (en_values i x v X V) as (_ & G). destruct (v_data v); auto.
Qed.
Lemma en_skin : skin g h.
Proof.
  apply (mark_skin g sp_id (proj1 en_gtidy)) with (cap := cap); [|exact Hpre]. pose proof Res as ((SI & _) & _). intros i x X U. rewrite SI in X. apply (en_user i x X). unfold uses in *. now rewrite SI in U.
Qed.
Lemma en_again : exists g2, skin g g2 /\ skin g2 h' /\ L' = L /\ e' = e.
Proof.
  destruct (skin_layout k g h h' _ en_skin Hlay') as (g2 & E2 & S2). exists g2. destruct (layout_again k f g g2 L e L' e' Hlay E2) as (A & B & C); auto.
  - pose proof Res as ((SI & _ & _ & SF) & _ & _ & _ & OR). intros b y (l & i & E & Y) C. rewrite (proj1 (SF b)) in E. rewrite SI in Y. apply OR; [now exists l, i|exact C].
  - pose proof Res as ((SI & _ & _ & SF) & _). destruct (lift_lays p m n f P Hl) as (_ & _ & TO & _). intros b y (l & i & E & Y) C. rewrite (proj1 (SF b)) in E. rewrite SI in Y.
    assert (T : terminator f b y) by now exists l, i. destruct (proj1 TO b y T) as (_ & K & _). pose proof (proj2 (proj2 (SF b))) as Pm. rewrite (K C) in Pm. now apply Permutation_sym, Permutation_length_1_inv in Pm.
Qed.
Lemma en_order : L' = L.
Proof. destruct en_again as (g2 & _ & _ & -> & _). reflexivity. Qed.
Lemma en_compilable : compilable h' L' sp_id [2;3;4;5;6] (S (length (f_all f))).
Proof.
  destruct en_again as (g2 & A & B & -> & _). apply (skin_compilable g2 h'); [exact B|]. apply (skin_compilable g g2); [exact A|]. exact (lift_compilable p m n f P Hl g L e k Hk Hlay Tm Ff).
Qed.
Variables (w : world) (ar : arity_table).
Hypothesis Pl : forall j i, at_pos p j i -> SpecLift.plain ar i.
Hypothesis Ag : agrees ar.
Hypothesis Re : respects w ar.
Lemma en_enough : enough_args (arity_of ar) h' L'.
Proof.
  destruct en_again as (g2 & A & B & -> & _). apply (skin_enough _ g2 h'); [exact B|]. apply (skin_enough _ g g2); [exact A|]. exact (end_enough ar p m n f P Hl g L e k Hk Hlay Pl Ag).
Qed.
Lemma en_entry : f_entry h' = f_entry f.
Proof. destruct en_again as (g2 & A & B & _). rewrite (sn_entry _ _ B), (sn_entry _ _ A). pose proof Res as ((_ & SE & _) & _). exact SE. Qed.
Lemma en_run1 Rg bi j prev b s : gsrun Rg w bi g j prev b s = gsrun Rg w bi f j prev b s.
Proof.
  destruct (lay_facts p m n f P Hl) as (bs & Fi & Hbo & Heo & Rc & Ops & Ph & Cf & Np & Jl & Be). pose proof Res as ((SI & SE & SA & SF) & _). pose proof (lay_gen f g L e k Hlay) as G. apply fix_fold in G as (_ & _ & _ & G4 & _).
  apply ext_run; [exact SI|intros; apply SF|exact G4|].
  intros b' NJ. destruct (SF b') as (_ & _ & Pm). pose proof (fi_blk bs f Fi b') as Q. destruct (blk bs b') as [pb|] eqn:B.
  2: { assert (Qs : succs_of f b' = []) by (unfold succs_of; now rewrite Q). rewrite Qs in Pm |- *. apply Permutation_sym, Permutation_nil in Pm. exact Pm. }
  destruct (Be b' pb B) as [(l & i & y & E & Y & K)|(_ & K)].
  + exfalso. assert (J : is_jmp_op (i_op y) = false) by (apply (NJ i y); [rewrite E; apply in_or_app; right; now left|exact Y]). destruct K as [(O & _)|[(O & _)|(O & _)]]; [destruct (cond_jmp _ O); congruence|rewrite O in J; discriminate J|rewrite O in J; discriminate J].
  + rewrite K in Pm |- *. now apply Permutation_sym, Permutation_length_1_inv in Pm.
Qed.
Lemma en_run2 Rg bi o j prev b s : gsrun Rg w bi (fill o h') j prev b s = gsrun Rg w bi (fill o h) j prev b s.
Proof.
  destruct en_again as (g2 & A & B & _). pose proof en_skin as C. assert (EB : forall c, f_block h' c = f_block h c) by (intros; now rewrite (sn_block _ _ B), (sn_block _ _ A), (sn_block _ _ C)).
  assert (EI : f_insn h' = f_insn h). { pose proof (lay_gen h h' L' e' k Hlay') as G. now apply fix_fold in G. }
  apply ext_run.
  - cbn [fill f_insn]. now rewrite EI.
  - intros c. unfold insns_of, fill. cbn [f_block]. now rewrite EB.
  - intros c. unfold fill. cbn [f_block]. rewrite EB. tauto.
  - intros c _. unfold succs_of, fill. cbn [f_block]. now rewrite EB.
Qed.
Lemma ten_same q v : st_ok q -> rget (rset q 10 v) 10 = u64 v.
Proof. intros (Ln & _). unfold rget, rset. cbn [regs]. rewrite nth_lset by (rewrite Ln; cbn; lia). now rewrite Nat.eqb_refl. Qed.
Lemma ten_other q r v : st_ok q -> (0 <= r)%Z -> (r <> 10)%Z -> rget (rset q 10 v) r = rget q r.
Proof. intros (Ln & _) R0 R1. unfold rget, rset. cbn [regs]. rewrite nth_lset by (rewrite Ln; cbn; lia). destruct (Nat.eqb_spec (Z.to_nat r) (Z.to_nat 10)); [lia|reflexivity]. Qed.
(** the state of the IR of the program, with its frame below the space of the code generator *)
Lemma en_enters q o : st_ok q -> enters (rset q 10 (rget q 10 + o)) (at_sp sp_id (rget q 10 + o) (first_state q)) sp_id arg_id.
Proof.
  intros Q. destruct (first_enters q) as (_ & A & B & C). unfold enters, at_sp. cbn [s_env s_mem s_nc]. split.
  - unfold eupd. rewrite Nat.eqb_refl. f_equal. symmetry. now apply ten_same.
  - split; [|auto]. intros r Rr. unfold eupd. replace (arg_id r =? sp_id) with false by (symmetry; apply Nat.eqb_neq; unfold arg_id, sp_id; lia). rewrite A by exact Rr. f_equal. symmetry. apply ten_other; [exact Q|lia|lia].
Qed.
Lemma en_begins q : st_ok q -> begins sp_id [2;3;4;5;6] q (at_sp sp_id (rget q 10) (first_state q)).
Proof.
  intros Q. destruct (first_begins q) as [A B C D E]. constructor; unfold at_sp; cbn [s_env s_mem s_nc]; auto.
  - unfold eupd. rewrite Nat.eqb_refl. f_equal. apply u64_small. apply rget_range, Q.
  - intros j a N. unfold eupd. replace (a =? sp_id) with false; [now apply B|]. symmetry. apply Nat.eqb_neq. intros ->. apply nth_error_In in N. unfold sp_id in N. cbn in N. lia.
  - intros d N1 N2. unfold eupd. apply Nat.eqb_neq in N1 as K. rewrite K. now apply C.
Qed.
Theorem spill_end fuel om os chk code z u : S (length (f_all f)) < fuel -> (48 * Z.of_nat fuel <= 2 ^ 31)%Z -> (forall j, orders (om j)) -> (forall j, orders (os j)) ->
  (forall a b, chk a = Ok b -> b = a) ->
  codegen fuel om os chk h' L' sp_id [2;3;4;5;6] = Ok code -> by_rounds fuel om os h' L' sp_id [2;3;4;5;6] z u -> apart (arity_of ar) z u -> all_fit z ->
  (Z.of_nat (length code) <= 2 ^ 15)%Z ->
  forall q j r q' d, st_ok q ->
  let R := between (rget q 10 + c_off z) (rget q 10) in hidden w R ->
  gcrun R w ar p j 0 (rset q 10 (rget q 10 + c_off z)) SpecLift.clean = Some (IExit r q', d) ->
  exists q'', code_returns w code q r q'' /\ agree R (SpecWord.mem q') (SpecWord.mem q'') /\ ncall q'' = ncall q'.
Proof.
  intros Lf F48 Om Os Ck Cg Br Ap Fi Lc q j r q' d Ok0 R Hid Ru. pose proof en_compilable as C.
  assert (LL : length L' < fuel).
  { rewrite en_order. pose proof Res as (_ & (NL & _ & RL & _) & _). destruct (lift_lays p m n f P Hl) as (_ & _ & _ & _ & (_ & _ & RA & _) & _).
    assert (length L <= length (f_all f)) by (apply NoDup_incl_length; [exact NL|intros b I; apply RA, RL, I]). lia. }
  pose proof P as [W Len No0 Ra].
  destruct (lift_gexit w (fun _ => 0%Z) ar p m n f R _ (at_sp sp_id (rget q 10 + c_off z) (first_state q)) j r q' d W Len No0 Ra Pl Ag Re Hl (rset_ok _ _ _ Ok0) (en_enters q _ Ok0) Ru) as (j' & t' & Sr & Mm & Nn).
  rewrite <- en_run1 in Sr. destruct (pre_guarded g sp_id (proj1 en_gtidy) (proj2 en_gtidy) en_spok cap h en_noholes Hpre R (c_off z) w _ _ _ _ _ _ _ Sr) as (r' & Sr' & Se).
  inversion Se as [|? ? t2 (Em & En)|]; subst. rewrite <- en_run2, <- en_entry in Sr'.
  destruct (round_codegen h' L' sp_id _ _ C (strict_first _ (cp_strict _ _ _ _ _ C)) fuel om os chk code z u LL Lf F48 Om Os Ck Cg Br Lc w (arity_of ar) Ap Fi (end_few w ar Re) en_enough (fun _ => 0%Z) j' 0 q (at_sp sp_id (rget q 10) (first_state q)) r t2 Ok0 (en_begins q Ok0) Hid Sr') as (q'' & Cr & M2 & N2).
  exists q''. split; [exact Cr|]. rewrite <- Mm, <- Nn, Em, En. auto.
Qed.
End End.
Theorem end_compilable : forall p m n f, liftable p -> fields_fit p -> lift m n p = Ok f -> tame f sp_id -> stack_tame f sp_id ->
  forall g l e k, 2 * length (f_all f) + 1 < k -> layout k f = Ok (g, (l, e)) ->
  forall cap h h' l' e', stack_offset_pre sp_id cap g = Ok h -> layout k h = Ok (h', (l', e')) ->
  compilable h' l' sp_id [2;3;4;5;6] (S (length (f_all f))) /\ l' = l.
Proof.
  intros p m n f P F Hl T Sm g l e k Hk H1 cap h h' l' e' H2 H3. split; [eapply en_compilable; eassumption|eapply en_order; eassumption].
Qed.
Theorem spill_end_all : forall w ar p m n f, liftable p -> fields_fit p -> lift m n p = Ok f -> tame f sp_id -> stack_tame f sp_id ->
  forall g l e k, 2 * length (f_all f) + 1 < k -> layout k f = Ok (g, (l, e)) ->
  forall cap h h' l' e', stack_offset_pre sp_id cap g = Ok h -> layout k h = Ok (h', (l', e')) ->
  (forall j i, at_pos p j i -> SpecLift.plain ar i) -> agrees ar -> respects w ar ->
  forall fuel om os chk code z u, S (length (f_all f)) < fuel -> (48 * Z.of_nat fuel <= 2 ^ 31)%Z -> (forall j, orders (om j)) -> (forall j, orders (os j)) -> (forall a b, chk a = Ok b -> b = a) ->
  codegen fuel om os chk h' l' sp_id [2;3;4;5;6] = Ok code -> by_rounds fuel om os h' l' sp_id [2;3;4;5;6] z u -> apart (arity_of ar) z u -> all_fit z ->
  (Z.of_nat (length code) <= 2 ^ 15)%Z ->
  forall q j r q' d, st_ok q ->
  let R := between (rget q 10 + c_off z) (rget q 10) in hidden w R ->
  gcrun R w ar p j 0 (rset q 10 (rget q 10 + c_off z)) SpecLift.clean = Some (IExit r q', d) ->
  exists q'', code_returns w code q r q'' /\ agree R (SpecWord.mem q') (SpecWord.mem q'') /\ ncall q'' = ncall q'.
Proof. intros w ar p m n f P F Hl T Sm g l e k Hk H1 cap h h' l' e' H2 H3 Pl Ag Re. eapply spill_end; eassumption. Qed.
