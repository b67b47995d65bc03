(** Lifted functions can be laid out, and what is laid out can be prepared for register allocation. *)
From Coq Require Import ZArith List Bool Arith Lia Permutation.
From Verif Require Import SpecWord SpecIsa SpecFlat SpecCfg SpecLift SpecLiftOne SpecIr SpecEdit SpecSsa M_Base M_Ir M_Edit M_GenBB M_Lift M_Layout
  L_Word L_Edit L_GenBB L_GenBBEx L_Lift L_LiftRead L_LiftFill L_LiftDfs L_LiftSim L_LiftRun L_LiftMain L_LiftSafe L_LiftTerm L_LiftAcc L_LiftProp L_LiftEx
  M_Ra SpecPass SpecStrict SpecShift SpecVirt SpecLayout L_Layout L_LiftStrict SpecPrep L_LiftShape.
Import ListNotations.
Open Scope nat_scope.

Lemma cond_jmp o : is_cond_jmp_op o = true -> is_jmp_op o = true /\ o <> JA /\ o <> RET /\ o <> THROW.
Proof. destruct o; cbn; intros H; try discriminate H; repeat split; discriminate. Qed.
Lemma cmp_cond o c : cmp_op_of o = Some c -> is_cond_jmp_op o = true.
Proof. destruct o; cbn; intros H; try discriminate H; reflexivity. Qed.

Section Lay.
Variables (p : list bpf_insn) (m n : nat) (f : func).
Hypothesis P : liftable p.
Hypothesis Hl : lift m n p = Ok f.

(** the facts about the blocks *)
Lemma lay_facts : exists bs, finv bs f /\ blocks_of p bs /\ edges_of p bs /\
  (forall b pb, blk bs b = Some pb -> exists k, path bs k b) /\
  (forall b u x, In u (insns_of f b) -> f_insn f u = Some x -> (forall v, In v (operand_values x) -> good_value p f v) /\ args_fit x /\ stems p x) /\
  (forall b i x pb, In i (insns_of f b) -> f_insn f i = Some x -> i_op x = PHI -> blk bs b = Some pb -> map snd (i_phi x) = map S (pb_preds pb)) /\
  (forall b u x, In u (insns_of f b) -> f_insn f u = Some x -> i_op x = CALL -> exists j i, at_pos p j i /\ b_code i = 0x85%Z /\ b_imm i = i_u x) /\
  (forall i x, In i (insns_of f 1) -> f_insn f i = Some x -> i_op x <> PHI) /\
  (forall b l1 i l2 x, insns_of f b = l1 ++ i :: l2 -> f_insn f i = Some x -> is_jmp_op (i_op x) = true -> l2 = []) /\
  (forall b pb, blk bs b = Some pb ->
    (exists l i y, insns_of f b = l ++ [i] /\ f_insn f i = Some y /\
       ((is_cond_jmp_op (i_op y) = true /\ Permutation (succs_of f b) [i_bb1 y; i_bb2 y] /\ i_bb1 y = S b) \/
        (i_op y = JA /\ succs_of f b = [i_bb1 y]) \/ (i_op y = RET /\ succs_of f b = []))) \/
    ((forall i y, In i (insns_of f b) -> f_insn f i = Some y -> is_jmp_op (i_op y) = false) /\ succs_of f b = [S b])).
Proof.
  destruct P as [W Len No0 Ra]. destruct (gen_bb_ok p W Len No0) as (bs & Hg & Hbo & Heo).
  assert (Hl' := Hl). unfold lift in Hl'. rewrite Hg in Hl'. cbn [bind] in Hl'.
  destruct (lift_blocks m n bs) as [s| | | |] eqn:Lb; try discriminate. injection Hl' as E.
  destruct (main_filled p W No0 bs Hbo Heo m n s Ra Lb) as (e & dn & I & F & Sl).
  destruct (lift_finv p W Len No0 m n f Hl) as (bs' & Hg' & _ & _ & Fi). rewrite Hg in Hg'. injection Hg' as <-. subst f.
  assert (De : forall b, blk bs b = None -> f_block (l_f s) b = None). { intros b K. pose proof (fi_blk bs _ Fi b) as Q. now rewrite K in Q. }
  pose proof (main_reach p W bs Hbo Heo Ra) as Re.
  exists bs. split; [exact Fi|]. split; [exact Hbo|]. split; [exact Heo|]. split; [exact Re|]. split; [|split; [|split; [|split; [|split]]]].
  - intros b u x Iu Xu. assert (Q := operands_good p bs Hbo Heo s e dn I F Sl (main_entry p No0 bs Hbo Heo) De Re (L_LiftSafe.fi_entry bs _ Fi) (L_LiftSafe.fi_phi bs _ Fi) b u x Iu Xu).
    split; [apply Q|]. split; [apply Q|]. exact (insns_stem p bs Hbo s e dn I F De b u x Iu Xu).
  - exact (phi_from bs s e dn I F Sl (main_entry p No0 bs Hbo Heo) Re (L_LiftSafe.fi_entry bs _ Fi)).
  - exact (call_from p bs W Hbo s e dn I F Sl (main_entry p No0 bs Hbo Heo) De Re (L_LiftSafe.fi_entry bs _ Fi) (L_LiftSafe.fi_phi bs _ Fi)).
  - exact (no_phi_entry bs s e dn I F Sl (main_entry p No0 bs Hbo Heo) De Re (L_LiftSafe.fi_entry bs _ Fi)).
  - exact (jump_last p bs W Hbo s e dn I F Sl (main_entry p No0 bs Hbo Heo) De Re (L_LiftSafe.fi_entry bs _ Fi) (L_LiftSafe.fi_phi bs _ Fi)).
  - exact (block_end p bs W Hbo Heo s e dn I F Sl (main_entry p No0 bs Hbo Heo) De Re (L_LiftSafe.fi_entry bs _ Fi) (L_LiftSafe.fi_phi bs _ Fi)).
Qed.

Theorem lift_lays : mirrored f /\ blocks_ok f /\ terms_ok f /\ no_dead_fall f /\ valid_layout f (f_all f) /\ (forall b, f_block f b <> None -> In b (f_all f)) /\
  (forall b s, falls f b s -> s = S b) /\ preds_of f (f_entry f) = [] /\ f_entry f = 1.
Proof.
  destruct lay_facts as (bs & Fi & Hbo & Heo & Re & Ops & Ph & Cf & Np & Jl & Be). destruct P as [W Len No0 Ra].
  destruct (lift_struct p m n f W Len No0 Hl) as (EA & NA & AB & PE & MIR & _ & LK & _).
  assert (BLK : forall b, f_block f b <> None -> exists pb, blk bs b = Some pb).
  { intros b N. pose proof (fi_blk bs f Fi b) as Q. destruct (blk bs b); [eauto|contradiction]. }
  assert (NOB : forall b, blk bs b = None -> insns_of f b = [] /\ succs_of f b = []).
  { intros b N. pose proof (fi_blk bs f Fi b) as Q. rewrite N in Q. unfold insns_of, succs_of. now rewrite Q. }
  assert (SUC : forall b pb c, blk bs b = Some pb -> In c (pb_succs pb) -> In (S c) (succs_of f b)).
  { intros b pb c B I. pose proof (fi_blk bs f Fi b) as Q. rewrite B in Q. destruct Q as (l & Q). unfold succs_of. rewrite Q. cbn. now apply in_map. }
  assert (RCH : forall k b, path bs k b -> SpecLayout.reach f (f_entry f) b).
  { rewrite (L_LiftSafe.fi_entry bs f Fi). induction 1 as [|k b pb c Pa IH B I]; [constructor|]. eapply reach_step; [exact IH|eapply SUC; eassumption]. }
  assert (RB : forall b, f_block f b <> None -> SpecLayout.reach f (f_entry f) b).
  { intros b N. destruct (BLK b N) as (pb & B). destruct (Re b pb B) as (k & K). eapply RCH; exact K. }
  assert (SB : forall b s, In s (succs_of f b) -> f_block f s <> None).
  { intros b s I N. apply MIR in I. unfold preds_of in I. rewrite N in I. destruct I. }
  assert (LAST : forall b l i l' j, insns_of f b = l ++ [i] -> insns_of f b = l' ++ [j] -> i = j).
  { intros b l i l' j A B. rewrite A in B. now apply app_inj_tail in B as (_ & ->). }
  assert (FB : forall b s, falls f b s -> exists pb, blk bs b = Some pb).
  { intros b s F. destruct (blk bs b) as [pb|] eqn:B; [eauto|]. destruct (NOB b B) as (N1 & N2).
    destruct F as [y (l & i & E & _)|y (l & i & E & _)|E S]; [rewrite N1 in E; destruct l; discriminate E..|rewrite N2 in S; discriminate S]. }
  assert (FS : forall b s, falls f b s -> s = S b).
  { intros b s F. destruct (FB b s F) as (pb & B). destruct (Be b pb B) as [(l & i & y & E & Y & K)|(NJ & E)].
    - destruct F as [z (l' & j & E' & Z) C <-|z (l' & j & E' & Z) C S|E' S].
      + assert (j = i) by (eapply LAST; eassumption). subst j. assert (z = y) by congruence. subst z. destruct (cond_jmp _ C) as (_ & N1 & N2 & N3).
        destruct K as [(_ & _ & K)|[(K & _)|(K & _)]]; [exact K|congruence|congruence].
      + assert (j = i) by (eapply LAST; eassumption). subst j. assert (z = y) by congruence. subst z.
        destruct K as [(K & _)|[(K & _)|(K & _)]]; [destruct (cond_jmp _ K); congruence|rewrite K in C; discriminate C|rewrite K in C; discriminate C].
      + rewrite E in E'. destruct l; discriminate E'.
    - destruct F as [z (l' & j & E' & Z) C <-|z (l' & j & E' & Z) C S|E' S]; try congruence.
      exfalso. assert (Q : is_jmp_op (i_op z) = false) by (apply (NJ j z); [rewrite E'; apply in_or_app; right; now left|exact Z]). destruct (cond_jmp _ C). congruence. }
  split; [exact MIR|]. split.
  { split; [intros b i I; destruct (LK b i I) as (x & X & _); eauto|]. split; [exact NA|]. split.
    - intros b. rewrite AB. destruct (f_block f b); split; try congruence; intros; eauto. destruct H; discriminate.
    - split; [exact EA|]. intros b s I. apply AB. eapply SB; exact I. }
  split.
  { split.
    - intros b y (l & i & E & Y). destruct (blk bs b) as [pb|] eqn:B; [|destruct (NOB b B) as (N1 & _); rewrite N1 in E; destruct l; discriminate E].
      destruct (Be b pb B) as [(l' & j & z & E' & Z & K)|(NJ & K)].
      + assert (i = j) by (eapply LAST; eassumption). subst j. assert (z = y) by congruence. subst z.
        destruct K as [(K & S & _)|[(K & S)|(K & S)]].
        * destruct (cond_jmp _ K) as (J & N1 & N2 & N3). split; [auto|]. split; [intros Q; congruence|]. split; [intros [Q|Q]; congruence|congruence].
        * rewrite K. split; [discriminate|]. split; [auto|]. split; [intros [Q|Q]; discriminate|discriminate].
        * rewrite K. split; [discriminate|]. split; [discriminate|]. split; [auto|discriminate].
      + assert (J : is_jmp_op (i_op y) = false) by (apply (NJ i y); [rewrite E; apply in_or_app; right; now left|exact Y]).
        split; [intros C; destruct (cond_jmp _ C); congruence|]. split; [intros Q; rewrite Q in J; discriminate J|]. split; [intros [Q|Q]; rewrite Q in J; discriminate J|].
        intros _. rewrite K. cbn. lia.
    - intros b E. destruct (blk bs b) as [pb|] eqn:B; [|destruct (NOB b B) as (_ & N2); rewrite N2; cbn; lia].
      destruct (Be b pb B) as [(l' & j & z & E' & _)|(_ & K)]; [rewrite E in E'; destruct l'; discriminate E'|rewrite K; cbn; lia]. }
  split.
  { intros b s F _. destruct (FB b s F) as (pb & B). destruct (Re b pb B) as (k & K). eapply RCH; exact K. }
  assert (AN : forall b, f_block f b <> None -> In b (f_all f)) by (intros b; now apply AB).
  split; [|split; [exact AN|split; [exact FS|split; [exact PE|exact (L_LiftSafe.fi_entry bs f Fi)]]]].
  split; [exact NA|]. rewrite (fi_all bs f Fi), (L_LiftSafe.fi_entry bs f Fi). pose proof (bs_ne p bs Hbo Heo) as Ne. split.
  { destruct bs as [|x r]; [congruence|]. exists (seq 2 (length r)). reflexivity. }
  rewrite <- (fi_all bs f Fi). split.
  { intros b. split.
    - intros I. apply AB in I. rewrite <- (L_LiftSafe.fi_entry bs f Fi). now apply RB.
    - rewrite <- (L_LiftSafe.fi_entry bs f Fi). intros R. destruct R as [|a b c R I]; [exact EA|]. apply AB. eapply SB; exact I. }
  intros b s I F. pose proof (FS b s F) as ->. destruct (FB b _ F) as (pb & B).
  assert (I2 : In (S b) (f_all f)).
  { apply AB. destruct F as [z (l' & j & E' & Z) C S|z (l' & j & E' & Z) C S|E' S].
    - destruct (Be b pb B) as [(l & i & y & E & Y & K)|(NJ & E)].
      + assert (j = i) by (eapply LAST; eassumption). subst j. assert (z = y) by congruence. subst z. destruct (cond_jmp _ C) as (_ & N1 & N2 & N3).
        destruct K as [(_ & K & _)|[(K & _)|(K & _)]]; [|congruence|congruence]. eapply SB. eapply Permutation_in; [apply Permutation_sym; exact K|]. rewrite S. now left.
      + apply (SB b). rewrite E. now left.
    - apply (SB b). rewrite S. now left.
    - apply (SB b). rewrite S. now left. }
  rewrite (fi_all bs f Fi) in I, I2 |- *. apply in_seq in I, I2. exists (seq 1 (b - 1)), (seq (b + 2) (length bs - b - 1)).
  replace (length bs) with ((b - 1) + (1 + (1 + (length bs - b - 1)))) by lia. rewrite !seq_app. cbn [seq app].
  replace (1 + (b - 1)) with b by lia. replace (b + 1) with (S b) by lia. replace (S b + 1) with (b + 2) by lia.
  replace (b - 1 + (1 + (1 + (length bs - b - 1))) - b - 1) with (length bs - b - 1) by lia. reflexivity.
Qed.

(** enough fuel lays the function out *)
Theorem lift_layout : forall fuel, 2 * length (f_all f) + 1 < fuel -> exists g l e, layout fuel f = Ok (g, (l, e)) /\ layout_result f g l e.
Proof. destruct lift_lays as (M & B & T & D & V & _). intros fuel L. exact (layout_ok f (f_all f) M B T D V fuel L). Qed.

(** ** What is laid out can be prepared *)
Lemma goes_succ_of b c : goes f b c -> In c (succs_of f b).
Proof.
  destruct lay_facts as (bs & Fi & Hbo & Heo & Re & Ops & Ph & Cf & Np & Jl & Be). destruct lift_lays as (_ & _ & (TO & _) & _).
  assert (TM : forall i x, In i (insns_of f b) -> f_insn f i = Some x -> is_jmp_op (i_op x) = true -> terminator f b x).
  { intros i x I X J. apply in_split in I as (l1 & l2 & E). pose proof (Jl _ _ _ _ _ E X J) as ->. exists l1, i. auto. }
  intros [i x I X O|i x d I X O|i x d I X O|d l E].
  - destruct (TO b x) as (_ & K & _); [apply (TM i x I X); now rewrite O|]. rewrite (K O). now left.
  - pose proof (cmp_cond _ _ O) as CC. destruct (TO b x) as (K & _); [apply (TM i x I X), cond_jmp; exact CC|]. eapply Permutation_in; [apply Permutation_sym, K, CC|]. now left.
  - pose proof (cmp_cond _ _ O) as CC. destruct (TO b x) as (K & _); [apply (TM i x I X), cond_jmp; exact CC|]. eapply Permutation_in; [apply Permutation_sym, K, CC|]. right. now left.
  - rewrite E. now left.
Qed.
Lemma base_insn i : 1 <= i <= 6 -> exists x, f_insn f i = Some x /\ i_op x = (if i =? 1 then REG else FUNCTIONARG).
Proof.
  destruct lay_facts as (bs & Fi & _). intros L. destruct (fi_base bs f Fi i ltac:(lia)) as (l & E). unfold init_insns in E.
  destruct i as [|[|[|[|[|[|[|i]]]]]]]; try lia; cbn in E; rewrite E; eexists; (split; [reflexivity|reflexivity]).
Qed.
Variables (g : func) (L e : list nat) (fuel : nat).
Hypothesis Hfuel : 2 * length (f_all f) + 1 < fuel.
Hypothesis Hlay : layout fuel f = Ok (g, (L, e)).

Lemma fix_keeps : forall l h h', ofold fix_succs h l = Ok h' -> f_ni h' = f_ni h /\ f_nb h' = f_nb h.
Proof.
  induction l as [|b l IH]; intros h h' E; cbn [ofold] in E; [injection E as <-; auto|].
  destruct (fix_succs h b) as [h1| | | |] eqn:F; try discriminate E. cbn [bind] in E. apply IH in E as (-> & ->).
  unfold fix_succs in F. destruct (get_block h b) as [x| | | |]; try discriminate F. cbn [bind] in F. destruct (last_of h x) as [[y|]| | | |]; try discriminate F; cbn [bind] in F; [|injection F as <-; auto].
  destruct (is_cond_jmp_op _); [destruct (_ =? 2); [|discriminate F]; injection F as <-; auto|]. destruct (iop_eqb _ _); [|injection F as <-; auto].
  destruct (_ =? 1); [|discriminate F]. injection F as <-. auto.
Qed.
Lemma lay_gen : gen_bb_succ f = Ok g.
Proof.
  unfold layout in Hlay. destruct (gen_bb_succ f) as [f1| | | |]; try discriminate. cbn [bind] in Hlay. destruct (gen_reachable fuel f1) as [l| | | |]; try discriminate. cbn [bind] in Hlay.
  destruct (gen_end f1 l); try discriminate. cbn [bind] in Hlay. injection Hlay as -> _ _. reflexivity.
Qed.
Lemma lay_res : layout_result f g L e.
Proof. destruct (lift_layout fuel Hfuel) as (g' & l & e' & E & R). rewrite Hlay in E. injection E as -> -> ->. exact R. Qed.
Lemma lay_block b : f_block g b <> None <-> In b L.
Proof.
  destruct lift_lays as (_ & BO & _ & _ & (_ & _ & RA & _) & AB & _). destruct lay_res as (_ & (_ & _ & RL & _) & _).
  pose proof lay_gen as G. apply fix_fold in G as (_ & _ & _ & G4 & _). rewrite RL, <- RA. destruct BO as (_ & _ & BO & _). rewrite BO. specialize (G4 b).
  destruct (f_block g b), (f_block f b); split; try congruence; intros; eauto; try (destruct G4 as [G4 G4']; exfalso; (now specialize (G4 eq_refl)) || (now specialize (G4' eq_refl))).
  destruct H; discriminate.
Qed.
Lemma placed_f i : placed_in g L i -> exists b, In i (insns_of f b).
Proof. intros (b & _ & I). destruct lay_res as ((_ & _ & _ & SF) & _). destruct (SF b) as (E & _). rewrite E in I. eauto. Qed.
Lemma f_placed b i : In i (insns_of f b) -> placed_in g L i.
Proof.
  intros I. destruct lay_res as ((_ & _ & _ & SF) & _). destruct (SF b) as (E & _). exists b. split; [|now rewrite E]. apply lay_block. intros N. rewrite <- E in I. unfold insns_of in I. rewrite N in I. destruct I.
Qed.
Theorem lift_prepable : prepable g L sp_id [2;3;4;5;6] /\ straight g L.
Proof.
  destruct lay_facts as (bs & Fi & Hbo & Heo & Re & Ops & Ph & Cf & Np & Jl & Be). destruct lift_lays as (MIR & BO & TO & _ & _ & AB & _ & PE & E1). destruct P as [W Len No0 Ra].
  destruct (lifted_ok p m n f W Len No0 Ra Hl) as (TD & _ & _ & OPS & _). destruct (lift_struct p m n f W Len No0 Hl) as (_ & _ & _ & _ & _ & (FR1 & FR2) & _).
  pose proof lay_res as ((SI & SE & SA & SF) & (NL & _ & RL & _) & _). pose proof lay_gen as G. unfold gen_bb_succ in G. destruct (fix_keeps _ _ _ G) as (NI & NB).
  assert (LOW : forall i, i < 7 -> ~ placed_in g L i) by (intros i L7 Pl; destruct (placed_f i Pl) as (b & I); pose proof (fi_ge bs f Fi b i I); lia).
  assert (UE : forall u d, uses g u d = uses f u d) by (intros; unfold uses; now rewrite SI).
  split; [constructor|constructor].
  - split; [intros i Li; rewrite SI; apply FR1; lia|]. intros b Lb. destruct (f_block g b) eqn:B; [|reflexivity]. exfalso.
    apply fix_fold in G as (_ & _ & _ & G4 & _). rewrite (proj2 (G4 b) (FR2 b ltac:(lia))) in B. discriminate B.
  - destruct TD as [T1 T2 T3 T4]. constructor.
    + intros u d. rewrite UE. unfold users_of. rewrite SI. apply T1.
    + intros b i I. rewrite SI. apply T2. now rewrite (proj1 (SF b)) in I.
    + intros b. rewrite (proj1 (SF b)). apply T3.
    + intros u d U. rewrite UE in U. destruct (T4 u d U) as (x & X & I). exists x. rewrite SI, (proj1 (SF _)). auto.
  - split; [exact NL|]. split; [intros b; now apply lay_block|]. intros b i I. apply lay_block. intros N. unfold insns_of in I. rewrite N in I. destruct I.
  - split; [apply LOW; unfold sp_id; lia|]. destruct (base_insn 1 ltac:(lia)) as (x & X & O). exists x. rewrite SI. split; [exact X|]. rewrite O. split; discriminate.
  - split; [repeat constructor; cbn; lia|]. split; [cbn; lia|]. split; [unfold sp_id; cbn; lia|]. intros a I. assert (2 <= a <= 6) by (cbn in I; lia). split; [apply LOW; lia|].
    destruct (base_insn a ltac:(lia)) as (x & X & O). exists x. rewrite SI. split; [exact X|]. rewrite O. destruct (Nat.eqb_spec a 1); [lia|]. split; discriminate.
  - intros u x v Pl X V. rewrite SI in X. destruct (placed_f u Pl) as (b & I). destruct (Ops b u x I X) as (GV & _). specialize (GV v V). destruct GV as (_ & GV).
    unfold operand_fits. destruct (v_data v); auto; try contradiction. destruct GV as [-> |[K|(b' & y & I' & Y & NV)]]; [now right; left|left; cbn; lia|].
    right. right. split; [eapply f_placed; exact I'|]. exists y. now rewrite SI.
  - intros b c I Gc. assert (Gf : goes f b c \/ In c (succs_of g b)).
    { destruct Gc as [i x J X O|i x d J X O|i x d J X O|d l E]; [left|left|left|right; rewrite E; now left]; rewrite SI in X; rewrite (proj1 (SF b)) in J; [eapply go_ja|eapply go_c1|eapply go_c2]; eassumption. }
    assert (IS : In c (succs_of f b)).
    { destruct Gf as [Gf|Gf]; [now apply goes_succ_of|]. destruct (SF b) as (_ & _ & Pm). eapply Permutation_in; eassumption. }
    assert (IP : In b (preds_of f c)) by (now apply MIR). split; [|split].
    + apply lay_block. intros N. destruct (SF c) as (_ & Q & _). rewrite <- Q in IP. unfold preds_of in IP. rewrite N in IP. destruct IP.
    + rewrite SE. intros ->. rewrite PE in IP. destruct IP.
    + now rewrite (proj1 (proj2 (SF c))).
  - intros b q I J. rewrite (proj1 (proj2 (SF b))) in J. apply MIR in J. apply lay_block. intros N. destruct (SF q) as (_ & _ & Pm). unfold succs_of in Pm at 1. rewrite N in Pm. apply Permutation_nil in Pm. rewrite Pm in J. destruct J.
  - intros b l1 i l2 x E X J. rewrite (proj1 (SF b)) in E. rewrite SI in X. eapply Jl; eassumption.
  - intros i x Pl X O. rewrite SI in X. destruct (placed_f i Pl) as (b & I). split; [exact (L_LiftSafe.fi_phi bs f Fi i x X O)|].
    destruct (blk bs b) as [pb|] eqn:B; [|pose proof (fi_blk bs f Fi b) as Q; rewrite B in Q; unfold insns_of in I; rewrite Q in I; destruct I].
    pose proof (fi_blk bs f Fi b) as Q. rewrite B in Q. destruct Q as (l & Q).
    assert (EP : map snd (i_phi x) = preds_of f b) by (rewrite (Ph b i x pb I X O B); unfold preds_of; now rewrite Q).
    split; [rewrite EP; apply MIR|]. intros w q J. assert (IQ : In q (preds_of f b)) by (rewrite <- EP; change q with (snd (w, q)); now apply in_map).
    apply MIR in IQ. apply lay_block. intros N. destruct (SF q) as (_ & _ & Pm). unfold succs_of in Pm at 1. rewrite N in Pm. apply Permutation_nil in Pm. rewrite Pm in IQ. destruct IQ.
  - intros i x Pl X O. rewrite SI in X. destruct (placed_f i Pl) as (b & I). destruct (Ops b i x I X) as (_ & AF & _). apply (AF O).
  - intros i x Pl X O. rewrite SI in X. destruct (OPS i x X) as [K|[K|[K|K]]]; rewrite O in K; discriminate K.
  - rewrite SE. split; [apply RL; constructor|]. intros i l E (x & X & O). rewrite SI in X. rewrite (proj1 (SF _)) in E.
    assert (I : In i (insns_of f (f_entry f))) by (rewrite E; now left). rewrite E1 in I. exact (Np i x I X O).
  - intros i x Pl X. rewrite SI in X. destruct (OPS i x X) as [K|[K|[K|K]]]; try (rewrite K; repeat split; discriminate). destruct (i_op x); try discriminate K; repeat split; discriminate.
  - intros i x v Pl X V. rewrite SI in X. destruct (placed_f i Pl) as (b & I). destruct (Ops b i x I X) as (GV & _). apply (GV v V).
Qed.
End Lay.
