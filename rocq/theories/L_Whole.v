(** Lifted functions, laid out, are functions that the code generator translates. *)
From Coq Require Import ZArith List Bool Arith Lia Permutation.
From Verif Require Import SpecWord SpecIsa SpecFlat SpecCfg SpecLift SpecLiftOne SpecIr SpecEdit SpecSsa SpecNormCond M_Base M_Ir M_Edit M_GenBB M_Lift M_Layout
  L_Word L_Edit L_GenBB L_GenBBEx L_Lift L_LiftRead L_LiftFill L_LiftDfs L_LiftSim L_LiftRun L_LiftMain L_LiftSafe L_LiftTerm L_LiftAcc L_LiftProp L_LiftEx
  M_Ra SpecPass SpecStrict SpecShift SpecVirt SpecLayout L_Layout L_LiftStrict SpecPrep L_LiftShape L_LiftLay L_PrepInit.
Import ListNotations.
Open Scope nat_scope.

(** ** Filling changes nothing when there are no holes *)
Lemma fill_same x : (forall v, In v (i_vals x) -> no_hole v) ->
  i_vals (fill_insn 0 x) = i_vals x /\ i_op (fill_insn 0 x) = i_op x /\
  a_val (i_addr (fill_insn 0 x)) = a_val (i_addr x) /\ a_off (i_addr (fill_insn 0 x)) = a_off (i_addr x).
Proof.
  intros V. unfold fill_insn. cbn. assert (F : forall v, no_hole v -> fill_val 0 v = v) by (intros v H; unfold no_hole in H; unfold fill_val; destruct (v_data v); tauto).
  split; [rewrite <- (map_id (i_vals x)) at 2; apply map_ext_in; auto|].
  split; [reflexivity|]. unfold fill_addr. destruct (a_ot (i_addr x)); cbn; split; auto; lia.
Qed.
Lemma fill_phi x : (forall q, In q (i_phi x) -> no_hole (fst q)) -> i_phi (fill_insn 0 x) = i_phi x.
Proof.
  intros Q. unfold fill_insn. cbn. assert (F : forall v, no_hole v -> fill_val 0 v = v) by (intros v H; unfold no_hole in H; unfold fill_val; destruct (v_data v); tauto).
  rewrite <- (map_id (i_phi x)) at 2; apply map_ext_in; intros [v b] I; cbn; rewrite (F v (Q _ I)); reflexivity.
Qed.
Lemma sexec_fill w bi f g i x t : (forall v, In v (i_vals x) -> no_hole v) -> i_op x <> STORE ->
  sexec w bi g i (fill_insn 0 x) t = sexec w bi f i x t.
Proof.
  intros V NS. destruct (fill_same x V) as (EV & EO & EA & EF). unfold sexec. rewrite EV, EO, EA, EF.
  change (i_alu (fill_insn 0 x)) with (i_alu x). change (i_vrt (fill_insn 0 x)) with (i_vrt x). change (i_ity (fill_insn 0 x)) with (i_ity x). change (i_imm64 (fill_insn 0 x)) with (i_imm64 x).
  change (i_u (fill_insn 0 x)) with (i_u x). change (i_bb1 (fill_insn 0 x)) with (i_bb1 x). change (i_bb2 (fill_insn 0 x)) with (i_bb2 x).
  destruct (i_op x); try reflexivity. congruence.
Qed.
(** a block of which every instruction goes on has no jump *)
Lemma sexec_next w bi f i x t t' : sexec w bi f i x t = Some (SNext t') -> is_jmp_op (i_op x) = false.
Proof.
  intros E. destruct (is_jmp_op (i_op x)) eqn:J; [exfalso|reflexivity]. unfold sexec in E.
  destruct (i_op x) eqn:O; try discriminate J; destruct (i_vals x) as [|v1 [|v2 [|v3 r]]]; cbn in E; try discriminate E;
  repeat match type of E with context [seval ?a ?b ?c] => destruct (seval a b c); cbn in E; try discriminate E end;
  try (destruct (width_of _); cbn in E; discriminate E).
Qed.

Section Run.
Variables (w : world) (bi : bconst -> Z) (f g : func).
Hypothesis SI : f_insn g = f_insn f.
Hypothesis SN : forall b, insns_of g b = insns_of f b.
Hypothesis SB : forall b, f_block g b = None <-> f_block f b = None.
Hypothesis NH : forall b i x, In i (insns_of f b) -> f_insn f i = Some x -> (forall v, In v (operand_values x) -> no_hole v) /\ i_op x <> STORE.
Hypothesis SS : forall b, (forall i x, In i (insns_of f b) -> f_insn f i = Some x -> is_jmp_op (i_op x) = false) -> succs_of g b = succs_of f b.
Lemma sphis_fill b prev s0 : forall l s, (forall i, In i l -> In i (insns_of f b)) -> sphis bi (fill 0 g) prev s0 s l = sphis bi f prev s0 s l.
Proof.
  induction l as [|i r IH]; intros s Li; cbn [sphis]; [reflexivity|]. cbn [f_insn fill]. rewrite SI. destruct (f_insn f i) as [x|] eqn:X; [|reflexivity]. cbn [option_map obind].
  destruct (NH b i x (Li i (or_introl eq_refl)) X) as (NV & _). destruct (iop_eqb (i_op x) PHI) eqn:O; change (i_op (fill_insn 0 x)) with (i_op x); rewrite O; [|reflexivity].
  assert (EP : i_phi (fill_insn 0 x) = i_phi x). { apply fill_phi. intros q Q. apply NV. unfold operand_values. destruct (i_op x); try discriminate O. apply in_or_app. right. now apply in_map. }
  unfold incoming. rewrite EP. destruct (option_map fst _); [|reflexivity]. cbn [obind]. destruct (seval _ _ _); [|reflexivity]. apply IH. intros j J. apply Li. now right.
Qed.
Lemma sbody_fill b : forall l s, (forall i, In i l -> In i (insns_of f b)) -> sbody w bi (fill 0 g) s l = sbody w bi f s l.
Proof.
  induction l as [|i r IH]; intros s Li; cbn [sbody]; [reflexivity|]. cbn [f_insn fill]. rewrite SI. destruct (f_insn f i) as [x|] eqn:X; [|reflexivity]. cbn [option_map obind].
  destruct (NH b i x (Li i (or_introl eq_refl)) X) as (NV & NS). change (mkFunc _ _ _ _ _ _) with (fill 0 g). rewrite (sexec_fill w bi f (fill 0 g) i x s); [|intros v V; apply NV; unfold operand_values; apply in_or_app; now left|exact NS]. destruct (sexec w bi f i x s) as [[]|]; try reflexivity.
  cbn [obind]. apply IH. intros j J. apply Li. now right.
Qed.
Lemma sphis_rest prev s0 : forall l s r s1, sphis bi f prev s0 s l = Some (r, s1) -> exists l1, l = l1 ++ r /\ forall i x, In i l1 -> f_insn f i = Some x -> i_op x = PHI.
Proof.
  induction l as [|i l IH]; intros s r s1 E; cbn [sphis] in E; [injection E as <- _; exists []; split; [reflexivity|intros ? ? []]|].
  destruct (f_insn f i) as [x|] eqn:X; [|discriminate E]. cbn [obind] in E. destruct (iop_eqb (i_op x) PHI) eqn:O; [|injection E as <- _; exists []; split; [reflexivity|intros ? ? []]].
  destruct (incoming x prev); [|discriminate E]. cbn [obind] in E. destruct (seval _ _ _); [|discriminate E]. apply IH in E as (l1 & -> & K). exists (i :: l1). split; [reflexivity|].
  intros j y [<-|J] Y; [|eauto]. rewrite X in Y. injection Y as <-. destruct (i_op x); try discriminate O. reflexivity.
Qed.
Lemma sbody_next : forall l s s', sbody w bi f s l = Some (SNext s') -> forall i x, In i l -> f_insn f i = Some x -> is_jmp_op (i_op x) = false.
Proof.
  induction l as [|i l IH]; intros s s' E j y; [intros []|]. cbn [sbody] in E. destruct (f_insn f i) as [x|] eqn:X; [|discriminate E]. cbn [obind] in E. destruct (sexec w bi f i x s) as [[]|] eqn:Ex; try discriminate E.
  intros [<-|J] Y; [|eapply IH; eassumption]. rewrite X in Y. injection Y as <-. eapply sexec_next; exact Ex.
Qed.
Lemma sblock_fill prev b s : sblock w bi (fill 0 g) prev b s = sblock w bi f prev b s.
Proof.
  unfold sblock. change (f_block (fill 0 g) b) with (f_block g b). pose proof (SN b) as En. pose proof (SB b) as Eb. pose proof (SS b) as Es. pose proof (sphis_fill b prev s) as Hp. pose proof (sbody_fill b) as Hb. unfold insns_of in *. unfold succs_of in Es. destruct (f_block f b) as [k|] eqn:Bf.
  2: { now rewrite (proj2 Eb eq_refl). }
  destruct (f_block g b) as [k'|]; [|destruct Eb as (K & _); discriminate (K eq_refl)]. cbn [obind]. rewrite En. rewrite (Hp (b_insns k) s (fun _ H => H)). destruct (sphis bi f prev s s (b_insns k)) as [(l, s1)|] eqn:P; [|reflexivity]. cbn [obind].
  destruct (sphis_rest _ _ _ _ _ _ P) as (l1 & El & Kl). rewrite (Hb l s1). 2: { intros i I. rewrite El. apply in_or_app. now right. }
  destruct (sbody w bi f s1 l) as [[]|] eqn:Bo; try reflexivity. cbn [obind]. rewrite Es; [reflexivity|]. intros i x I X. rewrite El in I. apply in_app_or in I as [I|I]; [rewrite (Kl i x I X); reflexivity|]. eapply sbody_next; eassumption.
Qed.
Lemma srun_fill : forall n prev b s, srun w bi (fill 0 g) n prev b s = srun w bi f n prev b s.
Proof. induction n as [|n IH]; intros prev b s; cbn [srun]; [reflexivity|]. rewrite sblock_fill. destruct (sblock w bi f prev b s) as [[]|]; try reflexivity. cbn [obind]. apply IH. Qed.
End Run.

Lemma fe_mono f b d : few_empty f b d -> forall d', d <= d' -> few_empty f b d'.
Proof. induction 1 as [b d H|b d H IH]; intros d' L; [now apply fe_full|]. destruct d' as [|d']; [lia|]. apply fe_empty. intros p I. apply (IH p I). lia. Qed.
(** no block lies before itself on all paths *)
Lemma not_self f b : reachable f b -> ~ forall l, rpath f (b :: l) -> In b l.
Proof.
  intros (l0 & R0) H.
  assert (C : forall l, rpath f l -> forall l1 l2, l = l1 ++ l2 -> l2 <> [] -> rpath f l2).
  { induction 1 as [|c l d R IH G]; intros l1 l2 E N.
    - destruct l1 as [|x [|]]; cbn in E; [subst; constructor|injection E as _ <-; contradiction|discriminate E].
    - destruct l1 as [|x l1]; cbn in E; [subst; econstructor; eassumption|]. injection E as _ E. eapply IH; eassumption. }
  remember (length l0) as k. revert l0 R0 Heqk. induction k as [k IH] using lt_wf_ind. intros l0 R0 ->. pose proof (H l0 R0) as I. apply in_split in I as (l1 & l2 & ->).
  eapply (IH (length l2)); [rewrite app_length; cbn; lia| |reflexivity]. apply (C _ R0 (b :: l1) (b :: l2) eq_refl). discriminate.
Qed.

Section Whole.
Variables (p : list bpf_insn) (m n : nat) (f : func).
Hypothesis P : liftable p.
Hypothesis Hl : lift m n p = Ok f.
Variables (g : func) (L e : list nat) (fuel : nat).
Hypothesis Hfuel : 2 * length (f_all f) + 1 < fuel.
Hypothesis Hlay : layout fuel f = Ok (g, (L, e)).
Let Res := lay_res p m n f P Hl g L e fuel Hfuel Hlay.

Lemma wh_goes b c : goes f b c <-> In c (succs_of f b).
Proof.
  split; [apply (goes_succ_of p m n f P Hl)|]. intros I. destruct (lay_facts p m n f P Hl) as (bs & Fi & _ & _ & _ & _ & _ & _ & _ & _ & Be).
  destruct (blk bs b) as [pb|] eqn:B; [|pose proof (fi_blk bs f Fi b) as Q; rewrite B in Q; unfold succs_of in I; rewrite Q in I; destruct I].
  destruct (Be b pb B) as [(l & i & y & E & Y & K)|(_ & K)]; [|rewrite K in I; destruct I as [<-|[]]; eapply go_next; exact K].
  assert (Ii : In i (insns_of f b)) by (rewrite E; apply in_or_app; right; now left). destruct K as [(O & Pm & _)|[(O & K)|(O & K)]].
  - destruct (cond_cmp _ O) as (k & Kk). apply (Permutation_in _ Pm) in I. destruct I as [<-|[<-|[]]]; [eapply go_c1; eassumption|eapply go_c2; eassumption].
  - rewrite K in I. destruct I as [<-|[]]. eapply go_ja; eassumption.
  - rewrite K in I. destruct I.
Qed.
Lemma wh_goes_g b c : goes g b c <-> goes f b c.
Proof.
  pose proof Res as ((SI & SE & SA & SF) & _). destruct (SF b) as (EN & _ & Pm). split.
  - intros [i x J X O|i x d J X O|i x d J X O|d l E].
    1-3: rewrite SI in X; rewrite EN in J; solve [eapply go_ja; eassumption|eapply go_c1; eassumption|eapply go_c2; eassumption].
    apply wh_goes. eapply Permutation_in; [exact Pm|]. rewrite E. now left.
  - intros G. destruct (lay_facts p m n f P Hl) as (bs & Fi & _ & _ & _ & _ & _ & _ & _ & _ & Be). destruct G as [i x J X O|i x d J X O|i x d J X O|d l E].
    1-3: rewrite <- SI in X; rewrite <- EN in J; solve [eapply go_ja; eassumption|eapply go_c1; eassumption|eapply go_c2; eassumption].
    destruct (blk bs b) as [pb|] eqn:B; [|pose proof (fi_blk bs f Fi b) as Q; rewrite B in Q; unfold succs_of in E; rewrite Q in E; discriminate E].
    destruct (Be b pb B) as [(l' & i & y & El & Y & K)|(_ & K)]; [|rewrite K in E, Pm; injection E as <- _; apply Permutation_sym, Permutation_length_1_inv in Pm; eapply go_next; exact Pm].
    assert (Ii : In i (insns_of g b)) by (rewrite EN, El; apply in_or_app; right; now left). rewrite <- SI in Y. destruct K as [(O & Pm' & _)|[(O & K)|(O & K)]]; [|rewrite K in E; injection E as <- _; eapply go_ja; eassumption|rewrite K in E; discriminate E].
    destruct (cond_cmp _ O) as (k & Kk). assert (I : In d [i_bb1 y; i_bb2 y]) by (eapply Permutation_in; [exact Pm'|]; rewrite E; now left). destruct I as [<-|[<-|[]]]; [eapply go_c1; eassumption|eapply go_c2; eassumption].
Qed.
Lemma wh_rpath l : rpath g l <-> rpath f l.
Proof.
  pose proof Res as ((SI & SE & SA & SF) & _). split.
  - induction 1 as [|b l c R IH G]; [rewrite SE; constructor|]. constructor; [exact IH|]. now apply wh_goes_g.
  - induction 1 as [|b l c R IH G]; [rewrite <- SE; constructor|]. constructor; [exact IH|]. now apply wh_goes_g.
Qed.
Lemma wh_strict : SpecStrict.strict g.
Proof.
  pose proof P as [W Len No0 Ra]. destruct (lifted_ok p m n f W Len No0 Ra Hl) as (_ & St & _). pose proof Res as ((SI & SE & SA & SF) & _).
  assert (SN : forall b, insns_of g b = insns_of f b) by (intros; apply SF). assert (IP : forall i, is_phi g i <-> is_phi f i) by (intros; unfold is_phi; rewrite SI; tauto).
  destruct St as [A B C D E F]. constructor.
  - intros b. rewrite SN. destruct (A b) as (phs & ids & K1 & K2 & K3). exists phs, ids. split; [exact K1|]. split; intros i I; rewrite IP; auto.
  - intros i. rewrite SE, SN, IP. apply B.
  - intros b i x q l. rewrite SN, SI, wh_rpath, wh_goes_g. apply C.
  - intros b u x d c. unfold uses. rewrite !SN, SI. intros I X O U Ic. destruct (D b u x d c I X O U Ic) as [K|K]; [now left|right]. intros l R. apply K. now apply wh_rpath.
  - intros b u x v q d c. rewrite !SN, SI. intros I X O V Vd Ic l R. apply (E b u x v q d c I X O V Vd Ic l). now apply wh_rpath.
  - intros u x v r a. rewrite !SI. apply F.
Qed.
Lemma wh_flow : flow_known g L.
Proof.
  pose proof P as [W Len No0 Ra]. destruct (lifted_ok p m n f W Len No0 Ra Hl) as (_ & _ & Rc & _). pose proof Res as ((SI & SE & SA & SF) & (_ & _ & RL & _) & _). destruct (lift_lays p m n f P Hl) as (MIR & BO & _ & _ & (_ & _ & RA & _) & AB & _). constructor.
  - intros b q _ I. rewrite (proj1 (proj2 (SF b))) in I. apply wh_goes_g, wh_goes, MIR, I.
  - intros b I. destruct (Rc b) as (l & R). { apply RL, RA in I. destruct BO as (_ & _ & BO & _). apply BO in I as (k & ->). discriminate. } exists l. now apply wh_rpath.
Qed.
Lemma wh_ops : no_copies g L /\ basic_ops g L.
Proof.
  pose proof P as [W Len No0 Ra]. destruct (lifted_ok p m n f W Len No0 Ra Hl) as (_ & _ & _ & OPS & _). pose proof Res as ((SI & _) & _).
  split; [intros i x _ X O|intros i x _ X; split; intros O]; rewrite SI in X; destruct (OPS i x X) as [K|[K|[K|K]]]; rewrite O in K; discriminate K.
Qed.
Lemma wh_order : in_order g L.
Proof.
  destruct (lay_facts p m n f P Hl) as (bs & Fi & Hbo & Heo & Re & Ops & Ph & Cf & Np & Jl & Be). pose proof Res as ((SI & SE & SA & SF) & (_ & (r & HE) & RL & FL) & _). constructor.
  - rewrite SE, HE. reflexivity.
  - intros b i x I X O. rewrite (proj1 (SF b)) in I. rewrite SI in X. pose proof (cond_jmp _ O) as (J & _). pose proof I as I0. apply in_split in I as (l1 & l2 & E). pose proof (Jl _ _ _ _ _ E X J) as ->.
    destruct (FL b (i_bb1 x)) as (a & c & K); [|eapply falls_cond; [exists l1, i; split; [exact E|exact X]|exact O|reflexivity]|exists a, c; exact K].
    apply (lay_block p m n f P Hl g L e fuel Hfuel Hlay). intros N. pose proof (proj1 (SF b)) as Q. unfold insns_of in Q at 1. rewrite N in Q. rewrite <- Q in I0. destruct I0.
  - intros b c I NJ Hd. assert (Ib : f_block f b <> None).
    { destruct (lift_lays p m n f P Hl) as (_ & BO & _ & _ & (_ & _ & RA & _) & _). apply RL, RA in I. destruct BO as (_ & _ & BO & _). apply BO in I as (k & ->). discriminate. }
    pose proof (fi_blk bs f Fi b) as Q. destruct (blk bs b) as [pb|] eqn:B; [|contradiction]. destruct (SF b) as (EN & _ & Pm). destruct (Be b pb B) as [(l & i & y & E & Y & K)|(NJf & K)].
    + exfalso. assert (J : is_jmp_op (i_op y) = false) by (apply (NJ i y); [rewrite EN, E; apply in_or_app; right; now left|now rewrite SI]). destruct K as [(O & _)|[(O & _)|(O & _)]]; [destruct (cond_jmp _ O); congruence|rewrite O in J; discriminate J|rewrite O in J; discriminate J].
    + rewrite K in Pm. apply Permutation_sym, Permutation_length_1_inv in Pm. rewrite Pm in Hd. injection Hd as <-. destruct (FL b (S b) I) as (a & d & Kd); [|exists a, d; exact Kd].
      destruct (insns_of f b) as [|u v] eqn:En; [now apply falls_empty|]. destruct (@exists_last _ (u :: v)) as (l & i & El); [discriminate|]. rewrite El in En.
      assert (Ii : In i (insns_of f b)) by (rewrite En; apply in_or_app; right; now left). destruct (lift_lays p m n f P Hl) as (_ & (BO & _) & _). destruct (BO b i Ii) as (y & Y).
      eapply falls_plain; [exists l, i; split; [exact En|exact Y]|apply (NJf i y); [rewrite El; apply in_or_app; right; now left|exact Y]|exact K].
Qed.
Lemma wh_succ b : f_block f b <> None -> insns_of f b = [] -> succs_of f b = [S b].
Proof.
  intros Nb E. destruct (lay_facts p m n f P Hl) as (bs & Fi & _ & _ & _ & _ & _ & _ & _ & _ & Be). pose proof (fi_blk bs f Fi b) as Q. destruct (blk bs b) as [pb|] eqn:B; [|contradiction].
  destruct (Be b pb B) as [(l & i & y & El & _)|(_ & K)]; [rewrite E in El; destruct l; discriminate El|exact K].
Qed.
Lemma wh_few : forall b, few_empty g b (S b).
Proof.
  pose proof Res as ((SI & SE & SA & SF) & _). destruct (lift_lays p m n f P Hl) as (MIR & _). induction b as [b IH] using lt_wf_ind. destruct (insns_of g b) as [|u l] eqn:E; [|apply fe_full; rewrite E; discriminate].
  apply fe_empty. intros q I. destruct (insns_of g q) as [|u l] eqn:Eq; [|apply fe_full; rewrite Eq; discriminate]. rewrite (proj1 (proj2 (SF b))) in I. apply MIR in I. rewrite (proj1 (SF q)) in Eq.
  assert (Nq : f_block f q <> None) by (intros N; unfold succs_of in I; rewrite N in I; destruct I). rewrite (wh_succ q Nq Eq) in I. destruct I as [<-|[]]. apply IH. lia.
Qed.
Lemma wh_empty b : In b L -> few_empty g b (S (length (f_all f))).
Proof.
  intros I. eapply fe_mono; [apply wh_few|]. destruct (lay_facts p m n f P Hl) as (bs & Fi & _). pose proof Res as (_ & (_ & _ & RL & _) & _). destruct (lift_lays p m n f P Hl) as (_ & _ & _ & _ & (_ & _ & RA & _) & _).
  apply RL, RA in I. rewrite (fi_all bs f Fi) in I |- *. apply in_seq in I. rewrite seq_length. lia.
Qed.
Hypothesis Tm : tame f sp_id.
Hypothesis Ff : fields_fit p.
Lemma wh_second : second_ok g L sp_id.
Proof.
  intros i x Pi X O. destruct (placed_f p m n f P Hl g L e fuel Hfuel Hlay i Pi) as (b & I). pose proof Res as ((SI & SE & SA & SF) & _). rewrite SI in X.
  destruct (lay_facts p m n f P Hl) as (bs & Fi & Hbo & Heo & Re & Ops & _). destruct (Ops b i x I X) as (_ & _ & (S2 & _)). specialize (S2 O).
  destruct (nth_error (i_vals x) 1) as [v|] eqn:V; [|apply nth_error_None in V; lia]. exists v. split; [reflexivity|]. intros d D. split; [intros ->; exact (tm_second _ _ Tm i x v X O V D)|]. intros ->.
  pose proof P as [W Len No0 Ra]. destruct (lifted_ok p m n f W Len No0 Ra Hl) as (Td & St & Rc & _). assert (NP : i_op x <> PHI) by (intros Q; rewrite Q in O; discriminate O).
  assert (U : 0 < uses f i i).
  { unfold uses. rewrite X. assert (K : In v (filter (is_use_of i) (operand_values x))).
    { apply filter_In. split; [unfold operand_values; apply in_or_app; left; exact (nth_error_In _ _ V)|]. unfold is_use_of. rewrite D. apply Nat.eqb_refl. }
    destruct (filter _ _); [destruct K|cbn; lia]. }
  destruct (st_use _ St b i x i b I X NP U I) as [(_ & (l1 & l2 & l3 & E))|K].
  - pose proof (td_once _ Td b) as Nd. rewrite E in Nd. apply NoDup_remove_2 in Nd. apply Nd. apply in_or_app. right. apply in_or_app. right. now left.
  - revert K. apply not_self. apply Rc. intros N. unfold insns_of in I. rewrite N in I. destruct I.
Qed.
Lemma wh_sp : sp_not_passed g L sp_id.
Proof. intros i x v _ X O I. pose proof Res as ((SI & _) & _). rewrite SI in X. exact (tm_call _ _ Tm i x v X O I). Qed.
Lemma prog_range c : of_prog p b_imm c -> s32_range c.
Proof. intros [->|(j & i & A & ->)]; [unfold s32_range; lia|]. apply nth_error_In in A. apply (Ff i A). Qed.
Lemma prog_off c : of_prog p b_off c -> s16_range c.
Proof. intros [->|(j & i & A & ->)]; [unfold s16_range; lia|]. apply nth_error_In in A. apply (Ff i A). Qed.
Lemma wh_enc : all_encodable g L.
Proof.
  intros i x Pi X. destruct (placed_f p m n f P Hl g L e fuel Hfuel Hlay i Pi) as (b & I). destruct wh_ops as (Nc & _). pose proof (Nc i x Pi X) as Na. pose proof Res as ((SI & SE & SA & SF) & _). rewrite SI in X.
  destruct (lay_facts p m n f P Hl) as (bs & Fi & Hbo & Heo & Re & Ops & _). destruct (Ops b i x I X) as (GV & _ & (_ & So)). constructor.
  - intros v c V D. destruct (GV v V) as (B & G). rewrite D in G. destruct G as (Ct & G). split; [exact B|]. split; [exact Ct|]. now apply prog_range.
  - intros v V. destruct (GV v V) as (_ & G). unfold hole_ok. destruct (v_data v); auto; destruct G.
  - intros _ v V. destruct (GV v V) as (_ & G). unfold no_hole. destruct (v_data v); auto.
  - intros O. now apply Na in O.
  - intros O A v V. split; [exact (tm_zero _ _ Tm i x v X O A V)|]. assert (Vo : In v (operand_values x)) by (unfold operand_values; apply in_or_app; now left). destruct (GV v Vo) as (_ & G). unfold no_hole. destruct (v_data v); auto.
  - intros O. apply prog_off, So, O.
  - intros O c. exact (tm_load _ _ Tm i x c X O).
Qed.
Theorem lift_compilable : compilable g L sp_id [2;3;4;5;6] (S (length (f_all f))).
Proof.
  destruct (lift_prepable p m n f P Hl g L e fuel Hfuel Hlay) as (A & B). destruct wh_ops as (D & E). constructor; auto using wh_second, wh_strict, wh_flow, wh_enc, wh_sp, wh_order, wh_empty.
Qed.
(** laying out and filling keep the runs *)
Lemma lay_run w bi k prev b s : srun w bi (fill 0 g) k prev b s = srun w bi f k prev b s.
Proof.
  destruct (lay_facts p m n f P Hl) as (bs & Fi & Hbo & Heo & Re & Ops & Ph & Cf & Np & Jl & Be). pose proof Res as ((SI & SE & SA & SF) & _). 
  pose proof P as [W Len No0 Ra]. destruct (lifted_ok p m n f W Len No0 Ra Hl) as (_ & _ & _ & OPS & _). pose proof (lay_gen f g L e fuel Hlay) as G. apply fix_fold in G as (_ & _ & _ & G4 & _).
  apply srun_fill; [exact SI|intros; apply SF|exact G4| |].
  - intros b' i x I X. assert (NH : forall v, In v (operand_values x) -> no_hole v). { intros v V. destruct (Ops b' i x I X) as (GV & _). destruct (GV v V) as (_ & G). unfold no_hole. destruct (v_data v); auto. }
    split; [exact NH|]. intros O. destruct (OPS i x X) as [K|[K|[K|K]]]; rewrite O in K; discriminate K.
  - intros b' NJ. destruct (SF b') as (_ & _ & Pm). pose proof (fi_blk bs f Fi b') as Q. destruct (blk bs b') as [pb|] eqn:B.
    2: { assert (Qs : succs_of f b' = []) by (unfold succs_of; now rewrite Q). rewrite Qs in Pm |- *. apply Permutation_sym, Permutation_nil in Pm. exact Pm. }
    destruct (Be b' pb B) as [(l & i & y & E & Y & K)|(_ & K)].
    + exfalso. assert (J : is_jmp_op (i_op y) = false) by (apply (NJ i y); [rewrite E; apply in_or_app; right; now left|exact Y]). destruct K as [(O & _)|[(O & _)|(O & _)]]; [destruct (cond_jmp _ O); congruence|rewrite O in J; discriminate J|rewrite O in J; discriminate J].
    + rewrite K in Pm |- *. now apply Permutation_sym, Permutation_length_1_inv in Pm.
Qed.
End Whole.
