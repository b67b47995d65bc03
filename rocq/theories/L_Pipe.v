(** The passes that run by default, one after the other, from the bytecode to the generated code. *)
From Coq Require Import ZArith List Bool Arith Lia Permutation.
From Verif Require Import SpecWord SpecIsa SpecFlat SpecCfg SpecLift SpecIr SpecEdit SpecSsa SpecNormCond SpecOut M_Base M_Ir M_Edit M_GenBB M_Lift M_Layout M_Norm M_Pass M_Check M_Ecall M_Pipe
  L_Word L_Edit L_GenBB L_GenBBEx L_Lift L_LiftRead L_LiftFill L_LiftDfs L_LiftSim L_LiftRun L_LiftMain L_LiftSafe L_LiftProp L_LiftEx
  SpecPass SpecStrict SpecShift SpecLayout L_Layout L_LiftStrict SpecPrep L_LiftShape L_LiftLay L_Whole L_End L_Shift M_Ra SpecRa SpecVirt SpecInstr SpecSpill SpecGuard SpecRound
  L_RaProp L_PrepStr L_Guard L_RoundMain L_Skin L_SpillEnd L_Prune L_PassDce L_PassPhi L_PhiPass L_PassWit L_Front L_Sim.
From Verif Require Import SpecPass SpecIr SpecVirt SpecPrep SpecStrict.
Import ListNotations.
Open Scope nat_scope.

(** ** Passes with nothing to do *)
Lemma throw_none f : forall l g, (forall i x, In i l -> f_insn f i = Some x -> i_op x <> THROW) -> ofold throw_insn f l = Ok g -> g = f.
Proof.
  induction l as [|i l IH]; intros g N E; cbn [ofold] in E; [now injection E as <-|]. bo E h Eh. unfold throw_insn in Eh. bo Eh x X. apply get_insn_ok in X.
  assert (Q : iop_eqb (i_op x) THROW = false). { pose proof (N i x (or_introl eq_refl) X) as K. destruct (i_op x); try reflexivity. congruence. }
  rewrite Q in Eh. injection Eh as <-. apply IH; [|exact E]. intros j y J. apply N. now right.
Qed.
Lemma throw_same reach f g : (forall i x, f_insn f i = Some x -> i_op x <> THROW) -> translate_throw reach f = Ok g -> g = f.
Proof. intros N E. unfold translate_throw in E. bo E l El. apply (throw_none f l g); [|exact E]. intros i x _. apply N. Qed.
Lemma walk_none f reach bb : (forall i x, f_insn f i = Some x -> i_op x <> ECALL) -> forall k at_ g, ecall_walk k reach bb f at_ = Ok g -> g = f.
Proof.
  intros N. induction k as [|k IH]; intros at_ g E; cbn [ecall_walk] in E; [discriminate E|]. destruct at_ as [i|c].
  - bo E x X. apply get_insn_ok in X. bo E nx Nx. assert (Q : iop_eqb (i_op x) ECALL = false). { pose proof (N i x X) as K. destruct (i_op x); try reflexivity. congruence. }
    rewrite Q in E. cbn [andb bind] in E. eapply IH; exact E.
  - destruct (c =? bb); [|discriminate E]. now injection E as <-.
Qed.
Lemma ecalls_same k reach f g : (forall i x, f_insn f i = Some x -> i_op x <> ECALL) -> handle_ecalls k reach f = Ok g -> g = f.
Proof.
  intros N. unfold handle_ecalls. generalize reach at 2 as l. induction l as [|b l IH]; intros E; cbn [ofold] in E; [now injection E as <-|].
  bo E h Eh. bo Eh x X. apply walk_none in Eh; [|exact N]. subst h. apply IH. exact E.
Qed.

(** ** Functions that are the same but for the order of writing *)
Record same (f g : func) : Prop := { sa_skin : skin f g; sa_insn : f_insn g = f_insn f }.
Lemma laid_same k f L e g L' e' : linked_ok f -> laid k f L e -> layout k f = Ok (g, (L', e')) -> same f g /\ L' = L /\ e' = e.
Proof. intros LK LA E. destruct (laid_layout k f L e LK LA) as (g' & E' & S & I). rewrite E in E'. injection E' as -> -> ->. split; [now constructor|auto]. Qed.
Section Same.
Variables f g : func.
Hypothesis S : same f g.
Let SK := sa_skin _ _ S.
Let SI := sa_insn _ _ S.
Lemma same_uses u d : uses g u d = uses f u d.
Proof. unfold uses. now rewrite SI. Qed.
Lemma same_tidy : tidy f -> tidy g.
Proof.
  intros [A B C D]. constructor.
  - intros u d. destruct (A u d) as (A1 & A2). unfold users_of. rewrite same_uses, SI. split; [exact A1|exact A2].
  - intros b i I. rewrite (sn_insns _ _ SK) in I. rewrite SI. now apply B.
  - intros b. rewrite (sn_insns _ _ SK). apply C.
  - intros u d. rewrite same_uses, SI. intros U. destruct (D u d U) as (x & X & I). exists x. split; [exact X|]. now rewrite (sn_insns _ _ SK).
Qed.
Lemma same_without : without [] f g.
Proof.
  constructor.
  - intros j [].
  - intros j _. rewrite SI. destruct (f_insn f j) as [x|]; [|now exists []]. exists (i_users x). cbn. destruct x; reflexivity.
  - intros b. rewrite (sn_insns _ _ SK). induction (insns_of f b) as [|i l IH]; [reflexivity|]. cbn in IH |- *. now f_equal.
  - apply (sn_succs _ _ SK).
  - apply (sn_preds _ _ SK).
  - intros b. rewrite (sn_block _ _ SK). tauto.
  - apply (sn_entry _ _ SK).
  - apply (sn_all _ _ SK).
  - split; [apply (sn_ni _ _ SK)|apply (sn_nb _ _ SK)].
  - intros j [].
Qed.
Lemma same_pruned : pruned f g.
Proof. apply (without_pruned [] f g same_without). intros j []. Qed.
Lemma same_run R w bi n prev b s : gsrun R w bi g n prev b s = gsrun R w bi f n prev b s.
Proof. apply ext_run; [exact SI|apply (sn_insns _ _ SK)|intros c; now rewrite (sn_block _ _ SK)|intros c _; apply (sn_succs _ _ SK)]. Qed.
End Same.

(** ** What holds between the passes *)
Record stage (k : nat) (ar : SpecVirt.arity) (f : func) (L e : list nat) : Prop := {
  sg_core : core f L sp_id arg_ids;
  sg_laid : laid k f L e;
  sg_enough : enough_args ar f L;
  sg_plain : forall i x, f_insn f i = Some x -> i_op x <> ECALL /\ i_op x <> THROW /\ i_op x <> ALLOC /\ i_op x <> STORE }.
Lemma stage_pruned k ar f h L e : tidy h -> strict h -> pruned f h -> stage k ar f L e -> stage k ar h L e.
Proof.
  intros TD ST P [A B C D]. constructor.
  - eapply pruned_core; eassumption.
  - apply (laid_pruned k f h); auto. exact (pp_tidy _ _ _ _ (co_prep _ _ _ _ A)).
  - eapply pruned_enough; eassumption.
  - intros i y Y. destruct (pr_insn _ _ P i y Y) as (x & X & T). rewrite (th_op _ _ T). exact (D i x X).
Qed.
Lemma stage_tidy k ar f L e : stage k ar f L e -> tidy f /\ strict f /\ fresh_ok f.
Proof. intros G. pose proof (sg_core _ _ _ _ _ G) as C. pose proof (co_prep _ _ _ _ C) as PP. split; [apply PP|]. split; [apply C|apply PP]. Qed.
Lemma stage_same k ar f g L e : stage k ar f L e -> same f g -> stage k ar g L e.
Proof.
  intros G S. destruct (stage_tidy _ _ _ _ _ G) as (TD & ST & _). pose proof (same_tidy f g S TD) as TG.
  apply (stage_pruned k ar f g L e TG); [|now apply same_pruned|exact G]. apply (without_strict [] f g (same_without f g S)); auto. intros j [].
Qed.
Lemma stage_post k ar f L e r : stage k ar f L e -> postprocess k f = Ok r -> snd r = L /\ same f (fst r) /\ stage k ar (fst r) L e.
Proof.
  intros G E. unfold postprocess in E. bo E l El. destruct l as (g & L' & e'). cbn [fst snd] in E. bo E u Eu. injection E as <-. cbn [fst snd].
  destruct (laid_same k f L e g L' e' (td_linked _ (proj1 (stage_tidy _ _ _ _ _ G))) (sg_laid _ _ _ _ _ G) El) as (S & -> & _). split; [reflexivity|]. split; [exact S|]. now apply (stage_same k ar f).
Qed.
Lemma size_le f L : tidy f -> fresh_ok f -> NoDup L -> size_of f L <= f_ni f.
Proof.
  intros TD FR ND. assert (K : NoDup (flat_map (insns_of f) L)).
  { induction ND as [|b l N ND IH]; [constructor|]. cbn [flat_map]. apply NoDup_app_intro; [apply (td_once _ TD)|exact IH|]. intros i I J. apply in_flat_map in J as (c & C & J).
    destruct (td_linked _ TD b i I) as (x & X & Px). destruct (td_linked _ TD c i J) as (y & Y & Py). rewrite X in Y. injection Y as <-. apply N. congruence. }
  assert (Q : size_of f L = length (flat_map (insns_of f) L)). { unfold size_of. clear. induction L as [|b l IH]; [reflexivity|]. cbn. rewrite app_length. now f_equal. }
  rewrite Q. rewrite <- (seq_length (f_ni f) 0). apply NoDup_incl_length; [exact K|]. intros i I. apply in_flat_map in I as (b & B & I). apply in_seq. split; [lia|].
  destruct (td_linked _ TD b i I) as (x & X & _). cbn. destruct (Nat.lt_ge_cases i (f_ni f)); [assumption|]. destruct FR as (FR & _). rewrite (FR i) in X by assumption. discriminate X.
Qed.

(** ** The first layout *)
Section First.
Variables (p : list bpf_insn) (m n : nat) (f : func).
Hypothesis P : liftable p.
Hypothesis Hl : lift m n p = Ok f.
Variables (g : func) (L e : list nat) (k : nat).
Hypothesis Hk : 2 * length (f_all f) + 1 < k.
Hypothesis Hlay : layout k f = Ok (g, (L, e)).
Let Res := lay_res p m n f P Hl g L e k Hk Hlay.
Lemma first_laid : laid k g L e.
Proof.
  pose proof Res as ((SI & SE & SA & SF) & (NL & HE & RL & FL) & _ & _ & OR). destruct (lift_lays p m n f P Hl) as (MIR & BO & TO & _).
  destruct (lay_facts p m n f P Hl) as (bs & Fi & Hbo & Heo & Re & Ops & Ph & Cf & Np & Jl & Be).
  assert (E1 := Hlay). unfold layout in E1. bo E1 f1 A1. bo E1 l1 A2. bo E1 d1 A3. injection E1 as -> -> ->. constructor; auto.
  - intros b I. rewrite SA in I. destruct BO as (_ & _ & BO & _). apply BO in I as (x & X). intros N. pose proof (lay_gen f g L e k Hlay) as G. apply fix_fold in G as (_ & _ & _ & G4 & _). apply G4 in N. congruence.
  - intros b y (l & i & E & Y) C. rewrite (proj1 (SF b)) in E. rewrite SI in Y. apply OR; [now exists l, i|exact C].
  - intros b y (l & i & E & Y) C. rewrite (proj1 (SF b)) in E. rewrite SI in Y.
    assert (T : terminator f b y) by now exists l, i. destruct (proj1 TO b y T) as (_ & K & _). pose proof (proj2 (proj2 (SF b))) as Pm. rewrite (K C) in Pm. now apply Permutation_sym, Permutation_length_1_inv in Pm.
  - intros b l1 i l2 x E X. rewrite (proj1 (SF b)) in E. rewrite SI in X. now apply (Jl b l1 i l2 x).
Qed.
Hypothesis Ff : fields_fit p.
Lemma first_core : core g L sp_id arg_ids.
Proof.
  destruct (lift_prepable p m n f P Hl g L e k Hk Hlay) as (A & B). destruct (wh_ops p m n f P Hl g L e k Hk Hlay) as (D & E). pose proof Res as ((SI & SE & SA & SF) & _).
  destruct (lay_facts p m n f P Hl) as (bs & Fi & Hbo & Heo & Re & Ops & Ph & Cf & Np & Jl & Be). pose proof P as [W Len No0 Ra]. destruct (lifted_ok p m n f W Len No0 Ra Hl) as (_ & _ & _ & OPS & _).
  constructor; auto.
  - intros i x _ X. rewrite SI in X. destruct (OPS i x X) as [K|[K|[K|K]]]; repeat split; intros O; rewrite O in K; discriminate K.
  - exact (wh_strict p m n f P Hl g L e k Hk Hlay).
  - exact (wh_flow p m n f P Hl g L e k Hk Hlay).
  - intros i x v X V. rewrite SI in X. destruct (en_values p m n f P Hl k Hk 0 i x v X V) as (Bn & G). split; [exact Bn|]. destruct (v_data v); auto. destruct G as (Ct & G). split; [exact Ct|]. exact (prog_range p f k Hk Ff _ G).
  - intros i x Pi X O. destruct (placed_f p m n f P Hl g L e k Hk Hlay i Pi) as (b & I). rewrite SI in X. destruct (Ops b i x I X) as (_ & _ & (S2 & _)). specialize (S2 O). lia.
  - intros i x Pi X O. destruct (placed_f p m n f P Hl g L e k Hk Hlay i Pi) as (b & I). rewrite SI in X. destruct (Ops b i x I X) as (_ & _ & (_ & So)). exact (prog_off p f k Hk Ff _ (So O)).
  - exact (wh_order p m n f P Hl g L e k Hk Hlay).
Qed.
Variables (w : world) (ar : arity_table).
Hypothesis Pl : forall j i, at_pos p j i -> SpecLift.plain ar i.
Hypothesis Ag : agrees ar.
Hypothesis Ne : forall j i, at_pos p j i -> b_code i = 0x85%Z -> b_src i <> 6%Z.
Lemma first_stage : stage k (arity_of ar) g L e.
Proof.
  constructor.
  - exact first_core.
  - exact first_laid.
  - exact (end_enough ar p m n f P Hl g L e k Hk Hlay Pl Ag).
  - intros i x X. pose proof Res as ((SI & _) & _). rewrite SI in X. pose proof P as [W Len No0 Ra]. destruct (lifted_ok p m n f W Len No0 Ra Hl) as (_ & _ & _ & OPS & EC).
    split; [exact (EC Ne i x X)|]. destruct (OPS i x X) as [K|[K|[K|K]]]; repeat split; intros O; rewrite O in K; discriminate K.
Qed.
End First.

(** ** The passes on the intermediate representation *)
Lemma words_first q o : st_ok q -> words (at_sp sp_id (rget q 10 + o) (first_state q)).
Proof.
  intros Q i z E. unfold at_sp in E. cbn [s_env] in E. unfold eupd in E. destruct (i =? sp_id); [injection E as <-; apply u64_idem|].
  unfold first_state in E. cbn [s_env] in E. destruct (i =? sp_id); [injection E as <-; apply u64_small, rget_range, Q|]. destruct ((2 <=? i) && (i <=? 6)); [|discriminate E]. injection E as <-. apply u64_small, rget_range, Q.
Qed.
Section Front.
Variables (w : world) (ar : arity_table) (p : list bpf_insn) (k : nat) (nd no : bool) (f : func).
Hypothesis P : liftable p.
Hypothesis Ff : fields_fit p.
Hypothesis Pl : forall j i, at_pos p j i -> SpecLift.plain ar i.
Hypothesis Ag : agrees ar.
Hypothesis Ne : forall j i, at_pos p j i -> b_code i = 0x85%Z -> b_src i <> 6%Z.
Hypothesis Hl : lift k k p = Ok f.
Hypothesis Hk : 2 * length (f_all f) + 1 < k.
Hypothesis Hi : f_ni f < k.
Lemma front_stage g L : front k nd no p = Ok (g, L) -> exists e, stage k (arity_of ar) g L e /\ length L <= length (f_all f) /\
  forall R bi n s o, words s -> gsrun R w bi f n 0 (f_entry f) s = Some o -> exists o', gsrun R w bi g n 0 (f_entry g) s = Some o' /\ same_effect o o'.
Proof.
  intros E. unfold front in E. rewrite Hl in E. cbn [bind] in E. bo E s0 E0. unfold postprocess in E0. bo E0 l El. destruct l as (g0 & L0 & e0). cbn [fst snd] in E0. bo E0 u0 U0. injection E0 as <-.
  pose proof (first_stage p k k f P Hl g0 L0 e0 k Hk El Ff ar Pl Ag Ne) as G0. pose proof (lay_res p k k f P Hl g0 L0 e0 k Hk El) as ((SI & SE & SA & SF) & _).
  pose proof (fun Rg bi => en_run1 p k k f P Hl g0 L0 e0 k Hk El w Rg bi) as R0.
  assert (NI : f_ni g0 = f_ni f). { pose proof (lay_gen f g0 L0 e0 k El) as G. unfold gen_bb_succ in G. now destruct (fix_keeps _ _ _ G). }
  unfold then_post in E. cbn [fst snd] in E.
  (* phi *)
  bo E s1 E1. bo E1 g1 F1. destruct (stage_tidy _ _ _ _ _ G0) as (T0 & S0 & FR0). pose proof (co_prep _ _ _ _ (sg_core _ _ _ _ _ G0)) as PP0. destruct (pp_reach _ _ _ _ PP0) as (ND & BL & _).
  destruct (phi_pass_ok k L0 g0 T0 S0) as (g1' & rm & hh & F1' & T1 & S1 & R1 & Gn & _).
  { intros b I. split; [now apply BL|]. exact (fk_all _ _ (co_flow _ _ _ _ (sg_core _ _ _ _ _ G0)) b I). }
  { pose proof (size_le g0 L0 T0 FR0 ND). lia. }
  rewrite F1 in F1'. injection F1' as <-. pose proof (gone_pruned rm hh g0 g1 Gn) as P1. pose proof (stage_pruned _ _ _ _ _ _ T1 S1 P1 G0) as G1.
  destruct (stage_post _ _ _ _ _ _ G1 E1) as (L1 & A1 & G1'). rewrite L1 in E.
  (* ecalls *)
  bo E s2 E2. bo E2 g2 F2. apply ecalls_same in F2. 2: { intros i x X. apply (sg_plain _ _ _ _ _ G1' i x X). } subst g2. destruct (stage_post _ _ _ _ _ _ G1' E2) as (L2 & A2 & G2'). rewrite L2 in E.
  (* throw *)
  bo E s3 E3. bo E3 g3 F3. apply throw_same in F3. 2: { intros i x X. apply (sg_plain _ _ _ _ _ G2' i x X). } subst g3. destruct (stage_post _ _ _ _ _ _ G2' E3) as (L3 & A3 & G3'). rewrite L3 in E.
  (* optimiser *)
  bo E g4 F4. destruct (stage_tidy _ _ _ _ _ G3') as (T3 & S3 & FR3). pose proof (co_prep _ _ _ _ (sg_core _ _ _ _ _ G3')) as PP3. destruct (pp_reach _ _ _ _ PP3) as (_ & BL3 & _).
  pose proof (proj1 (pr_count _ _ P1)) as N1. assert (N3 : f_ni (fst s3) = f_ni f) by now rewrite (sn_ni _ _ (sa_skin _ _ A3)), (sn_ni _ _ (sa_skin _ _ A2)), (sn_ni _ _ (sa_skin _ _ A1)), N1, NI.
  destruct (optimize_ok k nd no L0 (fst s3) g4 T3) as (T4 & R4 & rm4 & W4 & K4); auto.
  { intros u x a y _ Y O. destruct (sg_plain _ _ _ _ _ G3' a y Y) as (_ & _ & K & _). contradiction. }
  { intros b i x _ _ X. apply (sg_plain _ _ _ _ _ G3' i x X). }
  { pose proof (size_le (fst s3) L0 T3 FR3 ND). lia. }
  pose proof (without_pruned rm4 (fst s3) g4 W4 K4) as P4. pose proof (without_strict rm4 (fst s3) g4 W4 K4 T4 S3) as S4. pose proof (stage_pruned _ _ _ _ _ _ T4 S4 P4 G3') as G4.
  destruct (stage_post _ _ _ _ _ _ G4 E) as (L4 & A4 & G4'). cbn [fst snd] in L4, A4, G4'. subst L. exists e0. split; [exact G4'|]. split.
  { pose proof (lay_res p k k f P Hl g0 L0 e0 k Hk El) as (_ & (NL & _ & RL & _) & _). destruct (lift_lays p k k f P Hl) as (_ & _ & _ & _ & (_ & _ & RA & _) & _). apply NoDup_incl_length; [exact NL|intros b I; apply RA, RL, I]. }
  intros R bi n s o Ws Ru. rewrite <- R0, <- SE in Ru. destruct (R1 R w bi n s o Ws Ru) as (o1 & Ru1 & Q1).
  rewrite <- (same_run _ _ A1), <- (same_run _ _ A2), <- (same_run _ _ A3), <- (sn_entry _ _ (sa_skin _ _ A1)), <- (sn_entry _ _ (sa_skin _ _ A2)), <- (sn_entry _ _ (sa_skin _ _ A3)) in Ru1.
  destruct (R4 R w bi n 0 _ s o1 Ru1) as (o4 & Ru4 & Q4). exists o4. rewrite (same_run _ _ A4), (sn_entry _ _ (sa_skin _ _ A4)), (wo_entry _ _ _ W4). split; [exact Ru4|]. eapply L_Sim.same_effect_trans; eassumption.
Qed.
End Front.

(** ** The last pass and the code generator *)
Section Last.
Variables (k : nat) (ar : SpecVirt.arity) (g : func) (L e : list nat).
Hypothesis G : stage k ar g L e.
Hypothesis Tm : tame g sp_id.
Hypothesis Sm : stack_tame g sp_id.
Lemma last_vals i x v : f_insn g i = Some x -> In v (operand_values x) ->
  v_bi v = B_NONE /\ match v_data v with VConst c => v_ct v = A_32 /\ s32_range c | VInsn _ => True | _ => False end.
Proof. apply (co_vals _ _ _ _ (sg_core _ _ _ _ _ G)). Qed.
Lemma last_spok : sp_ok g sp_id.
Proof.
  pose proof (co_prep _ _ _ _ (sg_core _ _ _ _ _ G)) as PP. destruct (pp_reach _ _ _ _ PP) as (_ & _ & AL). destruct (pp_sp _ _ _ _ PP) as (NS & x0 & X0 & O0 & _). constructor.
  - eauto.
  - intros b I. apply NS. exists b. split; [exact (AL b _ I)|exact I].
  - intros i x X. exact (sm_raw _ _ Sm i x X).
  - intros l u r x HU X. left. assert (U : 0 < uses g u sp_id).
    { pose proof (proj2 (td_users _ (pp_tidy _ _ _ _ PP) u sp_id)) as CT. rewrite HU, count_occ_app in CT. cbn [count_occ] in CT. destruct (Nat.eq_dec u u); [lia|congruence]. }
    destruct (sm_user _ _ Sm u x X U) as [(O & N)|(O & A & v & c & kk & V & Uv & D & R)]; [now apply in_raw|]. eapply in_add; eauto.
    apply (last_vals u x c X). apply vals_in. rewrite V. right. now left.
Qed.
Lemma last_noholes : no_holes g.
Proof. intros i x v X V. destruct (last_vals i x v X V) as (_ & K). destruct (v_data v); auto. Qed.
Lemma last_skin cap h : stack_offset_pre sp_id cap g = Ok h -> skin g h.
Proof.
  intros E. apply (mark_skin g sp_id (proj1 (stage_tidy _ _ _ _ _ G))) with (cap := cap); [|exact E]. intros i x X U.
  destruct (sm_user _ _ Sm i x X U) as [([O|O] & _)|(O & A & v & c & kk & V & Uv & D & R)]; [left; now rewrite O|left; now rewrite O|right]. split; [exact O|]. split; [exact A|]. exists v, c, kk.
  destruct (last_vals i x c X) as (B & K); [apply vals_in; rewrite V; right; now left|]. rewrite D in K. tauto.
Qed.
Lemma skin_linked f h : skin f h -> linked_ok f -> linked_ok h.
Proof.
  intros S LK b i I. rewrite (sn_insns _ _ S) in I. destruct (LK b i I) as (x & X & Px). destruct (sn_put _ _ S i x X) as (y & Y & K). exists y. split; [exact Y|]. destruct (sk_keeps _ _ K) as (_ & _ & _ & _ & _ & _ & Q). intuition congruence.
Qed.
Lemma last_post cap h s : stack_offset_pre sp_id cap g = Ok h -> postprocess k h = Ok s -> snd s = L /\ same h (fst s) /\ skin g (fst s).
Proof.
  intros E Q. pose proof (last_skin cap h E) as S. unfold postprocess in Q. bo Q l El. destruct l as (g' & L' & e'). cbn [fst snd] in Q. bo Q u Eu. injection Q as <-. cbn [fst snd].
  destruct (laid_same k h L e g' L' e') as (A & -> & _); auto.
  - apply (skin_linked g h S). apply (stage_tidy _ _ _ _ _ G).
  - apply (laid_skin k g h L e S). apply (sg_laid _ _ _ _ _ G).
  - split; [reflexivity|]. split; [exact A|]. destruct S as [S1 S2 S3 S4 S5 S6]. destruct A as [[A1 A2 A3 A4 A5 A6] A7]. constructor; try congruence.
    + intros i. rewrite A7. apply S1.
Qed.
End Last.
Theorem pipe_end w ar p k cap nd no f g L h L' : liftable p -> fields_fit p -> (forall j i, at_pos p j i -> SpecLift.plain ar i) -> agrees ar -> respects w ar ->
  (forall j i, at_pos p j i -> b_code i = 0x85%Z -> b_src i <> 6%Z) ->
  lift k k p = Ok f -> 2 * length (f_all f) + 1 < k -> f_ni f < k -> (48 * Z.of_nat k <= 2 ^ 31)%Z ->
  front k nd no p = Ok (g, L) -> tame g sp_id -> stack_tame g sp_id -> cg_input k cap nd no p = Ok (h, L') ->
  forall om os chk code z u, (forall j, orders (om j)) -> (forall j, orders (os j)) -> (forall a b, chk a = Ok b -> b = a) ->
  codegen k om os chk h L' sp_id arg_ids = Ok code -> by_rounds k om os h L' sp_id arg_ids z u -> apart (arity_of ar) z u -> all_fit z ->
  (Z.of_nat (length code) <= 2 ^ 15)%Z ->
  forall q j r q' d, st_ok q ->
  let R := between (rget q 10 + c_off z) (rget q 10) in hidden w R ->
  gcrun R w ar p j 0 (rset q 10 (rget q 10 + c_off z)) SpecLift.clean = Some (IExit r q', d) ->
  exists q'', code_returns w code q r q'' /\ agree R (SpecWord.mem q') (SpecWord.mem q'') /\ ncall q'' = ncall q'.
Proof.
  intros P Ff Pl Ag Re Ne Hl Hk Hi H48 Hf Tm Sm Hr om os chk code z u Om Os Ck Cg Br Ap Fi Lc q j r q' d Q R Hid Ru.
  destruct (front_stage w ar p k nd no f P Ff Pl Ag Ne Hl Hk Hi g L Hf) as (e & G & LL & FR).
  unfold cg_input in Hr. rewrite Hf in Hr. cbn [bind] in Hr. unfold then_post in Hr. cbn [fst snd] in Hr. bo Hr h0 Hpre. destruct (last_post k _ g L e G Sm cap h0 _ Hpre Hr) as (EL & Sa & Sk). cbn [fst snd] in EL, Sa, Sk. subst L'.
  destruct (stage_tidy _ _ _ _ _ G) as (TD & ST & FRS). pose proof (sg_core _ _ _ _ _ G) as Co.
  assert (C : compilable h L sp_id arg_ids (S (length L))) by (apply (skin_compilable g h); [exact Sk|]; now apply core_compilable).
  destruct P as [W Len No0 Ra].
  destruct (lift_gexit w (fun _ => 0%Z) ar p k k f R _ (at_sp sp_id (rget q 10 + c_off z) (first_state q)) j r q' d W Len No0 Ra Pl Ag Re Hl (rset_ok _ _ _ Q) (en_enters p f k Hk cap ar Pl q _ Q) Ru) as (j' & t' & Sr & Mm & Nn).
  destruct (FR _ _ _ _ _ (words_first q _ Q) Sr) as (o & So & Se). inversion Se as [|? ? t1 (Em1 & En1)|]; subst.
  destruct (pre_guarded g sp_id TD FRS (last_spok _ _ _ _ _ G Sm) cap h0 (last_noholes _ _ _ _ _ G) Hpre R (c_off z) w _ _ _ _ _ _ _ So) as (r' & Sr' & Se').
  inversion Se' as [|? ? t2 (Em & En)|]; subst.
  assert (SF : same (fill (c_off z) h0) (fill (c_off z) h)). { destruct Sa as [[A1 A2 A3 A4 A5 A6] A7]. constructor; [constructor; cbn [fill f_insn f_block f_ni f_nb f_all f_entry]; auto|cbn [fill f_insn]; now rewrite A7].
    intros i. rewrite A7. destruct (f_insn h0 i); cbn [option_map]; [constructor|exact I]. }
  rewrite <- (same_run _ _ SF) in Sr'. change (f_entry g) with (f_entry g) in Sr'. rewrite <- (sn_entry _ _ Sk) in Sr'.
  destruct (round_codegen h L sp_id _ _ C (strict_first _ (cp_strict _ _ _ _ _ C)) k om os chk code z u ltac:(lia) ltac:(lia) H48 Om Os Ck Cg Br Lc w (arity_of ar) Ap Fi (end_few w ar Re) (skin_enough _ _ _ _ Sk (sg_enough _ _ _ _ _ G)) (fun _ => 0%Z) j' 0 q (at_sp sp_id (rget q 10) (first_state q)) r t2 Q (en_begins p f k Hk ar Pl q Q) Hid Sr') as (q'' & Cr & M2 & N2).
  exists q''. split; [exact Cr|]. rewrite <- Mm, <- Nn, Em1, En1, Em, En. auto.
Qed.
Theorem front_ok w ar p k nd no f : liftable p -> fields_fit p -> (forall j i, at_pos p j i -> SpecLift.plain ar i) -> agrees ar ->
  (forall j i, at_pos p j i -> b_code i = 0x85%Z -> b_src i <> 6%Z) -> lift k k p = Ok f -> 2 * length (f_all f) + 1 < k -> f_ni f < k ->
  forall g L, front k nd no p = Ok (g, L) -> tidy g /\ SpecStrict.strict g /\
  forall R bi n s o, words s -> gsrun R w bi f n 0 (f_entry f) s = Some o -> exists o', gsrun R w bi g n 0 (f_entry g) s = Some o' /\ same_effect o o'.
Proof.
  intros P Ff Pl Ag Ne Hl Hk Hi g L Hf. destruct (front_stage w ar p k nd no f P Ff Pl Ag Ne Hl Hk Hi g L Hf) as (e & G & _ & FR). destruct (stage_tidy _ _ _ _ _ G) as (A & B & _). auto.
Qed.
