(** The checker accepts what the passes make of a lifted function, so none of them fails. *)
From Coq Require Import ZArith List Bool Arith Lia Permutation.
From Verif Require Import SpecWord SpecIsa SpecFlat SpecCfg SpecLift SpecIr SpecEdit SpecSsa SpecNormCond SpecOut M_Base M_Ir M_Edit M_GenBB M_Lift M_Layout M_Norm M_Pass M_Check M_Ecall M_Pipe
  L_Word L_Edit L_GenBB L_GenBBEx L_Lift L_LiftRead L_LiftFill L_LiftDfs L_LiftSim L_LiftRun L_LiftMain L_LiftSafe L_LiftProp L_LiftEx
  SpecPass SpecStrict SpecShift SpecLayout L_Layout L_LiftStrict SpecPrep L_LiftShape L_LiftLay L_Whole L_End L_Shift M_Ra SpecRa SpecVirt SpecInstr SpecSpill SpecGuard SpecRound
  L_RaProp L_PrepStr L_Guard L_RoundMain L_Skin L_SpillEnd L_Prune L_PassDce L_PassPhi L_PhiPass L_PassWit L_Front L_Sim L_Ecall L_Pipe SpecCheck SpecAccept L_Check L_Accept L_AcceptLift.
From Verif Require Import SpecPass SpecIr SpecVirt SpecPrep SpecStrict.
Import ListNotations.
Open Scope nat_scope.

Record sound (f : func) (L : list nat) : Prop := {
  so_edge : forall a b, In b (succs_of f a) <-> In a (preds_of f b);
  so_ret : forall b y, terminator f b y -> i_op y = RET -> succs_of f b = [];
  so_open : forall b, In b L -> (forall i x, In i (insns_of f b) -> f_insn f i = Some x -> is_jmp_op (i_op x) = false) -> exists c, succs_of f b = [c];
  so_fit : forall b i x, In i (insns_of f b) -> f_insn f i = Some x -> fit x /\ told x }.

Lemma thin_fit x y : thin x y -> fit x /\ told x -> fit y /\ told y.
Proof. intros [A _ _ B _ C _ D E]. unfold fit, told. rewrite A, B, C, D, E. auto. Qed.
Lemma sound_pruned k f h L e : laid k f L e -> tidy h -> pruned f h -> sound f L -> sound h L.
Proof.
  intros La Th P [A B C D]. constructor.
  - intros a b. rewrite (pr_succs _ _ P), (pr_preds _ _ P). apply A.
  - intros b y (l & i & El & Y) O. destruct (pr_insn _ _ P i y Y) as (x & X & T). rewrite (pr_succs _ _ P). assert (I : In i (insns_of f b)) by (apply (pr_in f h P); rewrite El; apply in_or_app; right; now left).
    apply in_split in I as (r1 & r2 & Er). assert (J : is_jmp_op (i_op x) = true) by now rewrite <- (th_op _ _ T), O. pose proof (la_last _ _ _ _ La b r1 i r2 x Er X J) as ->. apply (B b x); [now exists r1, i|]. now rewrite <- (th_op _ _ T).
  - intros b I N. rewrite (pr_succs _ _ P). apply C; [exact I|]. intros i x Ii X. destruct (is_jmp_op (i_op x)) eqn:J; [|reflexivity].
    destruct (pr_jumps f h P b i x Ii X J) as (Ih & y & Y & T). pose proof (N i y Ih Y) as Q. rewrite (th_op _ _ T) in Q. congruence.
  - intros b i y I Y. destruct (pr_insn _ _ P i y Y) as (x & X & T). apply (thin_fit x y T). apply (D b i x); [now apply (pr_in f h P)|exact X].
Qed.
Lemma jmp_kind o : is_jmp_op o = true -> is_cond_jmp_op o = true \/ o = JA \/ o = RET \/ o = THROW.
Proof. destruct o; cbn; intros H; try discriminate H; auto. Qed.
Lemma cond_targets x : is_cond_jmp_op (i_op x) = true -> targets x = [i_bb1 x; i_bb2 x].
Proof. unfold targets. destruct (i_op x); cbn; intros H; try discriminate H; reflexivity. Qed.
(** what is needed of the function to be accepted *)
Lemma accepted_by k L e f : tidy f -> strict f -> laid k f L e -> sound f L -> (forall b, In b L -> f_block f b <> None) -> bases_good f (sp_id :: arg_ids) ->
  (forall i x, placed_in f L i -> f_insn f i = Some x -> i_op x <> STORE /\ i_op x <> LOAD /\ i_op x <> GETELEMPTR /\ i_op x <> THROW) ->
  (forall i x v c, f_insn f i = Some x -> In v (operand_values x) -> v_data v = VConst c -> v_ct v <> A_UNKNOWN) ->
  prog_check f L sp_id arg_ids = Ok tt.
Proof.
  intros TD ST La So EX Ba OP CT. apply check_exact. split; [|exact Ba]. intros b B. split.
  - constructor.
    + now apply EX.
    + apply (td_linked _ TD).
    + intros q. apply (so_edge _ _ So).
    + intros q. apply (so_edge _ _ So).
    + apply (st_first _ ST).
    + intros i x I X T. apply (term_op f i x X) in T. pose proof I as I0. apply in_split in I as (l1 & l2 & El). pose proof (la_last _ _ _ _ La b l1 i l2 x El X T) as ->. split; [now exists l1|].
      assert (Te : terminator f b x) by now exists l1, i. destruct (jmp_kind _ T) as [C|[O|[O|O]]].
      * rewrite (cond_targets _ C). exact (la_cond _ _ _ _ La b x Te C).
      * rewrite (la_ja _ _ _ _ La b x Te O). unfold targets. now rewrite O.
      * rewrite (so_ret _ _ So b x Te O). unfold targets. now rewrite O.
      * exfalso. assert (Pi : placed_in f L i) by now exists b. destruct (OP i x Pi X) as (_ & _ & _ & N). contradiction.
    + intros N. apply (so_open _ _ So b B). intros i x I X. destruct (is_jmp_op (i_op x)) eqn:J; [|reflexivity]. exfalso. apply (N i I). now apply (term_op f i x X).
    + intros i u _ U. pose proof (proj2 (td_users _ TD u i)) as Q. apply (count_occ_In Nat.eq_dec) in U. lia.
    + intros i d _. apply (td_users _ TD).
    + intros i x m I X A. destruct (so_fit _ _ So b i x I X) as ((F & _) & _). now apply F.
    + intros i x I X O. exfalso. assert (Pi : placed_in f L i) by now exists b. destruct (OP i x Pi X) as (N1 & N2 & _). destruct O; contradiction.
    + intros i x I X. destruct (so_fit _ _ So b i x I X) as ((_ & _ & F1 & F2) & _). split; [exact F1|]. split; [exact F2|]. intros v c V D. exact (CT i x v c X V D).
  - constructor.
    + intros i x I X. destruct (so_fit _ _ So b i x I X) as (_ & T & _). exact T.
    + intros i x I X. destruct (so_fit _ _ So b i x I X) as (_ & _ & T). exact T.
    + intros i x I X. destruct (so_fit _ _ So b i x I X) as ((_ & F & _) & _). exact F.
    + intros i x I X O. exfalso. assert (Pi : placed_in f L i) by now exists b. destruct (OP i x Pi X) as (_ & _ & N & _). contradiction.
Qed.
Lemma base_known f l : tidy f -> (forall i, In i l -> f_insn f i <> None) -> bases_good f l.
Proof. intros TD H i I. split; [now apply H|]. intros u U. pose proof (proj2 (td_users _ TD u i)) as Q. apply (count_occ_In Nat.eq_dec) in U. lia. Qed.
Lemma stage_accepted k ar f L e : stage k ar f L e -> sound f L -> prog_check f L sp_id arg_ids = Ok tt.
Proof.
  intros G So. destruct (stage_tidy _ _ _ _ _ G) as (TD & ST & _). pose proof (sg_core _ _ _ _ _ G) as Co. pose proof (co_prep _ _ _ _ Co) as PP. destruct (pp_reach _ _ _ _ PP) as (_ & EX & _).
  apply (accepted_by k L e f); auto.
  - apply (sg_laid _ _ _ _ _ G).
  - apply (base_known f _ TD). intros i [<-|I]; [destruct (pp_sp _ _ _ _ PP) as (_ & x & -> & _); discriminate|]. destruct (pp_args _ _ _ _ PP) as (_ & _ & _ & A). destruct (A i I) as (_ & x & -> & _). discriminate.
  - intros i x Pi X. destruct (co_ops _ _ _ _ Co i x Pi X) as (_ & N1 & N2). destruct (co_basic _ _ _ _ Co i x Pi X) as (N3 & N4). auto.
  - intros i x v c X V D. destruct (co_vals _ _ _ _ Co i x v X V) as (_ & K). rewrite D in K. destruct K as (-> & _). discriminate.
Qed.
Lemma post_ok k ar f L e : stage k ar f L e -> sound f L -> exists g, postprocess k f = Ok (g, L) /\ same f g /\ stage k ar g L e /\ sound g L.
Proof.
  intros G So. destruct (stage_tidy _ _ _ _ _ G) as (TD & ST & _). destruct (laid_layout k f L e (td_linked _ TD) (sg_laid _ _ _ _ _ G)) as (g & E & SK & SI). assert (S : same f g) by now constructor.
  pose proof (stage_same k ar f g L e G S) as G'. assert (S' : sound g L). { apply (sound_pruned k f g L e (sg_laid _ _ _ _ _ G)); [apply (stage_tidy _ _ _ _ _ G')|now apply same_pruned|exact So]. }
  exists g. split; [|auto]. unfold postprocess. rewrite E. cbn [bind fst snd]. now rewrite (stage_accepted k ar g L e G' S').
Qed.

(** ** The first check *)
Section First.
Variables (p : list bpf_insn) (m n : nat) (f : func).
Hypothesis P : liftable p.
Hypothesis Hl : lift m n p = Ok f.
Variables (g : func) (L e : list nat) (k : nat).
Hypothesis Hk : 2 * length (f_all f) + 1 < k.
Hypothesis Hlay : layout k f = Ok (g, (L, e)).
Let Res := lay_res p m n f P Hl g L e k Hk Hlay.
Lemma first_sound : (forall b i x, In i (insns_of f b) -> f_insn f i = Some x -> told x) -> sound g L.
Proof.
  intros T. pose proof Res as ((SI & SE & SA & SF) & (NL & HE & RL & FL) & _ & _ & OR). destruct (lift_lays p m n f P Hl) as ((MIR & _) & BO & TO & _).
  destruct (lay_facts p m n f P Hl) as (bs & Fi & Hbo & Heo & Re & Ops & Ph & Cf & Np & Jl & Be).
  assert (SU : forall a b, In b (succs_of g a) <-> In b (succs_of f a)) by (intros a b; destruct (SF a) as (_ & _ & Pm); split; apply Permutation_in; [exact Pm|now apply Permutation_sym]).
  constructor.
  - intros a b. rewrite SU, (proj1 (proj2 (SF b))). apply MIR.
  - intros b y (l & i & E & Y) O. rewrite (proj1 (SF b)) in E. rewrite SI in Y. assert (Te : terminator f b y) by now exists l, i. destruct (proj1 TO b y Te) as (_ & _ & K & _). specialize (K (or_introl O)).
    destruct (SF b) as (_ & _ & Pm). rewrite K in Pm. now apply Permutation_sym, Permutation_nil in Pm.
  - intros b B N. assert (Nb : f_block f b <> None). { apply (lay_block p m n f P Hl g L e k Hk Hlay) in B. pose proof (lay_gen f g L e k Hlay) as G. apply fix_fold in G as (_ & _ & _ & G4 & _). intros Q. apply B. now apply G4. }
    pose proof (fi_blk bs f Fi b) as Q. destruct (blk bs b) as [pb|] eqn:Bk; [|contradiction]. destruct (Be b pb Bk) as [(l & i & y & El & Y & K)|(_ & K)].
    + exfalso. assert (J : is_jmp_op (i_op y) = true). { destruct K as [(K & _)|[(K & _)|(K & _)]]; [now apply cond_jmp|now rewrite K|now rewrite K]. }
      rewrite N with (i := i) in J; [discriminate J| |now rewrite SI]. rewrite (proj1 (SF b)), El. apply in_or_app. right. now left.
    + destruct (SF b) as (_ & _ & Pm). rewrite K in Pm. apply Permutation_sym, Permutation_length_1_inv in Pm. eauto.
  - intros b i x I X. rewrite (proj1 (SF b)) in I. rewrite SI in X. split; [exact (lift_fit p m n f P Hl b i x I X)|exact (T b i x I X)].
Qed.
Lemma first_accepted : (forall j i, at_pos p j i -> unobjectionable i) -> prog_check g L sp_id arg_ids = Ok tt.
Proof.
  intros U. pose proof (first_sound (lift_told p m n f P Hl U)) as So. pose proof (first_laid p m n f P Hl g L e k Hk Hlay) as La. destruct (lift_prepable p m n f P Hl g L e k Hk Hlay) as (PP & Sg). pose proof Res as ((SI & _) & _).
  destruct (wh_ops p m n f P Hl g L e k Hk Hlay) as (_ & BO). destruct (pp_reach _ _ _ _ PP) as (_ & EX & _). pose proof (pp_tidy _ _ _ _ PP) as TD.
  apply (accepted_by k L e g); auto.
  - exact (wh_strict p m n f P Hl g L e k Hk Hlay).
  - apply (base_known g _ TD). intros i [<-|I]; [destruct (pp_sp _ _ _ _ PP) as (_ & x & -> & _); discriminate|]. destruct (pp_args _ _ _ _ PP) as (_ & _ & _ & A). destruct (A i I) as (_ & x & -> & _). discriminate.
  - intros i x Pi X. destruct (sg_ops _ _ Sg i x Pi X) as (_ & N1 & N2). destruct (BO i x Pi X) as (N3 & N4). auto.
  - intros i x v c X V D. rewrite SI in X. destruct (en_values p m n f P Hl k Hk 0 i x v X V) as (_ & G). rewrite D in G. destruct G as (-> & _). discriminate.
Qed.
Lemma first_told : prog_check g L sp_id arg_ids = Ok tt -> forall j i, at_pos p j i -> unobjectionable i.
Proof.
  intros C. apply (told_lift p m n f P Hl). intros b i x I X. pose proof Res as ((SI & SE & SA & SF) & _). assert (B : In b L). { apply (lay_block p m n f P Hl g L e k Hk Hlay). intros N. pose proof (proj1 (SF b)) as Q. unfold insns_of in Q at 1. rewrite N in Q. rewrite <- Q in I. destruct I. }
  pose proof (knows _ _ _ _ _ C b B) as Kn. rewrite <- (proj1 (SF b)) in I. rewrite <- SI in X. split; [exact (bk_swap _ _ Kn i x I X)|exact (bk_call _ _ Kn i x I X)].
Qed.
End First.
(** the check after the lifter, exactly *)
Theorem lift_accepted p m n f k : liftable p -> lift m n p = Ok f -> 2 * length (f_all f) + 1 < k ->
  (exists s, postprocess k f = Ok s) <-> (forall j i, at_pos p j i -> unobjectionable i).
Proof.
  intros P Hl Hk. destruct (lift_layout p m n f P Hl k Hk) as (g & L & e & E & _). unfold postprocess. rewrite E. cbn [bind fst snd]. split.
  - intros (s & H). bo H u Hu. destruct u. exact (first_told p m n f P Hl g L e k Hk E Hu).
  - intros U. rewrite (first_accepted p m n f P Hl g L e k Hk E U). cbn [bind]. eauto.
Qed.

(** ** No pass fails *)
Section Total.
Variables (ar : arity_table) (p : list bpf_insn) (k : nat) (nd no : bool) (f : func).
Hypothesis P : liftable p.
Hypothesis Ff : fields_fit p.
Hypothesis Pl : forall j i, at_pos p j i -> SpecLift.plain ar i.
Hypothesis Ag : agrees ar.
Hypothesis Ne : forall j i, at_pos p j i -> b_code i = 0x85%Z -> b_src i <> 6%Z.
Hypothesis Hl : lift k k p = Ok f.
Hypothesis Hk : 2 * length (f_all f) + 1 < k.
Hypothesis Hi : f_ni f < k.
Hypothesis U : forall j i, at_pos p j i -> unobjectionable i.
Lemma len_le g b : tidy g -> fresh_ok g -> length (insns_of g b) <= f_ni g.
Proof. intros TD FR. pose proof (size_le g [b] TD FR) as Q. unfold size_of in Q. cbn in Q. rewrite Nat.add_0_r in Q. apply Q. constructor; [intros []|constructor]. Qed.
Lemma throw_total g L : tidy g -> (forall b, In b L -> f_block g b <> None) -> (forall i x, f_insn g i = Some x -> i_op x <> THROW) -> translate_throw L g = Ok g.
Proof.
  intros TD EX NT. unfold translate_throw. assert (Q : exists l, insns_in g L = Ok l /\ forall i, In i l -> exists b, In i (insns_of g b)).
  { induction L as [|b L IH]; [exists []; split; [reflexivity|intros i []]|]. destruct IH as (l & El & Hl'); [intros c C; apply EX; now right|]. pose proof (EX b (or_introl eq_refl)) as Nb.
    cbn [insns_in]. unfold get_block. destruct (f_block g b) as [x|] eqn:X; [|congruence]. cbn [bind]. rewrite El. cbn [bind]. eexists. split; [reflexivity|]. intros i I. apply in_app_or in I as [I|I]; [|auto]. exists b. unfold insns_of. now rewrite X. }
  destruct Q as (l & -> & Q). cbn [bind]. induction l as [|i l IH]; [reflexivity|]. cbn [ofold]. destruct (Q i (or_introl eq_refl)) as (b & I). destruct (td_linked _ TD b i I) as (x & X & _). unfold throw_insn, get_insn. rewrite X. cbn [bind].
  assert (O : iop_eqb (i_op x) THROW = false) by (pose proof (NT i x X) as N; destruct (i_op x); try reflexivity; congruence). rewrite O. cbn [bind]. apply IH. intros j J. apply Q. now right.
Qed.
Theorem front_total : exists g L e, front k nd no p = Ok (g, L) /\ stage k (arity_of ar) g L e /\ sound g L.
Proof.
  destruct (lift_layout p k k f P Hl k Hk) as (g0 & L & e & El & _). pose proof (first_stage p k k f P Hl g0 L e k Hk El Ff ar Pl Ag Ne) as G0. pose proof (first_sound p k k f P Hl g0 L e k Hk El (lift_told p k k f P Hl U)) as S0.
  assert (NI : f_ni g0 = f_ni f). { pose proof (lay_gen f g0 L e k El) as G. unfold gen_bb_succ in G. now destruct (fix_keeps _ _ _ G). }
  unfold front. rewrite Hl. cbn [bind]. unfold postprocess at 1. rewrite El. cbn [bind fst snd]. rewrite (first_accepted p k k f P Hl g0 L e k Hk El U). cbn [bind]. unfold then_post. cbn [fst snd].
  destruct (stage_tidy _ _ _ _ _ G0) as (T0 & ST0 & FR0). pose proof (co_prep _ _ _ _ (sg_core _ _ _ _ _ G0)) as PP0. destruct (pp_reach _ _ _ _ PP0) as (ND & BL & _).
  destruct (phi_pass_ok k L g0 T0 ST0) as (g1 & rm & hh & F1 & T1 & ST1 & _ & Gn & _).
  { intros b I. split; [now apply BL|]. exact (fk_all _ _ (co_flow _ _ _ _ (sg_core _ _ _ _ _ G0)) b I). }
  { pose proof (size_le g0 L T0 FR0 ND). lia. }
  rewrite F1. cbn [bind]. pose proof (gone_pruned rm hh g0 g1 Gn) as P1. pose proof (stage_pruned _ _ _ _ _ _ T1 ST1 P1 G0) as G1. pose proof (sound_pruned k g0 g1 L e (sg_laid _ _ _ _ _ G0) T1 P1 S0) as S1.
  destruct (post_ok k _ g1 L e G1 S1) as (h1 & E1 & A1 & H1 & R1). rewrite E1. cbn [bind fst snd].
  pose proof (proj1 (pr_count _ _ P1)) as N1. assert (M1 : f_ni h1 = f_ni f) by now rewrite (sn_ni _ _ (sa_skin _ _ A1)), N1, NI.
  destruct (stage_tidy _ _ _ _ _ H1) as (TH1 & STH1 & FRH1). destruct (pp_reach _ _ _ _ (co_prep _ _ _ _ (sg_core _ _ _ _ _ H1))) as (_ & BL1 & _).
  rewrite ecalls_idle. 2: exact (td_linked _ TH1). 2: exact (td_once _ TH1). 2: { intros b I. split; [now apply BL1|]. pose proof (len_le h1 b TH1 FRH1). lia. } 2: { intros b i _ _ (x & X & O & _). exact (proj1 (sg_plain _ _ _ _ _ H1 i x X) O). }
  cbn [bind]. destruct (post_ok k _ h1 L e H1 R1) as (h2 & E2 & A2 & H2 & R2). rewrite E2. cbn [bind fst snd].
  destruct (stage_tidy _ _ _ _ _ H2) as (TH2 & STH2 & FRH2). destruct (pp_reach _ _ _ _ (co_prep _ _ _ _ (sg_core _ _ _ _ _ H2))) as (_ & BL2 & _).
  rewrite throw_total; [|exact TH2|exact BL2|intros i x X; exact (proj1 (proj2 (sg_plain _ _ _ _ _ H2 i x X)))]. cbn [bind].
  destruct (post_ok k _ h2 L e H2 R2) as (h3 & E3 & A3 & H3 & R3). rewrite E3. cbn [bind fst snd].
  destruct (stage_tidy _ _ _ _ _ H3) as (TH3 & STH3 & FRH3). destruct (pp_reach _ _ _ _ (co_prep _ _ _ _ (sg_core _ _ _ _ _ H3))) as (_ & BL3 & _).
  assert (M3 : f_ni h3 = f_ni f) by now rewrite (sn_ni _ _ (sa_skin _ _ A3)), (sn_ni _ _ (sa_skin _ _ A2)).
  destruct (no_alloc_optimize k nd no L h3 TH3) as (g4 & F4 & T4 & _ & rm4 & W4 & K4); auto.
  { intros i x X. destruct (sg_plain _ _ _ _ _ H3 i x X) as (_ & _ & A & B). auto. }
  { intros b i x _ _ X. exact (proj1 (sg_plain _ _ _ _ _ H3 i x X)). }
  { pose proof (size_le h3 L TH3 FRH3 ND). lia. }
  rewrite F4. cbn [bind]. pose proof (without_pruned rm4 h3 g4 W4 K4) as P4. pose proof (without_strict rm4 h3 g4 W4 K4 T4 STH3) as ST4.
  pose proof (stage_pruned _ _ _ _ _ _ T4 ST4 P4 H3) as G4. pose proof (sound_pruned k h3 g4 L e (sg_laid _ _ _ _ _ H3) T4 P4 R3) as R4.
  destruct (post_ok k _ g4 L e G4 R4) as (h4 & E4 & _ & H4 & R5). exists h4, L, e. auto.
Qed.
End Total.

(** ** The last pass *)
Section Last.
Variables (g : func) (sp : nat).
Hypothesis TD : tidy g.
Hypothesis Sp : f_insn g sp <> None.
Hypothesis US : forall i x, f_insn g i = Some x -> 0 < uses g i sp -> is_raw (i_op x) = true \/
  (i_op x = ADD /\ i_alu x = A_64 /\ exists v c k, i_vals x = [v; c] /\ is_use_of sp v = true /\ v_data c = VConst k /\ v_bi c = B_NONE /\ v_ct c = A_32 /\ (- 2 ^ 31 + 2 ^ 15 <= k < 2 ^ 31 - 2 ^ 15)%Z).
Lemma mark_total cap : forall R D h, skin g h -> (forall i, ~ In i D -> f_insn h i = f_insn g i) -> users_of g sp = D ++ R ->
  exists h' c, ofold (pre_user sp) (h, (cap, true)) (seq (length D) (length R)) = Ok (h', c).
Proof.
  induction R as [|u R IH]; intros D h S HD HU; [cbn; eauto|]. cbn [length seq ofold].
  destruct (f_insn h sp) as [n|] eqn:Hn. 2:{ exfalso. pose proof (sn_insn _ _ S sp) as Q. rewrite Hn in Q. destruct (f_insn g sp); [exact Q|congruence]. }
  assert (UN : i_users n = D ++ u :: R). { rewrite <- HU, <- (sn_users g h S). unfold users_of. now rewrite Hn. }
  assert (NE : nth_error (i_users n) (length D) = Some u). { rewrite UN, nth_error_app2, Nat.sub_diag by lia. reflexivity. }
  pose proof (td_users _ TD u sp) as (_ & CT). rewrite HU, count_occ_app in CT. cbn [count_occ] in CT. destruct (Nat.eq_dec u u); [|congruence].
  assert (UU : 0 < uses g u sp) by lia. destruct (f_insn g u) as [x|] eqn:X; [|unfold uses in UU; rewrite X in UU; lia]. destruct (sn_put _ _ S u x X) as (y & Y & K).
  assert (SQ : seq (Datatypes.S (length D)) (length R) = seq (length (D ++ [u])) (length R)). { rewrite app_length. cbn. now rewrite Nat.add_1_r. }
  assert (HU' : users_of g sp = (D ++ [u]) ++ R) by (rewrite <- app_assoc; exact HU). rewrite SQ.
  assert (ST : exists h1, pre_user sp (h, (cap, true)) (length D) = Ok (h1, (cap, true)) /\ skin g h1 /\ (forall i, ~ In i (D ++ [u]) -> f_insn h1 i = f_insn g i)).
  { unfold pre_user. cbn [negb]. unfold get_insn. rewrite Hn. cbn [bind]. rewrite NE, Y. cbn [bind]. destruct (US u x X UU) as [RW|(O & A & v & k & kk & V & Uv & Dc & Bc & Ct & Rk)].
    - rewrite (proj1 (sk_keeps _ _ K)), RW. exists h. split; [reflexivity|]. split; [exact S|]. intros i Ni. apply HD. intros J. apply Ni. apply in_or_app. now left.
    - assert (ND : ~ In u D).
      { intros J. apply (count_occ_In Nat.eq_dec) in J. unfold uses in CT. rewrite X in CT. unfold operand_values in CT. rewrite O, V, app_nil_r in CT. cbn [filter] in CT. rewrite Uv in CT.
        unfold is_use_of in CT. rewrite Dc in CT. cbn in CT. lia. }
      rewrite (HD u ND), X in Y. injection Y as <-. assert (RW : is_raw (i_op x) = false) by now rewrite O. rewrite RW.
      assert (CD : is_bin_alu_op (i_op x) && match i_vals x with v0 :: v1 :: _ => refers sp v0 && match v_data v1 with VConst _ => true | _ => false end | _ => false end = true) by (rewrite O, V, refers_use, Uv, Dc; reflexivity).
      rewrite CD. eexists. split; [reflexivity|]. split.
      + destruct S as [S1 S2 S3 S4 S5 S6]. constructor; auto. intros i. rewrite f_insn_put. destruct (Nat.eqb_spec i u) as [->|Q]; [|apply S1]. rewrite X.
        unfold mark_offset. rewrite V, Dc. now apply sk_mark.
      + intros i Ni. rewrite f_insn_put. destruct (Nat.eqb_spec i u) as [->|Q]; [exfalso; apply Ni; apply in_or_app; right; now left|]. apply HD. intros J. apply Ni. apply in_or_app. now left. }
  destruct ST as (h1 & -> & S1 & HD1). cbn [bind]. exact (IH (D ++ [u]) h1 S1 HD1 HU').
Qed.
Lemma mark_ok cap : exists h, stack_offset_pre sp cap g = Ok h.
Proof.
  assert (Q : exists n, f_insn g sp = Some n) by (destruct (f_insn g sp); [eauto|congruence]). destruct Q as (n & N). unfold stack_offset_pre, get_insn. rewrite N. cbn [bind]. destruct (mark_total cap (i_users n) [] g) as (h & c & E); auto.
  - constructor; auto. intros i. destruct (f_insn g i); [constructor|exact I].
  - unfold users_of. now rewrite N.
  - cbn [length] in E. rewrite E. cbn [bind]. eauto.
Qed.
End Last.

Lemma sk_fit x y : sk x y -> fit x /\ told x -> fit y /\ told y.
Proof. intros [|v c k O A V D B C R]; [auto|]. unfold fit, told. cbn. rewrite O, V. auto. Qed.
Lemma sk_const x y v c : sk x y -> In v (operand_values y) -> v_data v = VConst c -> In v (operand_values x).
Proof.
  intros [|v0 c0 k O A V D B C R]; [auto|]. unfold operand_values. cbn. rewrite O, V. cbn. intros [<-|[<-|[]]] E; [auto|discriminate E].
Qed.
Lemma sound_skin g h L : skin g h -> sound g L -> sound h L.
Proof.
  intros S [A B C D]. assert (SU : forall b, succs_of h b = succs_of g b) by (intros b; unfold succs_of; now rewrite (sn_block _ _ S)). assert (PR : forall b, preds_of h b = preds_of g b) by (intros b; unfold preds_of; now rewrite (sn_block _ _ S)).
  constructor.
  - intros a b. rewrite SU, PR. apply A.
  - intros b y (l & i & El & Y) O. rewrite (sn_insns _ _ S) in El. destruct (sn_get _ _ S i y Y) as (x & X & K). rewrite SU. apply (B b x); [now exists l, i|]. now rewrite <- (proj1 (sk_keeps _ _ K)).
  - intros b I N. rewrite SU. apply C; [exact I|]. intros i x Ii X. destruct (sn_put _ _ S i x X) as (y & Y & K). rewrite <- (proj1 (sk_keeps _ _ K)). apply (N i y); [now rewrite (sn_insns _ _ S)|exact Y].
  - intros b i y I Y. rewrite (sn_insns _ _ S) in I. destruct (sn_get _ _ S i y Y) as (x & X & K). apply (sk_fit x y K). now apply (D b i x).
Qed.
Section End.
Variables (k : nat) (ar : SpecVirt.arity) (g : func) (L e : list nat).
Hypothesis G : stage k ar g L e.
Hypothesis So : sound g L.
Hypothesis Tm : tame g sp_id.
Hypothesis Sm : stack_tame g sp_id.
Lemma skin_accepted h : skin g h -> prog_check h L sp_id arg_ids = Ok tt.
Proof.
  intros S. pose proof (sg_core _ _ _ _ _ G) as Co. assert (C : compilable h L sp_id arg_ids (Datatypes.S (length L))) by (apply (skin_compilable g h); [exact S|]; now apply core_compilable).
  pose proof (cp_prep _ _ _ _ _ C) as PP. destruct (pp_reach _ _ _ _ PP) as (_ & EX & _). pose proof (pp_tidy _ _ _ _ PP) as TD.
  apply (accepted_by k L e h); auto.
  - apply C.
  - apply (laid_skin k g h L e S). apply (sg_laid _ _ _ _ _ G).
  - exact (sound_skin g h L S So).
  - apply (base_known h _ TD). intros i [<-|I]; [destruct (pp_sp _ _ _ _ PP) as (_ & x & -> & _); discriminate|]. destruct (pp_args _ _ _ _ PP) as (_ & _ & _ & A). destruct (A i I) as (_ & x & -> & _). discriminate.
  - intros i y (b & B & I) Y. rewrite (sn_insns _ _ S) in I. destruct (sn_get _ _ S i y Y) as (x & X & K). rewrite (proj1 (sk_keeps _ _ K)). assert (Pi : placed_in g L i) by now exists b.
    destruct (co_ops _ _ _ _ Co i x Pi X) as (_ & N1 & N2). destruct (co_basic _ _ _ _ Co i x Pi X) as (N3 & N4). auto.
  - intros i y v c Y V D. destruct (sn_get _ _ S i y Y) as (x & X & K). apply (sk_const x y v c K V) in D as V'. destruct (co_vals _ _ _ _ Co i x v X V') as (_ & Q). rewrite D in Q. destruct Q as (-> & _). discriminate.
Qed.
Lemma last_total cap : exists h, then_post k (fun _ => stack_offset_pre sp_id cap) (g, L) = Ok (h, L) /\ skin g h.
Proof.
  pose proof (co_prep _ _ _ _ (sg_core _ _ _ _ _ G)) as PP. destruct (stage_tidy _ _ _ _ _ G) as (TD & _). destruct (mark_ok g sp_id TD) with (cap := cap) as (h & E).
  - destruct (pp_sp _ _ _ _ PP) as (_ & x & -> & _). discriminate.
  - intros i x X U. destruct (sm_user _ _ Sm i x X U) as [([O|O] & _)|(O & A & v & c & kk & V & Uv & D & R)]; [left; now rewrite O|left; now rewrite O|right]. split; [exact O|]. split; [exact A|]. exists v, c, kk.
    destruct (last_vals k ar g L e G i x c X) as (B & K); [apply vals_in; rewrite V; right; now left|]. rewrite D in K. tauto.
  - pose proof (last_skin k ar g L e G Sm cap h E) as S. destruct (laid_layout k h L e) as (h' & El & SK & SI).
    { apply (skin_linked g h S). apply TD. }
    { apply (laid_skin k g h L e S). apply (sg_laid _ _ _ _ _ G). }
    assert (S' : skin g h'). { destruct S as [S1 S2 S3 S4 S5 S6]. destruct SK as [A1 A2 A3 A4 A5 A6]. constructor; try congruence. intros i. rewrite SI. apply S1. }
    exists h'. split; [|exact S']. unfold then_post. cbn [fst snd]. rewrite E. cbn [bind]. unfold postprocess. rewrite El. cbn [bind fst snd]. now rewrite (skin_accepted h' S').
Qed.
End End.
Theorem pipe_total ar p k nd no f : liftable p -> fields_fit p -> (forall j i, at_pos p j i -> SpecLift.plain ar i) -> agrees ar ->
  (forall j i, at_pos p j i -> b_code i = 0x85%Z -> b_src i <> 6%Z) -> lift k k p = Ok f -> 2 * length (f_all f) + 1 < k -> f_ni f < k ->
  (forall j i, at_pos p j i -> unobjectionable i) ->
  exists g L, front k nd no p = Ok (g, L) /\ (tame g sp_id -> stack_tame g sp_id -> forall cap, exists h, cg_input k cap nd no p = Ok (h, L)).
Proof.
  intros P Ff Pl Ag Ne Hl Hk Hi U. destruct (front_total ar p k nd no f P Ff Pl Ag Ne Hl Hk Hi U) as (g & L & e & E & G & So). exists g, L. split; [exact E|]. intros Tm Sm cap.
  destruct (last_total k _ g L e G So Tm Sm cap) as (h & Eh & _). exists h. unfold cg_input. rewrite E. exact Eh.
Qed.
