(** Functions of which instructions have been removed and operands replaced by other operands: what the
    code generator needs is kept, and so is the order of the blocks. *)
From Coq Require Import ZArith List Bool Arith Lia Permutation.
From Verif Require Import M_Base M_Ir M_Edit M_Norm M_Ra M_Layout M_Pass SpecWord SpecIsa SpecFlat SpecNormCond SpecSsa SpecIr SpecEdit SpecPass SpecShift SpecInstr SpecVirt SpecStrict SpecPrep SpecLayout
  L_Edit L_PassDce L_PassPhi L_PhiPass L_PrepStr L_Skin L_Whole L_SpillEnd L_LiftLay.
From Verif Require Import SpecIr SpecVirt SpecPrep SpecStrict SpecPass.
Import ListNotations.
Open Scope nat_scope.

(** What the code generator needs, apart from what [tame] says. *)
Record core (f : func) (L : list nat) (sp : nat) (args : list nat) : Prop := {
  co_prep : prepable f L sp args;
  co_ops : forall i x, placed_in f L i -> f_insn f i = Some x -> i_op x <> ALLOC /\ i_op x <> STORE /\ i_op x <> LOAD;
  co_strict : strict f;
  co_flow : flow_known f L;
  co_nocopy : no_copies f L;
  co_vals : forall i x v, f_insn f i = Some x -> In v (operand_values x) ->
    v_bi v = B_NONE /\ match v_data v with VConst c => v_ct v = A_32 /\ s32_range c | VInsn _ => True | _ => False end;
  co_two : forall i x, placed_in f L i -> f_insn f i = Some x -> is_bin_alu_op (i_op x) = true -> 2 <= length (i_vals x);
  co_off : forall i x, placed_in f L i -> f_insn f i = Some x -> i_op x = LOADRAW \/ i_op x = STORERAW -> s16_range (a_off (i_addr x));
  co_order : in_order f L;
  co_basic : basic_ops f L }.

(** ** Empty blocks *)
Lemma follows_split l b c : NoDup l -> follows l b c -> forall l1 l2, l = l1 ++ c :: l2 -> exists l0, l1 = l0 ++ [b].
Proof.
  intros N (a & d & E) l1 l2 E2. exists a. rewrite E in E2.
  assert (K : a ++ [b] ++ c :: d = l1 ++ c :: l2) by exact E2. rewrite app_assoc in K.
  assert (N1 : ~ In c (a ++ [b])). { rewrite E in N. change (a ++ b :: c :: d) with (a ++ [b] ++ c :: d) in N. rewrite app_assoc in N. apply NoDup_remove_2 in N. intros I. apply N. apply in_or_app. now left. }
  assert (N2 : ~ In c l1). { rewrite E, E2 in N. apply NoDup_remove_2 in N. intros I. apply N. apply in_or_app. now left. }
  clear - K N1 N2. revert l1 K N1 N2. generalize (a ++ [b]) as u. induction u as [|x u IH]; intros [|y l1] K N1 N2; cbn in K; [reflexivity|injection K as -> _; destruct N2; now left|injection K as -> _; destruct N1; now left|].
  injection K as -> K. f_equal. apply IH; [exact K| |]; intros I; [apply N1|apply N2]; now right.
Qed.
Lemma core_few f L sp args : core f L sp args -> forall b, In b L -> few_empty f b (S (length L)).
Proof.
  intros C. pose proof (co_prep _ _ _ _ C) as PP. destruct (pp_reach _ _ _ _ PP) as (ND & _).
  assert (K : forall l1 b l2, L = l1 ++ b :: l2 -> few_empty f b (S (length l1))).
  { intros l1. remember (length l1) as n. revert l1 Heqn. induction n as [n IH] using lt_wf_ind. intros l1 -> b l2 E.
    assert (Ib : In b L) by (rewrite E; apply in_or_app; right; now left).
    destruct (insns_of f b) as [|u l] eqn:En; [|apply fe_full; rewrite En; discriminate]. apply fe_empty. intros q Iq.
    destruct (insns_of f q) as [|u l] eqn:Eq; [|apply fe_full; rewrite Eq; discriminate].
    assert (IqL : In q L) by exact (pp_preds _ _ _ _ PP b q Ib Iq).
    assert (G : goes f q b) by exact (fk_edge _ _ (co_flow _ _ _ _ C) b q Ib Iq).
    assert (F : follows L q b).
    { destruct G as [i x I|i x c I|i x c I|c l Es]; try (rewrite Eq in I; destruct I). apply (io_open _ _ (co_order _ _ _ _ C) q c IqL); [|now rewrite Es]. intros i x I. rewrite Eq in I. destruct I. }
    destruct (follows_split L q b ND F l1 l2 E) as (l0 & ->). apply (fe_mono f q (S (length l0))); [|rewrite app_length; cbn; lia].
    apply (IH (length l0)) with (l1 := l0) (l2 := b :: l2); [rewrite app_length; cbn; lia|reflexivity|]. rewrite E, <- app_assoc. reflexivity. }
  intros b I. apply in_split in I as (l1 & l2 & E). apply (fe_mono f b (S (length l1))); [eapply K; exact E|]. rewrite E, app_length. cbn. lia.
Qed.
Lemma use_pos f u x d v : f_insn f u = Some x -> In v (operand_values x) -> v_data v = VInsn d -> 0 < uses f u d.
Proof.
  intros X V D. unfold uses. rewrite X. assert (K : In v (filter (is_use_of d) (operand_values x))) by (apply filter_In; split; [exact V|unfold is_use_of; rewrite D; apply Nat.eqb_refl]).
  destruct (filter _ _); [destruct K|cbn; lia].
Qed.
Lemma vals_in x v : In v (i_vals x) -> In v (operand_values x).
Proof. intros I. unfold operand_values. apply in_or_app. now left. Qed.
Theorem core_compilable f L sp args : core f L sp args -> tame f sp -> compilable f L sp args (S (length L)).
Proof.
  intros C T. pose proof (co_prep _ _ _ _ C) as PP. pose proof (pp_tidy _ _ _ _ PP) as TD. pose proof (co_strict _ _ _ _ C) as ST.
  constructor; try apply C.
  - constructor; [apply C|]. intros i x v _ X V. exact (proj1 (co_vals _ _ _ _ C i x v X V)).
  - intros i x Pi X O. pose proof (co_two _ _ _ _ C i x Pi X O) as Ln. destruct (nth_error (i_vals x) 1) as [v|] eqn:V; [|apply nth_error_None in V; lia].
    exists v. split; [reflexivity|]. intros d D. split; [intros ->; exact (tm_second _ _ T i x v X O V D)|]. intros ->.
    assert (NP : i_op x <> PHI) by (intros Q; rewrite Q in O; discriminate O).
    assert (U : 0 < uses f i i) by (eapply use_pos; [exact X|apply vals_in, (nth_error_In _ _ V)|exact D]).
    destruct Pi as (b & B & I). destruct (st_use _ ST b i x i b I X NP U I) as [(_ & (l1 & l2 & l3 & E))|K].
    + pose proof (td_once _ TD b) as Nd. rewrite E in Nd. apply NoDup_remove_2 in Nd. apply Nd. apply in_or_app. right. apply in_or_app. right. now left.
    + revert K. apply not_self. exact (fk_all _ _ (co_flow _ _ _ _ C) b B).
  - intros i x Pi X. pose proof (co_vals _ _ _ _ C i x) as CV. constructor.
    + intros v c V D. destruct (CV v X V) as (B & G). rewrite D in G. tauto.
    + intros v V. destruct (CV v X V) as (_ & G). unfold hole_ok. destruct (v_data v); auto; destruct G.
    + intros _ v V. destruct (CV v X V) as (_ & G). unfold no_hole. destruct (v_data v); auto.
    + intros O. destruct (co_nocopy _ _ _ _ C i x Pi X O).
    + intros O A v V. split; [exact (tm_zero _ _ T i x v X O A V)|]. destruct (CV v X (vals_in _ _ V)) as (_ & G). unfold no_hole. destruct (v_data v); auto.
    + intros O. exact (co_off _ _ _ _ C i x Pi X O).
    + intros O c. exact (tm_load _ _ T i x c X O).
  - intros i x v _ X O I. exact (tm_call _ _ T i x v X O I).
  - exact (core_few f L sp args C).
Qed.

(** ** Fewer instructions *)
Definition known (f : func) (v : value) : Prop := exists u x, f_insn f u = Some x /\ In v (operand_values x).
Record thin (x y : insn) : Prop := {
  th_op : i_op y = i_op x; th_bb : i_bb1 y = i_bb1 x /\ i_bb2 y = i_bb2 x; th_addr : a_off (i_addr y) = a_off (i_addr x);
  th_u : i_u y = i_u x; th_par : i_parent y = i_parent x; th_len : length (i_vals y) = length (i_vals x); th_src : map snd (i_phi y) = map snd (i_phi x);
  th_alu : i_alu y = i_alu x; th_vrt : i_vrt y = i_vrt x }.
Record pruned (f h : func) : Prop := {
  pr_insn : forall i y, f_insn h i = Some y -> exists x, f_insn f i = Some x /\ thin x y;
  pr_ops : forall i y v, f_insn h i = Some y -> In v (operand_values y) -> known f v;
  pr_list : forall b, exists k, insns_of h b = filter k (insns_of f b);
  pr_alive : forall b i, In i (insns_of f b) -> f_insn h i <> None -> In i (insns_of h b);
  pr_jump : forall b i x, In i (insns_of f b) -> f_insn f i = Some x -> is_jmp_op (i_op x) = true -> f_insn h i <> None;
  pr_base : forall i x, f_insn f i = Some x -> (forall b, ~ In i (insns_of f b)) -> f_insn h i <> None;
  pr_succs : forall b, succs_of h b = succs_of f b;
  pr_preds : forall b, preds_of h b = preds_of f b;
  pr_blocks : forall b, f_block h b = None <-> f_block f b = None;
  pr_entry : f_entry h = f_entry f;
  pr_count : f_ni h = f_ni f /\ f_nb h = f_nb f /\ f_all h = f_all f }.

Section Pruned.
Variables f h : func.
Hypothesis P : pruned f h.
Lemma pr_in b i : In i (insns_of h b) -> In i (insns_of f b).
Proof. destruct (pr_list _ _ P b) as (k & ->). intros I. now apply filter_In in I. Qed.
Lemma pr_placed L i : placed_in h L i -> placed_in f L i.
Proof. intros (b & B & I). exists b. split; [exact B|now apply pr_in]. Qed.
Lemma pr_jumps b i x : In i (insns_of f b) -> f_insn f i = Some x -> is_jmp_op (i_op x) = true -> In i (insns_of h b) /\ exists y, f_insn h i = Some y /\ thin x y.
Proof.
  intros I X J. pose proof (pr_jump _ _ P b i x I X J) as N. split; [exact (pr_alive _ _ P b i I N)|]. destruct (f_insn h i) as [y|] eqn:Y; [|congruence]. destruct (pr_insn _ _ P i y Y) as (x' & X' & T). exists y. split; [reflexivity|congruence].
Qed.
Lemma pr_goes b c : goes h b c <-> goes f b c.
Proof.
  split.
  - intros [i y I Y O|i y d I Y O|i y d I Y O|d l E].
    4: rewrite (pr_succs _ _ P) in E; eapply go_next; exact E.
    all: apply pr_in in I; destruct (pr_insn _ _ P i y Y) as (x & X & T); destruct (th_bb _ _ T) as (E1 & E2); rewrite ?E1, ?E2; rewrite (th_op _ _ T) in O.
    + eapply go_ja; eassumption.
    + eapply go_c1; eassumption.
    + eapply go_c2; eassumption.
  - intros [i x I X O|i x d I X O|i x d I X O|d l E].
    4: rewrite <- (pr_succs _ _ P) in E; eapply go_next; exact E.
    all: destruct (pr_jumps b i x I X) as (I' & y & Y & T); [destruct (i_op x); try discriminate O; reflexivity|]; destruct (th_bb _ _ T) as (E1 & E2); rewrite <- ?E1, <- ?E2; rewrite <- (th_op _ _ T) in O.
    + eapply go_ja; eassumption.
    + eapply go_c1; eassumption.
    + eapply go_c2; eassumption.
Qed.
Lemma pr_rpath l : rpath h l <-> rpath f l.
Proof.
  split.
  - induction 1 as [|b l c _ IH G]; [rewrite (pr_entry _ _ P); constructor|constructor; [exact IH|now apply pr_goes]].
  - induction 1 as [|b l c _ IH G]; [rewrite <- (pr_entry _ _ P); constructor|constructor; [exact IH|now apply pr_goes]].
Qed.
Lemma filter_tail {A} (k : A -> bool) l1 i l2 : forall l, filter k l = l1 ++ i :: l2 -> exists r1 r2, l = r1 ++ i :: r2 /\ filter k r2 = l2.
Proof.
  revert l1. intros l1 l. revert l1. induction l as [|a l IH]; intros l1 E; cbn in E; [destruct l1; discriminate E|]. destruct (k a).
  - destruct l1 as [|c l1]; cbn in E; [injection E as -> E; exists [], l; auto|]. injection E as -> E. destruct (IH _ E) as (r1 & r2 & -> & K). exists (c :: r1), r2. auto.
  - destruct (IH _ E) as (r1 & r2 & -> & K). exists (a :: r1), r2. auto.
Qed.
Theorem pruned_core L sp args : tidy h -> strict h -> core f L sp args -> core h L sp args.
Proof.
  intros TD ST C. pose proof (co_prep _ _ _ _ C) as PP. destruct PP as [A1 A2 A3 A4 A5 A6 A7 A8 A9 A10 A11 A12 A13].
  assert (OP : forall i y, placed_in h L i -> f_insn h i = Some y -> exists x, placed_in f L i /\ f_insn f i = Some x /\ thin x y).
  { intros i y Pi Y. destruct (pr_insn _ _ P i y Y) as (x & X & T). exists x. split; [now apply pr_placed|auto]. }
  assert (LIVE : forall i x, ~ placed_in f L i -> f_insn f i = Some x -> exists y, f_insn h i = Some y /\ thin x y).
  { intros i x N X. assert (K : f_insn h i <> None). { apply (pr_base _ _ P i x X). intros b I. apply N. exists b. split; [exact (proj2 (proj2 A3) b i I)|exact I]. }
    destruct (f_insn h i) as [y|] eqn:Y; [|congruence]. destruct (pr_insn _ _ P i y Y) as (x' & X' & T). exists y. split; [reflexivity|congruence]. }
  assert (CV : forall i y v, f_insn h i = Some y -> In v (operand_values y) ->
    v_bi v = B_NONE /\ match v_data v with VConst c => v_ct v = A_32 /\ s32_range c | VInsn _ => True | _ => False end).
  { intros i y v Y V. destruct (pr_ops _ _ P i y v Y V) as (u & x & X & I). exact (co_vals _ _ _ _ C u x v X I). }
  destruct (pr_count _ _ P) as (CN & CB & CA).
  constructor.
  - constructor.
    + destruct A1 as (X & Y). split; [intros i I|intros b I].
      * destruct (f_insn h i) as [y|] eqn:E; [|reflexivity]. destruct (pr_insn _ _ P i y E) as (x & K & _). rewrite X in K; [discriminate K|]. now rewrite <- CN.
      * apply (pr_blocks _ _ P). apply Y. now rewrite <- CB.
    + exact TD.
    + destruct A3 as (X & Y & Z). split; [exact X|]. split; [intros b I K; apply (Y b I); now apply (pr_blocks _ _ P)|]. intros b i I. exact (Z b i (pr_in b i I)).
    + destruct A4 as (X & x & Y & Z). split; [intros K; apply X; now apply pr_placed|]. destruct (LIVE sp x X Y) as (y & Y' & T). exists y. split; [exact Y'|]. now rewrite (th_op _ _ T).
    + destruct A5 as (X & Y & Z & T). split; [exact X|]. split; [exact Y|]. split; [exact Z|]. intros a I. destruct (T a I) as (T1 & x & Tx & To). split; [intros K; apply T1; now apply pr_placed|].
      destruct (LIVE a x T1 Tx) as (y & Y' & Q). exists y. split; [exact Y'|]. now rewrite (th_op _ _ Q).
    + intros u y v Pu Y V. destruct (CV u y v Y V) as (_ & G). unfold operand_fits. destruct (v_data v) as [| | |d| |] eqn:D; auto.
      destruct (pr_ops _ _ P u y v Y V) as (u0 & x0 & X0 & V0).
      assert (P0 : placed_in f L u0). { destruct (td_placed _ A2 u0 d (use_pos f u0 x0 d v X0 V0 D)) as (z & _ & I). exists (i_parent z). split; [exact (proj2 (proj2 A3) _ _ I)|exact I]. }
      pose proof (A6 u0 x0 v P0 X0 V0) as F. unfold operand_fits in F. rewrite D in F. destruct F as [F|[F|(F & z & Z & Vz)]]; auto. right. right.
      assert (AL : f_insn h d <> None). { apply (uses_live h u d (td_users _ TD)). exact (use_pos h u y d v Y V D). }
      destruct F as (b & B & I). split; [exists b; split; [exact B|exact (pr_alive _ _ P b d I AL)]|]. destruct (f_insn h d) as [z'|] eqn:Z'; [|congruence].
      destruct (pr_insn _ _ P d z' Z') as (z0 & Z0 & T). exists z'. split; [reflexivity|]. rewrite (th_op _ _ T). congruence.
    + intros b c I Gc. rewrite pr_goes in Gc. rewrite (pr_entry _ _ P), (pr_preds _ _ P). now apply A7.
    + intros b p I Ip. rewrite (pr_preds _ _ P) in Ip. now apply (A8 b).
    + intros b l1 i l2 y E1 Y O. destruct (pr_list _ _ P b) as (k & Ek). rewrite Ek in E1. apply filter_tail in E1 as (r1 & r2 & E1 & <-). destruct (pr_insn _ _ P i y Y) as (x & X & T). rewrite (th_op _ _ T) in O.
      rewrite (A9 b r1 i r2 x E1 X O). reflexivity.
    + intros i y Pi Y O. destruct (OP i y Pi Y) as (x & Pf & X & T). rewrite (th_op _ _ T) in O. destruct (A10 i x Pf X O) as (V & N & Q). split; [|split].
      * pose proof (th_len _ _ T) as Ln. rewrite V in Ln. destruct (i_vals y); [reflexivity|discriminate Ln].
      * now rewrite (th_src _ _ T).
      * intros w b I. apply (in_map snd) in I. rewrite (th_src _ _ T) in I. cbn in I. apply in_map_iff in I as ((w' & b') & E & I). cbn in E. subst b'. exact (Q w' b I).
    + intros i y Pi Y O. destruct (OP i y Pi Y) as (x & Pf & X & T). rewrite (th_op _ _ T) in O. rewrite (th_len _ _ T). exact (A11 i x Pf X O).
    + intros i y Pi Y. destruct (OP i y Pi Y) as (x & Pf & X & T). rewrite (th_op _ _ T). exact (A12 i x Pf X).
    + split; [rewrite (pr_entry _ _ P); apply A13|]. intros i l E (x & X & O). apply (st_entry _ ST i); [rewrite E; now left|]. exists x. auto.
  - intros i y Pi Y. destruct (OP i y Pi Y) as (x & Pf & X & T). rewrite (th_op _ _ T). exact (co_ops _ _ _ _ C i x Pf X).
  - exact ST.
  - destruct (co_flow _ _ _ _ C) as [E1 E2]. constructor.
    + intros b p I Ip. rewrite (pr_preds _ _ P) in Ip. apply pr_goes. now apply E1.
    + intros b I. destruct (E2 b I) as (l & R). exists l. now apply pr_rpath.
  - intros i y Pi Y. destruct (OP i y Pi Y) as (x & Pf & X & T). rewrite (th_op _ _ T). exact (co_nocopy _ _ _ _ C i x Pf X).
  - exact CV.
  - intros i y Pi Y O. destruct (OP i y Pi Y) as (x & Pf & X & T). rewrite (th_op _ _ T) in O. rewrite (th_len _ _ T). exact (co_two _ _ _ _ C i x Pf X O).
  - intros i y Pi Y O. destruct (OP i y Pi Y) as (x & Pf & X & T). rewrite (th_op _ _ T) in O. rewrite (th_addr _ _ T). exact (co_off _ _ _ _ C i x Pf X O).
  - destruct (co_order _ _ _ _ C) as [J1 J2 J3]. constructor.
    + rewrite (pr_entry _ _ P). exact J1.
    + intros b i y I Y O. destruct (pr_insn _ _ P i y Y) as (x & X & T). rewrite (th_op _ _ T) in O. rewrite (proj1 (th_bb _ _ T)). exact (J2 b i x (pr_in b i I) X O).
    + intros b c I NJ Hd. rewrite (pr_succs _ _ P) in Hd. apply (J3 b c I); [|exact Hd]. intros i x Ii X. destruct (is_jmp_op (i_op x)) eqn:J; [|reflexivity].
      destruct (pr_jumps b i x Ii X J) as (Ih & y & Y & T). rewrite <- (th_op _ _ T) in J. rewrite (NJ i y Ih Y) in J. discriminate J.
  - intros i y Pi Y. destruct (OP i y Pi Y) as (x & Pf & X & T). rewrite (th_op _ _ T). exact (co_basic _ _ _ _ C i x Pf X).
Qed.
Lemma pruned_enough ar L : enough_args ar f L -> enough_args ar h L.
Proof.
  intros E i y Pi Y O. destruct (pr_insn _ _ P i y Y) as (x & X & T). rewrite (th_op _ _ T) in O. rewrite (th_u _ _ T), (th_len _ _ T). exact (E i x (pr_placed L i Pi) X O).
Qed.
End Pruned.

(** ** The passes *)
Lemma map_ops_thin h x l : thin x (set_users l (map_ops h x)).
Proof. unfold map_ops. destruct x as [o ? ? ? ? ? ? ? ? ? ? ? ?]. destruct o; cbn; constructor; cbn; rewrite ?map_length, ?map_map; auto. Qed.
Lemma map_ops_vals h x l v : In v (operand_values (set_users l (map_ops h x))) -> exists v0, v = h v0 /\ In v0 (operand_values x).
Proof.
  unfold map_ops, operand_values. destruct x as [o vs ? ad ? ? ? ? ? ? ? ? ?]. destruct o; cbn; rewrite ?app_nil_r; intros I; try (apply in_map_iff in I as (v0 & <- & I); eauto);
  apply in_app_or in I as [I|I]; try (apply in_map_iff in I as (v0 & <- & I); exists v0; split; [reflexivity|apply in_or_app; now left]).
  - destruct I as [<-|[]]. exists (a_val ad). split; [reflexivity|]. apply in_or_app. right. now left.
  - destruct I as [<-|[]]. exists (a_val ad). split; [reflexivity|]. apply in_or_app. right. now left.
  - rewrite map_map in I. apply in_map_iff in I as ((v0 & q) & <- & I). exists v0. split; [reflexivity|]. apply in_or_app. right. apply in_map_iff. now exists (v0, q).
Qed.
Lemma phi_in x v : i_op x = PHI -> In v (map fst (i_phi x)) -> In v (operand_values x).
Proof. intros O I. unfold operand_values. rewrite O. apply in_or_app. now right. Qed.
Lemma not_listed {A} (eqb : A -> A -> bool) j rm : (forall a b, eqb a b = true <-> a = b) -> ~ In j rm -> existsb (eqb j) rm = false.
Proof. intros E N. destruct (existsb (eqb j) rm) eqn:Q; [|reflexivity]. apply existsb_exists in Q as (z & Z & K). apply E in K. subst z. contradiction. Qed.
Theorem gone_pruned rm hh f g : phis_gone rm hh f g -> pruned f g.
Proof.
  intros G.
  assert (BK : forall i y, f_insn g i = Some y -> ~ In i rm /\ exists x l, f_insn f i = Some x /\ y = set_users l (map_ops hh x)).
  { intros i y Y. assert (N : ~ In i rm) by (intros I; destruct (gn_rm _ _ _ _ G i I); congruence). split; [exact N|]. destruct (gn_keep _ _ _ _ G i N) as (l & K). rewrite K in Y. destruct (f_insn f i) as [x|]; [|discriminate Y]. injection Y as <-. eauto. }
  constructor.
  - intros i y Y. destruct (BK i y Y) as (_ & x & l & X & ->). exists x. split; [exact X|apply map_ops_thin].
  - intros i y v Y V. destruct (BK i y Y) as (_ & x & l & X & ->). apply map_ops_vals in V as (v0 & -> & V0). destruct (gn_from _ _ _ _ G v0) as [->|(j & z & J & Z & K)]; [exists i, x; auto|].
    exists j, z. split; [exact Z|]. destruct (gn_rm _ _ _ _ G j J) as ((z' & Z' & O) & _). apply phi_in; [congruence|exact K].
  - intros b. eexists. apply (gn_insns _ _ _ _ G).
  - intros b i I N. rewrite (gn_insns _ _ _ _ G). apply filter_In. split; [exact I|]. rewrite (not_listed Nat.eqb); [reflexivity|apply Nat.eqb_eq|]. intros J. destruct (gn_rm _ _ _ _ G i J). contradiction.
  - intros b i x I X J N. assert (NR : ~ In i rm) by (intros K; destruct (gn_rm _ _ _ _ G i K) as ((z & Z & O) & _); rewrite X in Z; injection Z as <-; rewrite O in J; discriminate J).
    destruct (gn_keep _ _ _ _ G i NR) as (l & K). rewrite X, N in K. discriminate K.
  - intros i x X N E. assert (NR : ~ In i rm) by (intros K; destruct (gn_placed _ _ _ _ G i K) as (b & I); exact (N b I)). destruct (gn_keep _ _ _ _ G i NR) as (l & K). rewrite X, E in K. discriminate K.
  - apply (gn_succs _ _ _ _ G).
  - apply (gn_preds _ _ _ _ G).
  - apply (gn_blocks _ _ _ _ G).
  - apply (gn_entry _ _ _ _ G).
  - apply (gn_count _ _ _ _ G).
Qed.
Theorem without_pruned rm f g : without rm f g -> (forall j, In j rm -> exists x, f_insn f j = Some x /\ i_op x <> CALL /\ is_jmp_op (i_op x) = false) -> pruned f g.
Proof.
  intros G RM. constructor.
  - intros i y Y. destruct (without_back _ _ _ _ _ G Y) as (_ & x & l & X & ->). exists x. split; [exact X|]. constructor; auto.
  - intros i y v Y V. destruct (without_back _ _ _ _ _ G Y) as (_ & x & l & X & ->). exists i, x. auto.
  - intros b. eexists. apply (wo_insns _ _ _ G).
  - intros b i I N. rewrite (wo_insns _ _ _ G). apply filter_In. split; [exact I|]. rewrite (not_listed Nat.eqb); [reflexivity|apply Nat.eqb_eq|]. intros J. pose proof (wo_rm _ _ _ G i J). contradiction.
  - intros b i x I X J N. assert (NR : ~ In i rm) by (intros K; destruct (RM i K) as (z & Z & _ & O); congruence). destruct (wo_keep _ _ _ G i NR) as (l & K). rewrite X, N in K. discriminate K.
  - intros i x X N E. assert (NR : ~ In i rm) by (intros K; destruct (wo_placed _ _ _ G i K) as (b & I); exact (N b I)). destruct (wo_keep _ _ _ G i NR) as (l & K). rewrite X, E in K. discriminate K.
  - apply (wo_succs _ _ _ G).
  - apply (wo_preds _ _ _ G).
  - apply (wo_blocks _ _ _ G).
  - apply (wo_entry _ _ _ G).
  - destruct (wo_count _ _ _ G) as (-> & ->). repeat split. apply (wo_all _ _ _ G).
Qed.
(** values that are still used are still there, so what is computed before its use still is *)
Theorem without_strict rm f g : without rm f g -> (forall j, In j rm -> exists x, f_insn f j = Some x /\ i_op x <> CALL /\ is_jmp_op (i_op x) = false) -> tidy g -> strict f -> strict g.
Proof.
  intros G RM TD ST. pose proof (without_pruned rm f g G RM) as P. pose proof (pr_rpath f g P) as RP. pose proof (pr_goes f g P) as GO. pose proof (pr_in f g P) as IN.
  assert (PH : forall i, is_phi g i -> is_phi f i). { intros i (y & Y & O). destruct (pr_insn _ _ P i y Y) as (x & X & T). exists x. split; [exact X|]. now rewrite <- (th_op _ _ T). }
  assert (HP : forall b i, In i (insns_of g b) -> is_phi f i -> is_phi g i). { intros b i I (x & X & O). destruct (td_linked _ TD b i I) as (y & Y & _). destruct (pr_insn _ _ P i y Y) as (x' & X' & T). exists y. split; [exact Y|]. rewrite (th_op _ _ T). congruence. }
  destruct ST as [A B C D E F]. constructor.
  - intros b. destruct (A b) as (phs & ids & K1 & K2 & K3). set (k := fun j => negb (existsb (Nat.eqb j) rm)). exists (filter k phs), (filter k ids).
    assert (EE : insns_of g b = filter k phs ++ filter k ids) by (rewrite (wo_insns _ _ _ G), K1, filter_app; reflexivity).
    split; [exact EE|]. split.
    + intros i I. apply (HP b i); [rewrite EE; apply in_or_app; now left|]. apply K2. now apply filter_In in I.
    + intros i I Q. apply (K3 i); [now apply filter_In in I|]. now apply PH.
  - intros i I Q. rewrite (wo_entry _ _ _ G) in I. exact (B i (IN _ _ I) (PH i Q)).
  - intros b i y q l I Y O R Gq. destruct (without_back _ _ _ _ _ G Y) as (_ & x & us & X & ->). apply RP in R. apply GO in Gq. exact (C b i x q l (IN _ _ I) X O R Gq).
  - intros b u y d c I Y O U Ic. destruct (without_back _ _ _ _ _ G Y) as (NU & x & us & X & ->). rewrite (without_uses _ _ _ u d G NU) in U.
    destruct (D b u x d c (IN _ _ I) X O U (IN _ _ Ic)) as [(-> & (l1 & l2 & l3 & W))|W]; [left|right].
    + split; [reflexivity|]. rewrite (wo_insns _ _ _ G) in I, Ic |- *. rewrite W in *. set (k := fun j => negb (existsb (Nat.eqb j) rm)) in *. apply filter_In in I as (_ & I). apply filter_In in Ic as (_ & Ic).
      exists (filter k l1), (filter k l2), (filter k l3). rewrite filter_app. cbn [filter]. rewrite Ic, filter_app. cbn [filter]. now rewrite I.
    + intros l R. apply W. now apply RP.
  - intros b u y v q d c I Y O V Dv Ic l R. destruct (without_back _ _ _ _ _ G Y) as (_ & x & us & X & ->). apply RP in R. exact (E b u x v q d c (IN _ _ I) X O V Dv (IN _ _ Ic) l R).
  - intros u y v r a Y O V Dv. assert (U : 0 < uses g u a) by (eapply use_pos; [exact Y|apply vals_in; rewrite V; now left|exact Dv]).
    destruct (without_back _ _ _ _ _ G Y) as (_ & x & us & X & ->). destruct (F u x v r a X O V Dv) as (z & Z & Oz). pose proof (uses_live g u a (td_users _ TD) U) as N.
    destruct (f_insn g a) as [z'|] eqn:Z'; [|congruence]. destruct (without_back _ _ _ _ _ G Z') as (_ & z0 & l0 & Z0 & ->). exists (set_users l0 z0). split; [reflexivity|]. cbn. congruence.
Qed.

(** ** The layout of a function that has been laid out before *)
Record laid (k : nat) (f : func) (L e : list nat) : Prop := {
  la_reach : gen_reachable k f = Ok L;
  la_end : gen_end f L = Ok e;
  la_all : forall b, In b (f_all f) -> f_block f b <> None;
  la_cond : forall b y, terminator f b y -> is_cond_jmp_op (i_op y) = true -> succs_of f b = [i_bb1 y; i_bb2 y];
  la_ja : forall b y, terminator f b y -> i_op y = JA -> succs_of f b = [i_bb1 y];
  la_last : forall b l1 i l2 x, insns_of f b = l1 ++ i :: l2 -> f_insn f i = Some x -> is_jmp_op (i_op x) = true -> l2 = [] }.
Definition jview (o : outcome (option insn)) : outcome (option (iop * nat * nat)) :=
  match o with
  | Ok (Some y) => Ok (if is_jmp_op (i_op y) then Some (i_op y, i_bb1 y, i_bb2 y) else None)
  | Ok None => Ok None
  | Err => Err | Crit => Crit | UB => UB | NoFuel => NoFuel
  end.
Lemma last_cases f b x : f_block f b = Some x -> (forall i, In i (insns_of f b) -> f_insn f i <> None) ->
  (insns_of f b = [] /\ last_of f x = Ok None) \/ (exists l i y, insns_of f b = l ++ [i] /\ f_insn f i = Some y /\ last_of f x = Ok (Some y)).
Proof.
  intros X A. unfold last_of, get_insn. assert (E : insns_of f b = b_insns x) by (unfold insns_of; now rewrite X). rewrite <- E. destruct (insns_of f b) as [|u v] eqn:Q; [left; split; reflexivity|right].
  rewrite <- Q in *. destruct (@exists_last _ (insns_of f b)) as (l & i & El); [rewrite Q; discriminate|]. rewrite El, rev_app_distr. cbn. destruct (f_insn f i) as [y|] eqn:Y; [exists l, i, y; auto|]. destruct (A i); [rewrite El; apply in_or_app; right; now left|exact Y].
Qed.
Section Again.
Variables (f h : func).
Hypothesis SB : forall b, match f_block f b, f_block h b with Some x, Some y => b_succs y = b_succs x /\ b_preds y = b_preds x /\ jview (last_of h y) = jview (last_of f x) | None, None => True | _, _ => False end.
Lemma jv_ends o o' : jview (Ok o) = jview (Ok o') -> ends_ja o = ends_ja o'.
Proof.
  destruct o as [y|], o' as [y'|]; cbn; try reflexivity.
  - destruct (is_jmp_op (i_op y)) eqn:A, (is_jmp_op (i_op y')) eqn:B; intros K; try discriminate K; [injection K as K _ _; now rewrite K|]. destruct (i_op y), (i_op y'); try discriminate A; try discriminate B; reflexivity.
  - destruct (is_jmp_op (i_op y)) eqn:A; intros K; [discriminate K|]. destruct (i_op y); try discriminate A; reflexivity.
  - destruct (is_jmp_op (i_op y')) eqn:A; intros K; [discriminate K|]. destruct (i_op y'); try discriminate A; reflexivity.
Qed.
Lemma ag_scan bb : forall ps pred, scan_preds h bb ps pred = scan_preds f bb ps pred.
Proof.
  induction ps as [|p ps IH]; intros pred; cbn [scan_preds]; [reflexivity|]. unfold get_block. pose proof (SB p) as K. destruct (f_block f p) as [x|], (f_block h p) as [y|]; try contradiction; [|reflexivity]. cbn [bind].
  destruct K as (-> & _ & J). destruct (b_succs x) as [|a [|b [|]]]; try reflexivity.
  - destruct (last_of h y) as [o'| | | |], (last_of f x) as [o| | | |]; try (destruct o' as [?|]; discriminate J); try (destruct o as [?|]; discriminate J); try reflexivity; try discriminate J.
    cbn [bind]. rewrite (jv_ends _ _ J). rewrite IH. destruct (ends_ja o); [reflexivity|]. destruct pred; [reflexivity|apply IH].
  - rewrite !IH. destruct (a =? bb); [|reflexivity]. destruct pred; rewrite ?IH; reflexivity.
Qed.
Lemma ag_head : forall n bb, find_chain_head n h bb = find_chain_head n f bb.
Proof.
  induction n as [|n IH]; intros bb; cbn [find_chain_head]; [reflexivity|]. unfold get_block. pose proof (SB bb) as K. destruct (f_block f bb) as [x|], (f_block h bb) as [y|]; try contradiction; [|reflexivity]. cbn [bind].
  destruct K as (_ & -> & _). rewrite ag_scan. destruct (scan_preds f bb (b_preds x) None) as [[[p|]|]| | | |]; try reflexivity. cbn [bind]. apply IH.
Qed.
Lemma ag_walk : forall n bb acc todo, walk n h bb acc todo = walk n f bb acc todo.
Proof.
  induction n as [|n IH]; intros bb acc todo; cbn [walk]; [reflexivity|]. unfold get_block. pose proof (SB bb) as K. destruct (f_block f bb) as [x|], (f_block h bb) as [y|]; try contradiction; [|reflexivity]. cbn [bind].
  destruct K as (-> & _ & J). destruct (b_succs x) as [|a [|b [|]]]; try reflexivity; [|apply IH].
  destruct (last_of h y) as [o'| | | |], (last_of f x) as [o| | | |]; try (destruct o' as [?|]; discriminate J); try (destruct o as [?|]; discriminate J); try reflexivity; try discriminate J. cbn [bind].
  pose proof (jv_ends _ _ J) as K. destruct o' as [y'|], o as [x'|]; cbn in K.
  - rewrite K. destruct (iop_eqb (i_op x') JA) eqn:Q; [|apply IH]. assert (O : forall o, iop_eqb o JA = true -> is_jmp_op o = true) by (intros o; destruct o; cbn; intros H; try discriminate H; reflexivity).
    cbn in J. rewrite (O _ K), (O _ Q) in J. injection J as _ -> _. reflexivity.
  - rewrite K. apply IH.
  - rewrite <- K. apply IH.
  - apply IH.
Qed.
Lemma ag_reach : forall n acc todo, add_reach n h acc todo = add_reach n f acc todo.
Proof.
  induction n as [|n IH]; intros acc todo; cbn [add_reach]; [reflexivity|]. destruct todo as [|bb r]; [reflexivity|]. destruct (existsb (Nat.eqb bb) acc); [apply IH|].
  rewrite ag_head. destruct (find_chain_head (Datatypes.S n) f bb) as [[p|]| | | |]; try reflexivity. cbn [bind]. destruct (existsb (Nat.eqb p) acc); [reflexivity|]. rewrite ag_walk.
  destruct (walk (Datatypes.S n) f p acc r) as [w| | | |]; try reflexivity. cbn [bind]. apply IH.
Qed.
Lemma ag_end : forall l, gen_end h l = gen_end f l.
Proof.
  induction l as [|b l IH]; cbn [gen_end]; [reflexivity|]. unfold get_block. pose proof (SB b) as K. destruct (f_block f b) as [x|], (f_block h b) as [y|]; try contradiction; [|reflexivity]. cbn [bind]. destruct K as (-> & _). rewrite IH. reflexivity.
Qed.
End Again.
Theorem laid_pruned k f h L e : tidy f -> tidy h -> pruned f h -> laid k f L e -> laid k h L e.
Proof.
  intros TF TH P [A B C D E F].
  assert (AF : forall b i, In i (insns_of f b) -> f_insn f i <> None) by (intros b i I; destruct (td_linked _ TF b i I) as (x & -> & _); discriminate).
  assert (AH : forall b i, In i (insns_of h b) -> f_insn h i <> None) by (intros b i I; destruct (td_linked _ TH b i I) as (x & -> & _); discriminate).
  assert (FH : forall b l1 i l2 x, insns_of h b = l1 ++ i :: l2 -> f_insn h i = Some x -> is_jmp_op (i_op x) = true -> l2 = []).
  { intros b l1 i l2 y El Y J. destruct (pr_list _ _ P b) as (kk & Ek). rewrite Ek in El. apply filter_tail in El as (r1 & r2 & El & <-). destruct (pr_insn _ _ P i y Y) as (x & X & T). rewrite (th_op _ _ T) in J. now rewrite (F b r1 i r2 x El X J). }
  assert (TM : forall b y, terminator h b y -> is_jmp_op (i_op y) = true -> exists x, terminator f b x /\ thin x y).
  { intros b y (l & i & El & Y) J. destruct (pr_insn _ _ P i y Y) as (x & X & T). exists x. split; [|exact T]. assert (I : In i (insns_of f b)) by (apply (pr_in f h P); rewrite El; apply in_or_app; right; now left).
    apply in_split in I as (r1 & r2 & Er). rewrite (th_op _ _ T) in J. pose proof (F b r1 i r2 x Er X J) as ->. exists r1, i. auto. }
  assert (SB : forall b, match f_block f b, f_block h b with Some x, Some y => b_succs y = b_succs x /\ b_preds y = b_preds x /\ jview (last_of h y) = jview (last_of f x) | None, None => True | _, _ => False end).
  { intros b. pose proof (pr_blocks _ _ P b) as Q. pose proof (pr_succs _ _ P b) as QS. pose proof (pr_preds _ _ P b) as QP. unfold succs_of in QS. unfold preds_of in QP.
    destruct (f_block f b) as [x|] eqn:X, (f_block h b) as [y|] eqn:Y; auto; [|discriminate (proj1 Q eq_refl)|discriminate (proj2 Q eq_refl)]. split; [exact QS|]. split; [exact QP|].
    destruct (last_cases f b x X (AF b)) as [(Ef & ->)|(l & i & z & Ef & Z & ->)], (last_cases h b y Y (AH b)) as [(Eh & ->)|(l' & i' & z' & Eh & Z' & ->)]; cbn; auto.
    - exfalso. assert (I : In i' (insns_of f b)) by (apply (pr_in f h P); rewrite Eh; apply in_or_app; right; now left). rewrite Ef in I. destruct I.
    - destruct (is_jmp_op (i_op z)) eqn:J; [|reflexivity]. exfalso. destruct (pr_jumps f h P b i z) as (I & _); [rewrite Ef; apply in_or_app; right; now left|exact Z|exact J|]. rewrite Eh in I. destruct I.
    - destruct (is_jmp_op (i_op z)) eqn:J.
      + destruct (pr_jumps f h P b i z) as (I & z2 & Z2 & T); [rewrite Ef; apply in_or_app; right; now left|exact Z|exact J|]. apply in_split in I as (r1 & r2 & Er).
        assert (J2 : is_jmp_op (i_op z2) = true) by now rewrite (th_op _ _ T). pose proof (FH b r1 i r2 z2 Er Z2 J2) as ->. rewrite Eh in Er. apply app_inj_tail in Er as (_ & ->). rewrite Z' in Z2. injection Z2 as ->. rewrite J2, (th_op _ _ T). destruct (th_bb _ _ T) as (-> & ->). reflexivity.
      + destruct (is_jmp_op (i_op z')) eqn:J'; [|reflexivity]. exfalso. destruct (TM b z') as (x0 & (r1 & i0 & Er & X0) & T); [now exists l', i'|exact J'|]. rewrite Ef in Er. apply app_inj_tail in Er as (_ & <-). rewrite Z in X0. injection X0 as ->. rewrite (th_op _ _ T) in J'. congruence. }
  constructor.
  - unfold gen_reachable in *. now rewrite (ag_reach f h SB), (pr_entry _ _ P).
  - now rewrite (ag_end f h SB).
  - intros b I N. destruct (pr_count _ _ P) as (_ & _ & CA). rewrite CA in I. apply (C b I). now apply (pr_blocks _ _ P).
  - intros b y T J. assert (JJ : is_jmp_op (i_op y) = true) by (destruct (i_op y); try discriminate J; reflexivity). destruct (TM b y T JJ) as (x & X & Th). rewrite (pr_succs _ _ P). destruct (th_bb _ _ Th) as (-> & ->). apply D; [exact X|]. now rewrite <- (th_op _ _ Th).
  - intros b y T J. assert (JJ : is_jmp_op (i_op y) = true) by now rewrite J. destruct (TM b y T JJ) as (x & X & Th). rewrite (pr_succs _ _ P). destruct (th_bb _ _ Th) as (-> & _). apply E; [exact X|]. now rewrite <- (th_op _ _ Th).
  - exact FH.
Qed.
Lemma laid_skin k f h L e : skin f h -> laid k f L e -> laid k h L e.
Proof.
  intros S [A B C D E F]. assert (TM : forall b y, terminator h b y -> exists x, terminator f b x /\ sk x y).
  { intros b y (l & i & El & Y). rewrite (sn_insns _ _ S) in El. destruct (sn_get _ _ S i y Y) as (x & X & K). exists x. split; [now exists l, i|exact K]. }
  constructor.
  - unfold gen_reachable in *. now rewrite (sn_reach _ _ S), (sn_entry _ _ S).
  - now rewrite (sn_gend _ _ S).
  - intros b I. rewrite (sn_all _ _ S) in I. rewrite (sn_block _ _ S). now apply C.
  - intros b y T J. destruct (TM b y T) as (x & X & K). pose proof (sk_keeps _ _ K) as (K1 & _ & K2 & K3 & _). rewrite (sn_succs _ _ S), K2, K3. apply D; [exact X|congruence].
  - intros b y T J. destruct (TM b y T) as (x & X & K). pose proof (sk_keeps _ _ K) as (K1 & _ & K2 & _). rewrite (sn_succs _ _ S), K2. apply E; [exact X|congruence].
  - intros b l1 i l2 y El Y J. rewrite (sn_insns _ _ S) in El. destruct (sn_get _ _ S i y Y) as (x & X & K). rewrite (proj1 (sk_keeps _ _ K)) in J. exact (F b l1 i l2 x El X J).
Qed.
(** It succeeds, gives the same order, and changes nothing. *)
Lemma skin_refl f : skin f f.
Proof. constructor; auto. intros i. destruct (f_insn f i); [constructor|exact I]. Qed.
Theorem laid_layout k f L e : linked_ok f -> laid k f L e -> exists g, layout k f = Ok (g, (L, e)) /\ skin f g /\ f_insn g = f_insn f.
Proof.
  intros TF [A B C D E F].
  assert (AF : forall b i, In i (insns_of f b) -> f_insn f i <> None) by (intros b i I; destruct (TF b i I) as (x & -> & _); discriminate).
  assert (Q : forall l g, (forall b, In b l -> f_block f b <> None) -> skin f g -> f_insn g = f_insn f -> exists g', ofold fix_succs g l = Ok g').
  { induction l as [|b l IH]; intros g Al S EI; cbn [ofold]; [eauto|].
    assert (K : exists g1, fix_succs g b = Ok g1).
    { unfold fix_succs. rewrite (sn_getb f g S). unfold get_block. destruct (f_block f b) as [x|] eqn:X; [|destruct (Al b (or_introl eq_refl) X)]. cbn [bind].
      assert (LO : last_of g x = last_of f x) by (unfold last_of, get_insn; now rewrite EI). rewrite LO. assert (SX : succs_of f b = b_succs x) by (unfold succs_of; now rewrite X).
      destruct (last_cases f b x X (AF b)) as [(Ef & ->)|(r & i & y & Ef & Y & ->)]; cbn [bind]; [eauto|]. assert (T : terminator f b y) by now exists r, i.
      destruct (is_cond_jmp_op (i_op y)) eqn:J; [rewrite <- SX, (D b y T J); cbn; eauto|]. destruct (iop_eqb (i_op y) JA) eqn:Ja; [|eauto]. rewrite <- SX, (E b y T); [cbn; eauto|]. destruct (i_op y); try discriminate Ja; reflexivity. }
    destruct K as (g1 & K). rewrite K. cbn [bind]. destruct (same_fix f g b g1 S EI (D b) (E b) K) as (S1 & I1). apply IH; auto. intros c I. apply Al. now right. }
  destruct (Q (f_all f) f C (skin_refl f) eq_refl) as (g & Eg). destruct (same_fixes f D E _ _ _ (skin_refl f) eq_refl Eg) as (S & SI).
  exists g. split; [|auto]. unfold layout, gen_bb_succ. rewrite Eg. cbn [bind]. unfold gen_reachable in *. rewrite (sn_reach _ _ S), (sn_entry _ _ S), A. cbn [bind]. rewrite (sn_gend _ _ S), B. reflexivity.
Qed.
