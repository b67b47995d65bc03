(** One round of register allocation: the analyses and the choice of values to spill leave the frame
    pointer's data alone. *)
From Coq Require Import ZArith List Bool Arith Lia Permutation.
From Verif Require Import M_Base M_Ir M_Edit M_Ra SpecIr SpecRa SpecVirt L_Edit L_RaGraph L_RaLive L_RaMain L_RaProp L_Frame L_VirtSame.
From Verif Require Import SpecRa SpecVirt.
Import ListNotations.
Open Scope nat_scope.

Lemma index_in i : forall l k, index_of i l = Some k -> In i l.
Proof. induction l as [|a r IH]; intros k H; cbn [index_of] in H; [discriminate|]. destruct (Nat.eqb_spec a i) as [->|]; [now left|]. destruct (index_of i r) eqn:E; [|discriminate]. right. exact (IH _ eq_refl). Qed.

Section Aside.
Context (d : nat).
(** [d] is neither an assignable register nor in a block, and its place is fixed *)
Definition aside (s : cgs) : Prop :=
  ~ In d (c_regs s) /\ (forall b, ~ In d (insns_of (c_f s) b)) /\ exists e, c_ex s d = Some e /\ vp_alloc (x_pos e) = true.
Definition keeps (s t : cgs) : Prop :=
  c_f t = c_f s /\ c_regs t = c_regs s /\ c_ex t d = c_ex s d /\ (In d (c_all t) -> In d (c_all s)).
Lemma ke_refl s : keeps s s. Proof. repeat split; auto. Qed.
Lemma ke_trans s t u : keeps s t -> keeps t u -> keeps s u.
Proof. intros (A & B & C & E) (A' & B' & C' & E'). repeat split; try congruence. auto. Qed.
Lemma ke_aside s t : keeps s t -> aside s -> aside t.
Proof. intros (A & B & C & _) (X & Y & Z). unfold aside. rewrite A, B, C. auto. Qed.
Lemma ke_put s i e : i <> d -> keeps s (put_ex s i e).
Proof. intros N. repeat split; auto. cbn. unfold upd. destruct (Nat.eqb_spec d i); [congruence|reflexivity]. Qed.
Lemma ke_ofold {A} (g : cgs -> A -> outcome cgs) : forall l, (forall s a t, In a l -> aside s -> g s a = Ok t -> keeps s t) ->
  forall s t, aside s -> ofold g s l = Ok t -> keeps s t.
Proof.
  induction l as [|a r IH]; intros G s t As H; cbn [ofold] in H; [oks H; apply ke_refl|]. bo H s1 E.
  pose proof (G _ _ _ (or_introl eq_refl) As E) as K. exact (ke_trans _ _ _ K (IH (fun s a t I => G s a t (or_intror I)) _ _ (ke_aside _ _ K As) H)).
Qed.
Lemma ke_ofold2 {A B} (g : cgs * B -> A -> outcome (cgs * B)) : forall l, (forall s a t, In a l -> aside (fst s) -> g s a = Ok t -> keeps (fst s) (fst t)) ->
  forall s t, aside (fst s) -> ofold g s l = Ok t -> keeps (fst s) (fst t).
Proof.
  induction l as [|a r IH]; intros G s t As H; cbn [ofold] in H; [oks H; apply ke_refl|]. bo H s1 E.
  pose proof (G _ _ _ (or_introl eq_refl) As E) as K. exact (ke_trans _ _ _ K (IH (fun s a t I => G s a t (or_intror I)) _ _ (ke_aside _ _ K As) H)).
Qed.
Lemma block_in s b k i : get_block (c_f s) b = Ok k -> In i (b_insns k) -> In i (insns_of (c_f s) b).
Proof. unfold get_block, insns_of. destruct (f_block (c_f s) b); [intros Q; injection Q as <-; auto|discriminate]. Qed.
Lemma aside_in s b k i : aside s -> get_block (c_f s) b = Ok k -> In i (b_insns k) -> i <> d.
Proof. intros (_ & N & _) B I ->. exact (N b (block_in _ _ _ _ B I)). Qed.

Lemma ke_node s v r : aside s -> node s v = Ok (Some r) -> r <> d.
Proof.
  intros (Nr & _ & e0 & E0 & A0) H. unfold node in H. bo H e E. apply get_ex_ok in E. destruct (_ && _); [discriminate H|]. destruct (vp_alloc (x_pos e)) eqn:A.
  - destruct (negb (x_fin e)); [discriminate H|]. destruct (negb _); [discriminate H|]. bo H q Q. oks H. unfold reg_node in Q. destruct (_ <? _)%Z; [discriminate Q|].
    destruct (nth_error _ _) eqn:K; [|discriminate Q]. oks Q. apply nth_error_In in K. congruence.
  - oks H. intros ->. congruence.
Qed.
Lemma ke_adj s a b t : a <> d -> add_adj s a b = Ok t -> keeps s t.
Proof. unfold add_adj. intros N H. bo H e E. oks H. now apply ke_put. Qed.
Lemma ke_conf s a b t : aside s -> make_conflict s a b = Ok t -> keeps s t.
Proof.
  unfold make_conflict. intros As H. destruct (a =? b); [discriminate H|]. bo H r1 E1. destruct r1 as [r1|]; [|oks H; apply ke_refl]. bo H r2 E2.
  destruct r2 as [r2|]; [|oks H; apply ke_refl]. bo H s1 E. exact (ke_trans _ _ _ (ke_adj _ _ _ _ (ke_node _ _ _ As E1) E) (ke_adj _ _ _ _ (ke_node _ _ _ As E2) H)).
Qed.
Lemma ke_in s i v t : i <> d -> add_in s i v = Ok t -> keeps s t.
Proof. unfold add_in. intros N H. bo H e E. oks H. now apply ke_put. Qed.
Lemma ke_out s i v t : i <> d -> add_out s i v = Ok t -> keeps s t.
Proof. unfold add_out. intros N H. bo H e E. oks H. now apply ke_put. Qed.
Lemma ke_walk v : forall l s t, (forall i, In i l -> i <> d) -> aside s -> walk_out s v l = Ok t -> keeps s (fst t).
Proof.
  induction l as [|i r IH]; intros s t N As H; cbn [walk_out] in H; [oks H; apply ke_refl|]. bo H s1 E1. pose proof (N i (or_introl eq_refl)) as Ni. apply (ke_out _ _ _ _ Ni) in E1. bo H e E.
  pose proof (ke_aside _ _ E1 As) as A1. destruct (x_dst e) as [z|].
  - destruct (z =? v); [oks H; exact E1|]. bo H s2 E2. bo H s3 E3. apply (ke_conf _ _ _ _ A1) in E2. apply (ke_in _ _ _ _ Ni) in E3. pose proof (ke_trans _ _ _ E1 (ke_trans _ _ _ E2 E3)) as K.
    exact (ke_trans _ _ _ K (IH _ _ (fun j I => N j (or_intror I)) (ke_aside _ _ K As) H)).
  - bo H s3 E3. apply (ke_in _ _ _ _ Ni) in E3. pose proof (ke_trans _ _ _ E1 E3) as K. exact (ke_trans _ _ _ K (IH _ _ (fun j I => N j (or_intror I)) (ke_aside _ _ K As) H)).
Qed.
Lemma ke_block v : forall fuel s n t, aside (fst s) -> live_out_block fuel v s n = Ok t -> keeps (fst s) (fst t).
Proof.
  induction fuel as [|k IH]; intros s n t As H; cbn [live_out_block] in H; [discriminate H|]. destruct s as [s M]. cbn [fst] in *. destruct (M_Ra.mem n M); [oks H; apply ke_refl|].
  bo H b B. bo H r R. apply ke_walk in R; [|intros i I; apply in_rev in I; exact (aside_in _ _ _ _ As B I)|exact As]. destruct (snd r).
  - eapply ke_trans; [exact R|]. change (fst r) with (fst (fst r, n :: M)). refine (ke_ofold2 _ _ _ _ _ _ H); [|exact (ke_aside _ _ R As)]. intros s1 a t1 _. apply IH.
  - oks H. exact R.
Qed.
Lemma ke_user fuel v s u t : aside (fst s) -> live_user fuel v s u = Ok t -> keeps (fst s) (fst t).
Proof.
  unfold live_user. intros As H. bo H x X. destruct (iop_eqb (i_op x) PHI).
  - destruct (phi_uses v x) as [|a l]; [discriminate H|]. refine (ke_ofold2 _ _ _ _ _ As H). intros s1 b t1 _. apply ke_block.
  - unfold live_in_stmt in H. destruct s as [s M]. cbn [fst] in *. bo H y Y. bo H b B. bo H s1 E1. destruct (index_of u (b_insns b)) as [k|] eqn:Ix; [|discriminate H].
    assert (Nu : u <> d) by (apply (aside_in _ _ _ _ As B); exact (index_in _ _ _ Ix)). apply (ke_in _ _ _ _ Nu) in E1.
    bo H r R. apply ke_walk in R; [|intros i I; apply in_rev in I; apply (aside_in _ _ _ _ As B); rewrite <- (firstn_skipn k (b_insns b)); apply in_or_app; now left|exact (ke_aside _ _ E1 As)].
    pose proof (ke_trans _ _ _ E1 R) as K. destruct (snd r).
    + eapply ke_trans; [exact K|]. change (fst r) with (fst (fst r, M)). refine (ke_ofold2 _ _ _ _ _ (ke_aside _ _ K As : aside (fst (fst r, M))) H). intros s2 a t1 _. apply ke_block.
    + oks H. exact K.
Qed.
Lemma ke_var fuel s v t : v <> d -> aside s -> live_var fuel s v = Ok t -> keeps s t.
Proof.
  unfold live_var. intros Nv As H. bo H e E. destruct (x_dst e) as [z|]; [|oks H; apply ke_refl]. destruct (x_fin e); [oks H; apply ke_refl|].
  destruct (negb (z =? v)); [discriminate H|]. bo H x X. bo H r R. oks H.
  assert (K : keeps s (with_all (ins v (c_all s)) s)). { repeat split; auto. cbn. unfold ins. destruct (M_Ra.mem v (c_all s)); [auto|]. intros I. apply in_app_or in I as [I|[I|[]]]; [exact I|congruence]. }
  eapply ke_trans; [exact K|]. change (with_all (ins v (c_all s)) s) with (fst (with_all (ins v (c_all s)) s, @nil nat)). refine (ke_ofold2 _ _ _ _ _ _ R); [|exact (ke_aside _ _ K As)]. intros s1 a t1 _. apply ke_user.
Qed.
Lemma ins_in s l : forall bs, insns_in (c_f s) bs = Ok l -> forall i, In i l -> exists b, In i (insns_of (c_f s) b).
Proof.
  intros bs. revert l. induction bs as [|b r IH]; intros l H i I; cbn [insns_in] in H; [oks H; destruct I|]. bo H x X. bo H t T. oks H. apply in_app_or in I as [I|I]; [exists b; exact (block_in _ _ _ _ X I)|exact (IH _ T i I)].
Qed.
Lemma aside_ins s l bs i : aside s -> insns_in (c_f s) bs = Ok l -> In i l -> i <> d.
Proof. intros (_ & N & _) H I ->. destruct (ins_in _ _ _ H _ I) as (b & K). exact (N b K). Qed.
Lemma ke_clean1 s i t : i <> d -> clean_one s i = Ok t -> keeps s t.
Proof. unfold clean_one. intros N H. destruct (c_ex s i) as [e|] eqn:E; [|discriminate H]. oks H. now apply ke_put. Qed.
Lemma ke_clean s t : aside s -> clean s = Ok t -> c_f t = c_f s /\ c_regs t = c_regs s /\ c_ex t d = c_ex s d /\ ~ In d (c_all t).
Proof.
  intros As H. unfold clean in H. bo H s1 E. bo H l L.
  assert (K0 : keeps (with_all [] s) s1).
  { refine (ke_ofold _ _ _ _ _ _ E); [|exact As]. intros s2 a t2 I As2 H2. assert (Na : a <> d) by (intros ->; exact (proj1 As I)). apply (ke_clean1 _ _ _ Na) in H2. eapply ke_trans; [|exact H2].
    repeat split; auto. cbn. unfold ins. destruct (M_Ra.mem a (c_all s2)); [auto|]. intros J. apply in_app_or in J as [J|[J|[]]]; [exact J|congruence]. }
  assert (A1 : aside s1) by exact (ke_aside _ _ K0 As).
  assert (K1 : keeps s1 t). { refine (ke_ofold _ _ _ _ _ A1 H). intros s2 a t2 I As2 H2. apply (ke_clean1 _ _ _ (aside_ins _ _ _ _ A1 L I) H2). }
  destruct (ke_trans _ _ _ K0 K1) as (A & B & C & D). repeat split; auto.
Qed.
Lemma ke_phi v : forall fuel s n t, aside s -> phi_conflict fuel v s n = Ok t -> keeps s t.
Proof.
  induction fuel as [|k IH]; intros s n t As H; cbn [phi_conflict] in H; [discriminate H|]. bo H b B. destruct (rev (b_insns b)) as [|z l].
  - refine (ke_ofold _ _ _ _ _ As H). intros s1 a t1 _. apply IH.
  - bo H x X. bo H e E. refine (ke_ofold _ _ _ _ _ As H). clear. intros s a t _ As H. destruct (a =? v); [oks H; apply ke_refl|]. exact (ke_conf _ _ _ _ As H).
Qed.
Lemma ke_conflict1 fuel s i t : aside s -> conflict_one fuel s i = Ok t -> keeps s t.
Proof.
  unfold conflict_one. intros As H. bo H x X. bo H s1 E1. bo H s2 E2.
  assert (K1 : keeps s s1).
  { destruct (iop_eqb (i_op x) PHI); [|oks E1; apply ke_refl]. refine (ke_ofold _ _ _ _ _ As E1). intros s3 a t1 _. apply ke_phi. }
  pose proof (ke_aside _ _ K1 As) as A1.
  assert (K2 : keeps s1 s2).
  { destruct (iop_eqb (i_op x) CALL); [|oks E2; apply ke_refl]. bo E2 e E. refine (ke_ofold _ _ _ _ _ A1 E2). clear. intros s v t _ As H. destruct (M_Ra.mem v (x_out e)); [|oks H; apply ke_refl].
    unfold caller_constraint in H. refine (ke_ofold _ _ _ _ _ As H). clear. intros s k t _ As H. bo H r R. exact (ke_conf _ _ _ _ As H). }
  pose proof (ke_trans _ _ _ K1 K2) as K. destruct (is_bin_alu_op (i_op x)); [|oks H; exact K].
  destruct (nth_error (i_vals x) 1) as [v|]; [|discriminate H]. destruct (val_target v); [|oks H; exact K]. exact (ke_trans _ _ _ K (ke_conf _ _ _ _ (ke_aside _ _ K As) H)).
Qed.
Lemma ke_analysis fuel s t : aside s -> analysis fuel s = Ok t -> c_ex t d = c_ex s d /\ ~ In d (c_all t).
Proof.
  unfold analysis, liveness, conflicts. intros As H. bo H s1 E1. apply (ke_clean _ _ As) in E1 as (C1 & C2 & C3 & C4).
  assert (A1 : aside s1). { unfold aside. rewrite C1, C2, C3. exact As. }
  bo H s2 E2. bo E2 l L. assert (K2 : keeps s1 s2). { refine (ke_ofold _ _ _ _ _ A1 E2). intros s3 a t1 I As3. apply ke_var; [exact (aside_ins _ _ _ _ A1 L I)|exact As3]. }
  pose proof (ke_aside _ _ K2 A1) as A2. bo H s3 E3. assert (K3 : keeps s2 s3). { refine (ke_ofold _ _ _ _ _ A2 E3). intros s4 a t1 _. apply ke_conf. }
  pose proof (ke_aside _ _ K3 A2) as A3. bo H l' L'. assert (K4 : keeps s3 t). { refine (ke_ofold _ _ _ _ _ A3 H). intros s4 a t1 _. apply ke_conflict1. }
  destruct (ke_trans _ _ _ K2 (ke_trans _ _ _ K3 K4)) as (_ & _ & K5 & K6). split; [congruence|auto].
Qed.
Lemma ke_mcs om : forall n s l t, ~ In d l -> mcs_loop om n s l = Ok t -> c_ex t d = c_ex s d.
Proof.
  induction n as [|k IH]; intros s l t Nd H; cbn [mcs_loop] in H; [oks H; reflexivity|]. bo H m M. destruct m as [v|]; [|discriminate H]. bo H e E. bo H s2 E2.
  rewrite (IH _ _ _ (fun I => Nd (proj1 (proj1 (filter_In _ _ _) I))) H). change (c_ex s d) with (c_ex (with_seo (c_seo s ++ [v]) s) d). revert E2. generalize (with_seo (c_seo s ++ [v]) s). generalize (x_adj e). clear - Nd.
  induction l0 as [|a r IH]; intros c H; cbn [ofold] in H; [oks H; reflexivity|]. bo H s1 E. rewrite (IH _ H). unfold bump in E. destruct (M_Ra.mem a l) eqn:Ma; [|oks E; reflexivity]. bo E e E1. oks E. cbn. unfold upd.
  destruct (Nat.eqb_spec d a) as [<-|]; [|reflexivity]. exfalso. apply Nd. now apply mem_In in Ma.
Qed.
Lemma ke_incw s v t : v <> d -> inc_w s v = Ok t -> c_ex t d = c_ex s d.
Proof. unfold inc_w. intros N H. bo H e E. oks H. cbn. unfold upd. destruct (Nat.eqb_spec d v); [congruence|reflexivity]. Qed.
Lemma ke_cliques : forall l earlier s t, ~ In d l -> ~ In d earlier -> cliques earlier s l = Ok t -> c_ex (fst t) d = c_ex s d.
Proof.
  induction l as [|v r IH]; intros earlier s t Nl Ne H; cbn [cliques] in H; [oks H; reflexivity|]. bo H q Q. bo H t' T. oks H. cbn [fst].
  assert (Nv : v <> d) by (intros ->; apply Nl; now left).
  assert (Na : ~ In d (earlier ++ [v])) by (intros I; apply in_app_or in I as [I|[I|[]]]; [exact (Ne I)|exact (Nv I)]).
  rewrite (IH _ _ _ (fun I => Nl (or_intror I)) Na T).
  unfold clique_of in Q. bo Q s1 E1. bo Q e E. apply (ke_incw _ _ _ Nv) in E1. rewrite <- E1. change s1 with (fst (s1, [v])). revert Q. generalize (s1, [v]). generalize (x_adj e). clear - Ne.
  induction l as [|a r IH]; intros c H; cbn [ofold] in H; [oks H; reflexivity|]. bo H s1 E. rewrite (IH _ H). destruct (M_Ra.mem a earlier) eqn:Ma; [|oks E; reflexivity]. bo E s2 E2. oks E. cbn [fst].
  assert (Nv : a <> d) by (intros ->; apply Ne; now apply mem_In in Ma). exact (ke_incw _ _ _ Nv E2).
Qed.
Lemma ke_pre fuel om os s t x : ~ In d (c_all s) -> (forall u, mcs om s = Ok u -> ~ In d (c_seo u)) -> pre_spill fuel om os s = Ok (t, x) -> c_ex t d = c_ex s d.
Proof.
  unfold pre_spill. intros Na Ns H. bo H s1 E1. bo H q Q. bo H r R. oks H. rewrite (ke_cliques _ [] _ _ (Ns s1 E1) (fun I : False => I) Q). unfold mcs in E1. exact (ke_mcs _ _ _ _ _ Na E1).
Qed.
End Aside.
