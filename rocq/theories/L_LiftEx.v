(** Phi and call structure of lifted functions, checkers and witnesses. *)
From Coq Require Import ZArith List Bool Arith Lia.
From Verif Require Import M_Base M_Ir M_Edit SpecWord SpecIsa SpecIr SpecEdit SpecSsa SpecCfg SpecLift SpecLiftOne SpecGuard L_Guard L_Word M_GenBB M_Lift
  L_Edit L_GenBB L_GenBBEx L_Lift L_LiftRead L_LiftFill L_LiftDfs L_LiftSim L_LiftRun L_LiftMain L_LiftSafe L_LiftTerm L_LiftAcc L_LiftProp.
Import ListNotations.
Open Scope nat_scope.

(** ** Phis and calls *)
Section Ph.
Variables (p : list bpf_insn) (m n : nat) (f : func).
Hypothesis W : wf_prog p.
Hypothesis Len : (Z.of_nat (length p) <= 32768)%Z.
Hypothesis No0 : ~ jump_target p 0.
Hypothesis Ra : all_reach p.
Hypothesis Hl : lift m n p = Ok f.

Lemma complete_snd s pb r l : complete s pb r l -> map snd l = map S (pb_preds pb).
Proof.
  unfold complete. induction 1 as [|a q l ps [A _] F IH]; [reflexivity|]. cbn [map]. now rewrite A, IH.
Qed.

Lemma lift_phis b : f_block f b <> None -> exists phs ids, insns_of f b = phs ++ ids /\
  (forall i, In i phs -> exists x, f_insn f i = Some x /\ i_op x = PHI /\ map snd (i_phi x) = preds_of f b) /\
  (forall i, In i ids -> ~ is_phi f i) /\ (length (preds_of f b) <= 1 -> phs = []).
Proof.
  intros Nb. destruct (gen_bb_ok p W Len No0) as (bs & Hg & Hbo & Heo).
  assert (Hl' := Hl). unfold lift in Hl'. rewrite Hg in Hl'. cbn [bind] in Hl'.
  destruct (lift_blocks m n bs) as [s| | | |] eqn:Lb; try discriminate. injection Hl' as <-.
  destruct (main_filled p W No0 bs Hbo Heo m n s Ra Lb) as (e & dn & I & F & Sl).
  destruct (lift_finv p W Len No0 m n (l_f s) Hl) as (bs' & Hg' & _ & _ & Fi). rewrite Hg in Hg'. injection Hg' as <-.
  pose proof (fi_blk bs _ Fi b) as K. destruct (blk bs b) as [pb|] eqn:B; [|contradiction].
  destruct (iv_blk _ _ _ _ _ I _ _ B) as (phs & ids & mm & H). exists phs, ids.
  assert (Ei : insns_of (l_f s) b = phs ++ ids) by (unfold insns_of; now rewrite (bi_blk _ _ _ _ _ _ _ _ _ H)).
  assert (Ep : preds_of (l_f s) b = map S (pb_preds pb)) by (unfold preds_of; now rewrite (bi_blk _ _ _ _ _ _ _ _ _ H)).
  assert (E1 : b = 1 -> phs = []).
  { intros ->. destruct phs as [|i phs]; [reflexivity|]. exfalso.
    destruct (bi_phs _ _ _ _ _ _ _ _ _ H i (or_introl eq_refl)) as (x & r & _ & _ & _ & _ & E).
    rewrite (iv_e1 _ _ _ _ _ I) in E. destruct ((1 <=? r) && (r <=? 5))%Z eqn:G; [|discriminate].
    assert (7 <= i) by (apply (bi_ge _ _ _ _ _ _ _ _ _ H); now left).
    assert (E' : arg_id r = i) by (injection E; auto). unfold arg_id in E'.
    apply andb_prop in G as [G1 G2]. apply Z.leb_le in G1, G2. lia. }
  split; [exact Ei|]. split; [|split].
  - intros i Hi. destruct (bi_phs _ _ _ _ _ _ _ _ _ H i Hi) as (x & r & Ex & O & Pa & Rk & Er). exists x. split; [exact Ex|]. split; [exact O|].
    assert (N1 : b <> 1) by (intros E; rewrite (E1 E) in Hi; destruct Hi).
    destruct (iv_ent _ _ _ _ _ I b pb r _ B N1 Er) as (_ & G).
    destruct (single pb) eqn:Si; [rewrite (bi_single _ _ _ _ _ _ _ _ _ H) in Hi by congruence; destruct Hi|].
    destruct G as (i' & Ei' & x' & k & Ex' & _ & _ & _ & _ & [[]|G]). injection Ei' as <-. rewrite Ex in Ex'. injection Ex' as <-.
    rewrite (Sl b pb B) in G. rewrite Ep. eapply complete_snd; eauto.
  - intros i Hi (x & Ex & O). destruct (bi_ids _ _ _ _ _ _ _ _ _ H i Hi) as (x' & Ex' & O' & _). congruence.
  - rewrite Ep, map_length. intros L. destruct (Nat.eq_dec b 1) as [E|N1]; [auto|].
    apply (bi_single _ _ _ _ _ _ _ _ _ H). unfold single. destruct (pb_preds pb) as [|q [|? ?]] eqn:Eq; [|discriminate|cbn in L; lia].
    exfalso. destruct (main_reach p W bs Hbo Heo Ra b pb B) as [k P]. destruct P as [|k b0 pb0 c P B0 C]; [congruence|].
    destruct (edge_sym p bs Heo _ _ _ _ B0 B C) as (b1 & -> & Hp). rewrite Eq in Hp. destruct Hp.
Qed.

Lemma lift_calls b i x k : In i (insns_of f b) -> f_insn f i = Some x -> i_op x = CALL -> i_u x <> 6%Z ->
  nth_error helper_args (Z.to_nat (i_u x)) = Some k -> (0 <= k)%Z -> Z.of_nat (length (i_vals x)) = k.
Proof.
  intros Hi Ex O N6 Ek Kp. destruct (gen_bb_ok p W Len No0) as (bs & Hg & Hbo & Heo).
  assert (Hl' := Hl). unfold lift in Hl'. rewrite Hg in Hl'. cbn [bind] in Hl'.
  destruct (lift_blocks m n bs) as [s| | | |] eqn:Lb; try discriminate. injection Hl' as <-.
  destruct (main_filled p W No0 bs Hbo Heo m n s Ra Lb) as (e & dn & I & F & Sl).
  destruct (lift_finv p W Len No0 m n (l_f s) Hl) as (bs' & Hg' & _ & _ & Fi). rewrite Hg in Hg'. injection Hg' as <-.
  pose proof (fi_blk bs _ Fi b) as K. destruct (blk bs b) as [pb|] eqn:B; [|unfold insns_of in Hi; rewrite K in Hi; destruct Hi].
  destruct (iv_blk _ _ _ _ _ I _ _ B) as (phs & ids & mm & H).
  unfold insns_of in Hi. rewrite (bi_blk _ _ _ _ _ _ _ _ _ H) in Hi. cbn [b_insns] in Hi. apply in_app_or in Hi as [Hi|Hi].
  { destruct (bi_phs _ _ _ _ _ _ _ _ _ H i Hi) as (x' & r & Ex' & O' & _). congruence. }
  pose proof (bi_lifts _ _ _ _ _ _ _ _ _ H) as L. clear - L Hi Ex O N6 Ek Kp.
  induction L as [|m0 pi l i1 i2 m1 m' H1 H2 IH]; [destruct Hi|]. apply in_app_or in Hi as [Hi|Hi]; [|auto].
  assert (Lk : forall j y, like (l_f s) j y -> j = i -> i_op y = CALL /\ i_u y = i_u x /\ i_vals y = i_vals x).
  { intros j y (z & Ez & Sz) ->. rewrite Ex in Ez. injection Ez as <-. pose proof (sim_op _ _ Sz). split; [congruence|].
    split; [apply (f_equal i_u) in Sz; cbn in Sz; congruence | apply (f_equal i_vals) in Sz; cbn in Sz; congruence]. }
  inversion H1; subst; try contradiction; (destruct Hi as [Hi|Hi]; [subst | now destruct Hi]);
    match goal with Q : like _ i ?y |- _ => destruct (Lk i y Q eq_refl) as (Q1 & Q2 & Q3); cbn in Q1, Q2, Q3 end; try discriminate.
  - destruct (bin_alu _ _ H0) as (? & _ & A & _). rewrite Q1 in A. discriminate.
  - destruct H0 as [(_ & _ & E & _)|(_ & _ & E & _)]; [destruct (src_x _)|]; subst; discriminate.
  - destruct (cond_cmp _ _ H0) as (? & _ & A & _). rewrite Q1 in A. discriminate.
  - destruct H4 as [[-> _]|(_ & _ & a & Ea & Eb)]; [discriminate|]. rewrite Q2 in *. rewrite Ek in Ea. injection Ea as <-.
    destruct Eb as [Eb|Eb]; [congruence|]. rewrite <- Q3. rewrite (argv_len _ _ _ _ H5). congruence.
Qed.
Lemma lift_printk b i x : In i (insns_of f b) -> f_insn f i = Some x -> i_op x = CALL -> i_u x = 6%Z -> 2 <= length (i_vals x) <= 5.
Proof.
  intros Hi Ex O N6. destruct (gen_bb_ok p W Len No0) as (bs & Hg & Hbo & Heo).
  assert (Hl' := Hl). unfold lift in Hl'. rewrite Hg in Hl'. cbn [bind] in Hl'.
  destruct (lift_blocks m n bs) as [s| | | |] eqn:Lb; try discriminate. injection Hl' as <-.
  destruct (main_filled p W No0 bs Hbo Heo m n s Ra Lb) as (e & dn & I & F & Sl).
  destruct (lift_finv p W Len No0 m n (l_f s) Hl) as (bs' & Hg' & _ & _ & Fi). rewrite Hg in Hg'. injection Hg' as <-.
  pose proof (fi_blk bs _ Fi b) as K. destruct (blk bs b) as [pb|] eqn:B; [|unfold insns_of in Hi; rewrite K in Hi; destruct Hi].
  destruct (iv_blk _ _ _ _ _ I _ _ B) as (phs & ids & mm & H).
  unfold insns_of in Hi. rewrite (bi_blk _ _ _ _ _ _ _ _ _ H) in Hi. cbn [b_insns] in Hi. apply in_app_or in Hi as [Hi|Hi].
  { destruct (bi_phs _ _ _ _ _ _ _ _ _ H i Hi) as (x' & r & Ex' & O' & _). congruence. }
  pose proof (bi_lifts _ _ _ _ _ _ _ _ _ H) as L. clear - L Hi Ex O N6.
  induction L as [|m0 pi l i1 i2 m1 m' H1 H2 IH]; [destruct Hi|]. apply in_app_or in Hi as [Hi|Hi]; [|auto].
  assert (Lk : forall j y, like (l_f s) j y -> j = i -> i_op y = CALL /\ i_u y = i_u x /\ i_vals y = i_vals x).
  { intros j y (z & Ez & Sz) ->. rewrite Ex in Ez. injection Ez as <-. pose proof (sim_op _ _ Sz). split; [congruence|].
    split; [apply (f_equal i_u) in Sz; cbn in Sz; congruence | apply (f_equal i_vals) in Sz; cbn in Sz; congruence]. }
  inversion H1; subst; try contradiction; (destruct Hi as [Hi|Hi]; [subst | now destruct Hi]);
    match goal with Q : like _ i ?y |- _ => destruct (Lk i y Q eq_refl) as (Q1 & Q2 & Q3); cbn in Q1, Q2, Q3 end; try discriminate.
  - destruct (bin_alu _ _ H0) as (? & _ & A & _). rewrite Q1 in A. discriminate.
  - destruct H0 as [(_ & _ & E & _)|(_ & _ & E & _)]; [destruct (src_x _)|]; subst; discriminate.
  - destruct (cond_cmp _ _ H0) as (? & _ & A & _). rewrite Q1 in A. discriminate.
  - rewrite <- Q3, (argv_len _ _ _ _ H5). split; [|assumption]. match goal with K : _ -> _ -> 2 <= _ |- _ => apply K; congruence end.
Qed.
End Ph.

(** ** Checkers *)
Fixpoint reach_n (p : list bpf_insn) (n : nat) (l : list Z) : list Z :=
  match n with
  | O => l
  | S k => reach_n p k (nodup Z.eq_dec (l ++ flat_map (fun pc => match fetch p pc with Some i => next_pcs i pc | None => [] end) l))
  end.
Definition reach_chk (p : list bpf_insn) : bool :=
  let l := reach_n p (length p) [0%Z] in
  forallb (fun j => match nth_error p j with Some i => ((b_code i =? 0)%Z || existsb (Z.eqb (Z.of_nat j)) l) | None => true end) (seq 0 (length p)).
Lemma reach_n_ok p n : forall l, (forall t, In t l -> reach p t) -> forall t, In t (reach_n p n l) -> reach p t.
Proof.
  induction n as [|n IH]; intros l H t; cbn [reach_n]; [apply H|]. apply IH. intros u Hu. apply nodup_In in Hu.
  apply in_app_or in Hu as [Hu|Hu]; [auto|]. apply in_flat_map in Hu as (pc & Hp & Hu). destruct (fetch p pc) eqn:E; [|destruct Hu].
  eapply re_s; eauto.
Qed.
Lemma reach_chk_ok p : reach_chk p = true -> all_reach p.
Proof.
  unfold reach_chk, all_reach. intros H j i A N. rewrite forallb_forall in H. unfold at_pos in A.
  assert (L : j < length p) by (apply nth_error_Some; congruence). specialize (H j ltac:(apply in_seq; lia)). rewrite A in H.
  apply orb_prop in H as [H|H]; [apply Z.eqb_eq in H; congruence|]. apply existsb_exists in H as (t & Ht & E). apply Z.eqb_eq in E.
  rewrite E. eapply reach_n_ok; eauto. intros u [<-|[]]. constructor.
Qed.
Definition ar_table : arity_table := fun id => match nth_error helper_args (Z.to_nat id) with
  | Some z => if (z <? 0)%Z then None else Some (Z.to_nat z) | None => None end.
Lemma ar_agrees : agrees ar_table.
Proof.
  intros id k. unfold ar_table. destruct (nth_error _ _) as [z|] eqn:E; [|discriminate]. destruct (Z.ltb_spec z 0); [discriminate|].
  intros E2. injection E2 as <-. rewrite Z2Nat.id by lia. reflexivity.
Qed.
(** helpers add up their arguments *)
Definition w_sum : world := mkWorld (fun n id a m => match ar_table id with
  | Some k => ([fold_right Z.add 0%Z (firstn k a)], m) | None => (a, m) end) (fun _ v => v).
Lemma w_sum_respects : respects w_sum ar_table.
Proof. intros id k a a' n m E F _ _. cbn. now rewrite E, F. Qed.

Definition plain_chk (i : bpf_insn) : bool :=
  (negb (b_code i =? 0xbc) && (negb (b_code i =? 0xb4) || (0 <=? b_imm i) && (b_imm i <? 2 ^ 31)) &&
   negb ((b_code i mod 8 =? 1) && (b_code i / 32 =? 4)) &&
   (negb (b_code i =? 0x85) || match ar_table (b_imm i) with Some _ => true | None => false end))%Z.
Lemma plain_chk_ok p : forallb plain_chk p = true -> forall j i, at_pos p j i -> plain ar_table i.
Proof.
  intros H j i A. rewrite forallb_forall in H. specialize (H i (nth_error_In _ _ A)). unfold plain_chk in H.
  rewrite !andb_true_iff, !negb_true_iff, !orb_true_iff, !negb_true_iff, andb_true_iff, andb_false_iff, !Z.eqb_neq in H.
  destruct H as [[[H1 H2] H3] H4]. split; [exact H1|]. split; [|split].
  - intros E. destruct H2 as [H2|[H2 H2']]; [congruence|]. apply Z.leb_le in H2. apply Z.ltb_lt in H2'. lia.
  - intros [E1 E2]. destruct H3; contradiction.
  - intros E. destruct H4 as [H4|H4]; [congruence|]. destruct (ar_table (b_imm i)); congruence.
Qed.
Definition lim_chk (i : bpf_insn) : bool :=
  ((0 <=? b_dst i) && (b_dst i <=? 10) && (0 <=? b_src i) && (b_src i <=? 10) &&
   (negb ((b_code i =? 0x85) && (b_src i =? 6)) || (b_dst i <=? 5)))%Z.
Lemma lim_chk_ok p : forallb lim_chk p = true -> forall j i, at_pos p j i -> in_limits i.
Proof.
  intros H j i A. rewrite forallb_forall in H. specialize (H i (nth_error_In _ _ A)). unfold lim_chk in H.
  rewrite !andb_true_iff, !orb_true_iff, negb_true_iff, andb_false_iff, !Z.leb_le, !Z.eqb_neq in H. unfold in_limits. intuition.
Qed.

(** ** The pieces together *)
Lemma lift_struct p m n f : wf_prog p -> (Z.of_nat (length p) <= 32768)%Z -> ~ jump_target p 0 -> lift m n p = Ok f ->
  In (f_entry f) (f_all f) /\ NoDup (f_all f) /\ (forall b, In b (f_all f) <-> f_block f b <> None) /\ preds_of f (f_entry f) = [] /\
  mirrored f /\ fresh_ok f /\ linked_ok f /\ (forall b, NoDup (insns_of f b)) /\
  (forall i x, 7 <= i -> f_insn f i = Some x -> In i (insns_of f (i_parent x))) /\
  (forall u d, In u (users_of f d) <-> uses f u d > 0) /\ (forall d, NoDup (users_of f d)).
Proof.
  intros W Len No0 H. destruct (lift_finv p W Len No0 m n f H) as (bs & _ & Hbo & Heo & F).
  pose proof (bs_ne p bs Hbo Heo) as Ne. pose proof (fi_blk bs f F) as Fb.
  split. { rewrite (fi_entry bs f F), (fi_all bs f F). apply in_seq. destruct bs; [congruence | cbn; lia]. }
  split; [rewrite (fi_all bs f F); apply seq_NoDup|].
  split. { intros b. rewrite (fi_all bs f F), in_seq. specialize (Fb b). split.
    - intros L. destruct b as [|k]; [lia|]. cbn [blk] in Fb. destruct (nth_error bs k) eqn:E; [destruct Fb as [l ->]; discriminate|].
      apply nth_error_None in E. lia.
    - intros N. destruct b as [|k]; [cbn [blk] in Fb; contradiction|]. cbn [blk] in Fb. destruct (nth_error bs k) eqn:E; [|contradiction].
      assert (k < length bs) by (apply nth_error_Some; congruence). lia. }
  split. { rewrite (fi_entry bs f F). unfold preds_of. specialize (Fb 1). destruct (blk bs 1) as [pb|] eqn:B; [|now rewrite Fb].
    destruct Fb as [l ->]. cbn [b_preds]. now rewrite (main_entry p No0 bs Hbo Heo pb B). }
  split; [eapply finv_mirrored; eauto|]. split; [eapply finv_fresh; eauto|]. split; [apply (fi_link bs f F)|].
  split; [apply (fi_once bs f F)|]. split; [apply (fi_has bs f F)|]. split; [apply (fi_users bs f F) | apply (fi_unodup bs f F)].
Qed.
Lemma lift_registered p m n f : wf_prog p -> (Z.of_nat (length p) <= 32768)%Z -> ~ jump_target p 0 -> lift m n p = Ok f -> registered f.
Proof. intros W L N H u d. apply (lift_struct p m n f W L N H). Qed.
Lemma lift_entry p m n f : wf_prog p -> (Z.of_nat (length p) <= 32768)%Z -> ~ jump_target p 0 -> lift m n p = Ok f -> f_entry f = 1.
Proof. intros W L N H. destruct (lift_finv p W L N m n f H) as (bs & _ & _ & _ & F). apply (fi_entry bs f F). Qed.

Section Sem.
Variables (w : world) (bi : bconst -> Z) (ar : arity_table) (p : list bpf_insn) (m n : nat) (f : func).
Lemma lift_exit st t k r st' d : wf_prog p -> (Z.of_nat (length p) <= 32768)%Z -> ~ jump_target p 0 -> all_reach p ->
  (forall j i, at_pos p j i -> plain ar i) -> agrees ar -> respects w ar -> lift m n p = Ok f ->
  st_ok st -> enters st t sp_id arg_id -> crun w ar p k 0 st clean = Some (IExit r st', d) ->
  exists k' t', srun w bi f k' 0 (f_entry f) t = Some (ORet r t') /\ s_mem t' = mem st' /\ s_nc t' = ncall st'.
Proof.
  intros W L N Ra Pl Ag Re H. rewrite (lift_entry p m n f W L N H). eapply lift_exit1; eauto.
Qed.
Lemma lift_gexit Rg st t k r st' d : wf_prog p -> (Z.of_nat (length p) <= 32768)%Z -> ~ jump_target p 0 -> all_reach p ->
  (forall j i, at_pos p j i -> plain ar i) -> agrees ar -> respects w ar -> lift m n p = Ok f ->
  st_ok st -> enters st t sp_id arg_id -> gcrun Rg w ar p k 0 st clean = Some (IExit r st', d) ->
  exists k' t', gsrun Rg w bi f k' 0 (f_entry f) t = Some (ORet r t') /\ s_mem t' = mem st' /\ s_nc t' = ncall st'.
Proof.
  intros W L N Ra Pl Ag Re H. rewrite (lift_entry p m n f W L N H). eapply lift_gexit1; eauto.
Qed.
Lemma lift_any st t k : wf_prog p -> (Z.of_nat (length p) <= 32768)%Z -> ~ jump_target p 0 -> all_reach p ->
  (forall j i, at_pos p j i -> plain ar i) -> agrees ar -> respects w ar -> lift m n p = Ok f ->
  st_ok st -> enters st t sp_id arg_id -> (forall k, crun w ar p k 0 st clean <> None) ->
  (exists prev b t', srun w bi f k 0 (f_entry f) t = Some (OAt prev b t')) \/
  (exists k' r st' d t', crun w ar p k' 0 st clean = Some (IExit r st', d) /\
     srun w bi f k 0 (f_entry f) t = Some (ORet r t') /\ s_mem t' = mem st' /\ s_nc t' = ncall st').
Proof.
  intros W L N Ra Pl Ag Re H. rewrite (lift_entry p m n f W L N H). eapply lift_any1; eauto.
Qed.
End Sem.
