(** Code compaction. *)
From Verif Require Import SpecWord SpecIsa SpecFlat SpecSsa SpecIr SpecEdit SpecGs SpecPass.
From Verif Require Import M_Base M_Ir M_Edit M_Ra M_Pass L_Edit L_Uses L_Gs L_Sim L_PassDce L_PassAlloc L_PassThrow.
Open Scope nat_scope.
Ltac Zify.zify_post_hook ::= Z.div_mod_to_equations.

(** ** The arithmetic *)
Lemma shl_shr a z : width_of a <> None ->
  match width_of a with
  | Some wd => u64 (alu_fn ARsh wd (u64 (alu_fn ALsh wd z (u64 32))) (u64 32)) = u64 (trunc false z)
  | None => False
  end.
Proof.
  destruct a; cbn [width_of]; intros W; [congruence| |]; unfold alu_fn, trunc, bits, u64.
  - change (32 mod 2 ^ 64 mod 2 ^ 32 mod 32)%Z with 0%Z. rewrite Z.shiftl_0_r, Z.shiftr_0_r. lia.
  - change (32 mod 2 ^ 64 mod 2 ^ 64 mod 64)%Z with 32%Z. rewrite Z.shiftl_mul_pow2, Z.shiftr_div_pow2 by lia. lia.
Qed.

(** ** One changed instruction *)
Section Change.
Variables (f g : func) (l i : nat) (x y y' : insn) (w c d e : value).
Hypothesis Hblk : forall b, f_block g b = f_block f b.
Hypothesis Hoth : forall j, j <> i -> upto (f_insn f j) (f_insn g j).
Hypothesis Hl : f_insn f l = Some x.
Hypothesis Hi : f_insn f i = Some y.
Hypothesis Hi' : f_insn g i = Some y'.
Hypothesis Ox : i_op x = LSH.
Hypothesis Oy : i_op y = RSH.
Hypothesis Vx : i_vals x = [w; c].
Hypothesis Vy : i_vals y = [e; d].
Hypothesis De : v_data e = VInsn l.
Hypothesis Dc : v_data c = VConst 32 /\ v_bi c = B_NONE.
Hypothesis Dd : v_data d = VConst 32 /\ v_bi d = B_NONE.
Hypothesis Nw : is_use_of l w = false.
Hypothesis Al : i_alu x = i_alu y.
Hypothesis Ak : i_alu x <> A_UNKNOWN.
Hypothesis Oy' : i_op y' = ASSIGN.
Hypothesis Vy' : i_vals y' = [w].
Hypothesis Ay' : i_alu y' = A_32.
Hypothesis Hpl : forall b, In i (insns_of f b) -> exists pre post, insns_of f b = pre ++ l :: i :: post /\ ~ In i pre /\ ~ In i post.

Lemma cell_same a : cell_like f g a.
Proof.
  unfold cell_like. destruct (Nat.eq_dec a i) as [->|N].
  - rewrite Hi, Oy. discriminate.
  - pose proof (Hoth a N) as U. unfold upto in U. destruct (f_insn f a) as [z|]; [|exact I]. destruct (f_insn g a) as [z'|]; [|destruct U].
    destruct U as (k & ->). intros _. eexists. repeat split.
Qed.
Lemma exec_other R bi wd j z z' s r : f_insn f j = Some z -> f_insn g j = Some z' -> j <> i ->
  gsexec R wd bi f j z s = Some r -> gsexec R wd bi g j z' s = Some r.
Proof.
  intros Hz Hz' N E. pose proof (Hoth j N) as U. rewrite Hz, Hz' in U. destruct U as (k & ->).
  assert (A : agree_ops bi f g z (set_users k z) s s).
  { split; [|intros _; reflexivity]. cbn [i_vals set_users]. destruct (i_op z); try exact I;
      try (induction (i_vals z); constructor; [reflexivity|assumption]).
    - intros v v2 Hv. exists v, v2. repeat split; auto. intros a _. apply cell_same.
    - intros v Hv. exists v. repeat split; auto. }
  pose proof (gexec_par R wd bi f g j z (set_users k z) s s (like_users z k) eq_refl eq_refl A) as P. rewrite E in P.
  destruct P as (r' & -> & P). inversion P; reflexivity.
Qed.
Lemma other_live j z : f_insn f j = Some z -> j <> i -> exists z', f_insn g j = Some z'.
Proof. intros Hz N. pose proof (Hoth j N) as U. rewrite Hz in U. unfold upto in U. destruct (f_insn g j); [eauto|destruct U]. Qed.
Lemma body_other R bi wd m : forall s r, ~ In i m -> gsbody R wd bi f s m = Some r -> gsbody R wd bi g s m = Some r.
Proof.
  induction m as [|j m IH]; intros s r N E; [exact E|]. cbn [gsbody] in *. destruct (f_insn f j) as [z|] eqn:Hz; [|discriminate E]. cbn [obind] in E.
  assert (j <> i) by (intros ->; apply N; now left). destruct (other_live j z Hz H) as (z' & Hz'). rewrite Hz'. cbn [obind].
  destruct (gsexec R wd bi f j z s) as [q|] eqn:EX; [|discriminate E]. cbn [obind] in E. rewrite (exec_other _ _ _ _ _ _ _ _ Hz Hz' H EX). cbn [obind].
  destruct q; try exact E. apply IH; [intros K; apply N; now right|exact E].
Qed.
Lemma l_not_i : l <> i.
Proof. intros ->. congruence. Qed.
Lemma pair_value R bi wd s s1 r : gsexec R wd bi f l x s = Some s1 ->
  (exists s2, s1 = SNext s2 /\ forall q, gsexec R wd bi f i y s2 = Some q -> r = q -> gsexec R wd bi g i y' s2 = Some q).
Proof.
  intros E. assert (W : width_of (i_alu x) <> None) by (destruct (i_alu x); [congruence|discriminate|discriminate]).
  apply gsexec_plain in E. unfold sexec in E. rewrite Ox, Vx in E. cbn [alu_op_of cmp_op_of] in E.
  destruct (width_of (i_alu x)) as [b|] eqn:WX; [|congruence]. cbn [obind] in E.
  destruct (seval bi (s_env s) w) as [z|] eqn:EW; [|discriminate E]. cbn [obind] in E.
  unfold seval at 1 in E. destruct Dc as [Dc1 Dc2]. rewrite Dc1 in E. unfold const_val in E. rewrite Dc2 in E. cbn [obind] in E. injection E as <-.
  eexists. split; [reflexivity|]. intros q Q _. apply gsexec_plain in Q. unfold sexec in Q. rewrite Oy, Vy in Q. cbn [alu_op_of cmp_op_of] in Q. rewrite <- Al, WX in Q. cbn [obind] in Q.
  unfold seval at 1 in Q. rewrite De in Q. cbn [s_env sres_] in Q. unfold eupd at 1 in Q. rewrite Nat.eqb_refl in Q. cbn [obind] in Q.
  unfold seval at 1 in Q. destruct Dd as [Dd1 Dd2]. rewrite Dd1 in Q. unfold const_val in Q. rewrite Dd2 in Q. cbn [obind] in Q. injection Q as <-.
  unfold gsexec. rewrite squiet_other by (rewrite Oy'; discriminate). unfold sexec. rewrite Oy', Vy', Ay'.
  assert (EW2 : seval bi (s_env (sres_ s l (alu_fn ALsh b z (u64 32)))) w = Some z).
  { rewrite <- EW. unfold seval. destruct (v_data w) as [|?|?|k|?|] eqn:DW; try reflexivity. cbn. unfold eupd. destruct (k =? l) eqn:K; [|reflexivity].
    unfold is_use_of in Nw. rewrite DW, K in Nw. discriminate Nw. }
  rewrite EW2. cbn [obind]. f_equal. f_equal. unfold sres_. f_equal. f_equal.
  pose proof (shl_shr (i_alu x) z) as SS. rewrite WX in SS. symmetry. apply SS. congruence.
Qed.
Lemma body_pair R bi wd pre post : forall s r, ~ In i pre -> ~ In i post ->
  gsbody R wd bi f s (pre ++ l :: i :: post) = Some r -> gsbody R wd bi g s (pre ++ l :: i :: post) = Some r.
Proof.
  induction pre as [|j m IH]; intros s r N1 N2 E.
  - change ([] ++ l :: i :: post) with (l :: i :: post) in *. cbn [gsbody] in E. rewrite Hl in E. cbn [obind] in E.
    destruct (gsexec R wd bi f l x s) as [q|] eqn:EX; [|discriminate E]. cbn [obind] in E.
    destruct (other_live l x Hl l_not_i) as (x' & Hl'). cbn [gsbody]. rewrite Hl'. cbn [obind]. rewrite (exec_other _ _ _ _ _ _ _ _ Hl Hl' l_not_i EX). cbn [obind].
    destruct (pair_value R bi wd s q q EX) as (s2 & -> & PV).
    rewrite Hi in E. cbn [obind] in E. destruct (gsexec R wd bi f i y s2) as [q|] eqn:EY; [|discriminate E]. cbn [obind] in E.
    rewrite Hi'. cbn [obind].
    destruct (pair_value R bi wd s (SNext s2) q EX) as (s3 & K & PV2). injection K as <-. rewrite (PV2 q EY eq_refl). cbn [obind].
    destruct q; try exact E. apply body_other; assumption.
  - cbn [app gsbody] in *. destruct (f_insn f j) as [z|] eqn:Hz; [|discriminate E]. cbn [obind] in E.
    assert (j <> i) by (intros ->; apply N1; now left). destruct (other_live j z Hz H) as (z' & Hz'). rewrite Hz'. cbn [obind].
    destruct (gsexec R wd bi f j z s) as [q|] eqn:EX; [|discriminate E]. cbn [obind] in E. rewrite (exec_other _ _ _ _ _ _ _ _ Hz Hz' H EX). cbn [obind].
    destruct q; try exact E. apply IH; [intros K; apply N1; now right|exact N2|exact E].
Qed.
(** phis are not touched *)
Lemma phis_same bi prev m : forall s0 s, sphis bi g prev s0 s m = sphis bi f prev s0 s m.
Proof.
  induction m as [|j m IH]; intros s0 s; [reflexivity|]. cbn [sphis]. destruct (Nat.eq_dec j i) as [->|N].
  - rewrite Hi, Hi'. cbn [obind]. rewrite Oy, Oy'. reflexivity.
  - pose proof (Hoth j N) as U. unfold upto in U. destruct (f_insn f j) as [z|], (f_insn g j) as [z'|]; try (destruct U; fail); [|reflexivity].
    destruct U as (k & ->). cbn [obind i_op set_users]. destruct (iop_eqb (i_op z) PHI); [|reflexivity].
    replace (incoming (set_users k z) prev) with (incoming z prev) by reflexivity. destruct (incoming z prev); [|reflexivity]. cbn [obind].
    destruct (seval _ _ _); [|reflexivity]. cbn [obind]. apply IH.
Qed.
Lemma phis_suffix bi fn prev m : forall s0 s r s1, sphis bi fn prev s0 s m = Some (r, s1) ->
  exists p, m = p ++ r /\ forall j, In j p -> exists z, f_insn fn j = Some z /\ i_op z = PHI.
Proof.
  induction m as [|j m IH]; intros s0 s r s1 E; cbn [sphis] in E; [injection E as <- _; exists []; split; [reflexivity|intros j []]|].
  destruct (f_insn fn j) as [z|] eqn:Hz; [|discriminate E]. cbn [obind] in E. destruct (iop_eqb (i_op z) PHI) eqn:P.
  - destruct (incoming z prev); [|discriminate E]. cbn [obind] in E. destruct (seval _ _ _); [|discriminate E]. cbn [obind] in E.
    destruct (IH _ _ _ _ E) as (p & -> & K). exists (j :: p). split; [reflexivity|]. intros a [<-|A]; [|apply K, A]. exists z. split; [exact Hz|].
    unfold iop_eqb in P. destruct (iop_eq_dec (i_op z) PHI); [assumption|discriminate P].
  - injection E as <- _. exists []. split; [reflexivity|intros a []].
Qed.
Lemma block_change R bi wd prev b s r : gsblock R wd bi f prev b s = Some r -> gsblock R wd bi g prev b s = Some r.
Proof.
  unfold gsblock. rewrite Hblk. destruct (f_block f b) as [k|] eqn:K; [|discriminate]. cbn [obind]. intros E. rewrite phis_same.
  destruct (sphis bi f prev s s (b_insns k)) as [[m s1]|] eqn:P; [|discriminate E]. cbn [obind] in *.
  destruct (gsbody R wd bi f s1 m) as [q|] eqn:B; [|discriminate E]. cbn [obind] in E.
  assert (Q : gsbody R wd bi g s1 m = Some q); [|rewrite Q; exact E].
  assert (IN : insns_of f b = b_insns k) by (unfold insns_of; now rewrite K).
  destruct (phis_suffix bi f prev _ _ _ _ _ P) as (p & PM & PH).
  destruct (in_dec Nat.eq_dec i m) as [Im|Nm]; [|apply body_other; assumption].
  destruct (Hpl b) as (pre & post & L & N1 & N2). { rewrite IN, PM. apply in_or_app. now right. }
  rewrite IN in L.
  (* [pre ++ l :: i :: post = p ++ m], and neither l nor i is a phi *)
  assert (exists pre', m = pre' ++ l :: i :: post /\ incl pre' pre) as (pre' & -> & IC).
  { clear - L PM PH Hl Ox Hi Oy. rewrite PM in L. clear PM. revert pre L PH. induction p as [|j p IH]; intros pre L PH.
    - exists pre. split; [exact L|intros z Z; exact Z].
    - destruct pre as [|z pre]; cbn in L; injection L as -> L.
      + destruct (PH l (or_introl eq_refl)) as (z & Hz & O). congruence.
      + destruct (IH pre L (fun a A => PH a (or_intror A))) as (pre' & -> & IC). exists pre'. split; [reflexivity|]. intros a A. right. apply IC, A. }
  apply body_pair; [intros A; apply N1, IC, A|exact N2|exact B].
Qed.
Lemma run_change R bi wd n : forall prev b s o, gsrun R wd bi f n prev b s = Some o -> gsrun R wd bi g n prev b s = Some o.
Proof.
  induction n as [|n IH]; intros prev b s o E; [exact E|]. cbn [gsrun] in *. destruct (gsblock R wd bi f prev b s) as [q|] eqn:B; [|discriminate E].
  rewrite (block_change _ _ _ _ _ _ _ B). cbn [obind] in *. destruct q; try exact E. apply IH, E.
Qed.
Lemma change_preserves : preserves f g.
Proof.
  intros R wd bi n prev b s o E. exists o. split; [apply run_change, E|]. destruct o; constructor; apply same_world_refl.
Qed.
End Change.

(** ** Users lists under changing a value *)
Lemma upto_rec f g u : users_edit f g -> upto (f_insn f u) (f_insn g u).
Proof. intros U. destruct (ue_rec _ _ U u) as [l ->]. unfold upto. destruct (f_insn f u); cbn; eauto. Qed.
Lemma upto_trans a b c : upto a b -> upto b c -> upto a c.
Proof.
  unfold upto. destruct a, b, c; try tauto. intros (l & ->) (l2 & ->). exists l2. reflexivity.
Qed.
Lemma change_spec f u s new f' x old : tidy f -> f_insn f u = Some x -> slot_get x s = Some old ->
  (forall d, val_target old = Some d -> uses f u d = 1) -> In u (insns_of f (i_parent x)) ->
  change_value f u s new = Ok f' ->
  tidy f' /\ (forall b, f_block f' b = f_block f b) /\ f_entry f' = f_entry f /\ f_all f' = f_all f /\
  (exists k, f_insn f' u = Some (set_users k (slot_set x s new))) /\ (forall j, j <> u -> upto (f_insn f j) (f_insn f' j)).
Proof.
  intros T Hx G ONE PL E. unfold change_value in E. rewrite (proj2 (get_insn_ok _ _ _) Hx) in E. cbn [bind] in E. rewrite G in E.
  apply bind_ok in E as (f1 & E1 & E). apply remove_user_spec in E1 as (UE1 & U1).
  apply bind_ok in E as (x1 & Hx1 & E). apply get_insn_ok in Hx1.
  apply add_user_spec in E as (UE2 & U2).
  destruct (ue_rec _ _ UE1 u) as [l R]. rewrite Hx, Hx1 in R. simpl in R. injection R as ->.
  set (f2 := put_insn f1 u _) in *.
  assert (V2 : forall d, users_of f2 d = users_of f1 d).
  { intros d. unfold users_of, f2. rewrite f_insn_put. destruct (Nat.eqb_spec d u) as [->|]; auto.
    rewrite Hx1, slot_set_users. reflexivity. }
  assert (O2 : forall w, ops_of f' w = if w =? u then operands (slot_set (set_users l x) s new) else ops_of f w).
  { intros w. rewrite (ue_ops _ _ UE2). unfold ops_of at 1, f2. rewrite f_insn_put. destruct (w =? u); auto.
    fold (ops_of f1 w). apply (ue_ops _ _ UE1). }
  assert (BL : forall b, f_block f' b = f_block f b).
  { intros b. rewrite (ue_block _ _ UE2). unfold f2. cbn. apply (ue_block _ _ UE1). }
  assert (IU : exists k, f_insn f' u = Some (set_users k (slot_set x s new))).
  { destruct (ue_rec _ _ UE2 u) as [k R]. unfold f2 in R at 1. rewrite f_insn_put, Nat.eqb_refl in R. exists k. rewrite R. cbn. f_equal.
    destruct s; cbn; try reflexivity. destruct (nth_error (i_phi x) k0) as [[? ?]|]; reflexivity. }
  assert (IO : forall j, j <> u -> upto (f_insn f j) (f_insn f' j)).
  { intros j N. eapply upto_trans; [apply (upto_rec f f1 j UE1)|]. pose proof (upto_rec f2 f' j UE2) as P. unfold f2 in P at 1.
    rewrite f_insn_put in P. apply Nat.eqb_neq in N. rewrite N in P. exact P. }
  assert (SPAR : forall x0, i_parent (slot_set x0 s new) = i_parent x0).
  { intros x0. destruct s; cbn; try reflexivity. destruct (nth_error (i_phi x0) k) as [[? ?]|]; reflexivity. }
  assert (PAR : forall j y', f_insn f' j = Some y' -> exists y, f_insn f j = Some y /\ i_parent y' = i_parent y).
  { intros j y' Hy. destruct (Nat.eq_dec j u) as [->|N].
    - destruct IU as (k & IU). rewrite IU in Hy. injection Hy as <-. exists x. split; [exact Hx|]. apply SPAR.
    - specialize (IO j N). rewrite Hy in IO. unfold upto in IO. destruct (f_insn f j) as [y|]; [|destruct IO]. destruct IO as (k & ->).
      exists y. split; reflexivity. }
  assert (LIV : forall j y, f_insn f j = Some y -> exists y', f_insn f' j = Some y' /\ i_parent y' = i_parent y).
  { intros j y Hy. destruct (Nat.eq_dec j u) as [->|N].
    - destruct IU as (k & IU). eexists. split; [exact IU|]. rewrite Hx in Hy. injection Hy as <-. apply SPAR.
    - specialize (IO j N). rewrite Hy in IO. unfold upto in IO. destruct (f_insn f' j) as [y'|]; [|destruct IO]. destruct IO as (k & ->).
      eexists. split; reflexivity. }
  split; [|split; [exact BL|split; [rewrite (ue_entry _ _ UE2); apply (ue_entry _ _ UE1)|split; [rewrite (ue_all _ _ UE2); apply (ue_all _ _ UE1)|split; [exact IU|exact IO]]]]].
  assert (INS : forall b, insns_of f' b = insns_of f b) by (intros b; unfold insns_of; now rewrite BL).
  constructor.
  - intros w d. rewrite uses_nref, O2.
    assert (C : cnt (users_of f' d) w = cnt (users_of f d) w - (if refers d old && (u =? w) then 1 else 0) + (if refers d new && (u =? w) then 1 else 0)).
    { rewrite U2, V2, U1.
      assert (C2 : cnt (if refers d old then erase_first u (users_of f d) else users_of f d) w
        = cnt (users_of f d) w - (if refers d old && (u =? w) then 1 else 0)).
      { destruct (refers d old); simpl; [|lia]. rewrite erase_first_count. destruct (Nat.eq_dec u w), (Nat.eqb_spec u w); lia. }
      rewrite <- C2. destruct (refers d new); simpl; [|lia]. rewrite cnt_app, cnt_one. destruct (u =? w); lia. }
    rewrite (Nat.eqb_sym u w) in C. pose proof (td_users _ T w d) as [K1 K2]. rewrite uses_nref in K1, K2.
    rewrite (count_occ_In Nat.eq_dec (users_of f' d) w), C. destruct (Nat.eqb_spec w u) as [->|N].
    + rewrite !andb_true_r. pose proof (slot_set_nref _ _ new _ d (eq_trans (slot_get_users x s l) G)) as Q. rewrite operands_users in Q.
      assert (Z : ops_of f u = operands x) by (unfold ops_of; now rewrite Hx). rewrite Z in K1, K2.
      destruct (refers d old) eqn:Ro.
      * assert (uses f u d = 1) as U. { apply ONE. now apply refers_iff. } rewrite uses_nref, Z in U.
        assert (cnt (users_of f d) u > 0) by (apply count_in_pos, K1; lia). destruct (refers d new); split; lia.
      * assert (nref d (operands x) > 0 -> cnt (users_of f d) u > 0) by (intros; apply count_in_pos, K1; assumption).
        destruct (refers d new); split; lia.
    + rewrite !andb_false_r. rewrite (count_occ_In Nat.eq_dec (users_of f d) w) in K1. split; lia.
  - intros b j I. rewrite INS in I. destruct (td_linked _ T b j I) as (y & Hy & P). destruct (LIV j y Hy) as (y' & Hy' & P'). exists y'. split; [exact Hy'|congruence].
  - intros b. rewrite INS. apply (td_once _ T).
  - intros w d P. assert (exists y, f_insn f w = Some y /\ In w (insns_of f (i_parent y))) as (y & Hy & IN).
    { destruct (Nat.eq_dec w u) as [->|N]; [eauto|]. apply (td_placed _ T w d). rewrite uses_nref, O2 in P. apply Nat.eqb_neq in N. rewrite N in P.
      now rewrite uses_nref. }
    destruct (LIV w y Hy) as (y' & Hy' & P'). exists y'. split; [exact Hy'|]. rewrite INS, P'. exact IN.
Qed.
Lemma put_tidy f u x x' : tidy f -> f_insn f u = Some x -> i_users x' = i_users x -> i_parent x' = i_parent x ->
  (forall d, nref d (operands x') = nref d (operands x)) -> tidy (put_insn f u x').
Proof.
  intros T Hx U P O.
  assert (US : forall w d, uses (put_insn f u x') w d = uses f w d).
  { intros w d. rewrite !uses_nref. unfold ops_of. rewrite f_insn_put. destruct (Nat.eqb_spec w u) as [->|]; [rewrite Hx; apply O|reflexivity]. }
  assert (UO : forall d, users_of (put_insn f u x') d = users_of f d).
  { intros d. unfold users_of. rewrite f_insn_put. destruct (Nat.eqb_spec d u) as [->|]; [now rewrite Hx|reflexivity]. }
  assert (LIV : forall j y, f_insn f j = Some y -> exists y', f_insn (put_insn f u x') j = Some y' /\ i_parent y' = i_parent y).
  { intros j y Hy. rewrite f_insn_put. destruct (Nat.eqb_spec j u) as [->|]; [|eauto]. eexists. split; [reflexivity|congruence]. }
  constructor.
  - intros w d. rewrite US, UO. apply (td_users _ T).
  - intros b j I. change (In j (insns_of f b)) in I. destruct (td_linked _ T b j I) as (y & Hy & Q). destruct (LIV j y Hy) as (y' & Hy' & P'). exists y'. split; [exact Hy'|congruence].
  - intros b. exact (td_once _ T b).
  - intros w d K. rewrite US in K. destruct (td_placed _ T w d K) as (y & Hy & Q). destruct (LIV w y Hy) as (y' & Hy' & P'). exists y'. split; [exact Hy'|]. rewrite P'. exact Q.
Qed.

(** ** One pair *)
Lemma nodup_split (A : Type) (pre : list A) l i post : NoDup (pre ++ l :: i :: post) -> ~ In i pre /\ ~ In i post.
Proof.
  intros N. change (pre ++ l :: i :: post) with (pre ++ [l] ++ i :: post) in N. rewrite app_assoc in N. apply NoDup_remove_2 in N.
  split; intros K; apply N, in_or_app; [left; apply in_or_app; now left|now right].
Qed.
Lemma compact_one_ok f b l i g : tidy f -> shift_pair f b l i -> compact_one f i = Ok g ->
  tidy g /\ preserves f g /\ (forall j, j <> l -> j <> i -> upto (f_insn f j) (f_insn g j)) /\
  (forall c, insns_of g c = filter (fun j => negb (j =? l)) (insns_of f c)) /\ (forall c, f_block g c = None <-> f_block f c = None) /\
  f_entry g = f_entry f /\ (forall d, uses g i d <= uses f l d) /\ f_insn g l = None.
Proof.
  intros T [(pre & post & IN) (x & y & w & c & d & Hl & Hi & Ox & Oy & Vx & Dc & Bc & Nw & (e & Vy & De) & Dd & Bd & Al & Ak)] E.
  assert (Ii : In i (insns_of f b)) by (rewrite IN; apply in_or_app; right; right; now left).
  assert (Il : In l (insns_of f b)) by (rewrite IN; apply in_or_app; right; now left).
  destruct (td_linked _ T b i Ii) as (y0 & Hy0 & Pi). assert (y0 = y) by congruence. subst y0.
  destruct (td_linked _ T b l Il) as (x0 & Hx0 & Pl). assert (x0 = x) by congruence. subst x0.
  assert (NE : l <> i) by (intros ->; congruence).
  unfold compact_one in E. rewrite (proj2 (get_insn_ok _ _ _) Hi) in E. cbn [bind] in E. rewrite Vy in E.
  replace (val_target e) with (Some l) in E by (unfold val_target; now rewrite De).
  rewrite (proj2 (get_insn_ok _ _ _) Hl) in E. cbn [bind] in E. rewrite Ox, Oy, Vx in E. cbn [iop_eqb andb negb] in E.
  change (iop_eqb RSH RSH && iop_eqb LSH LSH) with true in E. cbn [negb] in E.
  apply bind_ok in E as (f1 & E1 & E). apply bind_ok in E as (x1 & Hx1 & E). apply get_insn_ok in Hx1.
  destruct (change_spec f i (SVal 0) w f1 y e T Hi) as (T1 & BL1 & EN1 & AL1 & (k & I1) & O1).
  { cbn. now rewrite Vy. }
  { intros q Q. unfold val_target in Q. rewrite De in Q. injection Q as <-. unfold uses. rewrite Hi. unfold operand_values. rewrite Oy, Vy. cbn [app filter].
    unfold is_use_of. rewrite De, Dd, Nat.eqb_refl. reflexivity. }
  { now rewrite Pi. }
  { exact E1. }
  rewrite I1 in Hx1. injection Hx1 as <-. cbn [slot_set i_vals set_vals set_users] in E. rewrite Vy in E. cbn [set_nth firstn] in E.
  set (y' := set_vals [w] _) in E. set (f2 := put_insn f1 i y') in E.
  assert (T2 : tidy f2).
  { unfold f2. eapply put_tidy; [exact T1|exact I1|reflexivity|reflexivity|]. intros q. unfold y', operands. cbn. rewrite Vy, Oy. cbn.
    assert (R : refers q d = false) by (unfold refers, val_target; now rewrite Dd). unfold nref. cbn [filter]. rewrite R. destruct (refers q w); reflexivity. }
  assert (H2i : f_insn f2 i = Some y') by (unfold f2; now rewrite f_insn_put, Nat.eqb_refl).
  assert (H2o : forall j, j <> i -> upto (f_insn f j) (f_insn f2 j)).
  { intros j N. unfold f2. rewrite f_insn_put. pose proof N as N'. apply Nat.eqb_neq in N'. rewrite N'. apply O1, N. }
  assert (B2 : forall q, f_block f2 q = f_block f q) by exact BL1.
  assert (P1 : preserves f f2).
  { apply (change_preserves f f2 l i x y y' w c d e); auto; try reflexivity.
    intros q Q. destruct (td_linked _ T q i Q) as (z & Hz & R). assert (Qb : q = b) by congruence. rewrite Qb. exists pre, post. split; [exact IN|].
    eapply nodup_split. rewrite <- IN. apply (td_once _ T). }
  pose proof (H2o l NE) as UL. rewrite Hl in UL. unfold upto in UL. destruct (f_insn f2 l) as [xl|] eqn:H2l; [|destruct UL]. destruct UL as (kl & ->).
  assert (INS2 : forall q, insns_of f2 q = insns_of f q) by (intros q; unfold insns_of; now rewrite B2).
  assert (PL2 : In l (insns_of f2 (i_parent (set_users kl x)))) by (cbn; rewrite INS2, Pl; exact Il).
  destruct (erase_tidy f2 l _ T2 H2l PL2) as [[E' _]|(_ & g' & E' & T3 & W & _)]; [congruence|]. assert (g' = g) by congruence. subst g'.
  split; [exact T3|]. split; [|split; [|split; [|split; [|split; [|split]]]]].
  - eapply preserves_trans; [exact P1|]. eapply (erase_pure f2 l _ g T2 H2l PL2); [|exact E]. cbn. rewrite Ox. intros K; cbn in K; intuition discriminate.
  - intros j N1 N2. eapply upto_trans; [apply (H2o j N2)|]. apply (without_ins _ _ _ W). rewrite rm_one. now apply Nat.eqb_neq.
  - intros q. rewrite (wo_insns _ _ _ W), INS2. apply filter_ext. intros a. now rewrite rm_one.
  - intros q. rewrite (wo_blocks _ _ _ W), B2. reflexivity.
  - rewrite (wo_entry _ _ _ W). exact EN1.
  - intros q. rewrite (without_uses _ _ _ i q W) by (intros [K|[]]; congruence). unfold uses. rewrite H2i, Hl. unfold y', operand_values. cbn.
    rewrite Vx. cbn [filter app]. destruct (is_use_of q w); cbn; lia.
  - apply (wo_rm _ _ _ W). now left.
Qed.

(** ** The whole pass *)
Lemma adjacent_unique (A : Type) (pre pre' : list A) l i i' post post' :
  NoDup (pre ++ l :: i :: post) -> pre ++ l :: i :: post = pre' ++ l :: i' :: post' -> i = i'.
Proof.
  revert pre'. induction pre as [|a pre IH]; intros [|a' pre'] N E; cbn in *.
  - congruence.
  - injection E as -> E. inversion N as [|? ? K]; subst. destruct K. rewrite E. apply in_or_app. right. now left.
  - injection E as -> E. inversion N as [|? ? K]; subst. destruct K. apply in_or_app. right. now left.
  - injection E as -> E. inversion N; subst. eapply IH; eassumption.
Qed.
Lemma pair_unique f b l i b' i' : tidy f -> shift_pair f b l i -> shift_pair f b' l i' -> i = i'.
Proof.
  intros T [(pre & post & E) _] [(pre' & post' & E') _].
  assert (b = b').
  { destruct (td_linked _ T b l) as (x & Hx & P); [rewrite E; apply in_or_app; right; now left|].
    destruct (td_linked _ T b' l) as (x' & Hx' & P'); [rewrite E'; apply in_or_app; right; now left|]. congruence. }
  subst b'. eapply adjacent_unique; [|rewrite <- E; exact E']. rewrite <- E. apply (td_once _ T).
Qed.
Lemma pair_ops f b l i : shift_pair f b l i -> exists x y, f_insn f l = Some x /\ f_insn f i = Some y /\ i_op x = LSH /\ i_op y = RSH.
Proof. intros [_ (x & y & w & c & d & Hx & Hy & Ox & Oy & _)]. eauto 6. Qed.
Lemma pair_kept f g b l i b0 l0 i0 : tidy f -> shift_pair f b0 l0 i0 -> shift_pair f b l i -> i <> i0 ->
  (forall j, j <> l0 -> j <> i0 -> upto (f_insn f j) (f_insn g j)) ->
  (forall c, insns_of g c = filter (fun j => negb (j =? l0)) (insns_of f c)) -> shift_pair g b l i.
Proof.
  intros T P0 P N U I. destruct (pair_ops _ _ _ _ P0) as (x0 & y0 & Hx0 & Hy0 & Ox0 & Oy0).
  destruct (pair_ops _ _ _ _ P) as (x1 & y1 & Hx1 & Hy1 & Ox1 & Oy1).
  assert (L : l <> l0) by (intros ->; apply N; eapply pair_unique; [exact T|exact P|exact P0]).
  assert (l <> i0) by congruence. assert (i <> l0) by congruence.
  destruct P as [(pre & post & E) (x & y & w & c & d & Hx & Hy & Ox & Oy & Vx & Dc & Bc & Nw & (e & Vy & De) & Dd & Bd & Al & Ak)]. split.
  - exists (filter (fun j => negb (j =? l0)) pre), (filter (fun j => negb (j =? l0)) post). rewrite I, E, filter_app. cbn [filter].
    rewrite (proj2 (Nat.eqb_neq _ _) L), (proj2 (Nat.eqb_neq i l0)) by assumption. reflexivity.
  - pose proof (U l) as Ul. rewrite Hx in Ul. destruct (f_insn g l) as [x'|] eqn:Gl; [|destruct Ul; assumption]. destruct Ul as (kx & ->); try assumption.
    pose proof (U i) as Ui. rewrite Hy in Ui. destruct (f_insn g i) as [y'|] eqn:Gi; [|destruct Ui; assumption]. destruct Ui as (ky & ->); try assumption.
    exists (set_users kx x), (set_users ky y), w, c, d. cbn. repeat (split; [assumption|]). repeat split; eauto.
Qed.
Lemma compact_all_ok opt : forall f g, tidy f -> NoDup opt -> (forall i, In i opt -> exists b l, shift_pair f b l i) ->
  ofold compact_one f opt = Ok g -> tidy g /\ preserves f g.
Proof.
  induction opt as [|i opt IH]; intros f g T N P E; cbn [ofold] in E. { injection E as <-. split; [exact T|apply preserves_refl]. }
  apply bind_ok in E as (f1 & E1 & E). destruct (P i (or_introl eq_refl)) as (b & l & SP). inversion N; subst.
  destruct (compact_one_ok f b l i f1 T SP E1) as (T1 & P1 & U1 & I1 & _).
  destruct (IH f1 g T1) as (T2 & P2); auto.
  - intros j J. destruct (P j (or_intror J)) as (b' & l' & SP'). exists b', l'. eapply (pair_kept f f1 b' l' j b l i); try assumption. intros ->. contradiction.
  - split; [exact T2|]. eapply preserves_trans; eassumption.
Qed.
Lemma shift32 o x : is_shift32 o x = true -> i_op x = o /\ exists w c r, i_vals x = w :: c :: r /\ v_data c = VConst 32.
Proof.
  unfold is_shift32. intros H. apply andb_true_iff in H as [O V]. split; [destruct (i_op x), o; cbn in O; congruence|].
  destruct (i_vals x) as [|w [|c r]]; cbn in V; try discriminate V. exists w, c, r. split; [reflexivity|].
  destruct (v_data c); try discriminate V. apply Z.eqb_eq in V. congruence.
Qed.
Lemma scan_ok f reach : pairs_ok f reach -> forall r pr opt pr' opt', 
  (forall i, In i r -> exists b, In b reach /\ In i (insns_of f b)) ->
  NoDup (opt ++ r) -> (forall i, In i opt -> exists b l, In b reach /\ shift_pair f b l i) ->
  ofold (compact_scan f) (pr, opt) r = Ok (pr', opt') -> NoDup opt' /\ forall i, In i opt' -> exists b l, In b reach /\ shift_pair f b l i.
Proof.
  intros PO. induction r as [|i r IH]; intros pr opt pr' opt' IN ND OK E; cbn [ofold] in E.
  { injection E as <- <-. rewrite app_nil_r in ND. auto. }
  apply bind_ok in E as ([p1 o1] & E1 & E).
  assert (SKIP : NoDup (opt ++ r)) by (eapply NoDup_remove_1; exact ND).
  assert (INr : forall j, In j r -> exists b, In b reach /\ In j (insns_of f b)) by (intros j J; apply IN; now right).
  unfold compact_scan in E1. destruct pr as [p|]; [|injection E1 as <- <-; eapply IH; eassumption].
  apply bind_ok in E1 as (x & Hx & E1). apply bind_ok in E1 as (y & Hy & E1). apply get_insn_ok in Hx, Hy.
  destruct (iop_eqb (i_op x) LSH && iop_eqb (i_op y) RSH); [|injection E1 as <- <-; eapply IH; eassumption].
  destruct (is_shift32 LSH x && is_shift32 RSH y) eqn:SH; cbn [negb] in E1; [|injection E1 as <- <-; eapply IH; eassumption].
  destruct (value0 x) as [dx|]; [|injection E1 as <- <-; eapply IH; eassumption].
  destruct (value0 y) as [dy|] eqn:Vy; [|injection E1 as <- <-; eapply IH; eassumption].
  injection E1 as <- <-. destruct (dy =? p) eqn:Q; [|eapply IH; eassumption]. apply Nat.eqb_eq in Q. subst dy.
  eapply IH; [exact INr| | |exact E].
  - rewrite <- app_assoc. exact ND.
  - intros j J. apply in_app_or in J as [J|[<-|[]]]; [now apply OK|]. destruct (IN i (or_introl eq_refl)) as (b & B & I).
    apply andb_true_iff in SH as [S1 S2]. apply shift32 in S1 as (Ox & w & c & rx & Vx & Dc). apply shift32 in S2 as (Oy & e & d & ry & Vyl & Dd).
    exists b, p. split; [exact B|]. eapply PO; try eassumption. unfold value0 in Vy. rewrite Vyl in Vy. unfold val_target in Vy.
    destruct (v_data e); try discriminate Vy. congruence.
Qed.
Lemma compaction_ok f reach g : tidy f -> NoDup reach -> pairs_ok f reach -> compaction reach f = Ok g -> tidy g /\ preserves f g.
Proof.
  intros T ND PO E. unfold compaction in E. apply bind_ok in E as (l & El & E). apply insns_in_spec in El. subst l.
  apply bind_ok in E as ([pr opt] & Es & E). cbn [snd] in E.
  destruct (scan_ok f reach PO (flat_map (insns_of f) reach) None [] pr opt) as [N K]; [| | |exact Es|].
  - intros i I. apply in_flat_map in I. exact I.
  - cbn. now apply flat_nodup.
  - intros i [].
  - eapply compact_all_ok; [exact T|exact N| |exact E]. intros i I. destruct (K i I) as (b & l & _ & P). eauto.
Qed.
(** ** When it succeeds *)
Lemma target_live f u d : tidy f -> 0 < uses f u d -> exists z, f_insn f d = Some z.
Proof. intros T P. destruct (td_users _ T u d) as [K _]. specialize (K P). unfold users_of in K. destruct (f_insn f d); [eauto|destruct K]. Qed.
Lemma compact_one_total f b l i : tidy f -> shift_pair f b l i -> (forall u, u <> i -> uses f u l = 0) -> exists g, compact_one f i = Ok g.
Proof.
  intros T SP ONLY. pose proof SP as SP0. destruct SP as [(pre & post & IN) (x & y & w & c & d & Hl & Hi & Ox & Oy & Vx & Dc & Bc & Nw & (e & Vy & De) & Dd & Bd & Al & Ak)].
  assert (Ii : In i (insns_of f b)) by (rewrite IN; apply in_or_app; right; right; now left).
  assert (Il : In l (insns_of f b)) by (rewrite IN; apply in_or_app; right; now left).
  destruct (td_linked _ T b i Ii) as (y0 & Hy0 & Pi). assert (y0 = y) by congruence. subst y0.
  destruct (td_linked _ T b l Il) as (x0 & Hx0 & Pl). assert (x0 = x) by congruence. subst x0.
  assert (NE : l <> i) by (intros ->; congruence).
  unfold compact_one. rewrite (proj2 (get_insn_ok _ _ _) Hi). cbn [bind]. rewrite Vy.
  replace (val_target e) with (Some l) by (unfold val_target; now rewrite De).
  rewrite (proj2 (get_insn_ok _ _ _) Hl). cbn [bind]. rewrite Ox, Oy, Vx.
  change (iop_eqb RSH RSH && iop_eqb LSH LSH) with true. cbn [negb].
  assert (exists f1, change_value f i (SVal 0) w = Ok f1) as (f1 & E1).
  { unfold change_value. rewrite (proj2 (get_insn_ok _ _ _) Hi). cbn [bind slot_get]. rewrite Vy. cbn [nth_error].
    unfold remove_user. replace (val_target e) with (Some l) by (unfold val_target; now rewrite De).
    rewrite (proj2 (get_insn_ok _ _ _) Hl). cbn [bind]. set (f0 := put_insn _ _ _).
    assert (H0 : f_insn f0 i = Some y) by (unfold f0; rewrite f_insn_put; destruct (Nat.eqb_spec i l); congruence).
    rewrite (proj2 (get_insn_ok _ _ _) H0). cbn [bind]. unfold add_user. destruct (val_target w) as [t|] eqn:W; [|eauto].
    destruct (target_live f l t T) as (z & Hz).
    { unfold uses. rewrite Hl. unfold operand_values. rewrite Ox, Vx. cbn [app filter]. unfold is_use_of. unfold val_target in W.
      destruct (v_data w); try discriminate W. injection W as ->. rewrite Nat.eqb_refl. cbn. lia. }
    assert (A0 : exists z0, f_insn f0 t = Some z0) by (unfold f0; rewrite f_insn_put; destruct (t =? l); eauto). destruct A0 as (z0 & Z0). unfold get_insn. rewrite f_insn_put. destruct (t =? i); [|rewrite Z0]; cbn [bind]; eauto. }
  rewrite E1. cbn [bind].
  destruct (change_spec f i (SVal 0) w f1 y e T Hi) as (T1 & BL1 & EN1 & AL1 & (k & I1) & O1).
  { cbn. now rewrite Vy. }
  { intros q Q. unfold val_target in Q. rewrite De in Q. injection Q as <-. unfold uses. rewrite Hi. unfold operand_values. rewrite Oy, Vy. cbn [app filter].
    unfold is_use_of. rewrite De, Dd, Nat.eqb_refl. reflexivity. }
  { now rewrite Pi. }
  { exact E1. }
  rewrite (proj2 (get_insn_ok _ _ _) I1). cbn [bind slot_set i_vals set_vals set_users]. rewrite Vy. cbn [set_nth firstn].
  set (y' := set_vals [w] _). set (f2 := put_insn f1 i y').
  assert (T2 : tidy f2).
  { unfold f2. eapply put_tidy; [exact T1|exact I1|reflexivity|reflexivity|]. intros q. unfold y', operands. cbn. rewrite Vy, Oy. cbn.
    assert (R : refers q d = false) by (unfold refers, val_target; now rewrite Dd). unfold nref. cbn [filter]. rewrite R. destruct (refers q w); reflexivity. }
  assert (H2i : f_insn f2 i = Some y') by (unfold f2; now rewrite f_insn_put, Nat.eqb_refl).
  assert (H2o : forall j, j <> i -> upto (f_insn f j) (f_insn f2 j)).
  { intros j N. unfold f2. rewrite f_insn_put. pose proof N as N'. apply Nat.eqb_neq in N'. rewrite N'. apply O1, N. }
  assert (INS2 : forall q, insns_of f2 q = insns_of f q) by (intros q; unfold insns_of, f2; cbn; now rewrite BL1).
  pose proof (H2o l NE) as UL. rewrite Hl in UL. unfold upto in UL. destruct (f_insn f2 l) as [xl|] eqn:H2l; [|destruct UL]. destruct UL as (kl & ->).
  assert (PL2 : In l (insns_of f2 (i_parent (set_users kl x)))) by (cbn; rewrite INS2, Pl; exact Il).
  destruct (erase_tidy f2 l _ T2 H2l PL2) as [[_ (u & Nu & Pu)]|(_ & g' & E' & _)]; [|eauto]. exfalso.
  destruct (Nat.eq_dec u i) as [->|Ni].
  - unfold uses in Pu. rewrite H2i in Pu. unfold y', operand_values in Pu. cbn in Pu. rewrite Nw in Pu. cbn in Pu. lia.
  - assert (uses f2 u l = uses f u l); [|rewrite (ONLY u Ni) in *; lia]. pose proof (H2o u Ni) as Q. unfold upto in Q. unfold uses.
    destruct (f_insn f u), (f_insn f2 u); try destruct Q; try reflexivity. subst. reflexivity.
Qed.

Lemma compact_all_total opt : forall f, tidy f -> NoDup opt ->
  (forall i, In i opt -> exists b l, shift_pair f b l i /\ forall u, u <> i -> uses f u l = 0) -> exists g, ofold compact_one f opt = Ok g.
Proof.
  induction opt as [|i opt IH]; intros f T N P; cbn [ofold]; [eauto|]. destruct (P i (or_introl eq_refl)) as (b & l & SP & ONLY). inversion N; subst.
  destruct (compact_one_total f b l i T SP ONLY) as (f1 & E1). rewrite E1. cbn [bind].
  destruct (compact_one_ok f b l i f1 T SP E1) as (T1 & _ & U1 & I1 & _ & _ & W1 & G1).
  apply IH; auto. intros j J. destruct (P j (or_intror J)) as (b' & l' & SP' & ONLY'). exists b', l'.
  assert (NJ : j <> i) by (intros ->; contradiction). split; [eapply (pair_kept f f1 b' l' j b l i); assumption|].
  intros u Nu. destruct (Nat.eq_dec u i) as [->|Ni].
  - specialize (W1 l'). rewrite (ONLY' l) in W1; [lia|]. destruct (pair_ops _ _ _ _ SP) as (? & ? & ? & ? & ? & ?), (pair_ops _ _ _ _ SP') as (? & ? & ? & ? & ? & ?). congruence.
  - destruct (Nat.eq_dec u l) as [->|Nl].
    + unfold uses. now rewrite G1.
    + pose proof (U1 u Nl Ni) as Q. unfold upto in Q. unfold uses in *. specialize (ONLY' u Nu).
      destruct (f_insn f u), (f_insn f1 u); try destruct Q; try reflexivity. subst. exact ONLY'.
Qed.
Lemma scan_total f : forall r pr opt, (forall i, In i r -> exists x, f_insn f i = Some x) ->
  (forall p, pr = Some p -> exists x, f_insn f p = Some x) -> exists s, ofold (compact_scan f) (pr, opt) r = Ok s.
Proof.
  induction r as [|i r IH]; intros pr opt L P; cbn [ofold]; [eauto|].
  destruct (L i (or_introl eq_refl)) as (y & Hy).
  assert (Lr : forall j, In j r -> exists x, f_insn f j = Some x) by (intros j J; apply L; now right).
  assert (Pi : forall p, Some i = Some p -> exists x, f_insn f p = Some x) by (intros p K; injection K as <-; eauto).
  unfold compact_scan at 1. destruct pr as [p|]; [|apply IH; assumption].
  destruct (P p eq_refl) as (x & Hx). rewrite (proj2 (get_insn_ok _ _ _) Hx), (proj2 (get_insn_ok _ _ _) Hy). cbn [bind].
  destruct (_ && _); [|apply IH; assumption]. destruct (negb _); [apply IH; assumption|]. destruct (value0 x), (value0 y); cbn [bind]; apply IH; assumption.
Qed.
Lemma compaction_total f reach : tidy f -> NoDup reach -> pairs_ok f reach -> (forall b, In b reach -> f_block f b <> None) ->
  (forall b l i u, In b reach -> shift_pair f b l i -> u <> i -> uses f u l = 0) -> exists g, compaction reach f = Ok g.
Proof.
  intros T ND PO BL ON. unfold compaction. rewrite (insns_in_total f reach BL). cbn [bind].
  destruct (scan_total f (flat_map (insns_of f) reach) None []) as ([pr opt] & Es).
  { intros i I. apply in_flat_map in I as (b & _ & I). destruct (td_linked _ T b i I) as (x & Hx & _). eauto. }
  { discriminate. }
  rewrite Es. cbn [bind snd].
  destruct (scan_ok f reach PO (flat_map (insns_of f) reach) None [] pr opt) as [N K]; [| | |exact Es|].
  - intros i I. apply in_flat_map in I. exact I.
  - cbn. now apply flat_nodup.
  - intros i [].
  - apply compact_all_total; [exact T|exact N|]. intros i I. destruct (K i I) as (b & l & B & P). exists b, l. split; [exact P|]. intros u Nu. eapply ON; eassumption.
Qed.
