(** Preparing a function for register allocation: constants that need a register. *)
From Coq Require Import ZArith List Bool Arith Lia Permutation.
From Verif Require Import M_Base M_Ir M_Norm M_Edit M_Ra SpecWord SpecFlat SpecProg SpecSsa SpecIr SpecEdit SpecRa SpecPass SpecShift SpecVirt
  L_Edit L_Uses L_Hist L_Ctor L_Ins L_PassPhi L_Sim L_RaGraph L_Word L_Virt L_Prep L_PrepStr L_PrepInv L_PrepCall L_PrepThis L_PrepArg.
From Verif Require Import SpecSpill SpecRa SpecVirt.
Import ListNotations.
Open Scope nat_scope.

Definition two_op (o : iop) : bool := is_bin_alu_op o || is_cond_jmp_op o.
Lemma two_op_not o : two_op o = true -> o <> PHI /\ o <> ALLOC /\ o <> ALLOCARRAY /\ o <> CALL /\ o <> LOADRAW /\ o <> STORERAW /\ o <> ASSIGN.
Proof. destruct o; cbn; intros H; try discriminate H; repeat split; discriminate. Qed.
Lemma hexec_two Rg w bi s i x q : two_op (i_op x) = true -> hexec Rg w bi s i x q =
  match i_vals x with
  | [v1; v2] => match alu_op_of (i_op x), cmp_op_of (i_op x) with
    | Some f, _ => let? wd := width_of (i_alu x) in let? a := veval s bi q v1 in let? b := veval s bi q v2 in vnext (vwr s q i (alu_fn f wd a b))
    | _, Some c => let? wd := width_of (i_alu x) in let? a := veval s bi q v1 in let? b := veval s bi q v2 in
                   Some (VJmp (if cmp_fn c wd a b then i_bb2 x else i_bb1 x) q)
    | _, _ => None
    end
  | _ => None
  end.
Proof.
  intros T. destruct (two_op_not _ T) as (_ & _ & _ & _ & N1 & N2 & _). rewrite hexec_op by assumption. clear N1 N2. unfold hexec0, vexec. destruct (i_op x); try discriminate T; cbn [iop_eqb opnum Nat.eqb]; change (iop_eqb _ CALL) with false; cbv iota;
    destruct (i_vals x) as [|v1 [|v2 [|v3 r]]]; reflexivity.
Qed.
Lemma set_nth_in {A} (l : list A) : forall k v a, In a (set_nth k v l) -> a = v \/ In a l.
Proof. induction l as [|b l IH]; intros [|k] v a; cbn; try tauto; intros [<-|H]; auto. destruct (IH _ _ _ H); auto. Qed.
Lemma set_nth_two {A} (l : list A) k v a b : set_nth k v l = [a; b] -> k < length l -> exists a' b', l = [a'; b'] /\ ((k = 0 /\ a = v /\ b = b') \/ (k = 1 /\ a = a' /\ b = v)).
Proof.
  destruct l as [|a' [|b' [|c l]]], k as [|[|[|k]]]; cbn; intros H L; try lia; try discriminate H; injection H as <- <-; eauto 10; try congruence.
Qed.

Lemma const_one s i x k v s1 m f : inv s -> linked s i -> f_insn (c_f s) i = Some x -> two_op (i_op x) = true -> nth_error (i_vals x) k = Some v -> is_const v = true ->
  cg_create s i (K_assign v) P_FRONT = Ok (s1, m) -> change_value (c_f s1) i (SVal k) (val_insn m) = Ok f ->
  let n := f_ni (c_f s) in
  exists l1 l2, ext s (with_f f s1) (fun d => d) i (i_parent x) l1 [n] [i] [] l2 (fun _ => v) /\ c_ex (with_f f s1) n = Some (ex0 n ASSIGN) /\
    (exists u, f_insn f i = Some (set_users u (set_vals (set_nth k (val_insn n) (i_vals x)) x))) /\
    (forall u c, c < n -> uses f u c = uses (c_f s) u c).
Proof.
  intros V L X T Q C Ec Ef n. destruct (two_op_not _ T) as (NP & NA & NR & NC & NL & NS & NG). destruct (live_linked _ V _ L) as (bb & x' & Hbb & Hi & X' & PB). rewrite X in X'. injection X' as <-.
  apply in_split in Hi as Hl. destruct Hl as (l1 & l2 & Hl). pose proof (linked_lt _ V _ L) as Li.
  pose proof (td_once _ (n_tidy _ V) bb) as ND. rewrite Hl in ND. apply NoDup_remove in ND as (_ & ND). rewrite in_app_iff in ND. rewrite <- PB in Hl.
  destruct (skel_create _ _ _ _ _ _ _ _ _ _ _ _ _ _ (skel_refl s (n_fresh _ V)) X NP ltac:(rewrite PB; apply (n_reach _ V); exact Hbb) Hl ltac:(tauto) (or_introl eq_refl) Ec) as (-> & K1 & CC).
  fold n in K1, CC. cbv iota in K1.
  assert (Fn : f_insn (c_f s) n = None) by (apply (n_fresh _ V); auto).
  destruct (k_insn _ _ _ _ _ _ K1 i) as (u1 & E1). rewrite upd_ne, X in E1 by (unfold n; lia). cbn [option_map] in E1.
  unfold change_value in Ef. rewrite (proj2 (get_insn_ok _ _ _) E1) in Ef. cbn [bind slot_get i_vals set_users] in Ef. rewrite Q in Ef. 
  assert (VT : val_target v = None) by (unfold is_const in C; unfold val_target; destruct (v_data v); try discriminate C; reflexivity).
  unfold remove_user in Ef. rewrite VT in Ef. cbn [bind] in Ef. rewrite (proj2 (get_insn_ok _ _ _) E1) in Ef. cbn [bind slot_set i_vals set_users] in Ef.
  set (y := set_vals (set_nth k (val_insn n) (i_vals x)) x).
  assert (F1i : upd (f_insn (c_f s)) n (Some (build (i_parent x) (K_assign v))) i = Some x) by (rewrite upd_ne by (unfold n; lia); exact X).
  pose proof (skel_put _ _ i (set_users u1 x) x _ _ _ _ K1 F1i (ex_intro _ u1 eq_refl) y (set_vals (set_nth k (val_insn n) (i_vals x)) (set_users u1 x)) (ex_intro _ u1 eq_refl)) as K2.
  fold n in Ef. apply add_user_spec in Ef as (UE & UU).
  pose proof (skel_users _ _ _ _ _ _ _ K2 UE) as K3. change (with_f f (with_f (put_insn (c_f s1) i (set_vals (set_nth k (val_insn n) (i_vals x)) (set_users u1 x))) s1)) with (with_f f s1) in K3.
  match type of K3 with skel _ _ _ ?G0 _ _ => set (G := G0) in K3 end.
  assert (Gi : G i = Some y) by apply upd_eq.
  assert (Gn : G n = Some (build (i_parent x) (K_assign v))) by (unfold G; rewrite upd_ne by (unfold n; lia); apply upd_eq).
  assert (Go : forall j, j <> i -> j <> n -> G j = f_insn (c_f s) j) by (intros j N1 N2; unfold G; rewrite !upd_ne by auto; reflexivity).
  clearbody G.
  assert (Oy : forall c, nref c (operands y) = nref c (operands x) + (if refers c (val_insn n) then 1 else 0)).
  { intros c. pose proof (slot_set_nref x (SVal k) (val_insn n) v c Q) as Z. cbn [slot_set] in Z. fold y in Z. assert (refers c v = false) as R by (unfold refers; now rewrite VT). rewrite R in Z. lia. }
  assert (On : forall c, nref c [v] = 0) by (intros c; unfold nref, refers; cbn [filter]; now rewrite VT).
  assert (CU : forall c u, cnt (users_of f c) u = cnt (users_of (c_f s) c) u + (if refers c (val_insn n) && (i =? u) then 1 else 0)).
  { intros c u. rewrite UU. assert (P : users_of (put_insn (c_f s1) i (set_vals (set_nth k (val_insn n) (i_vals x)) (set_users u1 x))) c = users_of (c_f s1) c).
    { unfold users_of. rewrite f_insn_put. destruct (Nat.eqb_spec c i) as [->|]; [now rewrite E1|reflexivity]. }
    rewrite P. pose proof (CC c u) as P2. rewrite On in P2. destruct (refers c (val_insn n)); cbn [andb]; [|destruct (n =? u); lia].
    rewrite cnt_app, cnt_one. destruct (i =? u), (n =? u); lia. }
  assert (U3 : users_ok f).
  { apply users_counted. intros c u. pose proof (proj1 (users_counted _) (td_users _ (n_tidy _ V)) c u) as C3. unfold counted in *. rewrite count_in in *.
    rewrite CU. change f with (c_f (with_f f s1)). rewrite (skel_ops _ _ _ _ _ _ u K3). unfold ops_of in C3. destruct (Nat.eq_dec u i) as [->|Ni]; [|destruct (Nat.eq_dec u n) as [->|Nn]].
    - rewrite Gi, Oy, Nat.eqb_refl, andb_true_r. rewrite X in C3. destruct (refers c (val_insn n)); lia.
    - rewrite Gn, build_assign_ops, On. rewrite Fn in C3. change (nref c []) with 0 in C3. destruct (Nat.eqb_spec i n); [lia|]. rewrite andb_false_r. lia.
    - rewrite Go by auto. destruct (Nat.eqb_spec i u); [congruence|]. rewrite andb_false_r, Nat.add_0_r. exact C3. }
  assert (INS : forall j z, G j = Some z -> exists u, f_insn f j = Some (set_users u z)).
  { intros j z Z. destruct (k_insn _ _ _ _ _ _ K3 j) as (u & E). rewrite Z in E. exists u. exact E. }
  exists l1, l2. split; [|split; [|split]].
  - constructor.
    + rewrite (k_ni _ _ _ _ _ _ K3). fold n. lia.
    + exact (skel_fresh _ _ _ _ _ _ K3).
    + apply (k_rest _ _ _ _ _ _ K3).
    + apply (k_cfg _ _ _ _ _ _ K3).
    + exact U3.
    + now rewrite PB.
    + right. split; [reflexivity|]. exists x. auto.
    + exact Hl.
    + intros b. rewrite (k_list _ _ _ _ _ _ K3). unfold bupd. reflexivity.
    + rewrite (k_ni _ _ _ _ _ _ K3). split; [constructor; [tauto|constructor]|]. intros j. fold n. cbn [app In]. lia.
    + intros j [<-|[]]. split; [exact (INS _ _ Gn)|]. split; [unfold is_const in C; destruct (v_data v); try discriminate C; exact Logic.I|]. split.
      * intros d D. unfold is_const in C. rewrite D in C. discriminate C.
      * left. rewrite (k_ex _ _ _ _ _ _ K3). apply upd_eq.
    + intros j z Nj Z. assert (Nn : j <> n) by (intros ->; congruence). destruct (INS j z) as (u & Y); [rewrite Go by auto; exact Z|]. eexists. split; [exact Y|]. apply isim_id.
    + intros j Lj Z. destruct (k_insn _ _ _ _ _ _ K3 j) as (u & E). assert (j <> i) by congruence. rewrite Go, Z in E by (unfold n; auto; lia). exact E.
    + intros z Z. rewrite X in Z. injection Z as <-. destruct (INS _ _ Gi) as (u & Y). eexists. split; [exact Y|]. split; [repeat split|].
      intros v' Iv. unfold operand_values in Iv. cbn [set_users y set_vals i_vals i_op i_phi i_addr] in Iv. apply in_app_iff in Iv as [Iv|Iv].
      * apply set_nth_in in Iv as [->|Iv].
        -- right. split; [reflexivity|]. exists n. split; [reflexivity|]. split; [now left|]. rewrite (k_ex _ _ _ _ _ _ K3). apply upd_eq.
        -- left. exists v'. split; [unfold operand_values; apply in_or_app; now left|]. apply vsim_id.
      * left. exists v'. split; [unfold operand_values; apply in_or_app; now right|]. apply vsim_id.
    + intros j Lj Nj. rewrite (k_ex _ _ _ _ _ _ K3). rewrite upd_ne by (unfold n; lia). reflexivity.
    + left. rewrite (k_ex _ _ _ _ _ _ K3). rewrite upd_ne by (unfold n; lia). reflexivity.
    + intros z _ Z Oz. destruct (INS _ _ Gi) as (u & Y). cbn in Z. rewrite Y in Z. injection Z as <-. cbn in Oz. contradiction.
    + intros j Gj. rewrite (k_ex _ _ _ _ _ _ K3). rewrite (k_ni _ _ _ _ _ _ K3) in Gj. rewrite upd_ne by lia. destruct (c_ex s j) as [e|] eqn:Qe; [|reflexivity]. apply (ex_lt _ V) in Qe. fold n in Qe. lia.
    + intros d. now left.
    + intros z _ Z. rewrite X in Z. injection Z as <-. intros Oz. rewrite Oz in T. discriminate T.
    + intros z _ Z. rewrite X in Z. injection Z as <-. auto.
    + intros j _. right. split; [reflexivity|]. exists x. split; [exact X|]. unfold operand_values. apply in_or_app. left. eapply nth_error_In; eauto.
    + intros j d _ D. unfold is_const in C. rewrite D in C. discriminate C.
  - rewrite (k_ex _ _ _ _ _ _ K3). apply upd_eq.
  - exact (INS _ _ Gi).
  - intros u c Lc. rewrite !uses_nref. change f with (c_f (with_f f s1)). rewrite (skel_ops _ _ _ _ _ _ u K3). unfold ops_of.
    assert (R : refers c (val_insn n) = false) by (unfold refers, val_target; cbn; apply Nat.eqb_neq; lia).
    destruct (Nat.eq_dec u i) as [->|Ni]; [|destruct (Nat.eq_dec u n) as [->|Nn]].
    + rewrite Gi, X, Oy, R. lia.
    + rewrite Gn, Fn, build_assign_ops, On. reflexivity.
    + rewrite Go by auto. reflexivity.
Qed.

Lemma const_this s t i x k v l1 l2 Rg w o : inv s -> linked s i -> f_insn (c_f s) i = Some x -> two_op (i_op x) = true -> nth_error (i_vals x) k = Some v -> is_const v = true ->
  let n := f_ni (c_f s) in
  ext s t (fun d => d) i (i_parent x) l1 [n] [i] [] l2 (fun _ => v) -> c_ex t n = Some (ex0 n ASSIGN) ->
  (exists u, f_insn (c_f t) i = Some (set_users u (set_vals (set_nth k (val_insn n) (i_vals x)) x))) ->
  forall bi q q' r, hrel (aug s) (fun d => d) q q' -> hexec Rg w bi (aug s) i (fill_insn o x) q = Some r ->
  exists r', hbody Rg w bi (aug t) o q' ([n] ++ [i] ++ []) = Some r' /\ hres (aug s) (fun d => d) r r'.
Proof.
  intros V L X T Q C n E Xn (u & Y) bi q q' r H Hx. pose proof (ext_edit _ _ _ _ _ _ _ _ _ _ _ V E) as ED.
  destruct (two_op_not _ T) as (NP & NA & NR & NC & NL & NS & NG). pose proof (linked_lt _ V _ L) as Li. fold n in Li.
  destruct (x_copy _ _ _ _ _ _ _ _ _ _ _ E n) as ((un & F) & _); [now left|].
  assert (XAn : c_ex (aug t) n = Some (ex0 n ASSIGN)) by (apply aug_ex; exact Xn).
  destruct (n_ex _ V _ _ L X) as (e & Xe & No).
  assert (XAi : c_ex (aug t) i = Some e). { apply aug_ex. destruct (x_exi _ _ _ _ _ _ _ _ _ _ _ E) as [R|((z & Z & Oz) & _)]; congruence. }
  assert (Fe : x_fin e = false). { destruct (x_fin e) eqn:Ff; [|reflexivity]. destruct (no_fix _ _ _ No Ff). congruence. }
  assert (FV : fill_val o v = v) by (unfold is_const in C; unfold fill_val; destruct (v_data v); try discriminate C; reflexivity).
  assert (Ev : forall S p, exists z, veval S bi p v = Some (u64 z) /\ forall S' p', veval S' bi p' v = Some (u64 z)).
  { intros S p. unfold veval, evalv. unfold is_const in C. destruct (v_data v) as [c| | | | |]; try discriminate C. exists (const_val bi v c). auto. }
  destruct (Ev (aug s) q) as (z & _ & Ez). clear Ev.
  set (q1 := mkV (eupd (v_env q') n (u64 z)) (v_st q')).
  assert (H1 : hrel (aug s) (fun d => d) q q1).
  { constructor; cbn [q1 v_st v_env]; [apply (hr_st _ _ _ _ H)|]. intros d a U Za. unfold eupd. destruct (Nat.eqb_spec d n) as [->|_]; [|exact (hr_env _ _ _ _ H _ _ U Za)].
    destruct U as (uu & z0 & v0 & Lu & Z0 & I0 & D0). pose proof (use_target s uu z0 v0 n V Z0 I0 D0). unfold n in *. lia. }
  assert (First : hexec Rg w bi (aug t) n (fill_insn o (set_users un (build (i_parent x) (K_assign v)))) q' = Some (VNext q1)).
  { rewrite hexec_assign, FV, Ez. cbn [obind]. unfold vwr. rewrite XAn. cbn [obind ex0 x_dst]. change (is_void_op ASSIGN) with false. cbv iota. unfold vput. rewrite XAn. cbn [obind ex0 x_fin vnext].
    rewrite u64_u64. reflexivity. }
  cbn [app hbody]. change (c_f (aug t)) with (c_f t). rewrite F. cbn [obind]. rewrite First. cbn [obind]. rewrite Y. cbn [obind].
  assert (EN : veval (aug t) bi q1 (fill_val o (val_insn n)) = Some (u64 z)).
  { unfold veval. cbn [fill_val val_insn v_data]. rewrite XAn. cbn [obind ex0 x_fin q1 v_env]. unfold eupd. now rewrite Nat.eqb_refl. }
  assert (EO : forall v0 a, In v0 (i_vals x) -> veval (aug s) bi q (fill_val o v0) = Some a -> veval (aug t) bi q1 (fill_val o v0) = Some a).
  { intros v0 a I0 Ha. refine (eval_h _ _ _ _ _ _ _ ED bi q q1 _ _ a H1 (vsim_id _) _ Ha). intros d D. apply fill_data in D. exists i, x, v0. split; [exact L|]. split; [exact X|]. split; [|exact D].
    unfold operand_values. apply in_or_app. now left. }
  assert (WR : forall a q2, vwr (aug s) q i a = Some q2 -> exists q2', vwr (aug t) q1 i a = Some q2' /\ hrel (aug s) (fun d => d) q2 q2').
  { intros a q2. unfold vwr. rewrite (aug_ex _ _ _ Xe), XAi. cbn [obind]. destruct (x_dst e) as [d|] eqn:Dd; [|discriminate].
    assert (d = i). { destruct (is_void_op (i_op x)) eqn:Vo; [rewrite (no_void _ _ _ No Vo) in Dd; discriminate|]. rewrite (no_dst _ _ _ No Vo NC) in Dd. congruence. } subst d.
    unfold vput. rewrite (aug_ex _ _ _ Xe), XAi. cbn [obind]. rewrite Fe. intros K. injection K as <-. eexists. split; [reflexivity|].
    constructor; cbn [v_st v_env]; [apply (hr_st _ _ _ _ H1)|]. intros d a0 U Z. unfold eupd in *. destruct (d =? i); [exact Z|]. exact (hr_env _ _ _ _ H1 _ _ U Z). }
  assert (LK : k < length (i_vals x)) by (apply nth_error_Some; congruence).
  rewrite hexec_two in Hx by exact T. rewrite hexec_two by exact T. 
  change (i_vals (fill_insn o x)) with (map (fill_val o) (i_vals x)) in Hx.
  change (i_vals (fill_insn o (set_users u (set_vals (set_nth k (val_insn n) (i_vals x)) x)))) with (map (fill_val o) (set_nth k (val_insn n) (i_vals x))).
  change (i_op (fill_insn o x)) with (i_op x) in Hx. change (i_alu (fill_insn o x)) with (i_alu x) in Hx. change (i_bb1 (fill_insn o x)) with (i_bb1 x) in Hx. change (i_bb2 (fill_insn o x)) with (i_bb2 x) in Hx.
  match goal with |- context [alu_op_of ?O] => change O with (i_op x) end. match goal with |- context [i_alu ?O] => change (i_alu O) with (i_alu x) end.
  match goal with |- context [i_bb1 ?O] => change (i_bb1 O) with (i_bb1 x) end. match goal with |- context [i_bb2 ?O] => change (i_bb2 O) with (i_bb2 x) end.
  match goal with |- context [cmp_op_of ?O] => change O with (i_op x) end.
  destruct (i_vals x) as [|v1 [|v2 [|v3 vr]]] eqn:Vs; try discriminate Hx. cbn [map] in Hx.
  assert (EV : exists w1 w2, map (fill_val o) (set_nth k (val_insn n) [v1; v2]) = [w1; w2] /\
     (forall a, veval (aug s) bi q (fill_val o v1) = Some a -> veval (aug t) bi q1 w1 = Some a) /\ (forall a, veval (aug s) bi q (fill_val o v2) = Some a -> veval (aug t) bi q1 w2 = Some a)).
  { destruct k as [|[|k]]; cbn [set_nth map nth_error] in Q |- *.
    - injection Q as ->. eexists _, _. split; [reflexivity|]. split; [intros a Ha; rewrite FV, Ez in Ha; rewrite EN; exact Ha|]. intros a Ha. apply EO; [right; now left|exact Ha].
    - injection Q as ->. eexists _, _. split; [reflexivity|]. split; [intros a Ha; apply EO; [now left|exact Ha]|]. intros a Ha. rewrite FV, Ez in Ha. rewrite EN. exact Ha.
    - cbn [length] in LK. lia. }
  destruct EV as (w1 & w2 & EQ & V1 & V2). rewrite EQ.
  destruct (veval (aug s) bi q (fill_val o v1)) as [a|] eqn:Ea.
  2: { exfalso. destruct (alu_op_of (i_op x)), (cmp_op_of (i_op x)), (width_of (i_alu x)); discriminate Hx. }
  destruct (veval (aug s) bi q (fill_val o v2)) as [b|] eqn:Eb.
  2: { exfalso. destruct (alu_op_of (i_op x)), (cmp_op_of (i_op x)), (width_of (i_alu x)); discriminate Hx. }
  rewrite (V1 _ eq_refl), (V2 _ eq_refl). cbn [obind] in Hx |- *.
  destruct (alu_op_of (i_op x)) as [g|].
  - destruct (width_of (i_alu x)) as [wd|]; [|discriminate Hx]. cbn [obind] in Hx |- *. destruct (vwr (aug s) q i (alu_fn g wd a b)) as [q2|] eqn:W; [|discriminate Hx]. injection Hx as <-.
    destruct (WR _ _ W) as (q2' & W' & H2). rewrite W'. cbn [vnext obind]. eexists. split; [reflexivity|exact H2].
  - destruct (cmp_op_of (i_op x)) as [g|]; [|discriminate Hx]. destruct (width_of (i_alu x)) as [wd|]; [|discriminate Hx]. cbn [obind] in Hx |- *. injection Hx as <-.
    eexists. split; [reflexivity|]. split; [reflexivity|exact H1].
Qed.
