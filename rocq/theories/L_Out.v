(** Output array, jump offsets and complete runs. *)
From Verif Require Import M_Base M_Ir M_Norm SpecWord SpecIsa SpecFlat SpecNormCond SpecProg SpecOut L_Word L_Norm L_Trans L_Prog.
Open Scope Z_scope.

Lemma halves_enc t : halves t = enc t.
Proof. unfold halves, enc. rewrite Z.shiftr_div_pow2 by lia. reflexivity. Qed.
Lemma halves_encs l : flat_map halves l = encs l.
Proof. unfold encs. induction l; cbn [flat_map]; [reflexivity|]. rewrite halves_enc, IHl. reflexivity. Qed.
Lemma size_slots l : size l = slots_insns l.
Proof.
  unfold size. induction l as [|i l IH]; cbn [flat_map slots_insns]; [reflexivity|].
  rewrite app_length, Nat2Z.inj_add, IH, halves_encs, encs_length. reflexivity.
Qed.
Lemma sizes_slots t : sizes t = total_slots t.
Proof.
  unfold sizes, total_slots. induction t as [|b t IH]; cbn [flat_map fold_right]; [reflexivity|].
  rewrite app_length, Nat2Z.inj_add, IH. f_equal. exact (size_slots (snd b)).
Qed.

Lemma cg_norm_phases fuel p code : cg_norm fuel p = Ok code ->
  exists p1 p2 t l, normalize p = Ok p1 /\ replace_builtin fuel p1 = Ok p2 /\ translate p2 = Ok t /\
    relocate t = Ok l /\ synthesize (total_slots t) l = Ok code.
Proof.
  unfold cg_norm. intros H. apply bind_ok in H. destruct H as [p1 [H1 H]]. apply bind_ok in H. destruct H as [p2 [H2 H]].
  apply bind_ok in H. destruct H as [t [H3 H]]. apply bind_ok in H. destruct H as [u [_ H]].
  apply bind_ok in H. destruct H as [l [H4 H]]. exists p1, p2, t, l. auto.
Qed.

Lemma cg_norm_ok fuel p p1 p2 t l : normalize p = Ok p1 -> replace_builtin fuel p1 = Ok p2 -> translate p2 = Ok t ->
  check_total t = Ok tt -> relocate t = Ok l -> cg_norm fuel p = Ok (flat_map halves l).
Proof.
  intros H1 H2 H3 H4 H5. unfold cg_norm. rewrite H1. cbn [bind]. rewrite H2. cbn [bind]. rewrite H3. cbn [bind]. rewrite H4. cbn [bind].
  rewrite H5. cbn [bind]. unfold relocate in H5. rewrite <- (relocate_blocks_slots _ _ _ _ H5). rewrite halves_encs. apply synthesize_ok.
Qed.

Lemma but_off_refl i : but_off i i.
Proof. unfold but_off. auto. Qed.
Lemma relocate_one_but_off bp ipos i c : relocate_one bp ipos i = Ok c ->
  Forall2 but_off (encs c) (encs (snd i)).
Proof.
  intros H. assert (R : forall l, Forall2 but_off l l) by (induction l; constructor; auto using but_off_refl).
  assert (Q : forall b, match snd i with
     | [t] => match pos_of bp b with Some target => Ok [set_off (s16 (target - ipos - 1)) t] | None => UB end
     | _ => Crit end = Ok c -> Forall2 but_off (encs c) (encs (snd i))).
  { intros b E. destruct (snd i) as [|t [|]]; try discriminate. destruct (pos_of bp b); [|discriminate].
    apply Ok_inj in E. subst c. unfold encs. cbn [flat_map]. rewrite !app_nil_r. unfold enc, set_off. cbn [p_wide].
    destruct (p_wide t); repeat constructor. }
  unfold relocate_one in H. destruct (iop_eqb _ JA); [eapply Q; exact H|]. destruct (is_cond_jmp_op _); [eapply Q; exact H|].
  apply Ok_inj in H. subst c. apply R.
Qed.
Lemma relocate_insns_but_off bp l : forall ipos c, relocate_insns bp ipos l = Ok c ->
  Forall2 but_off (encs c) (flat_map (fun i => flat_map halves (snd i)) l).
Proof.
  induction l as [|i l IH]; intros ipos c H; cbn [relocate_insns flat_map] in *.
  - apply Ok_inj in H. subst c. constructor.
  - apply bind_ok in H. destruct H as [a [Ea H]]. apply bind_ok in H. destruct H as [b [Eb H]]. apply Ok_inj in H. subst c.
    rewrite encs_app. apply Forall2_app; [|eapply IH; eauto]. rewrite halves_encs. eapply relocate_one_but_off; eauto.
Qed.
Lemma relocate_blocks_but_off bp t : forall ipos c, relocate_blocks bp ipos t = Ok c ->
  Forall2 but_off (encs c) (flat_map (fun b => flat_map (fun i => flat_map halves (snd i)) (snd b)) t).
Proof.
  induction t as [|b t IH]; intros ipos c H; cbn [relocate_blocks flat_map] in *.
  - apply Ok_inj in H. subst c. constructor.
  - apply bind_ok in H. destruct H as [x [Ex H]]. apply bind_ok in H. destruct H as [y [Ey H]]. apply Ok_inj in H. subst c.
    rewrite encs_app. apply Forall2_app; [eapply relocate_insns_but_off; eauto|eapply IH; eauto].
Qed.

Lemma output_exact fuel p code : cg_norm fuel p = Ok code ->
  exists p1 p2 t, normalize p = Ok p1 /\ replace_builtin fuel p1 = Ok p2 /\ translate p2 = Ok t /\
    Z.of_nat (length code) = total_slots t /\
    Forall2 but_off code (flat_map (fun b => flat_map (fun i => flat_map halves (snd i)) (snd b)) t).
Proof.
  intros H. destruct (cg_norm_phases _ _ _ H) as (p1 & p2 & t & l & H1 & H2 & H3 & H4 & H5).
  exists p1, p2, t. do 3 (split; [assumption|]).
  split; [exact (code_len _ _ _ H4 H5)|]. rewrite (code_encs _ _ _ H4 H5). eapply relocate_blocks_but_off; exact H4.
Qed.

Lemma relocate_insns_app bp l1 i l2 : forall ipos c, relocate_insns bp ipos (l1 ++ i :: l2) = Ok c ->
  exists c1 x c2, relocate_one bp (ipos + slots_insns l1) i = Ok x /\ c = c1 ++ x ++ c2 /\ slots_list c1 = slots_insns l1.
Proof.
  induction l1 as [|a l1 IH]; intros ipos c H; cbn [app relocate_insns] in H; apply bind_ok in H; destruct H as [x [Ex H]];
    apply bind_ok in H; destruct H as [y [Ey H]]; apply Ok_inj in H; subst c.
  - exists [], x, y. cbn. rewrite Z.add_0_r. auto.
  - destruct (IH _ _ Ey) as (c1 & z & c2 & H1 & -> & H2). exists (x ++ c1), z, c2.
    cbn [slots_insns]. rewrite Z.add_assoc. split; [exact H1|]. split; [rewrite app_assoc; reflexivity|].
    rewrite slots_list_app, H2, (relocate_one_slots _ _ _ _ Ex). reflexivity.
Qed.

Lemma jumps_land fuel p code : NoDup (map nb_id p) -> cg_norm fuel p = Ok code -> Z.of_nat (length code) <= 2 ^ 15 ->
  exists p1 p2 t, normalize p = Ok p1 /\ replace_builtin fuel p1 = Ok p2 /\ translate p2 = Ok t /\
  forall tpre id l1 n c l2 tpost, t = tpre ++ (id, l1 ++ (n, c) :: l2) :: tpost -> is_jump n = true ->
  exists i, fetch code (sizes tpre + size l1) = Some i /\
  exists upre ul upost, t = upre ++ (target n, ul) :: upost /\
    sizes tpre + size l1 + 1 + b_off i = sizes upre.
Proof.
  intros Nd H Sz. destruct (cg_norm_phases _ _ _ H) as (p1 & p2 & t & l & H1 & H2 & H3 & H4 & H5).
  exists p1, p2, t. do 3 (split; [assumption|]).
  intros tpre id l1 n c l2 tpost Et Jn.
  assert (Nt : NoDup (map fst t)).
  { replace (map fst t) with (map nb_id p); [exact Nd|]. symmetry.
    etransitivity; [exact (ids3 _ _ H3)|]. etransitivity; [exact (ids2 _ _ _ _ H2)|]. exact (ids1 _ _ H1). }
  pose proof H4 as Re. unfold relocate in Re. rewrite Et in Re at 2.
  destruct (relocate_blocks_app _ _ _ _ _ _ Re) as (d1 & d & d2 & Rc & El & Sl). cbn [snd] in Rc. rewrite Z.add_0_l in Rc.
  destruct (relocate_insns_app _ _ _ _ _ _ Rc) as (e1 & x & e2 & Rx & -> & Se).
  rewrite sizes_slots, size_slots. set (P := total_slots tpre + slots_insns l1) in *.
  assert (Cd : code_at code P (encs x)).
  { pose proof (code_at_self code) as Cs. rewrite (code_encs _ _ _ H4 H5) in Cs at 2. rewrite El, !encs_app in Cs.
    apply code_at_app in Cs. destruct Cs as [_ Cs]. apply code_at_app in Cs. destruct Cs as [Cs _].
    apply code_at_app in Cs. destruct Cs as [_ Cs]. apply code_at_app in Cs. destruct Cs as [Cs _].
    rewrite !encs_length, Sl, Se, Z.add_0_l in Cs. exact Cs. }
  assert (T : exists q tg, c = [q] /\ pos_of (block_pos t 0) (target n) = Some tg /\ x = [set_off (s16 (tg - P - 1)) q]).
  { unfold relocate_one in Rx. cbn [fst snd] in Rx. unfold target, is_jump in *.
    destruct (iop_eqb (i_op (n_i n)) JA).
    - destruct c as [|q [|]]; try discriminate. destruct (pos_of _ (i_bb1 (n_i n))) as [tg|]; [|discriminate].
      apply Ok_inj in Rx. eauto.
    - cbn in Jn. rewrite Jn in Rx.
      destruct c as [|q [|]]; try discriminate. destruct (pos_of _ (i_bb2 (n_i n))) as [tg|]; [|discriminate].
      apply Ok_inj in Rx. eauto. }
  destruct T as (q & tg & -> & Pt & ->).
  assert (Ex : exists upre ul upost, t = upre ++ (target n, ul) :: upost).
  { unfold pos_of in Pt. clear -Pt. revert Pt. generalize 0. induction t as [|b t IH]; intros z Pt; [discriminate|].
    cbn [block_pos find] in Pt. cbn [fst] in Pt. destruct (Nat.eqb_spec (fst b) (target n)) as [e|].
    - exists [], (snd b), t. destruct b. cbn in *. subst. reflexivity.
    - destruct (IH _ Pt) as (a & u & z' & ->). exists (b :: a), u, z'. reflexivity. }
  destruct Ex as (upre & ul & upost & Eu).
  pose proof Nt as Nu. rewrite Eu in Nu.
  pose proof (pos_of_at upre (target n, ul) upost 0 Nu) as Pu. cbn [fst] in Pu. rewrite <- Eu in Pu.
  assert (tg = total_slots upre) as Htg.
  { assert (Q : Some tg = Some (0 + total_slots upre)) by (etransitivity; [symmetry; exact Pt|exact Pu]).
    apply Some_inj in Q. rewrite Q. lia. }
  assert (Ecode : exists i rest, encs [set_off (s16 (tg - P - 1)) q] = i :: rest /\ b_off i = s16 (tg - P - 1)).
  { unfold encs, enc, set_off. cbn [flat_map p_wide]. destruct (p_wide q); cbn; eauto. }
  destruct Ecode as (i & rest & Ei & Oi). rewrite Ei in Cd.
  exists i. split.
  - destruct Cd as [_ Cd]. specialize (Cd 0%nat i eq_refl). rewrite Z.add_0_r in Cd. exact Cd.
  - exists upre, ul, upost. split; [exact Eu|]. rewrite sizes_slots, Oi, Htg.
    pose proof (code_len _ _ _ H4 H5) as CL.
    assert (Z1 : total_slots t = total_slots upre + (slots_insns ul + total_slots upost)).
    { rewrite Eu. etransitivity; [exact (total_slots_app _ _)|]. reflexivity. }
    assert (Z2 : total_slots t = total_slots tpre + (slots_insns (l1 ++ (n, [q]) :: l2) + total_slots tpost)).
    { rewrite Et. etransitivity; [exact (total_slots_app _ _)|]. reflexivity. }
    assert (Z3 : slots_insns (l1 ++ (n, [q]) :: l2) = slots_insns l1 + (slots_list [q] + slots_insns l2)).
    { clear. induction l1 as [|a l1 IH]; cbn [app slots_insns]; [cbn [snd]; lia|]. rewrite IH. lia. }
    assert (slots_list [q] >= 1). { pose proof (slots_pos q). cbn [slots_list]. lia. }
    pose proof (slots_insns_nonneg ul). pose proof (total_slots_nonneg upost). pose proof (total_slots_nonneg upre).
    pose proof (slots_insns_nonneg l1). pose proof (slots_insns_nonneg l2). pose proof (total_slots_nonneg tpre). pose proof (total_slots_nonneg tpost).
    rewrite s16_small; unfold P; lia.
Qed.

Lemma cg_norm_sim w bi succ fuel p p1 code :
  layout_ok succ p -> normalize p = Ok p1 -> counts p1 bi ->
  (forall b, In b p -> Forall (norm_ok (bi (nb_id b))) (nb_insns b)) ->
  cg_norm fuel p = Ok code -> Z.of_nat (length code) <= 2 ^ 15 ->
  exists at_ : nat -> Z, at_ (entry p) = 0 /\
  forall k id s r, In id (map nb_id p) -> st_ok s -> prun w bi succ p k id s = Some r ->
  match r with
  | PGo u s' => exists n, isa_run w code n (at_ id) s = INext (at_ u) s'
  | PRet v s' => exists n, isa_run w code n (at_ id) s = IExit v s'
  end.
Proof.
  intros Ly No Ct Nk H Sz. destruct (cg_norm_phases _ _ _ H) as (p1' & p2 & t & l & H1 & H2 & H3 & H4 & H5).
  assert (p1' = p1) by congruence. subst p1'.
  assert (Ids : map fst t = map nb_id p).
  { etransitivity; [exact (ids3 _ _ H3)|]. etransitivity; [exact (ids2 _ _ _ _ H2)|]. exact (ids1 _ _ No). }
  exists (fun id => match pos_of (block_pos t 0) id with Some z => z | None => 0 end). split.
  - destruct p as [|b p]; [cbn; destruct t; [reflexivity|discriminate]|]. destruct t as [|tb t]; [discriminate|].
    cbn [map] in Ids. injection Ids as I1 _. cbn [entry]. rewrite <- I1. unfold pos_of. cbn [block_pos find]. cbn [fst].
    rewrite Nat.eqb_refl. reflexivity.
  - intros k id s r Hid O X.
    assert (Ex : exists pc, pos_of (block_pos t 0) id = Some pc).
    { rewrite <- Ids in Hid. clear -Hid. revert Hid. generalize 0. unfold pos_of. induction t as [|b t IH]; intros z Hid; [destruct Hid|].
      cbn [block_pos find]. cbn [fst]. destruct (Nat.eqb_spec (fst b) id); [cbn; eauto|]. destruct Hid; [contradiction|]. apply IH; auto. }
    destruct Ex as [pc Hpc].
    pose proof (prun_sim w bi succ fuel p p1 p2 t l code Ly No H2 H3 H4 H5 Ct Sz Nk k id s r pc O X Hpc) as Q.
    rewrite Hpc. destruct r.
    + destruct Q as (n & pc' & R & Hu). exists n. rewrite Hu. exact R.
    + exact Q.
Qed.

Lemma cg_norm_returns w bi succ fuel p p1 code s r s' :
  layout_ok succ p -> normalize p = Ok p1 -> counts p1 bi ->
  (forall b, In b p -> Forall (norm_ok (bi (nb_id b))) (nb_insns b)) ->
  cg_norm fuel p = Ok code -> Z.of_nat (length code) <= 2 ^ 15 -> st_ok s ->
  ir_returns w bi succ p s r s' -> code_returns w code s r s'.
Proof.
  intros Ly No Ct Nk H Sz O [k X].
  destruct (cg_norm_sim w bi succ fuel p p1 code Ly No Ct Nk H Sz) as (at_ & A0 & Sim).
  assert (Hin : In (entry p) (map nb_id p)).
  { destruct p; [|left; reflexivity]. exfalso. destruct k; cbn in X; discriminate. }
  pose proof (Sim k (entry p) s (PRet r s') Hin O X) as Q. rewrite A0 in Q. exact Q.
Qed.

(** Conditional jumps, from the IR instruction to the encoded one. *)
Lemma normalize_cond_shape2 n l v0 v1 : normalize_one n = Ok l -> is_cond_jmp_op (i_op (n_i n)) = true -> i_vals (n_i n) = [v0; v1] ->
  l = [] \/ exists m, l = [m] /\ (forall v, In v (i_vals (n_i m)) -> In v (i_vals (n_i n))) /\
    ((i_op (n_i m) = JA /\ i_vals (n_i m) = [] /\ i_bb1 (n_i m) = i_bb2 (n_i n)) \/
     (is_cond_jmp_op (i_op (n_i m)) = true /\ i_bb1 (n_i m) = i_bb1 (n_i n) /\ i_bb2 (n_i m) = i_bb2 (n_i n))).
Proof.
  intros N C Hv.
  assert (N' : normalize_cond_jmp n = Ok l).
  { unfold normalize_one in N. destruct (i_op (n_i n)); cbn in C; try discriminate; exact N. }
  clear N. unfold normalize_cond_jmp in N'.
  apply bind_ok in N'. destruct N' as [t0 [_ N]]. apply bind_ok in N. destruct N as [t1 [_ N]].
  destruct (vt_eqb t0 T_CONST).
  - destruct (vt_eqb t1 T_CONST).
    + destruct (iop_eqb _ JNE); [|discriminate]. destruct (negb _); apply Ok_inj in N; subst l; auto.
      right. eexists. split; [reflexivity|]. cbn. split; [tauto|]. left. auto.
    + destruct (swap_jmp _) as [o|] eqn:Sw; [|discriminate]. apply Ok_inj in N; subst l.
      right. eexists. split; [reflexivity|]. unfold val_k. rewrite Hv. cbn. split; [rewrite Hv; cbn; intros v [<-|[<-|[]]]; auto|].
      right. split; [|auto]. destruct (i_op (n_i n)); cbn in *; try discriminate; injection Sw as <-; reflexivity.
  - apply Ok_inj in N; subst l. right. exists n. split; [reflexivity|]. split; [auto|]. right. auto.
Qed.

Lemma cond_jump_exact w bi n cm v0 v1 wd a b l s :
  norm_ok bi n -> Forall plain (i_vals (n_i n)) -> i_bb1 (n_i n) <> i_bb2 (n_i n) ->
  cmp_op_of (i_op (n_i n)) = Some cm -> i_vals (n_i n) = [v0; v1] -> width_of (i_alu (n_i n)) = Some wd ->
  evalv bi s v0 = Some a -> evalv bi s v1 = Some b -> st_ok s -> normalize_one n = Ok l ->
  (l = [] /\ cmp_fn cm wd a b = false) \/
  (exists m, l = [m] /\ forall c o pc prog, translate_one m = Ok [c] -> s16_range o -> 0 <= pc ->
    fetch prog pc = Some (mkBpf (p_op c) (p_dst c mod 16) (p_src c mod 16) o (p_imm c)) -> p_wide c = false ->
    isa_step w prog pc s = INext (if cmp_fn cm wd a b then pc + 1 + o else pc + 1) s).
Proof.
  intros Nk Pl Nb Hc Hv Wd E0 E1 O N.
  assert (Cj : is_cond_jmp_op (i_op (n_i n)) = true) by (destruct (i_op (n_i n)); cbn in Hc; try discriminate; reflexivity).
  assert (X : fexec w bi n s = Some (FJmp (if cmp_fn cm wd a b then i_bb2 (n_i n) else i_bb1 (n_i n)) s)).
  { destruct n as [x d]. cbn [n_i] in *. rewrite (fexec_jmp w bi x d s cm v0 v1 Hc Hv), Wd, E0, E1. reflexivity. }
  destruct (normalize_one_good w bi n s l _ Nk N O X) as [[r' [F Ag]] T].
  destruct (normalize_cond_shape2 _ _ _ _ N Cj Hv) as [->|(m & -> & Sub & Sh)].
  - left. split; [reflexivity|]. cbn [fseq] in F. apply Some_inj in F. subst r'.
    destruct Ag as [Ag|(f & s0 & Ft & Ef & _)]; [discriminate|]. unfold not_taken in Ft. rewrite Cj in Ft.
    injection Ft as <-. destruct (cmp_fn cm wd a b); [|reflexivity]. injection Ef as Q _. congruence.
  - right. exists m. split; [reflexivity|]. intros c o pc prog Tm Ro Pc Fe Wi.
    inversion T as [|? ? Tm1 _]; subst.
    cbn [fseq] in F. destruct (fexec w bi m s) as [q|] eqn:Em; [|discriminate]. cbn [obind] in F.
    assert (Hq : exists u, q = FJmp u s).
    { destruct m as [y d]. cbn [n_i] in *. destruct Sh as [(Hj & Hvy & _)|(Cm & _)].
      - unfold fexec in Em. cbn [n_i] in Em. rewrite Hj, Hvy in Em. apply Some_inj in Em. subst q. eauto.
      - destruct (cond_cmp _ Cm) as [cm' Hc']. 
        assert (exists u0 u1, i_vals y = [u0; u1]) as (u0 & u1 & Hu).
        { unfold fexec in Em. cbn [n_i n_pos] in Em. destruct (i_op y); cbn in Cm; try discriminate;
          destruct (i_vals y) as [|? [|? [|]]]; try discriminate Em; eauto. }
        rewrite (fexec_jmp w bi y d s cm' u0 u1 Hc' Hu) in Em.
        destruct (width_of (i_alu y)); [|discriminate Em]. cbn [obind] in Em.
        destruct (evalv bi s u0); [|discriminate Em]. cbn [obind] in Em. destruct (evalv bi s u1); [|discriminate Em]. cbn [obind] in Em.
        apply Some_inj in Em. subst q. eauto. }
    destruct Hq as [u ->]. apply Some_inj in F. subst r'.
    assert (Hu : u = if cmp_fn cm wd a b then i_bb2 (n_i n) else i_bb1 (n_i n)).
    { destruct Ag as [Ag|(? & ? & _ & _ & Q)]; [congruence|discriminate]. }
    assert (Rs : resolved_insn bi m).
    { unfold resolved_insn. rewrite Forall_forall in *. intros v Hi. specialize (Pl v (Sub v Hi)).
      unfold resolved. unfold plain, is_const in Pl. destruct (v_data v); auto. intros Q. destruct (Q (Pl eq_refl)). }
    set (bp := [(i_bb2 (n_i n), pc + 1 + o)]).
    assert (Ps : pos_of bp (i_bb2 (n_i n)) = Some (pc + 1 + o)).
    { unfold pos_of, bp. cbn [find fst]. rewrite Nat.eqb_refl. reflexivity. }
    assert (Rl : relocate_one bp pc (m, [c]) = Ok [set_off o c]).
    { assert (So : s16 (pc + 1 + o - pc - 1) = o) by (rewrite s16_small; [lia|unfold s16_range in Ro; lia]).
      unfold relocate_one. cbn [fst snd]. destruct Sh as [(Hj & _ & Hb)|(Cm & _ & Hb)].
      - rewrite Hj. change (iop_eqb JA JA) with true. cbv iota beta. rewrite Hb, Ps, So. reflexivity.
      - assert (iop_eqb (i_op (n_i m)) JA = false) as ->.
        { destruct (i_op (n_i m)); cbn in Cm; try discriminate; reflexivity. }
        rewrite Cm, Hb, Ps, So. reflexivity. }
    assert (Cd : code_at prog pc (encs [set_off o c])).
    { split; [exact Pc|]. unfold encs, enc, set_off. cbn [flat_map p_wide]. rewrite Wi. cbn [app p_op p_dst p_src p_off p_imm].
      intros [|[|k]] i E; cbn in E; try discriminate. injection E as <-. rewrite Z.add_0_r. exact Fe. }
    destruct (jump_lands w bi bp m s [c] _ u s prog pc Tm1 Rs Tm Rl O Em Cd) as [_ (pc' & St & _ & D)].
    rewrite isa_run_one in St. rewrite St. f_equal.
    destruct D as [(TT & PT & ->)|(Cm & Ub & ->)].
    + unfold pos_of, bp in PT. cbn [find fst] in PT. destruct (Nat.eqb_spec (i_bb2 (n_i n)) u) as [e|]; [|discriminate].
      cbn in PT. apply Some_inj in PT. subst TT. replace (pc + 1 + o - pc - 1) with o by lia. rewrite s16_small by (unfold s16_range in Ro; lia).
      destruct (cmp_fn cm wd a b); [reflexivity|]. exfalso. congruence.
    + destruct (cmp_fn cm wd a b); [|reflexivity]. exfalso.
      destruct Sh as [(Hj & _)|(_ & Hb & _)]; [rewrite Hj in Cm; discriminate|]. apply Nb. congruence.
Qed.

(** ** Decidable forms of the hypotheses *)
Fixpoint cond_lastb (l : list ninsn) (h : option nat) : bool :=
  match l with
  | [] => true
  | n :: r => (negb (is_cond_jmp_op (i_op (n_i n))) ||
               (match r with [] => true | _ => false end && match h with Some u => Nat.eqb u (i_bb1 (n_i n)) | None => false end))
              && cond_lastb r h
  end.
Fixpoint layoutb (succ : nat -> option nat) (p : nprog) : bool :=
  match p with
  | [] => true
  | b :: post => cond_lastb (nb_insns b) (hd_id post) &&
      (negb (ends_open b) || match succ (nb_id b), hd_id post with Some t, Some u => Nat.eqb t u | Some _, None => false | None, _ => true end)
      && layoutb succ post
  end.
Fixpoint nodupb (l : list nat) : bool := match l with [] => true | a :: r => negb (existsb (Nat.eqb a) r) && nodupb r end.
Lemma nodupb_ok l : nodupb l = true -> NoDup l.
Proof.
  induction l as [|a l IH]; cbn; intros H; constructor.
  - apply andb_prop in H. destruct H as [H _]. intros Hi. apply negb_true_iff in H.
    assert (existsb (Nat.eqb a) l = true) by (apply existsb_exists; exists a; split; [exact Hi|apply Nat.eqb_refl]). congruence.
  - apply andb_prop in H. apply IH. apply H.
Qed.
Lemma cond_lastb_ok l h : cond_lastb l h = true -> forall l1 n l2, l = l1 ++ n :: l2 -> is_cond_jmp_op (i_op (n_i n)) = true ->
  l2 = [] /\ h = Some (i_bb1 (n_i n)).
Proof.
  induction l as [|a l IH]; intros H l1 n l2 E C; [destruct l1; discriminate|]. cbn [cond_lastb] in H. apply andb_prop in H. destruct H as [H1 H2].
  destruct l1 as [|a1 l1]; cbn [app] in E; injection E as -> ->.
  - rewrite C in H1. cbn in H1. apply andb_prop in H1. destruct H1 as [Q R]. destruct l2; [|discriminate].
    destruct h as [u|]; [|discriminate]. apply Nat.eqb_eq in R. subst u. auto.
  - eapply IH; eauto.
Qed.
Lemma layoutb_ok succ p : nodupb (map nb_id p) = true -> layoutb succ p = true -> layout_ok succ p.
Proof.
  intros N L. split; [apply nodupb_ok; exact N|]. clear N. induction p as [|a p IH]; intros pre b post E; [destruct pre; discriminate|].
  cbn [layoutb] in L. apply andb_prop in L. destruct L as [L L2]. apply andb_prop in L. destruct L as [L0 L1].
  destruct pre as [|a' pre]; cbn [app] in E; injection E as -> ->.
  - split; [apply cond_lastb_ok; exact L0|]. intros O t Ht. rewrite O, Ht in L1. cbn in L1.
    destruct (hd_id post); [|discriminate]. apply Nat.eqb_eq in L1. subst. reflexivity.
  - apply (IH L2 pre b post eq_refl).
Qed.
Lemma chain_det p b z : chain_number p b z -> forall y, chain_number p b y -> z = y.
Proof.
  induction 1 as [b Hq|b q c Hp Hl Hc|b q c z Hp Hl Hc Hz IH]; intros y Hy; inversion Hy; subst; try congruence; try lia;
    try (exfalso; eapply Hq; eauto; fail); try (exfalso; match goal with H : forall q, nb_preds _ <> [q] |- _ => eapply H; eauto end; fail).
  assert (q0 = q) by congruence. subst q0. assert (c0 = c) by congruence. subst c0. rewrite (IH _ H2). reflexivity.
Qed.
Definition countsb (fuel : nat) (p : nprog) (bi : nat -> bconst -> Z) : bool :=
  forallb (fun b => (insn_cnt b =? bi (nb_id b) B_INSN_COUNT) &&
    match critical_cnt fuel p b with Ok c => c =? bi (nb_id b) B_CRITICAL_INSN_COUNT | _ => false end) p.
Lemma countsb_ok fuel p bi : countsb fuel p bi = true -> counts p bi.
Proof.
  unfold countsb. rewrite forallb_forall. intros H b Hb. specialize (H b Hb). apply andb_prop in H. destruct H as [H1 H2].
  split; [rewrite <- insn_cnt_number; lia|]. intros z Hz. unfold critical_cnt in H2.
  destruct (critical_loop fuel p b (insn_cnt b)) eqn:E; try discriminate.
  destruct (critical_loop_chain _ _ _ _ _ E) as (y & Hy & Ey). rewrite insn_cnt_number in Ey. rewrite (chain_det _ _ _ Hz _ Hy). lia.
Qed.
