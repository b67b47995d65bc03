(** Preparing a function for register allocation: the copies of the arguments. *)
From Coq Require Import ZArith List Bool Arith Lia Permutation.
From Verif Require Import M_Base M_Ir M_Norm M_Edit M_Ra SpecWord SpecFlat SpecProg SpecSsa SpecIr SpecEdit SpecRa SpecPass SpecShift SpecVirt
  L_Edit L_Uses L_Hist L_Ctor L_Ins L_PassPhi L_Sim L_RaGraph L_Word L_Virt L_Prep L_PrepStr L_PrepInv L_PrepCall L_PrepThis.
From Verif Require Import SpecSpill SpecRa SpecVirt.
Import ListNotations.
Open Scope nat_scope.

Lemma nref_subst_other d rep c l : refers c rep = false -> c <> d -> nref c (map (subst_val d rep) l) = nref c l.
Proof.
  intros R N. unfold nref. induction l as [|v l IH]; [reflexivity|]. cbn [map filter]. assert (Q : refers c (subst_val d rep v) = refers c v).
  { unfold subst_val. unfold refers in *. destruct (val_target v) as [e|] eqn:T; [|now rewrite T]. destruct (Nat.eqb_spec e d) as [->|]; [|now rewrite T].
    rewrite R. symmetry. apply Nat.eqb_neq. auto. }
  rewrite Q. destruct (refers c v); cbn [length]; now rewrite IH.
Qed.

Lemma change_arg_spec s k a t : inv s -> nth_error (c_args s) k = Some a -> change_arg s (k, a) = Ok t ->
  (t = s /\ forall u, uses (c_f s) u a = 0) \/
  exists r N, let n := f_ni (c_f s) in
    ext s t (ren a n) a (f_entry (c_f s)) [] [n] [] [] (insns_of (c_f s) (f_entry (c_f s))) N /\
    N n = val_insn r /\ nth_error (c_regs s) (S k) = Some r /\ c_ex t n = Some (ex0 n ASSIGN) /\
    (forall u, uses (c_f t) u a = 0) /\
    forall c u, c < n -> c <> a -> ~ In c (c_regs s) -> uses (c_f t) u c = uses (c_f s) u c.
Proof.
  intros V Ka H. pose proof (nth_error_In _ _ Ka) as Ia. destruct (n_args _ V) as (ND & Len & R). destruct (R _ Ia) as (Xa & NLa & xa & Fa & NPa & NAa).
  unfold change_arg in H. rewrite (proj2 (get_insn_ok _ _ _) Fa) in H. cbn [bind] in H.
  assert (Uo : users_of (c_f s) a = i_users xa) by (unfold users_of; now rewrite Fa).
  destruct (i_users xa) as [|u0 ur] eqn:Eu.
  - oks H. left. split; [reflexivity|]. exact (zero_uses _ _ (td_users _ (n_tidy _ V)) Uo).
  - right. bo H r Er. bo H c Ec. destruct c as [s1 m]. cbn [fst snd] in H. unfold in_func in H. bo H f Ef. oks H.
    assert (Lk : k < 5). { assert (k < length (c_args s)) by (apply nth_error_Some; congruence). lia. }
    unfold reg_node in Er. replace (Z.of_nat (S k) <? 0)%Z with false in Er by (symmetry; apply Z.ltb_ge; lia). rewrite Nat2Z.id in Er.
    destruct (nth_error (c_regs s) (S k)) as [r'|] eqn:Rr; [|discriminate Er]. injection Er as ->.
    set (n := f_ni (c_f s)) in *. set (b0 := f_entry (c_f s)) in *.
    destruct (n_entry _ V) as (Ie & Pf).
    assert (Lan : a < n) by (apply (f_lt _ V); congruence).
    destruct (n_regs _ V) as (_ & _ & RR). destruct (RR _ _ Rr) as (Xr & NLr & xr & Fr & Or).
    assert (Lrn : r < n) by (apply (f_lt _ V); congruence).
    assert (Nar : a <> r) by (intros ->; congruence).
    assert (NP : forall j l, insns_of (c_f s) b0 = j :: l -> exists y, f_insn (c_f s) j = Some y /\ i_op y <> PHI).
    { intros j l Q. destruct (td_linked _ (n_tidy _ V) b0 j) as (y & Y & _); [rewrite Q; now left|]. exists y. split; [auto|]. intros P. apply (Pf j l Q). eauto. }
    destruct (skel_create_entry _ _ _ _ _ _ _ _ _ _ (skel_refl s (n_fresh _ V)) (proj2 (n_reach _ V) _ Ie) NP Ec) as (-> & K1 & CC). fold n in K1, CC.
    assert (Fn : f_insn (c_f s) n = None) by (apply (n_fresh _ V); auto).
    assert (C1 : users_ok (c_f s1)).
    { apply users_counted. intros c u. pose proof (proj1 (users_counted _) (td_users _ (n_tidy _ V)) c u) as C3. unfold counted in *. rewrite count_in in *. rewrite (skel_ops _ _ _ _ _ _ u K1), CC.
      destruct (Nat.eq_dec u n) as [->|Nu].
      - rewrite upd_eq, Nat.eqb_refl, build_assign_ops. unfold ops_of in C3. rewrite Fn in C3. change (nref c []) with 0 in C3. lia.
      - rewrite (upd_ne _ n) by auto. destruct (Nat.eqb_spec n u); [congruence|]. rewrite Nat.add_0_r. exact C3. }
    assert (Rf : refers a (val_insn n) = false). { unfold refers, val_target. cbn. apply Nat.eqb_neq. lia. }
    destruct (skel_replace _ _ _ _ _ _ _ _ _ K1 C1 Rf Ef) as (C2 & K2). clear Ef.
    assert (Na : val_insn r = subst_val a (val_insn n) (val_insn r)). { unfold subst_val, val_target. cbn [v_data val_insn]. destruct (Nat.eqb_spec r a); [congruence|reflexivity]. }
    match type of K2 with skel _ _ _ ?G0 _ _ => set (G := G0) in K2 end.
    assert (FN : G n = Some (build b0 (K_assign (val_insn r)))).
    { unfold G. rewrite upd_eq. change (Some (build b0 (K_assign (subst_val a (val_insn n) (val_insn r)))) = Some (build b0 (K_assign (val_insn r)))). now rewrite <- Na. }
    assert (FO : forall j, j <> n -> G j = option_map (subst_insn a (val_insn n)) (f_insn (c_f s) j)).
    { intros j Lj. unfold G. now rewrite upd_ne by auto. }
    assert (ZU : forall u, uses (c_f (with_f f s1)) u a = 0).
    { intros u. rewrite uses_nref, (skel_ops _ _ _ _ _ _ u K2). unfold G. destruct (upd _ _ _ u) as [z|]; cbn [option_map]; [|reflexivity]. rewrite operands_subst. now apply nref_subst_self. }
    clearbody G.
    exists r, (fun _ => val_insn r). cbv zeta. fold n b0.
    assert (SIM : forall j z, f_insn (c_f s) j = Some z -> exists y, f_insn (c_f (with_f f s1)) j = Some y /\ isim (ren a n) z y).
    { intros j z Z. assert (Lj : j < n) by (apply (f_lt _ V); congruence). destruct (k_insn _ _ _ _ _ _ K2 j) as (u & E). rewrite (FO j ltac:(lia)), Z in E. eexists. split; [exact E|]. apply isim_subst. }
    split; [|split; [reflexivity|]; split; [reflexivity|]; split; [|split; [exact ZU|]]].
    + constructor.
      * rewrite (k_ni _ _ _ _ _ _ K2). fold n. lia.
      * exact (skel_fresh _ _ _ _ _ _ K2).
      * apply (k_rest _ _ _ _ _ _ K2).
      * apply (k_cfg _ _ _ _ _ _ K2).
      * exact C2.
      * exact Ie.
      * left. split; [reflexivity|]. split; [reflexivity|]. split; [reflexivity|]. split; [reflexivity|]. split; [exact Ia|discriminate].
      * reflexivity.
      * intros b. rewrite (k_list _ _ _ _ _ _ K2). reflexivity.
      * rewrite (k_ni _ _ _ _ _ _ K2). split; [constructor; [tauto|constructor]|]. intros j. fold n. cbn [app In]. lia.
      * intros j [<-|[]]. split; [destruct (k_insn _ _ _ _ _ _ K2 n) as (u & E); rewrite FN in E; exists u; exact E|]. split; [exact Logic.I|]. split.
        -- intros d D. cbn in D. injection D as <-. left. eapply nth_error_In; eauto.
        -- left. rewrite (k_ex _ _ _ _ _ _ K2). apply upd_eq.
      * intros j z Nj Z. exact (SIM j z Z).
      * intros j Lj Z. destruct (k_insn _ _ _ _ _ _ K2 j) as (u & E). rewrite (FO j ltac:(lia)), Z in E. exact E.
      * intros z Z. destruct (SIM a z Z) as (y & Y & S). exists y. split; [exact Y|]. split; [apply (is_rest _ _ _ S)|]. intros v' Iv. left. exact (isim_ops _ _ _ _ S Iv).
      * intros j Lj Nj. rewrite (k_ex _ _ _ _ _ _ K2). fold n in Lj. rewrite upd_ne by lia. reflexivity.
      * left. rewrite (k_ex _ _ _ _ _ _ K2). rewrite upd_ne by lia. reflexivity.
      * intros y La. contradiction.
      * intros j Gj. rewrite (k_ex _ _ _ _ _ _ K2). rewrite (k_ni _ _ _ _ _ _ K2) in Gj. rewrite upd_ne by lia. destruct (c_ex s j) as [e|] eqn:Q; [|reflexivity]. apply (ex_lt _ V) in Q. fold n in Q. lia.
      * intros d. unfold ren. destruct (Nat.eqb_spec d a) as [->|]; [right|now left]. split; [reflexivity|]. split; [now left|]. split; [rewrite (k_ex _ _ _ _ _ _ K2); apply upd_eq|]. intros e Q. congruence.
      * intros y La. contradiction.
      * intros y La. contradiction.
      * intros j [<-|[]]. left. eexists. reflexivity.
      * intros j d [<-|[]] D. cbn in D. injection D as <-. left. split; [eapply nth_error_In; eauto|]. rewrite (k_ex _ _ _ _ _ _ K2). apply upd_eq.
    + rewrite (k_ex _ _ _ _ _ _ K2). apply upd_eq.
    + intros c u Lc Nc Nr. rewrite !uses_nref, (skel_ops _ _ _ _ _ _ u K2). destruct (Nat.eq_dec u n) as [->|Nu].
      * rewrite FN. rewrite build_assign_ops. unfold ops_of. rewrite Fn. unfold nref. cbn [filter]. unfold refers, val_target. cbn [v_data val_insn].
        destruct (Nat.eqb_spec r c) as [->|_]; [|reflexivity]. destruct Nr. eapply nth_error_In; eauto.
      * rewrite FO by auto. unfold ops_of. destruct (f_insn (c_f s) u) as [z|]; [|reflexivity]. cbn [option_map]. rewrite operands_subst. apply nref_subst_other; [|auto].
        unfold refers, val_target. cbn. apply Nat.eqb_neq. lia.
Qed.

Lemma arg_pre s t k a r N Rg w o bi q : let n := f_ni (c_f s) in inv s -> nth_error (c_args s) k = Some a ->
  ext s t (ren a n) a (f_entry (c_f s)) [] [n] [] [] (insns_of (c_f s) (f_entry (c_f s))) N -> N n = val_insn r -> nth_error (c_regs s) (S k) = Some r ->
  c_ex t n = Some (ex0 n ASSIGN) -> starts s q -> st_ok (v_st q) ->
  exists q1, hbody Rg w bi (aug t) o q [n] = Some (VNext q1) /\ hrel (aug s) (ren a n) q q1.
Proof.
  intros n V Ka E Nn Rr Xn St Ok.
  destruct (x_copy _ _ _ _ _ _ _ _ _ _ _ E n) as ((u & F) & _); [now left|]. rewrite Nn in F. cbn [hbody]. cbn [aug c_f with_ex]. rewrite F. cbn [obind].
  destruct (n_regs _ V) as (_ & _ & R). destruct (R _ _ Rr) as (Xr & NLr & zr & Zr & Or).
  assert (Nar : r <> a). { intros ->. destruct (n_args _ V) as (_ & _ & RA). destruct (RA _ (nth_error_In _ _ Ka)) as (Q & _). congruence. }
  assert (XAr : c_ex (aug t) r = Some (ex_reg r (Z.of_nat (S k)))). { apply aug_ex. rewrite (x_ex _ _ _ _ _ _ _ _ _ _ _ E); auto. apply (f_lt _ V). congruence. }
  assert (XAn : c_ex (aug t) n = Some (ex0 n ASSIGN)) by (apply aug_ex; exact Xn).
  assert (Lk : S k < 10). { destruct (n_regs _ V) as (Q & _). rewrite <- Q. apply nth_error_Some. congruence. }
  rewrite hexec_assign. unfold veval. cbn [fill_val v_data val_insn]. rewrite XAr. cbn [obind ex_reg x_fin x_pos].
  unfold evalv. cbn [v_data placed_at vp_alloc vp_spilled vp_reg]. cbn [Z.eqb]. replace (is_reg (Z.of_nat (S k))) with true by (symmetry; unfold is_reg; apply andb_true_iff; split; apply Z.leb_le; lia). cbn [obind].
  unfold vwr. rewrite XAn. cbn [obind ex0 x_dst]. change (is_void_op ASSIGN) with false. cbv iota. unfold vput. rewrite XAn. cbn [obind ex0 x_fin vnext]. eexists. split; [reflexivity|].
  constructor; cbn [v_st v_env]; [reflexivity|]. intros d z U Z. destruct (St _ _ Z) as (k' & K' & ->). unfold ren, eupd. destruct (Nat.eqb_spec d a) as [->|Nd].
  - rewrite Nat.eqb_refl. assert (k' = k). { destruct (n_args _ V) as (ND & _). eapply (proj1 (NoDup_nth_error _) ND); [apply nth_error_Some; congruence|congruence]. } subst k'.
    now rewrite u64_rget.
  - destruct (Nat.eqb_spec d n) as [->|_]; [|exact Z]. destruct (n_args _ V) as (_ & _ & RA). destruct (RA _ (nth_error_In _ _ K')) as (_ & _ & zz & ZZ & _).
    assert (n < f_ni (c_f s)) by (apply (f_lt _ V); congruence). unfold n in *. lia.
Qed.
