(** Normalisation preserves the meaning of single instructions. *)
From Verif Require Import M_Base M_Ir M_Norm SpecWord SpecFlat SpecNormCond L_Word.
Open Scope Z_scope.

Ltac Zify.zify_post_hook ::= Z.div_mod_to_equations.

Global Arguments store : simpl never.
Global Arguments load : simpl never.
Global Arguments u64 : simpl never.
Global Arguments trunc : simpl never.

Lemma Some_inj {A} (a b : A) : Some a = Some b -> a = b.
Proof. congruence. Qed.
Lemma bind_ok {A B} (x : outcome A) (f : A -> outcome B) b :
  bind x f = Ok b -> exists a, x = Ok a /\ f a = Ok b.
Proof. destruct x; simpl; intros H; try discriminate. eauto. Qed.
Lemma assertb_ok b u : assertb b = Ok u -> b = true.
Proof. unfold assertb. destruct b; congruence. Qed.
Lemma vt_eqb_eq a b : vt_eqb a b = true <-> a = b.
Proof. destruct a, b; simpl; split; congruence. Qed.
Lemma alut_eqb_eq a b : alut_eqb a b = true <-> a = b.
Proof. unfold alut_eqb. destruct (alut_eq_dec a b); split; congruence. Qed.
Lemma alut_eqb_refl a : alut_eqb a a = true.
Proof. apply alut_eqb_eq. reflexivity. Qed.

Ltac binds H :=
  repeat match type of H with
  | bind ?e _ = Ok _ =>
      let a := fresh "a" in let E := fresh "E" in
      apply bind_ok in H; destruct H as [a [E H]]; cbn beta in H
  end.

(** What [vtype] says about a value. *)
Lemma vtype_reg v : vtype v = Ok T_REG ->
  exists p, v_data v = VFlat p /\ vp_alloc p = true /\ vp_spilled p = 0.
Proof.
  unfold vtype, vtype_pos. destruct (v_data v); try discriminate. intros H.
  exists p. destruct (vp_alloc p); try discriminate.
  destruct (Z.eqb_spec (vp_spilled p) 0); try discriminate. auto.
Qed.
Lemma vtype_stack v : vtype v = Ok T_STACK ->
  exists p, v_data v = VFlat p /\ vp_alloc p = true /\ vp_spilled p <> 0.
Proof.
  unfold vtype, vtype_pos. destruct (v_data v); try discriminate. intros H.
  exists p. destruct (vp_alloc p); try discriminate.
  destruct (Z.eqb_spec (vp_spilled p) 0); try discriminate. auto.
Qed.
Lemma vpos_reg p : vtype_pos p = T_REG -> vp_alloc p = true /\ vp_spilled p = 0.
Proof.
  unfold vtype_pos. destruct (vp_alloc p); try discriminate.
  destruct (Z.eqb_spec (vp_spilled p) 0); try discriminate. auto.
Qed.
Lemma vpos_stack p : vtype_pos p = T_STACK -> vp_alloc p = true /\ vp_spilled p <> 0.
Proof.
  unfold vtype_pos. destruct (vp_alloc p); try discriminate.
  destruct (Z.eqb_spec (vp_spilled p) 0); try discriminate. auto.
Qed.
Lemma wr_undef s p x : vtype_pos p = T_UNDEF -> wr s p x = None.
Proof.
  unfold vtype_pos, wr. destruct (vp_alloc p); [|reflexivity].
  destruct (vp_spilled p =? 0); discriminate.
Qed.
(** A value that evaluates is a constant, a register or a stack slot. *)
Lemma evalv_cases bi s v a : evalv bi s v = Some a ->
  (exists c, v_data v = VConst c /\ a = u64 (const_val bi v c) /\ vtype v = Ok T_CONST) \/
  (exists p, v_data v = VFlat p /\ vp_alloc p = true /\ vp_spilled p = 0 /\ is_reg (vp_reg p) = true /\
             a = rget s (vp_reg p) /\ vtype v = Ok T_REG /\ reg_of v = vp_reg p) \/
  (exists p, v_data v = VFlat p /\ vp_alloc p = true /\ vp_spilled p <> 0 /\
             a = load (mem s) (slot_addr s p) 8 /\ vtype v = Ok T_STACK).
Proof.
  unfold evalv, vtype, vtype_pos, reg_of, flat_pos. destruct (v_data v) eqn:D; try discriminate; intros H.
  - injection H as <-. left. exists c. auto.
  - right. destruct (vp_alloc p) eqn:A; try discriminate.
    destruct (Z.eqb_spec (vp_spilled p) 0).
    + left. destruct (is_reg (vp_reg p)) eqn:R; try discriminate. injection H as <-.
      exists p. repeat (split; [solve [auto]|]). auto.
    + right. injection H as <-. exists p. repeat (split; [solve [auto]|]). auto.
Qed.
Lemma evalv_range bi s v a : st_ok s -> evalv bi s v = Some a -> 0 <= a < 2 ^ 64.
Proof.
  intros O H. apply evalv_cases in H.
  destruct H as [(c & _ & -> & _)|[(p & _ & _ & _ & _ & -> & _)|(p & _ & _ & _ & -> & _)]].
  - apply u64_range.
  - apply rget_range. exact O.
  - exact (load_range _ _ 8).
Qed.
Lemma evalv_u64 bi s v a : st_ok s -> evalv bi s v = Some a -> u64 a = a.
Proof. intros O H. apply u64_small. eapply evalv_range; eauto. Qed.

Lemma wr_reg s p x : vtype_pos p = T_REG -> is_wreg (vp_reg p) = true -> wr s p x = Some (rset s (vp_reg p) x).
Proof. intros H W. apply vpos_reg in H. destruct H as [A Z0]. unfold wr. rewrite A, Z0, W. reflexivity. Qed.
Lemma wr_reg_inv s p x s' : vtype_pos p = T_REG -> wr s p x = Some s' ->
  is_wreg (vp_reg p) = true /\ s' = rset s (vp_reg p) x.
Proof.
  intros H W. apply vpos_reg in H. destruct H as [A Z0]. unfold wr in W. rewrite A, Z0 in W. simpl in W.
  destruct (is_wreg _); try discriminate. injection W as <-. auto.
Qed.
Lemma wr_stack s p x : vtype_pos p = T_STACK ->
  wr s p x = Some (mset s (store (mem s) (slot_addr s p) 8 x)).
Proof.
  intros H. apply vpos_stack in H. destruct H as [A Z0]. unfold wr. rewrite A.
  apply Z.eqb_neq in Z0. rewrite Z0. reflexivity.
Qed.
Lemma wr_ok s p x s' : st_ok s -> wr s p x = Some s' -> st_ok s'.
Proof.
  intros O. unfold wr. destruct (vp_alloc p); try discriminate.
  destruct (vp_spilled p =? 0).
  - destruct (is_wreg _); try discriminate. intros [= <-]. apply rset_ok. exact O.
  - intros [= <-]. apply mset_ok. exact O.
Qed.

Lemma eval_pos bi s p : vtype_pos p = T_REG -> is_wreg (vp_reg p) = true ->
  evalv bi s (val_pos p) = Some (rget s (vp_reg p)).
Proof.
  intros H W. apply vpos_reg in H. destruct H as [A Z0]. unfold evalv, val_pos. cbn [v_data].
  rewrite A, Z0, (wreg_reg _ W). reflexivity.
Qed.
Lemma eval_sp bi s : evalv bi s val_sp = Some (rget s 10).
Proof. reflexivity. Qed.

Lemma slot_rset s r x p : st_ok s -> is_wreg r = true -> slot_addr (rset s r x) p = slot_addr s p.
Proof.
  intros O W. unfold slot_addr. rewrite rget_rset_other; auto; [lia|].
  apply is_wreg_range in W. lia.
Qed.
(** Writing register [r] does not affect an operand that is not that register. *)
Lemma evalv_rset bi s v r x : st_ok s -> is_wreg r = true ->
  (forall p, v_data v = VFlat p -> vp_spilled p = 0 -> vp_reg p <> r) ->
  evalv bi (rset s r x) v = evalv bi s v.
Proof.
  intros O W N. unfold evalv. destruct (v_data v) eqn:D; auto.
  destruct (vp_alloc p); auto. destruct (Z.eqb_spec (vp_spilled p) 0).
  - destruct (is_reg (vp_reg p)) eqn:R; auto. f_equal.
    apply rget_rset_other; auto. apply is_reg_range in R. lia.
  - rewrite slot_rset; auto.
Qed.

Lemma const_ok_pos bi p : vp_spilled p = 0 -> const_ok bi (val_pos p).
Proof. intros H. unfold const_ok, val_pos, s16_range. cbn [v_data]. rewrite H. lia. Qed.

Lemma addr_sp bi s off : addr_of bi s (mkAddr val_sp off O_CONST) = Some (rget s 10 + off).
Proof. reflexivity. Qed.

(** Result of normalisation of one instruction. *)
Definition good (w : world) (bi : bconst -> Z) (ft : option nat) (l : list ninsn) (s : st) (r : fres) : Prop :=
  (exists r', fseq w bi l s = Some r' /\ agrees ft r r') /\ Forall (tr_ok bi) l.

Lemma fseq_app w bi l1 l2 s :
  fseq w bi (l1 ++ l2) s =
  let? q := fseq w bi l1 s in match q with FNext s' => fseq w bi l2 s' | _ => Some q end.
Proof.
  revert s. induction l1 as [|n l1 IH]; intros s; cbn [app fseq obind]; [reflexivity|].
  destruct (fexec w bi n s) as [[s'|b s'|r s']|]; cbn [obind]; auto.
Qed.
Lemma fseq_one w bi n s : fseq w bi [n] s = fexec w bi n s.
Proof. cbn [fseq]. destruct (fexec w bi n s) as [[]|]; reflexivity. Qed.
Lemma fseq_cons w bi n l s s' : fexec w bi n s = Some (FNext s') -> fseq w bi (n :: l) s = fseq w bi l s'.
Proof. intros H. cbn [fseq]. rewrite H. reflexivity. Qed.

Lemma good_self w bi ft n s r : fexec w bi n s = Some r -> tr_ok bi n -> good w bi ft [n] s r.
Proof.
  intros H T. split; [|constructor; [exact T|constructor]]. exists r. rewrite fseq_one. split; [exact H|left; reflexivity].
Qed.
Lemma good_eq w bi ft l s r : fseq w bi l s = Some r -> Forall (tr_ok bi) l -> good w bi ft l s r.
Proof. intros H T. split; [|exact T]. exists r. split; [exact H|left; reflexivity]. Qed.

(** Building blocks. *)
Lemma exec_assign w bi s p v a t alu :
  vtype_pos p = T_REG -> is_wreg (vp_reg p) = true -> evalv bi s v = Some a -> alu <> A_32 ->
  fexec w bi (mkN (set_vrt t (set_alu alu (set_vals [v] (set_op ASSIGN (insn0 0))))) p) s =
  Some (FNext (rset s (vp_reg p) a)).
Proof.
  intros T W E N. unfold fexec. cbn [n_i n_pos i_op i_vals set_op set_vals set_alu set_vrt i_alu].
  rewrite E. cbn [obind]. destruct alu; try congruence; rewrite (wr_reg _ _ _ T W); reflexivity.
Qed.
Lemma exec_mk_assign w bi s p v a :
  vtype_pos p = T_REG -> is_wreg (vp_reg p) = true -> evalv bi s v = Some a ->
  fexec w bi (mk_assign p v) s = Some (FNext (rset s (vp_reg p) a)).
Proof.
  intros T W E. unfold fexec, mk_assign. cbn [n_i n_pos i_op i_vals set_op set_vals insn0 i_alu].
  rewrite E. cbn [obind]. rewrite (wr_reg _ _ _ T W). reflexivity.
Qed.
Lemma narrow_not v : is_const v = false -> narrow_const v.
Proof. unfold narrow_const. congruence. Qed.
Lemma tr_mk_assign bi p v : const_ok bi v -> narrow_const v -> tr_ok bi (mk_assign p v).
Proof.
  intros C Nr. unfold tr_ok, mk_assign. cbn [n_i i_op i_vals set_op set_vals insn0 i_alu alu_op_of].
  split; [constructor; [exact C|constructor]|]. split; [congruence|]. split; [|exact Nr]. congruence.
Qed.

(** normalize_assign *)
Lemma normalize_assign_good w bi n v s l r :
  i_op (n_i n) = ASSIGN -> i_vals (n_i n) = [v] -> const_ok bi v -> s16_range (vp_spilled (n_pos n)) ->
  assign_ok (n_i n) (n_pos n) v ->
  normalize_assign n = Ok l -> st_ok s -> fexec w bi n s = Some r -> good w bi None l s r.
Proof.
  intros Ho Hv C Sp [Hot [Hst Hre]] N O X.
  unfold fexec in X. rewrite Ho, Hv in X.
  destruct (evalv bi s v) as [a|] eqn:E; [|discriminate]. cbn [obind] in X.
  unfold normalize_assign in N. unfold vt_k, val_k in N. rewrite Hv in N. cbn [nth_error nth] in N.
  destruct (vtype v) as [t0| | | |] eqn:T0; try discriminate. cbn [bind] in N.
  destruct n as [x d]. cbn [n_i n_pos] in *.
  destruct (vtype_pos d) eqn:Td.
  - (* undefined destination *) rewrite (wr_undef _ _ _ Td) in X. discriminate.
  - (* register *)
    assert (Hs : stack_pos d = false).
    { apply vpos_reg in Td. destruct Td as [A Z0]. unfold stack_pos. rewrite A, Z0. reflexivity. }
    specialize (Hre Hs). destruct Hre as [Hr1 [Hr2 Hr3]].
    destruct (wr s d _) as [s'|] eqn:Wr in X; [|discriminate]. cbn [next obind] in X. injection X as <-.
    destruct (wr_reg_inv _ _ _ _ Td Wr) as [W Es']. clear Wr.
    destruct (evalv_cases _ _ _ _ E) as [(c & D & Ea & T)|[(p & D & A & Z0 & R & Ea & T & Rv)|(p & D & A & Z0 & Ea & T)]];
      rewrite T0 in T; injection T as ->; cbn [vt_eqb andb] in N.
    + (* constant *)
      destruct (alut_eqb (v_ct v) A_64) eqn:K; injection N as <-.
      * apply alut_eqb_eq in K. unfold is_const in Hr2. rewrite D in Hr2. specialize (Hr2 eq_refl K).
        assert (Bn : v_bi v = B_NONE).
        { unfold const_ok in C. rewrite D in C. destruct (v_bi v); auto; rewrite K in C; contradiction. }
        apply good_eq.
        -- rewrite fseq_one. unfold fexec. cbn [n_i n_pos i_op i_vals set_op set_imm i_ity i_imm64].
           unfold const_d. rewrite D. cbn [Z.leb Z.compare andb Z.eqb].
           rewrite (wr_reg _ _ _ Td W). cbn [next obind]. do 2 f_equal. rewrite Es'.
           rewrite Ea. unfold const_val. rewrite Bn. destruct (i_alu x); congruence.
        -- constructor; [|constructor]. unfold tr_ok. cbn [n_i i_op i_vals set_op set_imm]. rewrite Hv.
           split; [constructor; [exact C|constructor]|]. split; [cbn; congruence|exact I].
      * assert (K2 : v_ct v = A_32).
        { unfold const_ok in C. rewrite D in C. destruct (v_bi v), (v_ct v); try contradiction; auto.
          rewrite alut_eqb_refl in K. discriminate. }
        apply good_self.
        -- unfold fexec. cbn [n_i n_pos]. rewrite Ho, Hv, E. cbn [obind].
           rewrite (wr_reg _ _ _ Td W). cbn [next obind]. rewrite Es'. reflexivity.
        -- unfold tr_ok. cbn [n_i]. rewrite Ho, Hv. split; [constructor; [exact C|constructor]|].
           split; [cbn; congruence|]. split; [exact Hr1|]. intros _. exact K2.
    + (* register *)
      assert (In : in_reg v = true) by (unfold in_reg; rewrite D, A, Z0; reflexivity).
      specialize (Hr1 In).
      destruct (Z.eqb_spec (vp_reg d) (reg_of v)); injection N as <-.
      * apply good_eq; [|constructor]. cbn [fseq]. do 2 f_equal. rewrite Es', Ea.
        rewrite <- Rv, <- e. destruct (i_alu x); try congruence; symmetry; apply rset_same; auto.
      * apply good_self.
        -- unfold fexec. cbn [n_i n_pos]. rewrite Ho, Hv, E. cbn [obind].
           rewrite (wr_reg _ _ _ Td W). cbn [next obind]. rewrite Es'. reflexivity.
        -- unfold tr_ok. cbn [n_i]. rewrite Ho, Hv. split; [constructor; [exact C|constructor]|].
           split; [cbn; congruence|]. split; [auto|]. apply narrow_not. unfold is_const. rewrite D. reflexivity.
    + (* stack *)
      assert (In : on_stack v = true).
      { unfold on_stack. rewrite D, A. apply Z.eqb_neq in Z0. rewrite Z0. reflexivity. }
      specialize (Hr3 In). injection N as <-. apply good_self.
      * unfold fexec. cbn [n_i n_pos i_op i_vals set_op set_addr i_vrt i_addr a_ot a_val a_off].
        rewrite (Hot (or_intror In)), addr_sp.
        assert (s16 (vp_spilled (flat_pos v)) = vp_spilled p) as ->.
        { unfold flat_pos. rewrite D. apply s16_small. unfold const_ok in C. rewrite D in C. exact C. }
        destruct Hr3 as [[Ha Ht]|[Ha Ht]]; rewrite Ht; cbn [vr_bytes obind];
          rewrite (wr_reg _ _ _ Td W); cbn [next obind]; do 2 f_equal; rewrite Es', Ea; unfold slot_addr.
        -- rewrite Ha. f_equal. rewrite <- (load_mod (mem s) _ 4 4). reflexivity.
        -- destruct (i_alu x); congruence.
      * unfold tr_ok. cbn [n_i i_op i_vals set_op set_addr i_addr a_val]. rewrite Hv.
        split; [constructor; [exact C|constructor]|]. split; [cbn; congruence|]. reflexivity.
  - (* constant destination: impossible *)
    unfold vtype_pos in Td. destruct (vp_alloc d), (vp_spilled d =? 0); discriminate.
  - (* stack *)
    assert (Hs : stack_pos d = true).
    { apply vpos_stack in Td. destruct Td as [A Z0]. unfold stack_pos. apply Z.eqb_neq in Z0. rewrite A, Z0. reflexivity. }
    specialize (Hst Hs). destruct Hst as [Ha Hn].
    rewrite (wr_stack _ _ _ Td) in X. cbn [next obind] in X. apply Some_inj in X. subst r.
    destruct (vt_eqb t0 T_STACK) eqn:K; [discriminate|]. cbn [negb assertb bind] in N. injection N as <-.
    apply good_self.
    + unfold fexec. cbn [n_i n_pos i_op i_vals set_op set_addr set_vrt i_vrt i_addr]. rewrite Hv. cbn [vr_bytes obind].
      rewrite (Hot (or_introl Hs)), addr_sp. cbn [obind]. rewrite E. cbn [obind].
      rewrite s16_small by exact Sp. unfold slot_addr. destruct (i_alu x); congruence.
    + unfold tr_ok. cbn [n_i i_op i_vals set_op set_addr set_vrt i_vrt]. rewrite Hv.
      split; [constructor; [exact C|constructor]|]. split; [cbn; congruence|]. auto.
Qed.

(** ALU instructions *)
Lemma fexec_alu w bi x d s f v0 v1 :
  alu_op_of (i_op x) = Some f -> i_vals x = [v0; v1] ->
  fexec w bi (mkN x d) s =
  let? wd := width_of (i_alu x) in
  let? a := evalv bi s v0 in let? b := evalv bi s v1 in next (wr s d (alu_fn f wd a b)).
Proof.
  intros Hf Hv. unfold fexec. cbn [n_i n_pos]. rewrite Hv.
  destruct (i_op x); cbn in Hf; try discriminate; injection Hf as <-; reflexivity.
Qed.
Lemma fexec_jmp w bi x d s c v0 v1 :
  cmp_op_of (i_op x) = Some c -> i_vals x = [v0; v1] ->
  fexec w bi (mkN x d) s =
  let? wd := width_of (i_alu x) in
  let? a := evalv bi s v0 in let? b := evalv bi s v1 in
  Some (FJmp (if cmp_fn c wd a b then i_bb2 x else i_bb1 x) s).
Proof.
  intros Hf Hv. unfold fexec. cbn [n_i n_pos]. rewrite Hv.
  destruct (i_op x); cbn in Hf; try discriminate; injection Hf as <-; reflexivity.
Qed.

Lemma alu_op_commutative o f : alu_op_of o = Some f -> is_commutative_op o = true ->
  In f [AAdd; AMul; AOr; AAnd; AXor].
Proof. destruct o; cbn; intros H1 H2; try discriminate; injection H1 as <-; auto 7. Qed.

Definition alu_cond (bi : bconst -> Z) (x : insn) (d : vrpos) (v0 v1 : value) : Prop :=
  match i_op x with
  | SUB => ~ (same_reg v0 d = true /\ same_reg v1 d = true) /\
           (i_alu x = A_32 -> nonzero_const bi v0 /\ nonzero_const bi v1)
  | ADD => i_alu x = A_32 -> nonzero_const bi v0 /\ nonzero_const bi v1
  | _ => True
  end.

(** the final instruction *)
Lemma tr_fin bi x d o v0 v1 :
  alu_op_of o <> None -> const_ok bi v0 -> const_ok bi v1 -> narrow_const v1 -> length (i_vals x) = 2%nat ->
  (o = ADD -> i_alu x = A_32 -> nonzero_const bi v1) ->
  tr_ok bi (mkN (set_val_k 1 v1 (set_val_k 0 v0 (set_op o x))) d) /\
  i_vals (set_val_k 1 v1 (set_val_k 0 v0 (set_op o x))) = [v0; v1].
Proof.
  intros Ho C0 C1 Nr L A.
  assert (V : i_vals (set_val_k 1 v1 (set_val_k 0 v0 (set_op o x))) = [v0; v1]).
  { unfold set_val_k. cbn [i_vals set_vals set_op]. destruct (i_vals x) as [|a [|b [|]]]; try discriminate. reflexivity. }
  split; [|exact V]. unfold tr_ok. cbn [n_i]. rewrite V.
  change (i_op (set_val_k 1 v1 (set_val_k 0 v0 (set_op o x)))) with o.
  change (i_alu (set_val_k 1 v1 (set_val_k 0 v0 (set_op o x)))) with (i_alu x).
  split; [constructor; [exact C0|constructor; [exact C1|constructor]]|].
  split; [cbn; intros _ v [= <-]; exact Nr|].
  destruct o; try exact I; try (cbn in Ho; congruence). auto.
Qed.
Lemma exec_fin w bi x d o f v0 v1 s :
  alu_op_of o = Some f -> length (i_vals x) = 2%nat ->
  fexec w bi (mkN (set_val_k 1 v1 (set_val_k 0 v0 (set_op o x))) d) s =
  let? wd := width_of (i_alu x) in
  let? a := evalv bi s v0 in let? b := evalv bi s v1 in next (wr s d (alu_fn f wd a b)).
Proof.
  intros Ho L. rewrite (fexec_alu w bi _ d s f v0 v1); [reflexivity|exact Ho|].
  unfold set_val_k. cbn [i_vals set_vals set_op]. destruct (i_vals x) as [|a [|b [|]]]; try discriminate. reflexivity.
Qed.

Lemma const_narrow bi v : const_ok bi v -> vtype v = Ok T_CONST -> v_ct v = A_32 -> narrow_const v.
Proof. intros _ _ H _. exact H. Qed.
Lemma reg_narrow v t : vtype v = Ok t -> t <> T_CONST -> narrow_const v.
Proof.
  intros H N. apply narrow_not. unfold vtype in H. unfold is_const. destruct (v_data v); try reflexivity.
  injection H as <-. congruence.
Qed.

Lemma load_const_good w bi v d s a :
  vtype_pos d = T_REG -> is_wreg (vp_reg d) = true -> const_ok bi v -> v_ct v = A_32 ->
  evalv bi s v = Some a ->
  fexec w bi (load_const v d) s = Some (FNext (rset s (vp_reg d) a)) /\ tr_ok bi (load_const v d).
Proof.
  intros T W C K E. unfold load_const. rewrite K. split.
  - unfold fexec, set_ialu, mk_assign. cbn [n_i n_pos i_op i_vals set_op set_vals set_alu insn0 i_alu].
    rewrite E. cbn [obind]. rewrite (wr_reg _ _ _ T W). reflexivity.
  - unfold tr_ok, set_ialu, mk_assign. cbn [n_i i_op i_vals set_op set_vals set_alu insn0 i_alu alu_op_of].
    split; [constructor; [exact C|constructor]|]. split; [congruence|]. split; [congruence|]. intros _. exact K.
Qed.

(** Core: the operands are already in the right order and the first one is not overwritten before
    the second is read. *)
Lemma alu_core w bi x d o f v0 v1 t0 t1 s l wd a b s' :
  let fin v := mkN (set_val_k 1 v1 (set_val_k 0 v (set_op o x))) d in
  match t0, t1 with
  | T_STACK, T_CONST | T_STACK, T_REG =>
      do l0 <- normalize_assign (set_ivr VR_64 (mk_assign d v0)); Ok (l0 ++ [fin (val_pos d)])
  | T_REG, T_REG | T_REG, T_CONST =>
      if vp_reg d =? reg_of v0 then Ok [fin v0] else Ok [mk_assign d v0; fin (val_pos d)]
  | T_CONST, T_CONST | T_CONST, T_REG => Ok [load_const v0 d; fin (val_pos d)]
  | _, _ => Crit
  end = Ok l ->
  alu_op_of o = Some f -> length (i_vals x) = 2%nat ->
  vtype v0 = Ok t0 -> vtype v1 = Ok t1 -> vtype_pos d = T_REG ->
  const_ok bi v0 -> const_ok bi v1 ->
  (t0 = T_CONST -> v_ct v0 = A_32) -> (t1 = T_CONST -> v_ct v1 = A_32) ->
  (o = ADD -> i_alu x = A_32 -> nonzero_const bi v1) ->
  (t1 = T_REG -> vp_reg d = reg_of v1 -> t0 = T_REG /\ vp_reg d = reg_of v0) ->
  st_ok s -> width_of (i_alu x) = Some wd -> evalv bi s v0 = Some a -> evalv bi s v1 = Some b ->
  wr s d (alu_fn f wd a b) = Some s' ->
  fseq w bi l s = Some (FNext s') /\ Forall (tr_ok bi) l.
Proof.
  intros fin N Hf L T0 T1 Td C0 C1 K0 K1 Za Ov O Wd E0 E1 Wr.
  destruct (wr_reg_inv _ _ _ _ Td Wr) as [W ->].
  assert (No : alu_op_of o <> None) by congruence.
  assert (Sp0 : vp_spilled d = 0) by (apply vpos_reg in Td; tauto).
  assert (Nr1 : narrow_const v1).
  { destruct t1; try (eapply reg_narrow; [exact T1|congruence]). intros _. auto. }
  assert (Tf : forall v, const_ok bi v -> tr_ok bi (fin v)) by (intros; apply tr_fin; auto).
  assert (Cd : const_ok bi (val_pos d)) by (apply const_ok_pos; exact Sp0).
  (* the last step, after the first operand has been copied to the result register *)
  assert (Last : ~ (t1 = T_REG /\ vp_reg d = reg_of v1) ->
                 fexec w bi (fin (val_pos d)) (rset s (vp_reg d) a) =
                 Some (FNext (rset s (vp_reg d) (alu_fn f wd a b)))).
  { intros Nd. unfold fin. rewrite (exec_fin w bi x d o f); auto. rewrite Wd. cbn [obind].
    rewrite (eval_pos bi _ d Td W). cbn [obind].
    rewrite evalv_rset; auto.
    - rewrite E1. cbn [obind]. rewrite (wr_reg _ _ _ Td W). cbn [next obind]. do 2 f_equal.
      rewrite rset_rset, rget_rset_same, alu_fn_u64_l by auto. reflexivity.
    - intros p Dp Zp Eq. apply Nd. destruct (evalv_cases _ _ _ _ E1) as [(c & D & _)|[(q & D & _ & _ & _ & _ & T & Rv)|(q & D & _ & Z0 & _)]].
      + congruence.
      + split; [congruence|]. rewrite Rv. congruence.
      + congruence. }
  assert (Cp : ~ (t1 = T_REG /\ vp_reg d = reg_of v1) -> forall i, fexec w bi i s = Some (FNext (rset s (vp_reg d) a)) ->
               tr_ok bi i -> fseq w bi [i; fin (val_pos d)] s = Some (FNext (rset s (vp_reg d) (alu_fn f wd a b))) /\
                             Forall (tr_ok bi) [i; fin (val_pos d)]).
  { intros Nd i X Ti. split.
    - rewrite (fseq_cons _ _ _ _ _ _ X), fseq_one. apply Last. exact Nd.
    - constructor; [exact Ti|constructor; [apply Tf; exact Cd|constructor]]. }
  assert (Reg : t0 = T_REG ->
    (if vp_reg d =? reg_of v0 then Ok [fin v0] else Ok [mk_assign d v0; fin (val_pos d)]) = Ok l ->
    fseq w bi l s = Some (FNext (rset s (vp_reg d) (alu_fn f wd a b))) /\ Forall (tr_ok bi) l).
  { intros -> N'. destruct (Z.eqb_spec (vp_reg d) (reg_of v0)); injection N' as <-.
    - split.
      + rewrite fseq_one. unfold fin. rewrite (exec_fin w bi x d o f); auto. rewrite Wd, E0, E1. cbn [obind].
        rewrite Wr. reflexivity.
      + constructor; [apply Tf; exact C0|constructor].
    - apply Cp.
      + intros [-> Eq]. destruct (Ov eq_refl Eq) as [_ Eq']. congruence.
      + apply exec_mk_assign; auto.
      + apply tr_mk_assign; auto. eapply reg_narrow; eauto. congruence. }
  assert (Cst : t0 = T_CONST -> Ok [load_const v0 d; fin (val_pos d)] = Ok l ->
    fseq w bi l s = Some (FNext (rset s (vp_reg d) (alu_fn f wd a b))) /\ Forall (tr_ok bi) l).
  { intros -> N'. injection N' as <-.
    destruct (load_const_good w bi v0 d s a Td W C0 (K0 eq_refl) E0) as [X Ti].
    apply Cp; auto. intros [-> Eq]. destruct (Ov eq_refl Eq) as [Eq' _]. congruence. }
  assert (Stk : t0 = T_STACK ->
    (do l0 <- normalize_assign (set_ivr VR_64 (mk_assign d v0)); Ok (l0 ++ [fin (val_pos d)])) = Ok l ->
    fseq w bi l s = Some (FNext (rset s (vp_reg d) (alu_fn f wd a b))) /\ Forall (tr_ok bi) l).
  { intros -> N'. apply bind_ok in N'. destruct N' as [l0 [N0 N']]. injection N' as <-.
    assert (X : fexec w bi (set_ivr VR_64 (mk_assign d v0)) s = Some (FNext (rset s (vp_reg d) a))).
    { unfold fexec, set_ivr, mk_assign. cbn [n_i n_pos i_op i_vals set_op set_vals set_vrt insn0 i_alu].
      rewrite E0. cbn [obind]. rewrite (wr_reg _ _ _ Td W). reflexivity. }
    assert (G : good w bi None l0 s (FNext (rset s (vp_reg d) a))).
    { apply (normalize_assign_good w bi (set_ivr VR_64 (mk_assign d v0)) v0 s l0);
        [reflexivity|reflexivity|exact C0| | |exact N0|exact O|exact X].
      - cbn [n_pos set_ivr mk_assign]. rewrite Sp0. unfold s16_range. lia.
      - cbn [n_pos n_i set_ivr mk_assign]. split; [reflexivity|]. split.
        + unfold stack_pos. rewrite Sp0. intros H. rewrite andb_false_r in H. discriminate.
        + intros _. cbn. split; [congruence|]. split; [congruence|]. intros _. right. split; [congruence|reflexivity]. }
    destruct G as [[r' [F0 [Ag|(f0 & s0 & Ft & _)]]] T'].
    - subst r'. rewrite fseq_app, F0. cbn [obind]. rewrite fseq_one. split.
      + apply Last. intros [-> Eq]. destruct (Ov eq_refl Eq) as [Eq' _]. congruence.
      + apply Forall_app. split; [exact T'|]. constructor; [apply Tf; exact Cd|constructor].
    - discriminate. }
  destruct t0, t1; try discriminate; auto.
Qed.

Lemma same_reg_true v d p : vtype_pos d = T_REG -> v_data v = VFlat p -> vp_alloc p = true -> vp_spilled p = 0 ->
  vp_reg d = vp_reg p -> same_reg v d = true.
Proof.
  intros Td D A Z0 R. apply vpos_reg in Td. destruct Td as [Ad Zd].
  unfold same_reg, in_reg, reg_pos. rewrite D, A, Z0, Ad, Zd, R, !Z.eqb_refl. reflexivity.
Qed.

Lemma normalize_alu_good w bi n v0 v1 f s l r :
  alu_op_of (i_op (n_i n)) = Some f -> i_vals (n_i n) = [v0; v1] ->
  const_ok bi v0 -> const_ok bi v1 -> alu_cond bi (n_i n) (n_pos n) v0 v1 ->
  normalize_alu n = Ok l -> st_ok s -> fexec w bi n s = Some r -> good w bi None l s r.
Proof.
  intros Hf Hv C0 C1 Cnd N O X. destruct n as [x d]. cbn [n_i n_pos] in *.
  rewrite (fexec_alu w bi x d s f v0 v1 Hf Hv) in X.
  destruct (width_of (i_alu x)) as [wd|] eqn:Wd; [|discriminate].
  destruct (evalv bi s v0) as [a|] eqn:E0; [|discriminate].
  destruct (evalv bi s v1) as [b|] eqn:E1; [|discriminate]. cbn [obind] in X.
  destruct (wr s d (alu_fn f wd a b)) as [s'|] eqn:Wr; [|discriminate]. cbn [next obind] in X.
  apply Some_inj in X. subst r.
  unfold normalize_alu in N. cbn [n_i n_pos] in N. unfold vt_k, val_k in N. rewrite Hv in N. cbn [nth_error nth] in N.
  destruct (vtype v0) as [t0| | | |] eqn:T0; try discriminate. cbn [bind] in N.
  destruct (vtype v1) as [t1| | | |] eqn:T1; try discriminate. cbn [bind] in N.
  apply bind_ok in N. destruct N as [? [A N]]. apply assertb_ok in A. apply vt_eqb_eq in A. rename A into Td.
  assert (L : length (i_vals x) = 2%nat) by (rewrite Hv; reflexivity).
  destruct (vt_eqb t1 T_REG && (vp_reg d =? reg_of v1)) eqn:Sw.
  - (* exchanged *)
    apply andb_true_iff in Sw. destruct Sw as [Q1 Q2]. apply vt_eqb_eq in Q1. apply Z.eqb_eq in Q2. subst t1.
    destruct (is_commutative_op (i_op x)) eqn:Cm.
    + cbn [bind] in N.
      apply bind_ok in N. destruct N as [? [A N]]. clear A.
      apply bind_ok in N. destruct N as [? [A N]]. apply assertb_ok in A.
      cbn [app] in N.
      apply good_eq; (eapply (alu_core w bi x d (i_op x) f v1 v0 T_REG t0 s l wd b a s'); eauto);
        try congruence.
      * intros ->. simpl in A. apply alut_eqb_eq. exact A.
      * intros Ho Ha. unfold alu_cond in Cnd. rewrite Ho in Cnd. apply Cnd. exact Ha.
      * rewrite (alu_fn_comm f wd b a); auto. eapply alu_op_commutative; eauto.
      * intros ->. simpl in A. apply alut_eqb_eq. exact A.
      * intros Ho Ha. unfold alu_cond in Cnd. rewrite Ho in Cnd. apply Cnd. exact Ha.
      * rewrite (alu_fn_comm f wd b a); auto. eapply alu_op_commutative; eauto.
    + destruct (iop_eqb (i_op x) SUB) eqn:Sb; [|discriminate]. cbn [bind] in N.
      unfold iop_eqb in Sb. destruct (iop_eq_dec (i_op x) SUB) as [Ho|]; [|discriminate].
      apply bind_ok in N. destruct N as [? [A N]]. clear A.
      apply bind_ok in N. destruct N as [? [A N]]. apply assertb_ok in A.
      rewrite Ho in Hf. injection Hf as <-. unfold alu_cond in Cnd. rewrite Ho in Cnd. destruct Cnd as [Nd Nz].
      destruct (vtype_reg _ T1) as (p1 & D1 & Al1 & Z1).
      assert (R1 : reg_of v1 = vp_reg p1) by (unfold reg_of, flat_pos; rewrite D1; reflexivity).
      destruct (wr_reg_inv _ _ _ _ Td Wr) as [W Es']. subst s'.
      assert (Eb : b = rget s (vp_reg d)).
      { destruct (evalv_cases _ _ _ _ E1) as [(c & D & _)|[(q & D & _ & _ & _ & Eb & _ & Rv)|(q & D & _ & Z0 & _)]]; try congruence. }
      (* the negation *)
      assert (Xn : fexec w bi (mk_neg d A_64 v1) s = Some (FNext (rset s (vp_reg d) (neg_fn true b)))).
      { unfold fexec, mk_neg. cbn [n_i n_pos i_op i_vals set_op set_vals set_alu insn0 i_alu width_of obind].
        rewrite E1. cbn [obind]. rewrite (wr_reg _ _ _ Td W). reflexivity. }
      assert (Tn : tr_ok bi (mk_neg d A_64 v1)).
      { unfold tr_ok, mk_neg. cbn [n_i i_op i_vals set_op set_vals set_alu insn0 alu_op_of].
        split; [constructor; [exact C1|constructor]|]. split; [congruence|exact I]. }
      assert (On : st_ok (rset s (vp_reg d) (neg_fn true b))) by (apply rset_ok; exact O).
      assert (E1' : evalv bi (rset s (vp_reg d) (neg_fn true b)) v1 = Some (neg_fn true b)).
      { unfold evalv. rewrite D1, Al1, Z1. cbn [Z.eqb]. rewrite <- R1, <- Q2, (wreg_reg _ W).
        rewrite rget_rset_same by auto. f_equal. unfold neg_fn. apply u64_trunc. }
      assert (E0' : evalv bi (rset s (vp_reg d) (neg_fn true b)) v0 = Some a).
      { rewrite evalv_rset; auto. intros p D Zp Eq. apply Nd.
        assert (Ap : vp_alloc p = true).
        { unfold evalv in E0. rewrite D in E0. destruct (vp_alloc p); congruence. }
        split; [eapply same_reg_true; eauto|].
        eapply same_reg_true; eauto. congruence. }
      assert (Wr' : wr (rset s (vp_reg d) (neg_fn true b)) d (alu_fn AAdd wd (neg_fn true b) a) =
                    Some (rset s (vp_reg d) (alu_fn ASub wd a b))).
      { rewrite (wr_reg _ _ _ Td W), rset_rset, sub_by_neg. reflexivity. }
      assert (Hl : exists l1, l = mk_neg d A_64 v1 :: l1 /\
        match T_REG, t0 with
        | T_REG, T_REG | T_REG, T_CONST =>
          if vp_reg d =? reg_of v1 then Ok [mkN (set_val_k 1 v0 (set_val_k 0 v1 (set_op ADD x))) d]
          else Ok [mk_assign d v1; mkN (set_val_k 1 v0 (set_val_k 0 (val_pos d) (set_op ADD x))) d]
        | _, _ => Crit
        end = Ok l1).
      { rewrite Q2, Z.eqb_refl in *. cbn [app] in N. destruct t0; try discriminate; injection N as <-; eauto. }
      destruct Hl as [l1 [-> N1]].
      assert (R : fseq w bi l1 (rset s (vp_reg d) (neg_fn true b)) = Some (FNext (rset s (vp_reg d) (alu_fn ASub wd a b))) /\
                  Forall (tr_ok bi) l1).
      { eapply (alu_core w bi x d ADD AAdd v1 v0 T_REG t0 _ l1 wd); try exact N1; try exact Wr'; auto; try congruence.
        - intros ->. simpl in A. apply alut_eqb_eq. exact A.
        - intros _ Ha. apply Nz. exact Ha. }
      destruct R as [R1' R2]. apply good_eq.
      * rewrite (fseq_cons _ _ _ _ _ _ Xn). exact R1'.
      * constructor; assumption.
  - (* as is *)
    cbn [bind] in N.
    apply bind_ok in N. destruct N as [? [A N]]. apply assertb_ok in A.
    apply bind_ok in N. destruct N as [? [A1 N]]. apply assertb_ok in A1.
    cbn [app] in N.
    assert (R : fseq w bi l s = Some (FNext s') /\ Forall (tr_ok bi) l).
    { eapply (alu_core w bi x d (i_op x) f v0 v1 t0 t1 s l wd a b s'); eauto.
      - intros ->. simpl in A. apply alut_eqb_eq. exact A.
      - intros ->. simpl in A1. apply alut_eqb_eq. exact A1.
      - intros Ho Ha. unfold alu_cond in Cnd. rewrite Ho in Cnd. apply Cnd. exact Ha.
      - intros -> Q. rewrite Q, Z.eqb_refl in Sw. discriminate. }
    destruct R. apply good_eq; assumption.
Qed.

(** Unary instructions *)
Definition unary_fn (x : insn) : option (Z -> Z) :=
  match i_op x with
  | NEG => let? wd := width_of (i_alu x) in Some (neg_fn wd)
  | HTOLE | HTOBE =>
    if (i_u x =? 16) || (i_u x =? 32) || (i_u x =? 64)
    then Some (end_fn (iop_eqb (i_op x) HTOBE) (i_u x)) else None
  | _ => None
  end.
Lemma fexec_unary w bi x d s v :
  In (i_op x) [NEG; HTOLE; HTOBE] -> i_vals x = [v] ->
  fexec w bi (mkN x d) s =
  let? g := unary_fn x in let? a := evalv bi s v in next (wr s d (g a)).
Proof.
  intros Ho Hv. unfold fexec, unary_fn. cbn [n_i n_pos]. rewrite Hv. cbn in Ho.
  destruct Ho as [<-|[<-|[<-|[]]]].
  - destruct (width_of (i_alu x)); reflexivity.
  - destruct ((i_u x =? 16) || (i_u x =? 32) || (i_u x =? 64)); reflexivity.
  - destruct ((i_u x =? 16) || (i_u x =? 32) || (i_u x =? 64)); reflexivity.
Qed.

Lemma tr_unary bi x d v : In (i_op x) [NEG; HTOLE; HTOBE] -> i_vals x = [v] -> const_ok bi v -> tr_ok bi (mkN x d).
Proof.
  intros Ho Hv C. unfold tr_ok. cbn [n_i]. rewrite Hv. cbn in Ho.
  destruct Ho as [<-|[<-|[<-|[]]]]; (split; [constructor; [exact C|constructor]|]); (split; [cbn; congruence|exact I]).
Qed.

Lemma normalize_unary_good w bi n v s l r :
  In (i_op (n_i n)) [NEG; HTOLE; HTOBE] -> i_vals (n_i n) = [v] -> const_ok bi v ->
  normalize_unary n = Ok l -> st_ok s -> fexec w bi n s = Some r -> good w bi None l s r.
Proof.
  intros Ho Hv C N O X. destruct n as [x d]. cbn [n_i n_pos] in *.
  pose proof X as X0. rewrite (fexec_unary _ _ _ _ _ v Ho Hv) in X.
  destruct (unary_fn x) as [g|] eqn:G; [|discriminate]. cbn [obind] in X.
  destruct (evalv bi s v) as [a|] eqn:E; [|discriminate]. cbn [obind] in X.
  destruct (wr s d (g a)) as [s'|] eqn:Wr; [|discriminate]. cbn [next obind] in X. apply Some_inj in X. subst r.
  unfold normalize_unary in N. cbn [n_i n_pos] in N. unfold vt_k, val_k in N. rewrite Hv in N. cbn [nth_error nth] in N.
  destruct (vtype v) as [t0| | | |] eqn:T0; try discriminate. cbn [bind] in N.
  apply bind_ok in N. destruct N as [? [A N]]. apply assertb_ok in A. apply vt_eqb_eq in A. rename A into Td.
  assert (Sp0 : vp_spilled d = 0) by (apply vpos_reg in Td; tauto).
  destruct (wr_reg_inv _ _ _ _ Td Wr) as [W ->].
  assert (Lst : fexec w bi (mkN (set_val_k 0 (val_pos d) x) d) (rset s (vp_reg d) a) =
                Some (FNext (rset s (vp_reg d) (g a))) /\ tr_ok bi (mkN (set_val_k 0 (val_pos d) x) d)).
  { assert (V : i_vals (set_val_k 0 (val_pos d) x) = [val_pos d]).
    { unfold set_val_k. cbn [i_vals set_vals]. rewrite Hv. reflexivity. }
    split.
    - rewrite (fexec_unary w bi (set_val_k 0 (val_pos d) x) d _ (val_pos d) Ho V).
      change (unary_fn (set_val_k 0 (val_pos d) x)) with (unary_fn x). rewrite G. cbn [obind].
      rewrite (eval_pos bi _ d Td W). cbn [obind]. rewrite (wr_reg _ _ _ Td W). cbn [next obind].
      rewrite rset_rset, rget_rset_same by auto. rewrite (evalv_u64 _ _ _ _ O E). reflexivity.
    - apply (tr_unary bi (set_val_k 0 (val_pos d) x) d (val_pos d)); auto. apply const_ok_pos. exact Sp0. }
  destruct Lst as [L1 L2].
  assert (Two : forall i, fexec w bi i s = Some (FNext (rset s (vp_reg d) a)) -> tr_ok bi i ->
            good w bi None [i; mkN (set_val_k 0 (val_pos d) x) d] s (FNext (rset s (vp_reg d) (g a)))).
  { intros i Xi Ti. apply good_eq.
    - rewrite (fseq_cons _ _ _ _ _ _ Xi), fseq_one. exact L1.
    - constructor; [exact Ti|constructor; [exact L2|constructor]]. }
  destruct t0; try discriminate.
  - (* undef: v does not evaluate *)
    destruct (evalv_cases _ _ _ _ E) as [(c & D & _ & T)|[(q & D & _ & _ & _ & _ & T & Rv)|(q & D & _ & Z0 & _ & T)]]; congruence.
  - destruct (reg_of v =? vp_reg d).
    + injection N as <-. apply good_self; [exact X0|]. eapply tr_unary; eauto.
    + injection N as <-. apply Two.
      * apply exec_mk_assign; auto.
      * apply tr_mk_assign; auto. eapply reg_narrow; eauto. congruence.
  - injection N as <-.
    (* a stack operand: the copy is a plain assign from a stack slot *)
    apply Two.
    + unfold fexec, set_ivr, mk_assign. cbn [n_i n_pos i_op i_vals set_op set_vals set_vrt insn0 i_alu].
      rewrite E. cbn [obind]. rewrite (wr_reg _ _ _ Td W). reflexivity.
    + unfold tr_ok, set_ivr, mk_assign. cbn [n_i i_op i_vals set_op set_vals set_vrt insn0 i_alu alu_op_of].
      split; [constructor; [exact C|constructor]|]. split; [congruence|]. split; [congruence|].
      eapply reg_narrow; eauto. congruence.
Qed.

(** normalize_getelemptr *)
Lemma normalize_getelemptr_good w bi n off arr s l r :
  i_op (n_i n) = GETELEMPTR -> i_vals (n_i n) = [off; arr] -> const_ok bi off -> const_ok bi arr ->
  on_stack off = false ->
  (forall c p, v_data off = VConst c -> v_data arr = VFlat p ->
     v_bi off = B_NONE /\ - 2 ^ 31 < c + vp_spilled p < 2 ^ 31) ->
  normalize_getelemptr n = Ok l -> st_ok s -> fexec w bi n s = Some r -> good w bi None l s r.
Proof.
  intros Ho Hv C0 C1 Hst Hc N O X. destruct n as [x d]. cbn [n_i n_pos] in *.
  unfold fexec in X. cbn [n_i n_pos] in X. rewrite Ho, Hv in X.
  destruct (v_data arr) as [| | | |p|] eqn:Da; try discriminate.
  destruct (vp_alloc p && negb (vp_spilled p =? 0)) eqn:Ap; [|discriminate].
  apply andb_true_iff in Ap. destruct Ap as [Ap Zp]. apply negb_true_iff in Zp.
  destruct (evalv bi s off) as [a|] eqn:E; [|discriminate]. cbn [obind] in X.
  destruct (wr s d _) as [s'|] eqn:Wr in X; [|discriminate]. cbn [next obind] in X. apply Some_inj in X. subst r.
  unfold normalize_getelemptr in N. cbn [n_i n_pos] in N. unfold vt_k, val_k in N. rewrite Hv in N. cbn [nth_error nth] in N.
  destruct (vtype off) as [t0| | | |] eqn:T0; try discriminate. cbn [bind] in N.
  assert (T1 : vtype arr = Ok T_STACK) by (unfold vtype, vtype_pos; rewrite Da, Ap, Zp; reflexivity).
  rewrite T1 in N. cbn [bind vt_eqb assertb] in N.
  apply bind_ok in N. destruct N as [? [A N]]. apply assertb_ok in A. apply vt_eqb_eq in A. rename A into Td.
  assert (Sp0 : vp_spilled d = 0) by (apply vpos_reg in Td; tauto).
  destruct (wr_reg_inv _ _ _ _ Td Wr) as [W ->]. clear Wr.
  assert (Fp : flat_pos arr = p) by (unfold flat_pos; rewrite Da; reflexivity). rewrite Fp in N.
  assert (Rp : s16_range (vp_spilled p)) by (unfold const_ok in C1; rewrite Da in C1; exact C1).
  assert (Nd : 10 <> vp_reg d) by (apply is_wreg_range in W; lia).
  destruct (evalv_cases _ _ _ _ E) as [(c & D & Ea & T)|[(q & D & A & Z0 & R & Ea & T & Rv)|(q & D & A & Z0 & Ea & T)]];
    rewrite T0 in T; injection T as ->.
  - (* constant offset *)
    destruct (Hc c p D eq_refl) as [Bn Rg].
    apply bind_ok in N. destruct N as [? [A N]]. clear A.
    assert (Cd : const_d off = c) by (unfold const_d; rewrite D; reflexivity). rewrite Cd in N.
    assert (Ea' : a = u64 c) by (rewrite Ea; unfold const_val; rewrite Bn; reflexivity).
    set (t := c + vp_spilled p) in *.
    assert (Cx : exists o k, (o = ADD /\ k = t \/ o = SUB /\ k = - t) /\ s32_range k /\
      normalize_alu (mkN (set_val_k 1 (val_const32 k) (set_val_k 0 val_sp (set_op o (set_alu A_64 (set_op ADD x))))) d) = Ok l).
    { destruct (Z.ltb_spec t 0); cbv iota beta in N.
      - exists SUB, (- t). split; [auto|]. split; [unfold s32_range; lia|].
        rewrite (s32_small (- t)) in N by lia. exact N.
      - exists ADD, t. split; [auto|]. split; [unfold s32_range; lia|].
        rewrite (s32_small t) in N by lia. exact N. }
    clear N. destruct Cx as (o & k & Hk & Rk & N).
    assert (V : i_vals (set_val_k 1 (val_const32 k) (set_val_k 0 val_sp (set_op o (set_alu A_64 (set_op ADD x))))) = [val_sp; val_const32 k]).
    { unfold set_val_k. cbn [i_vals set_vals set_op set_alu]. rewrite Hv. reflexivity. }
    assert (Ek : evalv bi s (val_const32 k) = Some (u64 k)) by reflexivity.
    assert (exists f, alu_op_of o = Some f /\ u64 (alu_fn f true (rget s 10) (u64 k)) = u64 (slot_addr s p + a)) as [f [Hf Hval]].
    { destruct Hk as [[-> ->]|[-> ->]].
      - exists AAdd. split; [reflexivity|]. rewrite u64_alu_fn, alu_fn_u64_r, alu_add. change (trunc true) with u64.
        unfold slot_addr, t. rewrite Ea'. unfold u64. rewrite Zplus_mod_idemp_r. f_equal. lia.
      - exists ASub. split; [reflexivity|]. rewrite u64_alu_fn, alu_fn_u64_r, alu_sub. change (trunc true) with u64.
        unfold slot_addr, t. rewrite Ea'. unfold u64. rewrite Zplus_mod_idemp_r. f_equal. lia. }
    eapply (normalize_alu_good w bi _ val_sp (val_const32 k) f s l); try exact N; auto.
    + apply const_ok_pos. reflexivity.
    + cbn [n_i n_pos]. unfold alu_cond.
      assert (Sm : same_reg val_sp d = false).
      { unfold same_reg. destruct (in_reg val_sp && reg_pos d); cbn [andb val_sp val_pos v_data sp_pos vp_reg]; auto.
        apply Z.eqb_neq. exact Nd. }
      change (i_op (set_val_k 1 (val_const32 k) (set_val_k 0 val_sp (set_op o (set_alu A_64 (set_op ADD x)))))) with o.
      change (i_alu (set_val_k 1 (val_const32 k) (set_val_k 0 val_sp (set_op o (set_alu A_64 (set_op ADD x)))))) with A_64.
      destruct Hk as [[-> _]|[-> _]]; [congruence|]. split; [|congruence]. rewrite Sm. intros [H _]. discriminate.
    + rewrite (fexec_alu w bi (set_val_k 1 (val_const32 k) (set_val_k 0 val_sp (set_op o (set_alu A_64 (set_op ADD x))))) d s f val_sp (val_const32 k) Hf V).
      change (i_alu (set_val_k 1 (val_const32 k) (set_val_k 0 val_sp (set_op o (set_alu A_64 (set_op ADD x)))))) with A_64.
      cbn [width_of obind]. rewrite eval_sp, Ek. cbn [obind]. rewrite (wr_reg _ _ _ Td W). cbn [next obind].
      do 2 f_equal. apply rset_congr. rewrite Hval, u64_u64. reflexivity.
  - (* register offset *)
    set (lst := mkN (set_val_k 1 (val_const32 (vp_spilled p)) (set_val_k 0 (val_pos d) (set_alu A_64 (set_op ADD x)))) d) in *.
    assert (V : i_vals (n_i lst) = [val_pos d; val_const32 (vp_spilled p)]).
    { unfold lst, set_val_k. cbn [n_i i_vals set_vals set_op set_alu]. rewrite Hv. reflexivity. }
    assert (Tl : tr_ok bi lst).
    { unfold tr_ok. rewrite V. change (i_op (n_i lst)) with ADD. change (i_alu (n_i lst)) with A_64.
      split; [|split; [cbn; intros _ v [= <-] _; reflexivity|congruence]].
      constructor; [apply const_ok_pos; exact Sp0|constructor; [|constructor]].
      unfold s16_range in Rp. unfold const_ok, s32_range. cbn [val_const32 v_data v_bi v_ct]. lia. }
    assert (Ta : tr_ok bi (mk_bin d (val_pos d) val_sp ADD A_64)).
    { unfold tr_ok, mk_bin. cbn [n_i i_op i_vals i_alu set_op set_vals set_alu].
      split; [|split; [cbn; intros _ v [= <-] H; discriminate|congruence]].
      constructor; [apply const_ok_pos; exact Sp0|constructor; [|constructor]]. apply const_ok_pos. reflexivity. }
    assert (Run : forall s1, st_ok s1 -> rget s1 10 = rget s 10 -> mem s1 = mem s ->
              rset s1 (vp_reg d) 0 = rset s (vp_reg d) 0 -> rget s1 (vp_reg d) = a ->
              fseq w bi [mk_bin d (val_pos d) val_sp ADD A_64; lst] s1 =
              Some (FNext (rset s (vp_reg d) (u64 (slot_addr s p + a))))).
    { intros s1 O1 G10 Gm Gr Gd.
      assert (X1 : fexec w bi (mk_bin d (val_pos d) val_sp ADD A_64) s1 =
                   Some (FNext (rset s1 (vp_reg d) (a + rget s 10)))).
      { change (mk_bin d (val_pos d) val_sp ADD A_64) with (mkN (n_i (mk_bin d (val_pos d) val_sp ADD A_64)) d).
        rewrite (fexec_alu w bi (n_i (mk_bin d (val_pos d) val_sp ADD A_64)) d s1 AAdd (val_pos d) val_sp eq_refl eq_refl).
        change (i_alu (n_i (mk_bin d (val_pos d) val_sp ADD A_64))) with A_64.
        cbn [width_of obind]. rewrite (eval_pos bi _ d Td W), eval_sp. cbn [obind].
        rewrite (wr_reg _ _ _ Td W). cbn [next obind]. rewrite alu_add, Gd, G10. change (trunc true) with u64.
        rewrite rset_u64. reflexivity. }
      rewrite (fseq_cons _ _ _ _ _ _ X1), fseq_one.
      change lst with (mkN (n_i lst) d).
      rewrite (fexec_alu w bi (n_i lst) d _ AAdd (val_pos d) (val_const32 (vp_spilled p)) eq_refl V).
      change (i_alu (n_i lst)) with A_64. cbn [width_of obind].
      rewrite (eval_pos bi _ d Td W). cbn [obind evalv val_const32 v_data const_val v_bi].
      rewrite (wr_reg _ _ _ Td W). cbn [next obind]. do 2 f_equal.
      rewrite alu_fn_u64_r, alu_add, rset_rset, rget_rset_same by auto. change (trunc true) with u64. rewrite !rset_u64.
      assert (rset s1 (vp_reg d) (u64 (a + rget s 10) + vp_spilled p) = rset s (vp_reg d) (u64 (a + rget s 10) + vp_spilled p)) as ->.
      { rewrite <- (rset_rset s1 _ 0), Gr, rset_rset. reflexivity. }
      apply rset_congr. unfold slot_addr, u64. rewrite Zplus_mod_idemp_l. f_equal. lia. }
    assert (Em : reg_of off = vp_reg d -> l = [mk_bin d (val_pos d) val_sp ADD A_64; lst]).
    { intros Q. rewrite Q, Z.eqb_refl in N. injection N as <-. reflexivity. }
    destruct (Z.eqb_spec (reg_of off) (vp_reg d)) as [Q|Q].
    + rewrite (Em Q). apply good_eq.
      * apply Run; auto. rewrite Ea. congruence.
      * constructor; [exact Ta|constructor; [exact Tl|constructor]].
    + injection N as <-. apply good_eq.
      * rewrite (fseq_cons w bi _ _ s _ (exec_mk_assign w bi s d off a Td W E)). apply Run.
        -- apply rset_ok. exact O.
        -- apply rget_rset_other; auto. lia.
        -- reflexivity.
        -- apply rset_rset.
        -- rewrite rget_rset_same by auto. eapply evalv_u64; eauto.
      * constructor; [|constructor; [exact Ta|constructor; [exact Tl|constructor]]].
        apply tr_mk_assign; auto. eapply reg_narrow; eauto. congruence.
  - (* stack offset: excluded *)
    unfold on_stack in Hst. rewrite D, A in Hst. apply Z.eqb_neq in Z0. rewrite Z0 in Hst. discriminate.
Qed.

(** raw accesses *)
Lemma stackoff_addr bi s x a x' :
  a_ot (i_addr x) = O_CONST ->
  (forall p, v_data (a_val (i_addr x)) = VFlat p -> s16_range (a_off (i_addr x) + vp_spilled p)) ->
  addr_of bi s (i_addr x) = Some a ->
  (do t <- vtype (a_val (i_addr x));
   if vt_eqb t T_STACK
   then Ok (mkAddr val_sp (s16 (a_off (i_addr x) + vp_spilled (flat_pos (a_val (i_addr x))))) (a_ot (i_addr x)))
   else Ok (i_addr x)) = Ok x' -> addr_of bi s x' = Some a.
Proof.
  intros Ot Rg E N. unfold addr_of in E. rewrite Ot in E, N.
  unfold vtype, vtype_pos, flat_pos in N.
  destruct (v_data (a_val (i_addr x))) as [| | | |p|] eqn:D; try discriminate; cbn [bind vt_eqb] in N.
  - injection N as <-. unfold addr_of. rewrite Ot, D. exact E.
  - destruct (vp_alloc p) eqn:Al; [|discriminate].
    destruct (vp_spilled p =? 0) eqn:Z0; cbn [vt_eqb] in N; injection N as <-.
    + unfold addr_of. rewrite Ot, D, Al, Z0. exact E.
    + rewrite addr_sp. apply Some_inj in E. f_equal. rewrite s16_small by (apply Rg; reflexivity).
      rewrite <- E. unfold slot_addr. lia.
Qed.

Lemma normalize_stackoff_good w bi n s l r :
  (i_op (n_i n) = LOADRAW /\ is_const (a_val (i_addr (n_i n))) = false \/
   exists v, i_op (n_i n) = STORERAW /\ i_vals (n_i n) = [v] /\ (i_vrt (n_i n) = VR_64 -> narrow_const v)) ->
  Forall (const_ok bi) (i_vals (n_i n)) ->
  (forall p, v_data (a_val (i_addr (n_i n))) = VFlat p -> s16_range (a_off (i_addr (n_i n)) + vp_spilled p)) ->
  normalize_stackoff n = Ok l -> st_ok s -> fexec w bi n s = Some r -> good w bi None l s r.
Proof.
  intros Ho C Rg N O X. destruct n as [x d]. cbn [n_i n_pos] in *.
  assert (Ot : a_ot (i_addr x) = O_CONST).
  { unfold fexec in X. cbn [n_i n_pos] in X. unfold addr_of in X.
    destruct Ho as [[Ho _]|(v & Ho & Hv & _)]; rewrite Ho, ?Hv in X.
    - destruct (i_vals x) as [|? [|? []]]; destruct (vr_bytes _); try discriminate; cbn [obind] in X; destruct (a_ot (i_addr x)); auto; discriminate.
    - destruct (vr_bytes _); try discriminate; cbn [obind] in X; destruct (a_ot (i_addr x)); auto; discriminate. }
  unfold normalize_stackoff in N. cbn [n_i n_pos] in N.
  set (ad := do t <- vtype (a_val (i_addr x));
       if vt_eqb t T_STACK
       then Ok (mkAddr val_sp (s16 (a_off (i_addr x) + vp_spilled (flat_pos (a_val (i_addr x))))) (a_ot (i_addr x)))
       else Ok (i_addr x)).
  assert (Ad : exists a', ad = Ok a' /\ l = [mkN (set_addr a' x) d]).
  { unfold ad. destruct (vtype (a_val (i_addr x))) as [t| | | |]; try discriminate. cbn [bind] in *.
    destruct (vt_eqb t T_STACK); injection N as <-; eexists; split; try reflexivity.
    destruct x; reflexivity. }
  destruct Ad as [a' [Ea ->]].
  apply good_self.
  - unfold fexec in X |- *. cbn [n_i n_pos i_op i_vals set_addr i_vrt i_addr] in *.
    destruct Ho as [[Ho _]|(v & Ho & Hv & _)]; rewrite Ho, ?Hv in X |- *.
    + assert (forall a, addr_of bi s (i_addr x) = Some a -> addr_of bi s a' = Some a) as Q.
      { intros a Q. eapply stackoff_addr; eauto. }
      destruct (i_vals x) as [|? [|? []]]; (destruct (vr_bytes _); [|discriminate]); cbn [obind] in *;
        (destruct (addr_of bi s (i_addr x)) as [a|]; [|discriminate]); rewrite (Q a eq_refl); exact X.
    + destruct (vr_bytes _); [|discriminate]. cbn [obind] in *.
      destruct (addr_of bi s (i_addr x)) as [a|] eqn:Q; [|discriminate].
      rewrite (stackoff_addr bi s x a a' Ot Rg Q Ea). exact X.
  - unfold tr_ok. cbn [n_i i_op i_vals set_addr i_addr i_vrt].
    split; [exact C|].
    destruct Ho as [[Ho Hc]|(v & Ho & Hv & Hn)]; rewrite Ho.
    + split; [cbn; congruence|].
      assert (is_const (a_val a') = false).
      { unfold ad in Ea. destruct (vtype (a_val (i_addr x))) as [t| | | |]; try discriminate. cbn [bind] in Ea.
        destruct (vt_eqb t T_STACK); injection Ea as <-; [reflexivity|exact Hc]. }
      destruct (i_vals x) as [|? [|? []]]; assumption.
    + rewrite Hv. split; [cbn; congruence|]. exact Hn.
Qed.

(** store and load of variables *)
Lemma normalize_store_good w bi n t v s l r :
  i_op (n_i n) = STORE -> i_vals (n_i n) = [t; v] -> const_ok bi t -> const_ok bi v ->
  i_vrt (n_i n) = VR_64 -> i_alu (n_i n) <> A_32 ->
  (forall p, v_data t = VFlat p -> assign_ok (n_i n) p v) ->
  normalize_store n = Ok l -> st_ok s -> fexec w bi n s = Some r -> good w bi None l s r.
Proof.
  intros Ho Hv Ct C Hr Ha As N O X. destruct n as [x d]. cbn [n_i n_pos] in *.
  unfold fexec in X. cbn [n_i n_pos] in X. rewrite Ho, Hv, Hr in X.
  destruct (v_data t) as [| | | |p|] eqn:D; try discriminate.
  unfold normalize_store in N. cbn [n_i] in N. unfold val_k in N. rewrite Hv in N. cbn [nth] in N.
  assert (Fp : flat_pos t = p) by (unfold flat_pos; rewrite D; reflexivity). rewrite Fp in N.
  apply (normalize_assign_good w bi (mkN (set_vals [v] (set_op ASSIGN x)) p) v s l r); auto.
  - unfold const_ok in Ct. rewrite D in Ct. exact Ct.
  - destruct (As p eq_refl) as [A1 [A2 A3]]. split; [exact A1|]. split; [exact A2|exact A3].
  - unfold fexec. cbn [n_i n_pos i_op i_vals set_vals set_op i_alu].
    destruct (evalv bi s v) as [a|] eqn:E; [|discriminate]. cbn [obind vr_bytes] in *.
    change (2 ^ (8 * Z.of_nat 8)) with (2 ^ 64) in X. change (a mod 2 ^ 64) with (u64 a) in X.
    rewrite (evalv_u64 _ _ _ _ O E) in X. destruct (i_alu x); congruence.
Qed.
Lemma normalize_load_good w bi n v s l r :
  i_op (n_i n) = LOAD -> i_vals (n_i n) = [v] -> const_ok bi v -> s16_range (vp_spilled (n_pos n)) ->
  i_vrt (n_i n) = VR_64 -> i_alu (n_i n) <> A_32 -> assign_ok (n_i n) (n_pos n) v ->
  normalize_load n = Ok l -> st_ok s -> fexec w bi n s = Some r -> good w bi None l s r.
Proof.
  intros Ho Hv C Sp Hr Ha As N O X. destruct n as [x d]. cbn [n_i n_pos] in *.
  unfold fexec in X. cbn [n_i n_pos] in X. rewrite Ho, Hv, Hr in X.
  unfold normalize_load in N. cbn [n_i n_pos] in N.
  apply (normalize_assign_good w bi (mkN (set_op ASSIGN x) d) v s l r); auto.
  unfold fexec. cbn [n_i n_pos i_op i_vals set_vals set_op i_alu]. rewrite Hv.
  destruct (evalv bi s v) as [a|] eqn:E; [|discriminate]. cbn [obind vr_bytes] in *.
  change (2 ^ (8 * Z.of_nat 8)) with (2 ^ 64) in X. change (a mod 2 ^ 64) with (u64 a) in X.
  rewrite (evalv_u64 _ _ _ _ O E) in X. destruct (i_alu x); congruence.
Qed.

(** return *)
Lemma normalize_ret_good w bi n s l r :
  i_op (n_i n) = RET -> Forall (const_ok bi) (i_vals (n_i n)) ->
  match i_vals (n_i n) with [v] => narrow_const v | _ => True end ->
  normalize_ret n = Ok l -> st_ok s -> fexec w bi n s = Some r -> good w bi None l s r.
Proof.
  intros Ho C Nr N O X. destruct n as [x d]. cbn [n_i n_pos] in *. pose proof X as X0.
  unfold fexec in X. cbn [n_i n_pos] in X. rewrite Ho in X. unfold normalize_ret in N. cbn [n_i n_pos] in N.
  destruct (i_vals x) as [|v [|v1 [|]]] eqn:Hv; try discriminate.
  - injection N as <-. apply good_self; [exact X0|]. unfold tr_ok. cbn [n_i]. rewrite Ho, Hv.
    split; [constructor|]. split; [cbn; congruence|exact I].
  - destruct (evalv bi s v) as [a|] eqn:E; [|discriminate]. cbn [obind] in X. apply Some_inj in X. subst r.
    apply bind_ok in N. destruct N as [t0 [T0 N]]. apply bind_ok in N. destruct N as [? [A N]]. injection N as <-.
    inversion C as [|? ? Cv _]; subst.
    apply good_eq.
    + assert (X1 : fexec w bi (set_ivr VR_64 (mk_assign (mkPos true 0 0 0) v)) s = Some (FNext (rset s 0 a))).
      { unfold fexec, set_ivr, mk_assign. cbn [n_i n_pos i_op i_vals set_op set_vals set_vrt insn0 i_alu].
        rewrite E. reflexivity. }
      rewrite (fseq_cons _ _ _ _ _ _ X1), fseq_one.
      unfold fexec. cbn [n_i n_pos i_op i_vals set_vals]. rewrite Ho. do 2 f_equal.
      rewrite rget_rset_same by auto. eapply evalv_u64; eauto.
    + constructor; [|constructor; [|constructor]].
      * unfold tr_ok, set_ivr, mk_assign. cbn [n_i i_op i_vals set_op set_vals set_vrt insn0 i_alu alu_op_of].
        split; [constructor; [exact Cv|constructor]|]. split; [congruence|]. split; [congruence|exact Nr].
      * unfold tr_ok. cbn [n_i i_op i_vals set_vals]. rewrite Ho. split; [constructor|]. split; [cbn; congruence|exact I].
Qed.

(** conditional jumps *)
Lemma cmp_swap o o' c : swap_jmp o = Some o' -> cmp_op_of o = Some c ->
  exists c', cmp_op_of o' = Some c' /\ forall wd a b, cmp_fn c' wd b a = cmp_fn c wd a b.
Proof.
  destruct o; cbn; intros H1 H2; try discriminate; injection H1 as <-; injection H2 as <-; eexists; (split; [reflexivity|]);
    intros; cbn [cmp_fn]; try reflexivity; try (f_equal; apply Z.eqb_sym); apply Z.eqb_sym.
Qed.
Lemma cond_cmp o : is_cond_jmp_op o = true -> exists c, cmp_op_of o = Some c.
Proof. destruct o; cbn; intros H; try discriminate; eauto. Qed.
Lemma cmp_cond o c : cmp_op_of o = Some c -> is_cond_jmp_op o = true.
Proof. destruct o; cbn; intros H; try discriminate; reflexivity. Qed.

Lemma tr_jmp bi x d : is_cond_jmp_op (i_op x) = true -> Forall (const_ok bi) (i_vals x) -> tr_ok bi (mkN x d).
Proof.
  intros Ho C. unfold tr_ok. cbn [n_i]. split; [exact C|].
  destruct (i_op x); cbn in Ho; try discriminate; (split; [cbn; congruence|]); destruct (i_vals x) as [|? [|? []]]; exact I.
Qed.

Lemma normalize_cond_jmp_good w bi n v0 v1 s l r :
  is_cond_jmp_op (i_op (n_i n)) = true -> i_vals (n_i n) = [v0; v1] ->
  const_ok bi v0 -> const_ok bi v1 ->
  (i_op (n_i n) = JNE -> is_const v0 = true -> is_const v1 = true ->
     v_bi v0 = B_NONE /\ v_bi v1 = B_NONE /\ (i_alu (n_i n) = A_32 -> v_ct v0 = A_32 /\ v_ct v1 = A_32)) ->
  normalize_cond_jmp n = Ok l -> st_ok s -> fexec w bi n s = Some r ->
  good w bi (Some (i_bb1 (n_i n))) l s r.
Proof.
  intros Ho Hv C0 C1 Cn N O X. destruct n as [x d]. cbn [n_i n_pos] in *. pose proof X as X0.
  destruct (cond_cmp _ Ho) as [c Hc].
  assert (CC : Forall (const_ok bi) (i_vals x)) by (rewrite Hv; auto).
  rewrite (fexec_jmp w bi x d s c v0 v1 Hc Hv) in X.
  destruct (width_of (i_alu x)) as [wd|] eqn:Wd; [|discriminate]. cbn [obind] in X.
  destruct (evalv bi s v0) as [a|] eqn:E0; [|discriminate]. cbn [obind] in X.
  destruct (evalv bi s v1) as [b|] eqn:E1; [|discriminate]. cbn [obind] in X. apply Some_inj in X.
  unfold normalize_cond_jmp in N. cbn [n_i n_pos] in N. unfold vt_k, val_k in N. rewrite Hv in N. cbn [nth_error nth] in N.
  destruct (vtype v0) as [t0| | | |] eqn:T0; try discriminate. cbn [bind] in N.
  destruct (vtype v1) as [t1| | | |] eqn:T1; try discriminate. cbn [bind] in N.
  destruct (vt_eqb t0 T_CONST) eqn:K0.
  2:{ injection N as <-. apply good_self; [exact X0|]. apply tr_jmp; auto. }
  apply vt_eqb_eq in K0. subst t0.
  destruct (vt_eqb t1 T_CONST) eqn:K1.
  - (* two constants *)
    apply vt_eqb_eq in K1. subst t1.
    destruct (iop_eqb (i_op x) JNE) eqn:Jn; [|discriminate]. unfold iop_eqb in Jn.
    destruct (iop_eq_dec (i_op x) JNE) as [Hj|]; [|discriminate]. specialize (Cn Hj).
    rewrite Hj in Hc. injection Hc as <-.
    destruct (evalv_cases _ _ _ _ E0) as [(c0 & D0 & Ea & _)|[(q & D & _ & _ & _ & _ & T & Rv)|(q & D & _ & Z0 & _ & T)]]; try congruence.
    destruct (evalv_cases _ _ _ _ E1) as [(c1 & D1 & Eb & _)|[(q & D & _ & _ & _ & _ & T & Rv)|(q & D & _ & Z0 & _ & T)]]; try congruence.
    destruct Cn as [B0 [B1 Ct]]; [unfold is_const; rewrite D0; reflexivity|unfold is_const; rewrite D1; reflexivity|].
    unfold const_d in N. rewrite D0, D1 in N. unfold const_val in Ea, Eb. rewrite B0 in Ea. rewrite B1 in Eb.
    unfold const_ok in C0, C1. rewrite D0, B0 in C0. rewrite D1, B1 in C1.
    assert (Cmp : cmp_fn CNe wd a b = negb (c0 =? c1)).
    { cbn [cmp_fn]. rewrite Ea, Eb, !trunc_u64. f_equal. unfold trunc.
      destruct (i_alu x) eqn:Al; cbn in Wd; try discriminate; injection Wd as <-; cbn [bits].
      - destruct (Ct eq_refl) as [K0 K1]. rewrite K0 in C0. rewrite K1 in C1. unfold s32_range in *.
        destruct (Z.eqb_spec c0 c1) as [->|]; [apply Z.eqb_refl|]. apply Z.eqb_neq. lia.
      - assert (s64_range c0) by (unfold s64_range; destruct (v_ct v0); try contradiction; unfold s32_range, s64_range in *; lia).
        assert (s64_range c1) by (unfold s64_range; destruct (v_ct v1); try contradiction; unfold s32_range, s64_range in *; lia).
        unfold s64_range in *.
        destruct (Z.eqb_spec c0 c1) as [->|]; [apply Z.eqb_refl|]. apply Z.eqb_neq. lia. }
    rewrite Cmp in X. destruct (negb (c0 =? c1)); injection N as <-.
    + apply good_eq.
      * rewrite fseq_one, <- X. reflexivity.
      * constructor; [|constructor]. unfold tr_ok. cbn [n_i i_op i_vals set_bb1 set_bb2 set_vals set_op].
        split; [constructor|]. split; [cbn; congruence|exact I].
    + split; [|constructor]. exists (FNext s). split; [reflexivity|]. right. exists (i_bb1 x), s. auto.
  - (* exchange *)
    destruct (swap_jmp (i_op x)) as [o'|] eqn:Sw; [|discriminate]. injection N as <-.
    destruct (cmp_swap _ _ _ Sw Hc) as (c' & Hc' & Hsw).
    set (y := set_val_k 1 v0 (set_val_k 0 v1 (set_op o' x))).
    assert (V : i_vals y = [v1; v0]).
    { unfold y, set_val_k. cbn [i_vals set_vals set_op]. rewrite Hv. reflexivity. }
    apply good_self.
    + rewrite (fexec_jmp w bi y d s c' v1 v0 Hc' V).
      change (i_alu y) with (i_alu x). rewrite Wd, E0, E1. cbn [obind]. rewrite Hsw.
      change (i_bb2 y) with (i_bb2 x). change (i_bb1 y) with (i_bb1 x). rewrite X. reflexivity.
    + apply tr_jmp; [exact (cmp_cond _ _ Hc')|]. rewrite V. auto.
Qed.

(** The whole dispatch. *)
Theorem normalize_one_good w bi n s l r :
  norm_ok bi n -> normalize_one n = Ok l -> st_ok s -> fexec w bi n s = Some r ->
  good w bi (not_taken (n_i n)) l s r.
Proof.
  intros [C [Sp K]] N O X.
  assert (Self : i_vals (n_i n) = i_vals (n_i n) -> l = [n] -> tr_ok bi n -> good w bi (not_taken (n_i n)) l s r).
  { intros _ -> T. apply good_self; assumption. }
  unfold normalize_one in N. unfold not_taken.
  assert (FE : forall o, i_op (n_i n) = o -> i_op (n_i n) = o) by auto.
  destruct (i_op (n_i n)) eqn:Ho; cbn [is_cond_jmp_op is_bin_alu_op opnum Nat.leb Nat.ltb andb] in *.
  all: try discriminate.
  (* ALU *)
  all: try (match type of N with normalize_alu _ = _ => idtac end;
    assert (exists v0 v1, i_vals (n_i n) = [v0; v1]) as (v0 & v1 & Hv) by
     (unfold fexec in X; rewrite Ho in X; destruct (i_vals (n_i n)) as [|? [|? [|]]]; try discriminate; eauto);
    rewrite Hv in C; inversion C as [|? ? C0 C']; subst; inversion C' as [|? ? C1 _]; subst;
    eapply (normalize_alu_good w bi n v0 v1); eauto; [rewrite Ho; reflexivity|];
    unfold alu_cond; rewrite Ho; first [exact I | rewrite Hv in K; exact K]).
  (* conditional jumps *)
  all: try (match type of N with normalize_cond_jmp _ = _ => idtac end;
    assert (exists v0 v1, i_vals (n_i n) = [v0; v1]) as (v0 & v1 & Hv) by
     (unfold fexec in X; rewrite Ho in X; destruct (i_vals (n_i n)) as [|? [|? [|]]]; try discriminate; eauto);
    rewrite Hv in C; inversion C as [|? ? C0 C']; subst; inversion C' as [|? ? C1 _]; subst;
    change (good w bi (Some (i_bb1 (n_i n))) l s r);
    eapply (normalize_cond_jmp_good w bi n v0 v1); eauto; [rewrite Ho; reflexivity|];
    rewrite Ho; try congruence; intros _; rewrite Hv in K; exact K).
  all: try (match type of N with normalize_unary _ = _ => idtac end;
    assert (exists v0, i_vals (n_i n) = [v0]) as (v0 & Hv) by
     (unfold fexec in X; rewrite Ho in X; destruct (i_vals (n_i n)) as [|? [|? [|]]]; try discriminate; eauto);
    rewrite Hv in C; inversion C as [|? ? C0 C']; subst;
    change (good w bi None l s r);
    eapply (normalize_unary_good w bi n v0); eauto; rewrite Ho; cbn; auto).
  all: change (good w bi None l s r).
  all: try (match type of N with Ok _ = _ => idtac end; injection N as <-; apply good_self; [exact X|];
            unfold tr_ok; rewrite Ho; split; [exact C|]; split; [cbn; congruence|destruct (i_vals (n_i n)) as [|? [|? []]]; exact I]).
  - (* GETELEMPTR *)
    assert (exists v0 v1, i_vals (n_i n) = [v0; v1]) as (v0 & v1 & Hv) by
     (unfold fexec in X; rewrite Ho in X; destruct (i_vals (n_i n)) as [|? [|? [|]]]; try discriminate; eauto).
    rewrite Hv in C, K. inversion C as [|? ? C0 C']; subst; inversion C' as [|? ? C1 _]; subst. destruct K as [K1 K2].
    eapply (normalize_getelemptr_good w bi n v0 v1); eauto.
  - (* STORE *)
    assert (exists v0 v1, i_vals (n_i n) = [v0; v1]) as (v0 & v1 & Hv) by
     (unfold fexec in X; rewrite Ho in X; destruct (i_vals (n_i n)) as [|? [|? [|]]]; try discriminate; eauto).
    rewrite Hv in C, K. inversion C as [|? ? C0 C']; subst; inversion C' as [|? ? C1 _]; subst. destruct K as [K1 [K2 K3]].
    eapply (normalize_store_good w bi n v0 v1); eauto.
  - (* LOAD *)
    assert (exists v0, i_vals (n_i n) = [v0]) as (v0 & Hv) by
     (unfold fexec in X; rewrite Ho in X; destruct (i_vals (n_i n)) as [|? [|? [|]]]; try discriminate; eauto).
    rewrite Hv in C, K. inversion C as [|? ? C0 C']; subst. destruct K as [K1 [K2 K3]].
    eapply (normalize_load_good w bi n v0); eauto.
  - (* STORERAW *)
    assert (exists v0, i_vals (n_i n) = [v0]) as (v0 & Hv) by
     (unfold fexec in X; rewrite Ho in X; destruct (i_vals (n_i n)) as [|? [|? [|]]]; try discriminate; eauto).
    rewrite Hv in K. destruct K as [K1 K2].
    eapply normalize_stackoff_good; eauto 7.
  - (* LOADRAW *)
    assert (K' : is_const (a_val (i_addr (n_i n))) = false /\
      forall p, v_data (a_val (i_addr (n_i n))) = VFlat p -> s16_range (a_off (i_addr (n_i n)) + vp_spilled p)).
    { destruct (i_vals (n_i n)) as [|? [|? []]]; exact K. }
    destruct K' as [K1 K2]. eapply normalize_stackoff_good; eauto.
  - (* RET *)
    eapply normalize_ret_good; eauto; destruct (i_vals (n_i n)) as [|? [|? []]]; exact K.
  - (* ASSIGN *)
    assert (exists v0, i_vals (n_i n) = [v0]) as (v0 & Hv) by
     (unfold fexec in X; rewrite Ho in X; destruct (i_vals (n_i n)) as [|? [|? [|]]]; try discriminate; eauto).
    rewrite Hv in C, K. inversion C as [|? ? C0 C']; subst.
    eapply (normalize_assign_good w bi n v0); eauto.
Qed.
