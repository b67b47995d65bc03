(** Translation of normalised instructions to bytecode. *)
From Verif Require Import M_Base M_Ir M_Norm SpecWord SpecIsa SpecFlat SpecNormCond L_Word L_Norm.
Open Scope Z_scope.

Lemma Ok_inj {A} (a b : A) : Ok a = Ok b -> a = b.
Proof. congruence. Qed.

(** The encoding of a pre-instruction. *)
Definition enc (t : preinsn) : list bpf_insn :=
  if p_wide t
  then [mkBpf (p_op t) (p_dst t mod 16) (p_src t mod 16) (p_off t) (s32 (p_imm64 t));
        mkBpf 0 0 0 0 (s32 (Z.shiftr (p_imm64 t) 32))]
  else [mkBpf (p_op t) (p_dst t mod 16) (p_src t mod 16) (p_off t) (p_imm t)].
Definition encs (l : list preinsn) : list bpf_insn := flat_map enc l.

Lemma enc_length t : Z.of_nat (length (enc t)) = slots t.
Proof. unfold enc, slots. destruct (p_wide t); reflexivity. Qed.
Lemma encs_length l : Z.of_nat (length (encs l)) = slots_list l.
Proof.
  induction l as [|t l IH]; [reflexivity|]. cbn [encs flat_map slots_list] in *.
  rewrite app_length, Nat2Z.inj_add, enc_length. fold (encs l). lia.
Qed.
Lemma slots_pos t : 1 <= slots t <= 2.
Proof. unfold slots. destruct (p_wide t); lia. Qed.
Lemma slots_list_nonneg l : 0 <= slots_list l.
Proof. induction l; cbn [slots_list]; [lia|]. pose proof (slots_pos a). lia. Qed.

(** synthesize writes exactly the encodings, in order. *)
Lemma put_slot_app pre x post v : put_slot (pre ++ x :: post) (length pre) v = Some (pre ++ v :: post).
Proof. induction pre; simpl; [reflexivity|]. rewrite IHpre. reflexivity. Qed.
Lemma wput_at pre x post v : wput (pre ++ x :: post) (Z.of_nat (length pre)) v = Ok (pre ++ v :: post).
Proof. unfold wput. rewrite Nat2Z.id, put_slot_app. reflexivity. Qed.

Lemma synth_list_ok l : forall pre k, (length (encs l) <= k)%nat ->
  synth_list (pre ++ repeat zero_insn k) (Z.of_nat (length pre)) l =
  Ok (pre ++ encs l ++ repeat zero_insn (k - length (encs l))).
Proof.
  induction l as [|t l IH]; intros pre k Hk; cbn [synth_list].
  - cbn [encs flat_map app length]. rewrite Nat.sub_0_r. reflexivity.
  - cbn [encs flat_map] in *. fold (encs l) in *. rewrite app_length in Hk.
    unfold synth_one. unfold enc, slots in *. destruct (p_wide t).
    + destruct k as [|[|k]]; cbn [length] in Hk; try lia. cbn [repeat].
      rewrite wput_at. cbn [bind].
      match goal with |- context [pre ++ ?a :: ?r] => set (i1 := a); set (rr := r) end.
      replace (pre ++ i1 :: rr) with ((pre ++ [i1]) ++ rr) by (rewrite <- app_assoc; reflexivity).
      unfold rr. replace (Z.of_nat (length pre) + 1) with (Z.of_nat (length (pre ++ [i1]))) by (rewrite app_length; cbn; lia).
      rewrite wput_at. cbn [bind].
      match goal with |- context [(pre ++ [i1]) ++ ?a :: _] => set (i2 := a) end.
      replace ((pre ++ [i1]) ++ i2 :: repeat zero_insn k) with (((pre ++ [i1]) ++ [i2]) ++ repeat zero_insn k)
        by (rewrite <- !app_assoc; reflexivity).
      replace (Z.of_nat (length pre) + 2) with (Z.of_nat (length ((pre ++ [i1]) ++ [i2]))) by (rewrite !app_length; cbn; lia).
      rewrite IH by lia. rewrite <- !app_assoc. cbn [app length]. reflexivity.
    + destruct k as [|k]; cbn [length] in Hk; try lia. cbn [repeat].
      rewrite wput_at. cbn [bind].
      match goal with |- context [pre ++ ?a :: ?r] => set (i1 := a); set (rr := r) end.
      replace (pre ++ i1 :: rr) with ((pre ++ [i1]) ++ rr) by (rewrite <- app_assoc; reflexivity). unfold rr.
      replace (Z.of_nat (length pre) + 1) with (Z.of_nat (length (pre ++ [i1]))) by (rewrite app_length; cbn; lia).
      rewrite IH by lia. rewrite <- !app_assoc. cbn [app length]. reflexivity.
Qed.
Lemma synthesize_ok l : synthesize (slots_list l) l = Ok (encs l).
Proof.
  unfold synthesize. pose proof (synth_list_ok l [] (Z.to_nat (slots_list l))) as H. cbn [app length] in H.
  change (Z.of_nat 0) with 0 in H. rewrite H.
  - rewrite <- encs_length, Nat2Z.id, Nat.sub_diag. cbn [repeat]. rewrite app_nil_r. reflexivity.
  - rewrite <- encs_length, Nat2Z.id. lia.
Qed.

(** A segment of the program. *)
Definition code_at (prog : list bpf_insn) (pos : Z) (c : list bpf_insn) : Prop :=
  0 <= pos /\ forall k i, nth_error c k = Some i -> fetch prog (pos + Z.of_nat k) = Some i.
Lemma code_at_app prog pos c1 c2 : code_at prog pos (c1 ++ c2) ->
  code_at prog pos c1 /\ code_at prog (pos + Z.of_nat (length c1)) c2.
Proof.
  intros [P H]. split; split; try lia.
  - intros k i E. apply H. rewrite nth_error_app1; auto. apply nth_error_Some. congruence.
  - intros k i E. rewrite <- Z.add_assoc, <- Nat2Z.inj_add. apply H.
    rewrite nth_error_app2 by lia. rewrite Nat.add_comm, Nat.add_sub. exact E.
Qed.
Lemma code_at_self l : code_at l 0 l.
Proof.
  split; [lia|]. intros k i E. unfold fetch. destruct (Z.ltb_spec (0 + Z.of_nat k) 0); [lia|].
  rewrite Z.add_0_l, Nat2Z.id. exact E.
Qed.

Lemma isa_run_one w p pc s : isa_run w p 1 pc s = isa_step w p pc s.
Proof. cbn [isa_run]. destruct (isa_step w p pc s); reflexivity. Qed.
Lemma isa_run_add w p n m pc s :
  isa_run w p (n + m) pc s = match isa_run w p n pc s with INext pc' s' => isa_run w p m pc' s' | r => r end.
Proof.
  revert pc s. induction n; intros pc s; cbn [isa_run Nat.add]; [reflexivity|].
  destruct (isa_step w p pc s); auto.
Qed.

(** Executing a single one-slot instruction. *)
Lemma step_at prog pos i : code_at prog pos [i] -> fetch prog pos = Some i.
Proof. intros [_ H]. specialize (H 0%nat i eq_refl). rewrite Z.add_0_r in H. exact H. Qed.

Lemma reg_mod16 r : is_reg r = true -> r mod 16 = r.
Proof. rewrite is_reg_range. intros. apply Z.mod_small. lia. Qed.

Lemma eval_resolved bi s v a : resolved bi v -> evalv bi s v = Some a -> is_const v = true -> a = u64 (const_d v).
Proof.
  unfold resolved, evalv, is_const, const_d, const_val. destruct (v_data v); try discriminate. intros R [= <-] _.
  destruct (v_bi v); auto; rewrite R; auto; congruence.
Qed.
Lemma const_d_range bi v : const_ok bi v -> resolved bi v -> is_const v = true -> v_ct v = A_32 -> s32_range (const_d v).
Proof.
  unfold const_ok, resolved, is_const, const_d. destruct (v_data v); try discriminate. intros C R _ K. rewrite K in C.
  destruct (v_bi v); auto; rewrite R; auto; congruence.
Qed.
Lemma vtype_const_is bi s v a : evalv bi s v = Some a -> vtype v = Ok T_CONST -> is_const v = true.
Proof.
  unfold evalv, vtype, vtype_pos, is_const. destruct (v_data v); try congruence.
  destruct (vp_alloc p), (vp_spilled p =? 0); congruence.
Qed.
Lemma vtype_reg_eval bi s v a : evalv bi s v = Some a -> vtype v = Ok T_REG ->
  is_reg (reg_of v) = true /\ a = rget s (reg_of v) /\ in_reg v = true.
Proof.
  intros E T. destruct (evalv_cases _ _ _ _ E) as [(c & D & Ea & T')|[(q & D & A & Z0 & R & Ea & T' & Rv)|(q & D & A & Z0 & Ea & T')]];
    try congruence. rewrite Rv. split; [exact R|]. split; [exact Ea|]. unfold in_reg. rewrite D, A, Z0. reflexivity.
Qed.

(** Result of translation, for instructions that do not jump to another block. *)
Definition runs (w : world) (prog : list bpf_insn) (pos : Z) (c : list preinsn) (s : st) (r : fres) : Prop :=
  match r with
  | FNext s' => isa_run w prog (length c) pos s = INext (pos + slots_list c) s'
  | FRet v s' => isa_run w prog (length c) pos s = IExit v s'
  | FJmp _ _ => False
  end.

Lemma runs_one w prog pos t s s' :
  code_at prog pos (encs [t]) ->
  (forall i, p_wide t = false -> i = mkBpf (p_op t) (p_dst t mod 16) (p_src t mod 16) (p_off t) (p_imm t) ->
     fetch prog pos = Some i -> isa_step w prog pos s = INext (pos + 1) s') ->
  p_wide t = false ->
  runs w prog pos [t] s (FNext s').
Proof.
  intros Cd H Wd. unfold runs. cbn [length slots_list]. rewrite isa_run_one.
  unfold encs, flat_map, enc in Cd. rewrite Wd in Cd. cbn [app] in Cd.
  replace (slots t + 0) with 1 by (unfold slots; rewrite Wd; reflexivity).
  eapply H; eauto. apply (step_at _ _ _ Cd).
Qed.

(** ALU step with an explicit encoding *)
Lemma alu_nib o f c : alu_op_of o = Some f -> alu_code o = Ok c ->
  exists nib, c = 16 * nib /\ alu_of nib = Some f /\ 0 <= nib <= 12 /\ nib <> 8 /\ nib <> 11 /\ nib <> 13.
Proof.
  destruct o; cbn; intros H1 H2; try discriminate; injection H1 as <-; injection H2 as <-;
  first [exists 0; split; [reflexivity|]; split; [reflexivity|]; lia | exists 1; split; [reflexivity|]; split; [reflexivity|]; lia
  | exists 2; split; [reflexivity|]; split; [reflexivity|]; lia | exists 3; split; [reflexivity|]; split; [reflexivity|]; lia
  | exists 4; split; [reflexivity|]; split; [reflexivity|]; lia | exists 5; split; [reflexivity|]; split; [reflexivity|]; lia
  | exists 6; split; [reflexivity|]; split; [reflexivity|]; lia | exists 7; split; [reflexivity|]; split; [reflexivity|]; lia
  | exists 9; split; [reflexivity|]; split; [reflexivity|]; lia | exists 10; split; [reflexivity|]; split; [reflexivity|]; lia
  | exists 12; split; [reflexivity|]; split; [reflexivity|]; lia ].
Qed.
Lemma jmp_nib o f c : cmp_op_of o = Some f -> jmp_code o = Ok c ->
  exists nib, c = 16 * nib /\ cmp_of nib = Some f /\ 0 < nib <= 13 /\ nib <> 8 /\ nib <> 9 /\ nib <> 4.
Proof.
  destruct o; cbn; intros H1 H2; try discriminate; injection H1 as <-; injection H2 as <-;
  first [exists 1; split; [reflexivity|]; split; [reflexivity|]; lia
  | exists 2; split; [reflexivity|]; split; [reflexivity|]; lia | exists 3; split; [reflexivity|]; split; [reflexivity|]; lia
  | exists 5; split; [reflexivity|]; split; [reflexivity|]; lia
  | exists 6; split; [reflexivity|]; split; [reflexivity|]; lia | exists 7; split; [reflexivity|]; split; [reflexivity|]; lia
  | exists 10; split; [reflexivity|]; split; [reflexivity|]; lia | exists 11; split; [reflexivity|]; split; [reflexivity|]; lia
  | exists 12; split; [reflexivity|]; split; [reflexivity|]; lia | exists 13; split; [reflexivity|]; split; [reflexivity|]; lia ].
Qed.

(** The fields of an opcode built as 16*nib + 8*x + class. *)
Lemma code_fields nib x cl : 0 <= cl < 8 -> (x = 0 \/ x = 1) ->
  (16 * nib + 8 * x + cl) mod 8 = cl /\ (16 * nib + 8 * x + cl) / 16 = nib /\
  Z.odd ((16 * nib + 8 * x + cl) / 8) = (x =? 1).
Proof.
  intros Hc Hx.
  assert (E : (16 * nib + 8 * x + cl) / 8 = 2 * nib + x) by lia.
  rewrite E. split; [lia|]. split; [lia|].
  rewrite Z.odd_add_mul_2 || (replace (2 * nib + x) with (x + 2 * nib) by lia; rewrite Z.odd_add_mul_2).
  destruct Hx as [-> | ->]; reflexivity.
Qed.

Definition alu_cls (wd : bool) : Z := if wd then 7 else 4.
Definition jmp_cls (wd : bool) : Z := if wd then 5 else 6.
Lemma alu_class_w a wd : width_of a = Some wd -> alu_class a = alu_cls wd.
Proof. destruct a; cbn; intros [= <-]; reflexivity. Qed.
Lemma jmp_class_w a wd : width_of a = Some wd -> jmp_class a = jmp_cls wd.
Proof. destruct a; cbn; intros [= <-]; reflexivity. Qed.

Lemma step_alu w prog pos s nib x wd dst src off imm : 
  (x = 0 \/ x = 1) ->
  fetch prog pos = Some (mkBpf (16 * nib + 8 * x + alu_cls wd) dst src off imm) ->
  isa_step w prog pos s = isa_alu wd (mkBpf (16 * nib + 8 * x + alu_cls wd) dst src off imm) pos s.
Proof.
  intros Hx F. unfold isa_step. rewrite F. cbn [b_code].
  destruct (code_fields nib x (alu_cls wd)) as [E _]; [destruct wd; cbn; lia|exact Hx|].
  rewrite E. destruct wd; reflexivity.
Qed.
Lemma step_jmp w prog pos s nib x wd dst src off imm : 
  (x = 0 \/ x = 1) ->
  fetch prog pos = Some (mkBpf (16 * nib + 8 * x + jmp_cls wd) dst src off imm) ->
  isa_step w prog pos s = isa_jmp w wd (mkBpf (16 * nib + 8 * x + jmp_cls wd) dst src off imm) pos s.
Proof.
  intros Hx F. unfold isa_step. rewrite F. cbn [b_code].
  destruct (code_fields nib x (jmp_cls wd)) as [E _]; [destruct wd; cbn; lia|exact Hx|].
  rewrite E. destruct wd; reflexivity.
Qed.

(** binary ALU on encodings *)
Lemma isa_alu_bin nib x wd dst src imm pos s f :
  (x = 0 \/ x = 1) -> alu_of nib = Some f -> nib <> 8 -> nib <> 11 -> nib <> 13 ->
  is_wreg dst = true -> (x = 1 -> is_reg src = true) ->
  isa_alu wd (mkBpf (16 * nib + 8 * x + alu_cls wd) dst src 0 imm) pos s =
  INext (pos + 1) (rset s dst (alu_fn f wd (rget s dst) (if x =? 1 then rget s src else imm))).
Proof.
  intros Hx Hf N8 N11 N13 W R. unfold isa_alu. cbn [b_code b_dst b_src b_off b_imm].
  destruct (code_fields nib x (alu_cls wd)) as [_ [E1 E2]]; [destruct wd; cbn; lia|exact Hx|].
  rewrite E1, E2, W.
  apply Z.eqb_neq in N8, N11, N13. rewrite N8, N11, N13, Hf. cbn [negb orb andb].
  destruct Hx as [-> | ->]; cbn [Z.eqb Pos.eqb andb].
  - destruct f; reflexivity.
  - rewrite R by reflexivity. destruct f; reflexivity.
Qed.

(** One-slot instruction: it suffices to step. *)
Lemma runs1 w prog pos op dst src off imm s s' :
  code_at prog pos (encs [mkPre op dst src off false imm 0]) -> is_reg dst = true -> is_reg src = true ->
  (fetch prog pos = Some (mkBpf op dst src off imm) -> isa_step w prog pos s = INext (pos + 1) s') ->
  runs w prog pos [mkPre op dst src off false imm 0] s (FNext s').
Proof.
  intros Cd Rd Rs H. unfold runs. cbn [length slots_list slots p_wide]. rewrite isa_run_one.
  cbn [encs flat_map enc p_wide p_op p_dst p_src p_off p_imm app] in Cd. rewrite !reg_mod16 in Cd by assumption.
  apply H. apply (step_at _ _ _ Cd).
Qed.

Lemma tr_alu_runs w bi x d v0 v1 f s c s' prog pos :
  alu_op_of (i_op x) = Some f -> i_vals x = [v0; v1] ->
  tr_ok bi (mkN x d) -> resolved bi v1 ->
  tr_alu (mkN x d) = Ok c -> st_ok s -> fexec w bi (mkN x d) s = Some (FNext s') ->
  code_at prog pos (encs c) -> runs w prog pos c s (FNext s').
Proof.
  intros Hf Hv Tr Rs T O X Cd.
  rewrite (fexec_alu w bi x d s f v0 v1 Hf Hv) in X.
  destruct (width_of (i_alu x)) as [wd|] eqn:Wd; [|discriminate]. cbn [obind] in X.
  destruct (evalv bi s v0) as [a|] eqn:E0; [|discriminate]. cbn [obind] in X.
  destruct (evalv bi s v1) as [b|] eqn:E1; [|discriminate]. cbn [obind] in X.
  destruct (wr s d (alu_fn f wd a b)) as [s1|] eqn:Wr; [|discriminate]. cbn [next obind] in X.
  apply Some_inj in X. injection X as <-.
  destruct Tr as [C [Nr K]]. cbn [n_i] in *. rewrite Hv in C, Nr, K.
  assert (C1 : const_ok bi v1) by (inversion C as [|? ? ? C']; inversion C'; assumption).
  unfold tr_alu in T. cbn [n_i n_pos] in T. unfold vt_k, val_k in T. rewrite Hv in T. cbn [nth_error nth] in *.
  destruct (vtype v0) as [t0| | | |] eqn:T0; try discriminate. cbn [bind] in T.
  destruct (vtype v1) as [t1| | | |] eqn:T1; try discriminate. cbn [bind] in T.
  apply bind_ok in T. destruct T as [? [A T]]. apply assertb_ok in A. apply vt_eqb_eq in A. rename A into Td.
  apply bind_ok in T. destruct T as [? [A T]]. apply assertb_ok in A. apply vt_eqb_eq in A. subst t0.
  apply bind_ok in T. destruct T as [? [A T]]. apply assertb_ok in A. apply Z.eqb_eq in A. rename A into Rd.
  destruct (wr_reg_inv _ _ _ _ Td Wr) as [W ->].
  destruct (vtype_reg_eval _ _ _ _ E0 T0) as [R0 [Ea _]]. rewrite <- Rd in Ea.
  destruct t1; try discriminate.
  - (* register *)
    apply bind_ok in T. destruct T as [cc [A T]]. apply Ok_inj in T; subst c.
    destruct (alu_nib _ _ _ Hf A) as (nib & -> & Hn & Rn & N8 & N11 & N13).
    destruct (vtype_reg_eval _ _ _ _ E1 T1) as [R1 [Eb _]].
    apply runs1; auto using wreg_reg. intros F.
    rewrite (alu_class_w _ _ Wd) in F. replace (16 * nib + 8 + alu_cls wd) with (16 * nib + 8 * 1 + alu_cls wd) in F by lia.
    rewrite (step_alu w prog pos s _ _ _ _ _ _ _ (or_intror eq_refl) F).
    rewrite (isa_alu_bin _ _ _ _ _ _ _ _ f); auto. cbn [Z.eqb Pos.eqb]. rewrite Ea, Eb. reflexivity.
  - (* constant *)
    assert (Ic : is_const v1 = true) by (eapply vtype_const_is; eauto).
    assert (K32 : v_ct v1 = A_32) by (apply Nr; [congruence|reflexivity|exact Ic]).
    pose proof (const_d_range bi v1 C1 Rs Ic K32) as Rg.
    pose proof (eval_resolved bi s v1 b Rs E1 Ic) as Eb.
    destruct (iop_eqb (i_op x) ADD && (const_d v1 =? 0)) eqn:Z0.
    + (* add 0 is dropped *)
      apply Ok_inj in T; subst c. apply andb_true_iff in Z0. destruct Z0 as [Ha Z0]. apply Z.eqb_eq in Z0.
      unfold iop_eqb in Ha. destruct (iop_eq_dec (i_op x) ADD) as [Ho|]; [|discriminate].
      rewrite Ho in K, Hf. injection Hf as <-.
      assert (i_alu x <> A_32).
      { intros Q. specialize (K Q). unfold nonzero_const in K. unfold is_const in Ic. unfold const_d in Z0.
        unfold resolved in Rs. unfold const_val in K. destruct (v_data v1); try discriminate. subst.
        destruct (v_bi v1); try congruence; apply K; symmetry; apply Rs; congruence. }
      destruct (i_alu x); cbn in Wd; try discriminate; try congruence. injection Wd as <-.
      unfold runs. cbn [length isa_run slots_list]. rewrite Z.add_0_r. f_equal.
      rewrite alu_add. change (trunc true) with u64. rewrite rset_u64, Eb, Z0. change (u64 0) with 0.
      rewrite Z.add_0_r, Ea. symmetry. apply rset_same; auto.
    + apply bind_ok in T. destruct T as [cc [A T]]. apply Ok_inj in T; subst c.
      destruct (alu_nib _ _ _ Hf A) as (nib & -> & Hn & Rn & N8 & N11 & N13).
      apply runs1; auto using wreg_reg. intros F.
      rewrite (alu_class_w _ _ Wd) in F. replace (16 * nib + alu_cls wd) with (16 * nib + 8 * 0 + alu_cls wd) in F by lia.
      rewrite (step_alu w prog pos s _ _ _ _ _ _ _ (or_introl eq_refl) F).
      rewrite (isa_alu_bin _ _ _ _ _ _ _ _ f); auto. cbn [Z.eqb Pos.eqb].
      rewrite Ea, Eb, alu_fn_u64_r, s32_small by exact Rg. reflexivity.
Qed.

Lemma tr_assign_runs w bi x d v s c s' prog pos :
  i_op x = ASSIGN -> i_vals x = [v] -> tr_ok bi (mkN x d) -> resolved bi v ->
  tr_assign (mkN x d) = Ok c -> st_ok s -> fexec w bi (mkN x d) s = Some (FNext s') ->
  code_at prog pos (encs c) -> runs w prog pos c s (FNext s').
Proof.
  intros Ho Hv Tr Rs T O X Cd. unfold fexec in X. cbn [n_i n_pos] in X. rewrite Ho, Hv in X.
  destruct (evalv bi s v) as [a|] eqn:E; [|discriminate]. cbn [obind] in X.
  destruct Tr as [C [_ K]]. cbn [n_i] in *. rewrite Ho, Hv in K. rewrite Hv in C. destruct K as [K1 K2].
  assert (Cv : const_ok bi v) by (inversion C; assumption).
  unfold tr_assign in T. cbn [n_i n_pos] in T. unfold vt_k, val_k in T. rewrite Hv in T. cbn [nth_error nth] in T.
  destruct (vtype v) as [t0| | | |] eqn:T0; try discriminate. cbn [bind] in T.
  destruct (vtype_pos d) eqn:Td; try discriminate.
  destruct (wr s d _) as [s1|] eqn:Wr in X; [|discriminate]. cbn [next obind] in X. apply Some_inj in X. injection X as <-.
  destruct (wr_reg_inv _ _ _ _ Td Wr) as [W ->]. clear Wr.
  destruct t0; try discriminate.
  - destruct (vtype_reg_eval _ _ _ _ E T0) as [R0 [Ea In]]. specialize (K1 In).
    assert (Hm : match i_alu x with A_32 => trunc false a | _ => a end = a) by (destruct (i_alu x); congruence).
    rewrite Hm. destruct (Z.eqb_spec (vp_reg d) (reg_of v)); apply Ok_inj in T; subst c.
    + unfold runs. cbn [length isa_run slots_list]. rewrite Z.add_0_r, Ea, <- e. f_equal. symmetry. apply rset_same; auto.
    + apply runs1; auto using wreg_reg. intros F.
      rewrite (step_alu w prog pos s 11 1 true _ _ _ _ (or_intror eq_refl) F).
      unfold isa_alu. cbn [b_dst b_src b_off]. change (b_code _ / 16) with 11.
      change (Z.odd (b_code _ / 8)) with true. rewrite W, R0. cbn [negb orb andb Z.eqb Pos.eqb].
      rewrite Ea. change (trunc true) with u64. rewrite rset_u64. reflexivity.
  - assert (Ic : is_const v = true) by (eapply vtype_const_is; eauto).
    specialize (K2 Ic). pose proof (const_d_range bi v Cv Rs Ic K2) as Rg.
    pose proof (eval_resolved bi s v a Rs E Ic) as Ea. apply Ok_inj in T; subst c.
    apply runs1; auto using wreg_reg. intros F.
    set (wd := match i_alu x with A_32 => false | _ => true end).
    assert (F' : fetch prog pos = Some (mkBpf (16 * 11 + 8 * 0 + alu_cls wd) (vp_reg d) 0 0 (s32 (const_d v)))).
    { rewrite F. unfold wd. destruct (i_alu x); reflexivity. }
    rewrite (step_alu w prog pos s _ _ _ _ _ _ _ (or_introl eq_refl) F').
    destruct (code_fields 11 0 (alu_cls wd)) as [_ [E1 E2]]; [destruct wd; cbn; lia|auto|].
    unfold isa_alu. cbn [b_dst b_src b_off b_imm b_code]. rewrite E1, E2, W. cbn [negb orb andb Z.eqb Pos.eqb].
    f_equal. apply rset_congr. rewrite s32_small by exact Rg. rewrite Ea. unfold wd.
    destruct (i_alu x); rewrite ?trunc_u64, ?u64_u64; reflexivity.
Qed.

Lemma tr_unary_runs w bi x d v s c s' prog pos :
  In (i_op x) [NEG; HTOLE; HTOBE] -> i_vals x = [v] ->
  (if iop_eqb (i_op x) NEG then tr_neg (mkN x d) else tr_end (mkN x d)) = Ok c ->
  st_ok s -> fexec w bi (mkN x d) s = Some (FNext s') ->
  code_at prog pos (encs c) -> runs w prog pos c s (FNext s').
Proof.
  intros Ho Hv T O X Cd. rewrite (fexec_unary _ _ _ _ _ v Ho Hv) in X.
  destruct (unary_fn x) as [g|] eqn:G; [|discriminate]. cbn [obind] in X.
  destruct (evalv bi s v) as [a|] eqn:E; [|discriminate]. cbn [obind] in X.
  destruct (wr s d (g a)) as [s1|] eqn:Wr; [|discriminate]. cbn [next obind] in X. apply Some_inj in X. injection X as <-.
  assert (P : vtype_pos d = T_REG /\ vtype v = Ok T_REG /\ vp_reg d = reg_of v /\
              c = [if iop_eqb (i_op x) NEG then mkPre (128 + alu_class (i_alu x)) (vp_reg d) 0 0 false 0 0
                   else mkPre (match i_op x with HTOBE => 8 | _ => 0 end + 208 + 4) (vp_reg d) 0 0 false (s32 (i_u x)) 0]).
  { unfold tr_neg, tr_end in T. cbn [n_i n_pos] in T. unfold vt_k, val_k in T. rewrite Hv in T. cbn [nth_error nth] in T.
    destruct (vtype v) as [t0| | | |] eqn:T0; try (destruct (iop_eqb (i_op x) NEG); discriminate). cbn [bind] in T.
    destruct (iop_eqb (i_op x) NEG);
    (apply bind_ok in T; destruct T as [? [A T]]; apply assertb_ok in A; apply andb_true_iff in A; destruct A as [A1 A2];
     apply vt_eqb_eq in A1, A2; apply bind_ok in T; destruct T as [? [A T]]; apply assertb_ok in A; apply Z.eqb_eq in A;
     apply Ok_inj in T; subst; auto). }
  destruct P as (Td & T0 & Rd & ->).
  destruct (wr_reg_inv _ _ _ _ Td Wr) as [W ->].
  destruct (vtype_reg_eval _ _ _ _ E T0) as [R0 [Ea _]]. rewrite <- Rd in Ea.
  cbn in Ho. unfold unary_fn in G.
  destruct Ho as [Ho|[Ho|[Ho|[]]]]; rewrite <- Ho in *; cbn [iop_eqb iop_eq_dec iop_rec iop_rect] in *.
  - change (iop_eqb NEG NEG) with true in *. cbv iota in *.
    destruct (width_of (i_alu x)) as [wd|] eqn:Wd; [|discriminate]. cbn [obind] in G. injection G as <-.
    apply runs1; auto using wreg_reg. intros F. rewrite (alu_class_w _ _ Wd) in F.
    replace (128 + alu_cls wd) with (16 * 8 + 8 * 0 + alu_cls wd) in F by lia.
    rewrite (step_alu w prog pos s _ _ _ _ _ _ _ (or_introl eq_refl) F).
    destruct (code_fields 8 0 (alu_cls wd)) as [_ [E1 E2]]; [destruct wd; cbn; lia|auto|].
    unfold isa_alu. cbn [b_dst b_src b_off b_imm b_code]. rewrite E1, E2, W. cbn [negb orb andb Z.eqb Pos.eqb].
    rewrite Ea. reflexivity.
  - change (iop_eqb HTOLE NEG) with false in *. cbv iota in *.
    destruct ((i_u x =? 16) || (i_u x =? 32) || (i_u x =? 64)) eqn:Wd; [|discriminate]. injection G as <-.
    apply runs1; auto using wreg_reg. intros F. 
    assert (Su : s32 (i_u x) = i_u x).
    { apply s32_small. rewrite !orb_true_iff, !Z.eqb_eq in Wd. lia. }
    rewrite Su in F.
    rewrite (step_alu w prog pos s 13 0 false _ _ _ _ (or_introl eq_refl) F).
    unfold isa_alu. cbn [b_dst b_src b_off b_imm]. change (b_code _ / 16) with 13. change (Z.odd (b_code _ / 8)) with false.
    rewrite W. cbn [negb orb andb Z.eqb Pos.eqb]. rewrite Wd, Ea. reflexivity.
  - change (iop_eqb HTOBE NEG) with false in *. cbv iota in *.
    destruct ((i_u x =? 16) || (i_u x =? 32) || (i_u x =? 64)) eqn:Wd; [|discriminate]. injection G as <-.
    apply runs1; auto using wreg_reg. intros F. 
    assert (Su : s32 (i_u x) = i_u x).
    { apply s32_small. rewrite !orb_true_iff, !Z.eqb_eq in Wd. lia. }
    rewrite Su in F.
    rewrite (step_alu w prog pos s 13 1 false _ _ _ _ (or_intror eq_refl) F).
    unfold isa_alu. cbn [b_dst b_src b_off b_imm]. change (b_code _ / 16) with 13. change (Z.odd (b_code _ / 8)) with true.
    rewrite W. cbn [negb orb andb Z.eqb Pos.eqb]. rewrite Wd, Ea. reflexivity.
Qed.

Lemma vr_size_of t z k : vr_size t = Ok z -> vr_bytes t = Some k ->
  forall cl, 0 <= cl < 4 ->
  (cl + z + 96) mod 8 = cl /\ size_of (((cl + z + 96) / 8) mod 4) = k /\ (cl + z + 96) / 32 = 3 /\ (k <= 8)%nat.
Proof.
  destruct t; cbn [vr_size vr_bytes]; intros H1 H2; try discriminate; injection H1 as <-; injection H2 as <-; intros cl Hc.
  - assert (((cl + 16 + 96) / 8) mod 4 = 2) as -> by lia. repeat split; try lia; reflexivity.
  - assert (((cl + 8 + 96) / 8) mod 4 = 1) as -> by lia. repeat split; try lia; reflexivity.
  - assert (((cl + 0 + 96) / 8) mod 4 = 0) as -> by lia. repeat split; try lia; reflexivity.
  - assert (((cl + 24 + 96) / 8) mod 4 = 3) as -> by lia. repeat split; try lia; reflexivity.
Qed.

Lemma tr_loadraw_runs w bi x d s c s' prog pos :
  i_op x = LOADRAW -> is_const (a_val (i_addr x)) = false ->
  tr_loadraw (mkN x d) = Ok c -> st_ok s -> fexec w bi (mkN x d) s = Some (FNext s') ->
  code_at prog pos (encs c) -> runs w prog pos c s (FNext s').
Proof.
  intros Ho Hc T O X Cd.
  assert (X' : (let? k := vr_bytes (i_vrt x) in let? a := addr_of bi s (i_addr x) in
                next (wr s d (load (mem s) a k))) = Some (FNext s')).
  { unfold fexec in X. cbn [n_i n_pos] in X. rewrite Ho in X. destruct (i_vals x) as [|? [|? []]]; exact X. }
  clear X. destruct (vr_bytes (i_vrt x)) as [k|] eqn:Hk; [|discriminate]. cbn [obind] in X'.
  destruct (addr_of bi s (i_addr x)) as [a|] eqn:Ad; [|discriminate]. cbn [obind] in X'.
  destruct (wr s d (load (mem s) a k)) as [s1|] eqn:Wr; [|discriminate]. cbn [next obind] in X'.
  apply Some_inj in X'. injection X' as <-.
  unfold tr_loadraw in T. cbn [n_i n_pos] in T.
  apply bind_ok in T. destruct T as [? [A T]]. apply assertb_ok in A. apply vt_eqb_eq in A. rename A into Td.
  destruct (wr_reg_inv _ _ _ _ Td Wr) as [W ->].
  apply bind_ok in T. destruct T as [z [Hz T]].
  unfold is_const in Hc. unfold addr_of in Ad. destruct (a_ot (i_addr x)); try discriminate.
  destruct (v_data (a_val (i_addr x))) as [| | | |p|]; try discriminate.
  apply bind_ok in T. destruct T as [? [A T]]. apply assertb_ok in A. apply vt_eqb_eq in A. apply vpos_reg in A.
  destruct A as [Al Z0]. rewrite Al, Z0 in Ad. cbn [Z.eqb] in Ad.
  destruct (is_reg (vp_reg p)) eqn:R; [|discriminate]. apply Some_inj in Ad. apply Ok_inj in T; subst c.
  apply runs1; auto using wreg_reg. intros F.
  destruct (vr_size_of _ _ _ Hz Hk 1 ltac:(lia)) as (E1 & E2 & E3 & _).
  unfold isa_step. rewrite F. cbn [b_code b_dst b_src b_off]. rewrite E1, E2, E3, W, R. cbn [andb].
  rewrite Ad. reflexivity.
Qed.

Lemma tr_storeraw_runs w bi x d v s c s' prog pos :
  i_op x = STORERAW -> i_vals x = [v] -> tr_ok bi (mkN x d) -> resolved bi v ->
  tr_storeraw (mkN x d) = Ok c -> st_ok s -> fexec w bi (mkN x d) s = Some (FNext s') ->
  code_at prog pos (encs c) -> runs w prog pos c s (FNext s').
Proof.
  intros Ho Hv Tr Rs T O X Cd. unfold fexec in X. cbn [n_i n_pos] in X. rewrite Ho, Hv in X.
  destruct (vr_bytes (i_vrt x)) as [k|] eqn:Hk; [|discriminate]. cbn [obind] in X.
  destruct (addr_of bi s (i_addr x)) as [a|] eqn:Ad; [|discriminate]. cbn [obind] in X.
  destruct (evalv bi s v) as [y|] eqn:E; [|discriminate]. cbn [obind] in X. apply Some_inj in X. injection X as <-.
  destruct Tr as [C [_ K]]. cbn [n_i] in *. rewrite Ho, Hv in K. rewrite Hv in C.
  assert (Cv : const_ok bi v) by (inversion C; assumption).
  unfold tr_storeraw in T. cbn [n_i n_pos] in T. unfold vt_k, val_k in T. rewrite Hv in T. cbn [nth_error nth] in T.
  destruct (vtype v) as [t0| | | |] eqn:T0; try discriminate. cbn [bind] in T.
  unfold addr_of in Ad. destruct (a_ot (i_addr x)); try discriminate.
  destruct (v_data (a_val (i_addr x))) as [| | | |p|]; try discriminate.
  apply bind_ok in T. destruct T as [? [A T]]. apply assertb_ok in A. apply vt_eqb_eq in A. apply vpos_reg in A.
  destruct A as [Al Z0]. rewrite Al, Z0 in Ad. cbn [Z.eqb] in Ad.
  destruct (is_reg (vp_reg p)) eqn:R; [|discriminate]. apply Some_inj in Ad.
  destruct t0; try discriminate; apply bind_ok in T; destruct T as [z [Hz T]]; apply Ok_inj in T; subst c.
  - destruct (vtype_reg_eval _ _ _ _ E T0) as [R0 [Ea _]].
    apply runs1; auto. intros F.
    destruct (vr_size_of _ _ _ Hz Hk 3 ltac:(lia)) as (E1 & E2 & E3 & _).
    unfold isa_step. rewrite F. cbn [b_code b_dst b_src b_off]. rewrite E1, E2, E3, R, R0. cbn [andb Z.eqb Pos.eqb].
    rewrite Ad, Ea. reflexivity.
  - assert (Ic : is_const v = true) by (eapply vtype_const_is; eauto).
    pose proof (eval_resolved bi s v y Rs E Ic) as Ea.
    apply runs1; auto. intros F.
    destruct (vr_size_of _ _ _ Hz Hk 2 ltac:(lia)) as (E1 & E2 & E3 & K8).
    unfold isa_step. rewrite F. cbn [b_code b_dst b_src b_off b_imm]. rewrite E1, E2, E3, R. cbn [andb Z.eqb Pos.eqb].
    rewrite Ad, Ea. f_equal. unfold mset. f_equal. rewrite store_u64 by exact K8.
    destruct (i_vrt x) eqn:Vt; cbn in Hk; try discriminate; injection Hk as <-.
    + apply store_congr. pose proof (sgn_congr 32 (const_d v) ltac:(lia)) as H.
      change (8 * Z.of_nat 1) with 8. unfold s32. lia.
    + apply store_congr. pose proof (sgn_congr 32 (const_d v) ltac:(lia)) as H.
      change (8 * Z.of_nat 2) with 16. unfold s32. lia.
    + apply store_congr. exact (sgn_congr 32 (const_d v) ltac:(lia)).
    + rewrite s32_small; [reflexivity|]. exact (const_d_range bi v Cv Rs Ic (K eq_refl Ic)).
Qed.

(** 64-bit immediates survive the split into two words. *)
Lemma wide_split z : u32 (s32 z) + 2 ^ 32 * u32 (s32 (Z.shiftr z 32)) = u64 z.
Proof.
  unfold u32, s32. rewrite (sgn_congr 32 z) by lia. rewrite (sgn_congr 32 (Z.shiftr z 32)) by lia.
  rewrite Z.shiftr_div_pow2 by lia. unfold u64. lia.
Qed.

Lemma tr_loadimm_runs w bi x d s c s' prog pos :
  i_op x = LOADIMM_EXTRA ->
  tr_loadimm (mkN x d) = Ok c -> st_ok s -> fexec w bi (mkN x d) s = Some (FNext s') ->
  code_at prog pos (encs c) -> runs w prog pos c s (FNext s').
Proof.
  intros Ho T O X Cd.
  assert (X' : (if (0 <=? i_ity x) && (i_ity x <=? 6)
     then next (wr s d (if i_ity x =? 0 then u64 (i_imm64 x) else ldext w (i_ity x) (u64 (i_imm64 x))))
     else None) = Some (FNext s')).
  { unfold fexec in X. cbn [n_i n_pos] in X. rewrite Ho in X. destruct (i_vals x) as [|? [|? []]]; exact X. }
  clear X. destruct ((0 <=? i_ity x) && (i_ity x <=? 6)) eqn:Ty; [|discriminate].
  destruct (wr s d _) as [s1|] eqn:Wr in X'; [|discriminate]. cbn [next obind] in X'. apply Some_inj in X'. injection X' as <-.
  unfold tr_loadimm in T. cbn [n_i n_pos] in T.
  apply bind_ok in T. destruct T as [? [A T]]. apply assertb_ok in A. apply vt_eqb_eq in A. rename A into Td.
  apply bind_ok in T. destruct T as [? [A T]]. apply Ok_inj in T; subst c.
  destruct (wr_reg_inv _ _ _ _ Td Wr) as [W ->].
  apply andb_true_iff in Ty. destruct Ty as [Ty1 Ty2]. pose proof Ty1 as Ty1'. pose proof Ty2 as Ty2'.
  apply Z.leb_le in Ty1, Ty2.
  cbn [encs flat_map enc p_wide p_op p_dst p_src p_off p_imm p_imm64 app] in Cd.
  rewrite (reg_mod16 (vp_reg d)) in Cd by (apply wreg_reg; exact W). rewrite (Z.mod_small (i_ity x) 16) in Cd by lia.
  destruct Cd as [_ Cd]. pose proof (Cd 0%nat _ eq_refl) as F0. pose proof (Cd 1%nat _ eq_refl) as F1.
  cbn [Z.of_nat Pos.of_succ_nat] in F0, F1. rewrite Z.add_0_r in F0.
  unfold runs. cbn [length slots_list slots p_wide]. rewrite isa_run_one.
  unfold isa_step. rewrite F0. cbn [b_code b_dst b_src b_off b_imm]. change (24 mod 8) with 0. cbv iota beta.
  rewrite F1. cbn [b_code b_imm]. rewrite W, Ty1', Ty2'. cbn [andb Z.eqb].
  replace (pos + (2 + 0)) with (pos + 2) by lia. rewrite wide_split. reflexivity.
Qed.

(** Dispatch for instructions that stay in the block or return. *)
Theorem translate_one_runs w bi n s c r prog pos :
  tr_ok bi n -> resolved_insn bi n -> translate_one n = Ok c -> st_ok s -> fexec w bi n s = Some r ->
  code_at prog pos (encs c) ->
  i_op (n_i n) <> JA -> is_cond_jmp_op (i_op (n_i n)) = false -> runs w prog pos c s r.
Proof.
  intros Tr Rs T O X Cd Nj Nc. destruct n as [x d]. unfold resolved_insn in Rs. cbn [n_i] in *.
  assert (Fn : (i_op x <> RET -> exists s', r = FNext s')).
  { intros Nr. unfold fexec in X. cbn [n_i n_pos] in X.
    destruct (i_op x); cbn in Nc; try discriminate; try congruence;
      destruct (i_vals x) as [|v0 [|v1 [|]]]; try discriminate; cbn [alu_op_of cmp_op_of] in X;
      repeat match type of X with
      | obind ?e _ = Some _ => destruct e eqn:?; [|discriminate]; cbn [obind] in X
      | next ?e = Some _ => destruct e eqn:?; [|discriminate]; cbn [next obind] in X
      | (if ?b then _ else _) = Some _ => destruct b eqn:?; [|discriminate]
      | match ?e with _ => _ end = Some _ => destruct e eqn:?; try discriminate
      end; try (apply Some_inj in X; eauto). }
  assert (ALU : forall f, alu_op_of (i_op x) = Some f -> i_op x <> RET -> tr_alu (mkN x d) = Ok c -> runs w prog pos c s r).
  { intros f Hf Nr T'. destruct (Fn Nr) as [s' ->].
    assert (exists v0 v1, i_vals x = [v0; v1]) as (v0 & v1 & Hv).
    { unfold fexec in X. cbn [n_i n_pos] in X. destruct (i_op x); cbn in Hf; try discriminate;
      destruct (i_vals x) as [|v0 [|v1 [|]]]; try discriminate; eauto. }
    eapply (tr_alu_runs w bi x d v0 v1); eauto. rewrite Hv in Rs. inversion Rs as [|? ? ? Rs']; subst. inversion Rs'; assumption. }
  unfold translate_one in T. cbn [n_i] in T.
  destruct (i_op x) eqn:Ho; cbn [is_bin_alu_op is_cond_jmp_op opnum Nat.leb Nat.ltb andb] in *; try discriminate; try congruence.
  all: try (match type of T with tr_alu _ = _ => eapply ALU; eauto; [cbn; reflexivity|congruence] end).
  - (* ALLOC *) apply Ok_inj in T; subst c. unfold fexec in X. cbn [n_i n_pos] in X. rewrite Ho in X.
    assert (r = FNext s) as -> by (destruct (i_vals x) as [|? [|? []]]; congruence).
    unfold runs. cbn [length isa_run slots_list]. f_equal; lia.
  - apply Ok_inj in T; subst c. unfold fexec in X. cbn [n_i n_pos] in X. rewrite Ho in X.
    assert (r = FNext s) as -> by (destruct (i_vals x) as [|? [|? []]]; congruence).
    unfold runs. cbn [length isa_run slots_list]. f_equal; lia.
  - destruct (Fn ltac:(congruence)) as [s' ->]. eapply tr_loadimm_runs; eauto.
  - destruct (Fn ltac:(congruence)) as [s' ->].
    assert (exists v, i_vals x = [v]) as (v & Hv).
    { unfold fexec in X. cbn [n_i n_pos] in X. rewrite Ho in X. destruct (i_vals x) as [|v0 [|v1 [|]]]; try discriminate; eauto. }
    eapply (tr_storeraw_runs w bi x d v); eauto. rewrite Hv in Rs. inversion Rs; assumption.
  - destruct (Fn ltac:(congruence)) as [s' ->]. eapply tr_loadraw_runs; eauto.
    destruct Tr as [_ [_ K]]. cbn [n_i] in K. rewrite Ho in K. destruct (i_vals x) as [|? [|? []]]; exact K.
  - destruct (Fn ltac:(congruence)) as [s' ->].
    assert (exists v, i_vals x = [v]) as (v & Hv).
    { unfold fexec in X. cbn [n_i n_pos] in X. rewrite Ho in X. destruct (i_vals x) as [|v0 [|v1 [|]]]; try discriminate; eauto. }
    apply (tr_unary_runs w bi x d v); auto; rewrite Ho; cbn; auto.
  - destruct (Fn ltac:(congruence)) as [s' ->].
    assert (exists v, i_vals x = [v]) as (v & Hv).
    { unfold fexec in X. cbn [n_i n_pos] in X. rewrite Ho in X. destruct (i_vals x) as [|v0 [|v1 [|]]]; try discriminate; eauto. }
    apply (tr_unary_runs w bi x d v); auto; rewrite Ho; cbn; auto.
  - destruct (Fn ltac:(congruence)) as [s' ->].
    assert (exists v, i_vals x = [v]) as (v & Hv).
    { unfold fexec in X. cbn [n_i n_pos] in X. rewrite Ho in X. destruct (i_vals x) as [|v0 [|v1 [|]]]; try discriminate; eauto. }
    apply (tr_unary_runs w bi x d v); auto; rewrite Ho; cbn; auto.
  - (* CALL *) destruct (Fn ltac:(congruence)) as [s' ->]. apply Ok_inj in T; subst c.
    unfold fexec in X. cbn [n_i n_pos] in X. rewrite Ho in X. destruct (i_vals x) as [|v0 [|v1 [|]]]; try discriminate X.
    apply Some_inj in X. injection X as <-.
    apply runs1; auto. intros F. unfold isa_step. rewrite F. cbn [b_code b_dst b_src b_off b_imm].
    change (133 mod 8) with 5. cbv iota beta. unfold isa_jmp. cbn [b_code b_dst b_src b_off b_imm].
    change (133 / 16) with 8. change (Z.odd (133 / 8)) with false. reflexivity.
  - (* RET *) apply Ok_inj in T; subst c.
    unfold fexec in X. cbn [n_i n_pos] in X. rewrite Ho in X.
    assert (V : i_vals x = [] \/ exists v, i_vals x = [v]) by (destruct (i_vals x) as [|v0 [|v1 [|]]]; try discriminate; eauto).
    destruct V as [V|[v V]]; rewrite V in X.
    + apply Some_inj in X. subst r. unfold runs. cbn [length]. rewrite isa_run_one.
      cbn [encs flat_map enc p_wide p_op p_dst p_src p_off p_imm app] in Cd. apply step_at in Cd.
      unfold isa_step. rewrite Cd. cbn [b_code]. change (149 mod 8) with 5. cbv iota beta. unfold isa_jmp. cbn [b_code].
      change (149 / 16) with 9. change (Z.odd (149 / 8)) with false. reflexivity.
    + (* a return with an operand does not survive normalisation; translation ignores the operand *)
      exfalso. destruct Tr as [_ [_ K]]. cbn [n_i] in K. rewrite Ho, V in K. exact K.
  - destruct (Fn ltac:(congruence)) as [s' ->].
    assert (exists v, i_vals x = [v]) as (v & Hv).
    { unfold fexec in X. cbn [n_i n_pos] in X. rewrite Ho in X. destruct (i_vals x) as [|v0 [|v1 [|]]]; try discriminate; eauto. }
    eapply (tr_assign_runs w bi x d v); eauto. rewrite Hv in Rs. inversion Rs; assumption.
Qed.
