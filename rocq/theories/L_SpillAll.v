(** Spilling: one value, then a list of values. *)
From Coq Require Import ZArith List Bool Arith Lia.
From Verif Require Import M_Base M_Ir M_Norm M_Edit M_Ra SpecWord SpecFlat SpecProg SpecSsa SpecIr SpecEdit SpecPass SpecShift SpecInstr SpecFrame SpecRa SpecVirt SpecSpill
  L_Word L_Edit L_Uses L_Hist L_Ins L_PrepInv L_Frame L_SpillNew L_SpillStr L_SpillMem L_SpillSim L_SpillKeep L_SpillVar.
From Verif Require Import SpecIr SpecRa SpecVirt.
Import ListNotations.
Open Scope Z_scope.
Ltac Zify.zify_post_hook ::= Z.div_mod_to_equations.

Lemma sb_winv s : spillable s -> winv s.
Proof.
  intros Sb. destruct (sb_frame _ Sb) as (F & A & B). constructor; auto. intros v L. exact (ex_none s Sb v L).
Qed.

(** what holds of a function after one value has moved *)
Record moved (s t : cgs) (l : list nat) : Prop := {
  mo_able : spillable t;
  mo_ni : (f_ni (c_f s) <= f_ni (c_f t))%nat;
  mo_cfg : f_entry (c_f t) = f_entry (c_f s) /\ c_reach t = c_reach s /\ c_regs t = c_regs s /\ c_sp t = c_sp s /\ c_args t = c_args s /\ forall b, preds_of (c_f t) b = preds_of (c_f s) b;
  mo_rest : forall u, ~ In u l -> movable s u -> movable t u;
  mo_free : forall b, phi_free s b -> phi_free t b }.

Lemma finalize_inv s v t : finalize_stack s v = Ok t -> - 2 ^ 31 <= c_off s - 8 -> c_off s <= 0 -> exists e, c_ex s v = Some e /\ c_f t = c_f s /\ c_off t = c_off s - 8 /\ c_ex t v = Some (set_pos (mkPos true 8 (vp_reg (x_pos e)) (c_off t)) (set_fin true e)) /\
  (forall d, d <> v -> c_ex t d = c_ex s d) /\ c_reach t = c_reach s /\ c_regs t = c_regs s /\ c_sp t = c_sp s /\ c_args t = c_args s.
Proof.
  intros H L N. unfold finalize_stack, get_new_spill in H. bo H e He. unfold get_ex in He. cbn [c_ex with_off with_ex] in He. destruct (c_ex s v) as [e'|]; [|discriminate He]. injection He as <-. injection H as <-. exists e'.
  assert (Q : s32 (c_off s - 8) = c_off s - 8). { unfold s32. apply sgn_small; lia. }
  cbn [c_ex c_f c_off c_reach c_regs c_sp c_args put_ex with_ex with_off with_f]. rewrite ?Q. split; [reflexivity|]. split; [reflexivity|]. split; [reflexivity|]. split; [unfold upd; now rewrite Nat.eqb_refl|]. split; [|auto].
  intros d Nd. unfold upd. destruct (Nat.eqb_spec d v); [contradiction|reflexivity].
Qed.

Lemma var_moved s v xv t : spillable s -> movable s v -> f_insn (c_f s) v = Some xv -> i_op xv = ALLOC -> - 2 ^ 31 <= c_off s - 8 -> spill_one s v = Ok t -> finalize_stack s v = Ok t -> moved s t [v].
Proof.
  intros Sb Mv Xv AL B HS H. destruct (sb_frame _ Sb) as (F0 & N0 & A0). destruct (finalize_inv s v t H B N0) as (e & E & CF & OF & Et & EX & R1 & R2 & R3 & R4).
  destruct Mv as ((Lv & e' & E' & Fe & De) & NB). rewrite E in E'. injection E' as <-.
  assert (LK : forall i, linked t i <-> linked s i) by (intros i; unfold linked; now rewrite CF, R1).
  assert (TR : forall i, i <> v -> tracked s i -> tracked t i). { intros i Ni (L & ei & Ei & Hi). split; [now apply LK|]. exists ei. rewrite (EX i Ni). auto. }
  assert (NV : ~ In v (c_regs s)). { intros I. apply (rd_apart _ (sb_ready _ Sb) v I). exact Lv. }
  assert (EQ : forall i ei, c_ex t i = Some ei -> exists es, c_ex s i = Some es /\ x_dst ei = x_dst es /\ x_nonvr ei = x_nonvr es /\ ((i <> v /\ ei = es) \/ (i = v /\ x_fin ei = true /\ vp_alloc (x_pos ei) = true /\ vp_spilled (x_pos ei) <> 0))).
  { intros i ei Ei. destruct (Nat.eq_dec i v) as [->|Ni].
    - rewrite Et in Ei. injection Ei as <-. exists e. split; [exact E|]. split; [reflexivity|]. split; [reflexivity|]. right. split; [reflexivity|]. split; [reflexivity|]. split; [reflexivity|]. cbn. lia.
    - rewrite (EX i Ni) in Ei. exists ei. split; [exact Ei|]. auto. }
  assert (RDA : forall d, readable s d -> readable t d).
  { intros d Rd. unfold readable in *. destruct d as [| | |i| |]; auto. destruct (Nat.eq_dec i v) as [->|Ni].
    - right. eexists. split; [exact Et|]. split; [reflexivity|]. split; [reflexivity|]. left. cbn. lia.
    - destruct Rd as [Rd|(ei & Ei & Rd)]; [left; auto|right; exists ei; rewrite (EX i Ni); auto]. }
  pose proof (sb_ready _ Sb) as Rd. pose proof (sb_shape _ Sb) as Sh.
  assert (Sbt : spillable t).
  { constructor; rewrite ?CF, ?R1, ?R3.
    - exact (sb_fresh _ Sb).
    - exact (sb_tidy _ Sb).
    - constructor; rewrite ?CF, ?R1, ?R2, ?R3.
      + exact (rd_regs _ Rd).
      + exact (rd_distinct _ Rd).
      + intros k r K. destruct (rd_reg _ Rd k r K) as (er & Er & Hr). exists er. rewrite EX; [auto|]. intros ->. apply NV. exact (nth_error_In _ _ K).
      + intros r I L. apply (rd_apart _ Rd r I). now apply LK.
      + destruct (rd_sp _ Rd) as (P & Q). split; [exact P|]. intros L. apply Q. now apply LK.
      + exact (rd_reach _ Rd).
      + exact (rd_pred _ Rd).
      + exact (rd_once _ Rd).
      + intros b i Ib Ii. destruct (rd_insn _ Rd b i Ib Ii) as (x & ei & X & P & Ei & D & Nv & Al & Fi). exists x. destruct (Nat.eq_dec i v) as [->|Ni].
        * rewrite E in Ei. injection Ei as <-. eexists. split; [exact X|]. split; [exact P|]. split; [exact Et|]. split; [exact D|]. split; [exact Nv|]. split; [reflexivity|]. intros _. left. cbn. lia.
        * exists ei. rewrite (EX i Ni). auto 8.
      + intros d u L. rewrite (rd_users _ Rd d u (proj1 (LK d) L)). unfold reads. rewrite LK, CF. reflexivity.
      + intros i x ei L X Ei J. destruct (EQ i ei Ei) as (es & Es & -> & _). exact (rd_jump _ Rd i x es (proj1 (LK i) L) X Es J).
      + intros i x L X O. destruct (rd_phi _ Rd i x (proj1 (LK i) L) X O) as (P & (ei & Ei & D) & Q). split; [exact P|]. split; [|exact Q]. exists ei. rewrite EX; [auto|]. intros ->. congruence.
    - constructor; rewrite ?CF, ?R1.
      + intros b k i x Ib At X J. unfold insn_at, ends_at in *. rewrite CF in *. exact (sh_jump _ Sh b k i x Ib At X J).
      + intros b c Ib Le. unfold leads in Le. rewrite CF in Le. exact (sh_leads _ Sh b c Ib Le).
      + intros i x L X O. destruct (sh_phi _ Sh i x (proj1 (LK i) L) X O) as (P & Q & U). split; [apply TR; [congruence|exact P]|]. split; [exact Q|]. intros w b I. apply RDA. exact (U w b I).
      + intros i [I|I]; [apply (sh_ids _ Sh); now left|]. apply (sh_ids _ Sh). right. destruct (c_ex t i) as [ei|] eqn:Ei; [|contradiction]. destruct (EQ i ei Ei) as (es & -> & _). discriminate.
      + exact (sh_refs _ Sh).
      + intros i x ei L X Ei O. destruct (EQ i ei Ei) as (es & Es & -> & _). exact (sh_dst _ Sh i x es (proj1 (LK i) L) X Es O).
      + intros i x d L X O Hd. apply RDA. exact (sh_store _ Sh i x d (proj1 (LK i) L) X O Hd).
      + intros i x ei X O Ei Fi. destruct (EQ i ei Ei) as (es & Es & _ & _ & [(_ & ->)|(_ & _ & P & Q)]); [exact (sh_var _ Sh i x es X O Es Fi)|auto].
    - exact (sb_phis _ Sb).
    - exact (sb_all _ Sb).
    - exact (sb_sp _ Sb).
    - destruct (sb_entry _ Sb) as (P & Q). split; [exact P|]. unfold phi_free in *. rewrite CF. exact Q.
    - destruct (spill_one_ok s v t (sb_winv s Sb) HS B) as (Wt & _). split; [exact (wi_frame _ Wt)|]. split; [exact (wi_neg _ Wt)|exact (wi_al _ Wt)]. }
  constructor.
  - exact Sbt.
  - rewrite CF. lia.
  - rewrite CF. auto 8.
  - intros u Nu (Tu & Hu). split; [apply TR; [intros ->; apply Nu; now left|exact Tu]|]. rewrite CF. exact Hu.
  - intros b. unfold phi_free. now rewrite CF.
Qed.
Lemma val_moved s v xv t pre tail : spillable s -> tracked s v -> f_insn (c_f s) v = Some xv -> - 2 ^ 31 <= c_off s - 8 -> spill_one s v = Ok t -> spilt s t v (f_ni (c_f s)) (S (f_ni (c_f s))) pre tail -> users_ok (c_f t) -> moved s t [].
Proof.
  intros Sb Tv Xv B H W U. destruct (spill_one_ok s v t (sb_winv s Sb) H B) as (Wt & OF & _). destruct (w_rest _ _ _ _ _ _ _ W) as (W1 & W2 & W3 & W4 & _). destruct (w_cfg _ _ _ _ _ _ _ W) as (C1 & _ & _ & C4). destruct (w_ids _ _ _ _ _ _ _ W) as (_ & _ & Ni). constructor.
  - constructor.
    + exact (w_fresh _ _ _ _ _ _ _ W).
    + exact (kp_tidy _ _ _ Sb Tv Xv _ _ _ W U).
    + exact (kp_ready _ _ _ Sb Tv Xv _ _ _ W U OF).
    + exact (kp_shape _ _ _ Sb Tv Xv _ _ _ W OF).
    + exact (kp_first _ _ _ Sb Xv _ _ _ W).
    + exact (kp_reach _ _ _ Sb Tv Xv _ _ _ W).
    + rewrite W3. pose proof (sb_sp _ Sb). lia.
    + exact (kp_entry _ _ _ Sb Xv _ _ _ W).
    + split; [exact (wi_frame _ Wt)|]. split; [exact (wi_neg _ Wt)|exact (wi_al _ Wt)].
  - lia.
  - auto 8.
  - intros u _ (Tu & Hu). split; [exact (kp_tracked _ _ _ Sb Xv _ _ _ W u Tu)|]. intros x X O i y Y Oy Dy. pose proof (proj1 Tu) as Lu.
    assert (Luu : (u < f_ni (c_f s))%nat). { destruct Tu as (_ & e & E & _). exact (kp_exlt _ Sb _ _ E). }
    destruct (kp_cases _ _ _ _ _ W u x X) as [(x0 & X0 & _ & Ed)|[(Q & _)|[(Q & _)|(Q & _)]]]; [|lia|lia|lia]. assert (Ox : i_op x = i_op x0) by apply (ed_rest _ _ _ _ _ Ed). rewrite Ox in O.
    destruct (kp_cases _ _ _ _ _ W i y Y) as [(y0 & Y0 & _ & Edy)|[(_ & k & ->)|[(_ & k & b & ->)|(_ & k & b & ->)]]]; try (cbn in Oy; intuition discriminate).
    assert (Oyy : i_op y = i_op y0) by apply (ed_rest _ _ _ _ _ Edy). rewrite Oyy in Oy. destruct (ed_addr _ _ _ _ _ Edy) as ([Q|(_ & l & Q & Il)] & _).
    + rewrite Q in Dy. exact (Hu x0 X0 O i y0 Y0 Oy Dy).
    + rewrite Q in Dy. cbn in Dy. injection Dy as Dy. apply (w_pre _ _ _ _ _ _ _ W) in Il. lia.
  - intros b Pf. intros i l L Ph. destruct (kp_split _ _ _ Sb Xv _ _ _ W b) as (P & N & LT & HP & HN). destruct P as [|p P]; [apply (HN i); [cbn [app] in LT; rewrite <- LT, L; now left|exact Ph]|].
    destruct (HP p (or_introl eq_refl)) as (Pp & Ip). apply (kp_phi _ _ _ _ _ W) in Pp. destruct (insns_of (c_f s) b) as [|h r] eqn:Q; [destruct Ip|]. apply (Pf h r Q). destruct Ip as [->|Ip]; [exact Pp|]. apply in_split in Ip as (r1 & r2 & ->). apply (sb_phis _ Sb b (h :: r1) p r2 Q Pp). now left.
Qed.

(** ** one value *)
Lemma step_run s v t : spillable s -> movable s v -> spill_one s v = Ok t -> - 2 ^ 31 <= c_off s - 8 ->
  moved s t [v] /\ c_off t = c_off s - 8 /\
  forall R w o bi k c b m out, st_ok m -> phi_free s b ->
    let Rs := between (rget m 10 + c_off t) (rget m 10 + c_off t + 8) in
    (forall x, Rs x = true -> R x = true) -> hidden w Rs -> grun R w bi s o k c b (mkV (fun _ => None) m) = Some out ->
    exists out', grun R w bi t o k c b (mkV (fun _ => None) m) = Some out' /\ same_end Rs (f_ni (c_f s)) [v] out out'.
Proof.
  intros Sb Mv H B. pose proof (sb_frame _ Sb) as (F0 & N0 & A0). destruct (spill_one_ok s v t (sb_winv s Sb) H B) as (_ & OF & _).
  pose proof Mv as (Tv & NB). pose proof H as H'. unfold spill_one in H'. bo H' xv Hx. apply get_insn_ok in Hx.
  destruct (iop_eqb (i_op xv) CALL || iop_eqb (i_op xv) ALLOCARRAY) eqn:Q1; [discriminate H'|]. apply orb_false_iff in Q1 as (Q1 & Q2).
  assert (OFF : c_off t = c_off s - 8 /\ - 2 ^ 31 <= c_off t) by (split; lia).
  destruct (iop_eqb (i_op xv) ALLOC) eqn:Q3.
  - apply op_same in Q3. split; [exact (var_moved s v xv t Sb Mv Hx Q3 B H H')|]. split; [exact OF|]. intros R w o bi k c b m out SO PF Rs SUB HID G.
    destruct (finalize_inv s v t H' B N0) as (e & E & CF & _ & Et & EX & _).
    apply (va_run s t v xv e _ Sb Tv Hx Q3 (NB xv Hx Q3) CF E Et (conj eq_refl (conj eq_refl eq_refl)) EX (rget m 10) OFF R w o SUB HID bi k c b (mkV (fun _ => None) m) _ out); [|exact G].
    constructor; cbn [v_st v_env]; auto; try discriminate; [exact (proj1 SO)|intros x _; reflexivity].
  - assert (NA : i_op xv <> ALLOC). { intros Q. rewrite Q in Q3. discriminate Q3. }
    assert (NK : ~ In (i_op xv) [ALLOC; ALLOCARRAY; CALL]). { intros [Q|[Q|[Q|[]]]]; [congruence|rewrite <- Q in Q2; discriminate Q2|rewrite <- Q in Q1; discriminate Q1]. }
    destruct (spill_one_spilt s v xv Sb Tv Hx t NA H) as (pre & tail & W & U). pose proof (val_moved s v xv t pre tail Sb Tv Hx B H W U) as Mo.
    split; [destruct Mo; constructor; auto|]. split; [exact OF|]. intros R w o bi k c b m out SO PF Rs SUB HID G.
    apply (run_sim s t v _ _ pre tail xv Sb Tv Hx NK W (rget m 10) OFF R w o SUB HID bi k c b (mkV (fun _ => None) m) (mkV (fun _ => None) m) out); auto.
    + constructor; cbn [v_st v_env]; auto; try discriminate; [exact (proj1 SO)|intros x _; reflexivity].
    + intros z Q. discriminate Q.
Qed.

(** ** a list of values *)
Lemma same_trans R R1 R2 n n' l1 l2 a b c : (n <= n')%nat -> (forall x, R1 x = true -> R x = true) -> (forall x, R2 x = true -> R x = true) ->
  same_end R1 n l1 a b -> same_end R2 n' l2 b c -> same_end R n (l1 ++ l2) a c.
Proof.
  intros Ln S1 S2 H1 H2.
  assert (T : forall q q' q2, same_but R1 n l1 q q' -> same_but R2 n' l2 q' q2 -> same_but R n (l1 ++ l2) q q2).
  { intros q q' q2 [A1 A2 A3 A4] [B1 B2 B3 B4]. constructor; [congruence|congruence| |].
    - intros d Ld Nd. rewrite in_app_iff in Nd. rewrite A3 by tauto. apply B3; [lia|tauto].
    - intros x Rx. rewrite A4, B4; [reflexivity| |]; [destruct (R2 x) eqn:Q; [apply S2 in Q; congruence|reflexivity]|destruct (R1 x) eqn:Q; [apply S1 in Q; congruence|reflexivity]]. }
  destruct a as [p c1 q|z q], b as [p' c1' q'|z' q'], c as [p2 c2 q2|z2 q2]; cbn in *; try contradiction.
  - destruct H1 as (-> & -> & H1). destruct H2 as (-> & -> & H2). eauto.
  - destruct H1 as (-> & H1). destruct H2 as (-> & H2). eauto.
Qed.
Lemma same_self R n l a : same_end R n l a a.
Proof. destruct a; cbn; repeat split; auto. Qed.
Lemma spill_run l : forall s t, spillable s -> NoDup l -> (forall v, In v l -> movable s v) -> spill s l = Ok t -> - 2 ^ 31 <= c_off s - 8 * Z.of_nat (length l) ->
  moved s t l /\ c_off t = c_off s - 8 * Z.of_nat (length l) /\
  forall R w o bi k c b m out, st_ok m -> phi_free s b ->
    let Rs := between (rget m 10 + c_off t) (rget m 10 + c_off s) in
    (forall x, Rs x = true -> R x = true) -> hidden w Rs -> grun R w bi s o k c b (mkV (fun _ => None) m) = Some out ->
    exists out', grun R w bi t o k c b (mkV (fun _ => None) m) = Some out' /\ same_end Rs (f_ni (c_f s)) l out out'.
Proof.
  induction l as [|v l IH]; intros s t Sb ND Mv H B; unfold spill in H; cbn [ofold] in H.
  - injection H as <-. split; [constructor; auto 8|]. split; [cbn; lia|]. intros. eexists. split; [eassumption|]. apply same_self.
  - bo H s1 H1. cbn [length] in *. rewrite Nat2Z.inj_succ in *. destruct (step_run s v s1 Sb (Mv v (or_introl eq_refl)) H1 ltac:(lia)) as (Mo & O1 & Run). inversion ND as [|? ? Nv ND']. subst.
    destruct (IH s1 t (mo_able _ _ _ Mo) ND') as (Mo2 & O2 & Run2); [|exact H|lia|].
    { intros u Iu. apply (mo_rest _ _ _ Mo); [intros [<-|[]]; contradiction|]. apply Mv. now right. }
    split; [|split; [lia|]].
    + destruct Mo as [P1 P2 P3 P4 P5], Mo2 as [Q1 Q2 Q3 Q4 Q5]. constructor; [exact Q1|lia| | |auto].
      * destruct P3 as (A1 & A2 & A3 & A4 & A5 & A6), Q3 as (B1 & B2 & B3 & B4 & B5 & B6). repeat split; congruence.
      * intros u Nu Mu. cbn in Nu. apply Q4; [tauto|]. apply P4; [cbn; tauto|exact Mu].
    + intros R w o bi k c b m out SO PF SUB HID G. set (fp := rget m 10) in *. set (Rs := between (fp + c_off t) (fp + c_off s)) in *.
      assert (S1 : forall x, between (fp + c_off s1) (fp + c_off s1 + 8) x = true -> Rs x = true). { apply (between_sub (fp + c_off t) (fp + c_off s1) (fp + c_off s)); lia. }
      assert (S2 : forall x, between (fp + c_off t) (fp + c_off s1) x = true -> Rs x = true).
      { intros x. unfold Rs, between. rewrite !existsb_exists. intros (j & Ij & E). exists j. split; [|exact E]. rewrite in_seq in *. lia. }
      destruct (Run R w o bi k c b m out SO PF (fun x Hx => SUB x (S1 x Hx)) (hidden_sub w Rs _ S1 HID) G) as (out1 & G1 & E1).
      destruct (Run2 R w o bi k c b m out1 SO (mo_free _ _ _ Mo b PF) (fun x Hx => SUB x (S2 x Hx)) (hidden_sub w Rs _ S2 HID) G1) as (out2 & G2 & E2).
      exists out2. split; [exact G2|]. change (v :: l) with ([v] ++ l). exact (same_trans _ _ _ _ _ _ _ _ _ _ (mo_ni _ _ _ Mo) S1 S2 E1 E2).
Qed.
Lemma grun_vrun R w bi s o k : forall c b q out, grun R w bi s o k c b q = Some out -> vrun w bi s o k c b q = Some out.
Proof.
  assert (Bo : forall bi M q r, gbody R w bi s o q M = Some r -> vbody w bi s o q M = Some r).
  { intros bi0 M. induction M as [|j M IH]; intros q r H; cbn [gbody vbody] in *; [exact H|]. destruct (f_insn (c_f s) j) as [x|]; [|discriminate H]. cbn [obind] in *. destruct (quiet _ _ _ _ _); [|discriminate H]. destruct (vexec _ _ _ _ _ _) as [r1|]; [|discriminate H]. cbn [obind] in *. destruct r1; auto. }
  assert (Bl : forall c b q r, gblock R w bi s o c b q = Some r -> vblock w bi s o c b q = Some r).
  { intros c b q r H. unfold gblock, vblock in *. destruct (f_block (c_f s) b) as [kb|]; [|discriminate H]. cbn [obind] in *. destruct (vphis _ _ _ _ _ _ _) as [(l & q1)|]; [|discriminate H]. cbn [obind] in *. destruct (gbody _ _ _ _ _ _ _) as [r1|] eqn:G; [|discriminate H]. rewrite (Bo _ _ _ _ G). exact H. }
  induction k as [|k IH]; intros c b q out H; cbn [grun vrun] in *; [exact H|]. destruct (gblock R w bi s o c b q) as [r|] eqn:G; [|discriminate H]. rewrite (Bl _ _ _ _ G). cbn [obind] in *. destruct r; auto.
Qed.
