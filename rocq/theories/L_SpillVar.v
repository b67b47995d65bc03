(** Spilling: the run of the function when a variable moves to the stack. *)
From Coq Require Import ZArith List Bool Arith Lia.
From Verif Require Import M_Base M_Ir M_Norm M_Edit M_Ra SpecWord SpecFlat SpecProg SpecSsa SpecIr SpecEdit SpecPass SpecShift SpecInstr SpecFrame SpecRa SpecVirt SpecSpill
  L_Word L_Edit L_Uses L_Hist L_Ins L_PrepInv L_SpillNew L_SpillStr L_SpillMem L_SpillSim.
From Verif Require Import SpecIr SpecRa SpecVirt.
Import ListNotations.
Open Scope Z_scope.
Ltac Zify.zify_post_hook ::= Z.div_mod_to_equations.


Section Var.
Context (s t : cgs) (v : nat) (xv : insn) (ev et : extra).
Hypothesis Sb : spillable s.
Hypothesis Tv : tracked s v.
Hypothesis Xv : f_insn (c_f s) v = Some xv.
Hypothesis AL : i_op xv = ALLOC.
Hypothesis NB : forall i x, f_insn (c_f s) i = Some x -> In (i_op x) [LOADRAW; STORERAW] -> v_data (a_val (i_addr x)) <> VInsn v.
Hypothesis CF : c_f t = c_f s.
Hypothesis Es : c_ex s v = Some ev.
Hypothesis Et : c_ex t v = Some et.
Hypothesis Ef : x_fin et = true /\ vp_alloc (x_pos et) = true /\ vp_spilled (x_pos et) = c_off t.
Hypothesis EX : forall d, d <> v -> c_ex t d = c_ex s d.
Context (fp : Z).
Hypothesis OFF : c_off t = c_off s - 8 /\ - 2 ^ 31 <= c_off t.
Let sa := fp + c_off t.
Let Rs := between sa (sa + 8).
Context (R : addrs) (w : world) (o : Z).
Hypothesis SUB : forall x, Rs x = true -> R x = true.
Hypothesis HID : hidden w Rs.

Record vsim (q q' : vst) : Prop := {
  vi_regs : regs (v_st q') = regs (v_st q);
  vi_len : length (regs (v_st q)) = 11%nat;
  vi_fp : rget (v_st q) 10 = fp;
  vi_nc : ncall (v_st q') = ncall (v_st q);
  vi_env : forall d, d <> v -> v_env q' d = v_env q d;
  vi_mem : agree Rs (mem (v_st q)) (mem (v_st q'));
  vi_word : forall d z, v_env q d = Some z -> 0 <= z < 2 ^ 64;
  vi_slot : forall z, v_env q v = Some z -> load (mem (v_st q')) sa 8 = z }.

Lemma va_rget q q' r : vsim q q' -> rget (v_st q') r = rget (v_st q) r.
Proof. intros S. unfold rget. now rewrite (vi_regs _ _ S). Qed.
Lemma va_neg : c_off t < 0. Proof. destruct (sb_frame _ Sb) as (_ & A & _). lia. Qed.
Lemma va_fin : x_fin ev = false. Proof. destruct Tv as (_ & e & E & F & _). congruence. Qed.
Lemma va_far d e : c_ex s d = Some e -> vp_spilled (x_pos e) <> 0 -> off_of sa 8 (fp + vp_spilled (x_pos e)) 8.
Proof.
  intros E N. destruct (sb_frame _ Sb) as (F & A & B). destruct (fr_place _ F d (vp_spilled (x_pos e)) (vp_size (x_pos e))) as (C1 & C2 & C3 & C4).
  { unfold region. rewrite E. apply Z.eqb_neq in N. now rewrite N. }
  destruct OFF as (O1 & O2). apply off_near; unfold sa; lia.
Qed.
Lemma va_eval bi q q' x z : vsim q q' -> veval s bi q x = Some z -> veval t bi q' x = Some z.
Proof.
  intros S E. unfold veval in *. destruct (v_data x) eqn:D; try discriminate E.
  - rewrite <- E. unfold evalv. now rewrite D.
  - destruct (Nat.eq_dec i v) as [->|N].
    + rewrite Es in E. cbn [obind] in E. rewrite va_fin in E. rewrite Et. cbn [obind]. destruct Ef as (-> & F2 & F3). unfold evalv, placed_at. cbn [v_data]. rewrite F2, F3. pose proof va_neg. destruct (Z.eqb_spec (c_off t) 0); [lia|].
      unfold slot_addr. rewrite F3, (va_rget _ _ _ S), (vi_fp _ _ S). fold sa. f_equal. exact (vi_slot _ _ S z E).
    + rewrite (EX i N). destruct (c_ex s i) as [e|] eqn:Ex; [|discriminate E]. cbn [obind] in *. destruct (x_fin e); [|rewrite (vi_env _ _ S i N); exact E].
      rewrite <- E. unfold evalv, placed_at. cbn [v_data]. destruct (vp_alloc (x_pos e)); [|reflexivity]. destruct (Z.eqb_spec (vp_spilled (x_pos e)) 0) as [|Nz].
      * destruct (is_reg _); [|reflexivity]. now rewrite (va_rget _ _ _ S).
      * unfold slot_addr. rewrite (va_rget _ _ _ S), (vi_fp _ _ S). f_equal. symmetry. apply (load_agree Rs); [exact (vi_mem _ _ S)|]. apply (between_off sa 8). exact (va_far _ _ Ex Nz).
Qed.
Lemma va_addr bi q q' x z : vsim q q' -> v_data (a_val x) <> VInsn v -> vaddr s bi q x = Some z -> vaddr t bi q' x = Some z.
Proof.
  intros S N E. unfold vaddr in *. destruct (a_ot x) eqn:OT; try discriminate E. destruct (v_data (a_val x)) eqn:D; try discriminate E.
  - rewrite <- E. unfold addr_of. rewrite OT, D. reflexivity.
  - assert (Ni : i <> v) by congruence. rewrite (EX i Ni). destruct (c_ex s i) as [e|]; [|discriminate E]. cbn [obind] in *. destruct (x_fin e); [|rewrite (vi_env _ _ S i Ni); exact E].
    rewrite <- E. unfold addr_of, placed_at, slot_addr. cbn. now rewrite !(va_rget _ _ _ S).
Qed.
Lemma va_put q q' d z q1 : vsim q q' -> vput s q d z = Some q1 -> exists q1', vput t q' d z = Some q1' /\ vsim q1 q1'.
Proof.
  intros S H. unfold vput in *. destruct (Nat.eq_dec d v) as [->|N].
  - rewrite Es in H. cbn [obind] in H. rewrite va_fin in H. injection H as <-. rewrite Et. cbn [obind]. destruct Ef as (-> & F2 & F3). unfold wr. rewrite F2, F3. pose proof va_neg. destruct (Z.eqb_spec (c_off t) 0); [lia|]. cbn [obind]. eexists. split; [reflexivity|].
    unfold slot_addr. rewrite F3, (va_rget _ _ _ S), (vi_fp _ _ S). fold sa. destruct S. constructor; cbn [v_st v_env mset regs ncall mem rget]; auto.
    + intros d N. unfold eupd. destruct (Nat.eqb_spec d v); [contradiction|auto].
    + apply store_inside; [|assumption]. intros k Lk. apply (between_in sa 8). eauto.
    + intros d z'. unfold eupd. destruct (d =? v)%nat; [|apply vi_word0]. intros Q. injection Q as <-. unfold u64. lia.
    + intros z'. unfold eupd. rewrite Nat.eqb_refl. intros Q. injection Q as <-. rewrite load_store by lia. reflexivity.
  - rewrite (EX d N). destruct (c_ex s d) as [e|] eqn:Ex; [|discriminate H]. cbn [obind] in *. destruct (x_fin e).
    + unfold wr in *. destruct (vp_alloc (x_pos e)); [|discriminate H]. destruct (Z.eqb_spec (vp_spilled (x_pos e)) 0) as [|Nz].
      * destruct (is_wreg (vp_reg (x_pos e))) eqn:Wr; [|discriminate H]. cbn [obind] in *. injection H as <-. eexists. split; [reflexivity|]. destruct (rset_10 s t fp R SUB (v_st q) _ z (vi_len _ _ S) Wr) as (R1 & R2).
        destruct S. constructor; cbn [v_st v_env]; auto; [|congruence]. unfold rset. cbn. now rewrite vi_regs0.
      * cbn [obind] in *. injection H as <-. eexists. split; [reflexivity|]. unfold slot_addr in *. rewrite (va_rget _ _ _ S), (vi_fp _ _ S). pose proof (va_far _ _ Ex Nz) as Fa.
        destruct S. constructor; cbn [v_st v_env mset regs ncall mem rget]; auto; [apply store_agree; assumption|]. intros z' Ez. rewrite load_off; [auto|]. apply off_sym. exact Fa.
    + injection H as <-. eexists. split; [reflexivity|]. destruct S. constructor; cbn [v_st v_env]; auto.
      * intros d' N'. unfold eupd. destruct (d' =? d)%nat; auto.
      * intros d' z'. unfold eupd. destruct (d' =? d)%nat; [|apply vi_word0]. intros Q. injection Q as <-. unfold u64. lia.
      * intros z'. unfold eupd. destruct (Nat.eqb_spec v d); [congruence|auto].
Qed.
Definition vboth (q q' : vst) (r r' : vres) : Prop :=
  match r, r' with
  | VNext q1, VNext q1' => vsim q1 q1'
  | VJmp b q1, VJmp b' q1' => b' = b /\ vsim q1 q1'
  | VRet z q1, VRet z' q1' => z' = z /\ vsim q1 q1'
  | _, _ => False
  end.
Lemma va_wr b j q q' z q1 : In j (insns_of (c_f s) b) -> f_insn (c_f s) j <> Some xv \/ j <> v -> vsim q q' -> vwr s q j z = Some q1 -> exists q1', vwr t q' j z = Some q1' /\ vsim q1 q1'.
Proof.
  intros I Nj S H. assert (N : j <> v) by (destruct Nj as [Nj|Nj]; congruence). unfold vwr in *. rewrite (EX j N). destruct (c_ex s j) as [e|] eqn:Ex; [|discriminate H]. cbn [obind] in *. destruct (x_dst e); [|discriminate H]. exact (va_put _ _ _ _ _ S H).
Qed.
Lemma va_next b j q q' z r : In j (insns_of (c_f s) b) -> j <> v -> vsim q q' -> vnext (vwr s q j z) = Some r -> exists r', vnext (vwr t q' j z) = Some r' /\ vboth q q' r r'.
Proof.
  intros I N S H. destruct (vwr s q j z) as [q1|] eqn:E; [|discriminate H]. injection H as <-. destruct (va_wr b j q q' z q1 I (or_intror N) S E) as (q1' & -> & S1). eexists. split; [reflexivity|exact S1].
Qed.
Lemma va_call id q q' : vsim q q' -> vsim (mkV (v_env q) (call_helper w id (v_st q))) (mkV (v_env q') (call_helper w id (v_st q'))).
Proof.
  intros S. unfold call_helper. rewrite (vi_nc _ _ S), !(va_rget _ _ _ S).
  set (args := [rget (v_st q) 1; rget (v_st q) 2; rget (v_st q) 3; rget (v_st q) 4; rget (v_st q) 5]).
  destruct (HID (ncall (v_st q)) id args (mem (v_st q)) (mem (v_st q')) (vi_mem _ _ S)) as (H1 & H2 & _).
  destruct (HID (ncall (v_st q)) id args (mem (v_st q')) (mem (v_st q')) (fun x _ => eq_refl)) as (_ & _ & H3).
  destruct (helper w (ncall (v_st q)) id args (mem (v_st q))) as [r m]. destruct (helper w (ncall (v_st q)) id args (mem (v_st q'))) as [r' m']. cbn [fst snd] in *. subst r'.
  destruct S. constructor; cbn [v_st v_env regs ncall mem]; auto.
  - now rewrite vi_regs0.
  - rewrite app_length, map_length, skipn_length, vi_len0. reflexivity.
  - rewrite <- vi_fp0. unfold rget. cbn [regs]. destruct (regs (v_st q)) as [|a0 l0]; [discriminate vi_len0|]. do 10 (destruct l0 as [|? l0]; [discriminate vi_len0|]). reflexivity.
  - intros z Ez. rewrite <- (vi_slot0 z Ez). apply load_eq. intros j L. apply H3. apply (between_in sa 8). eauto.
Qed.
Ltac e1 S H :=
  match type of H with
  | context [obind (veval s ?bi ?q ?u) _] =>
    let z := fresh "z" in let Q := fresh "Q" in
    destruct (veval s bi q u) as [z|] eqn:Q; [|discriminate H]; rewrite (va_eval _ _ _ _ _ S Q); clear Q; cbn [obind] in H |- *
  end.
Ltac wd1 H := match type of H with context [obind (width_of ?k) _] => destruct (width_of k); [|discriminate H]; cbn [obind] in H |- * end.
Lemma va_exec bi b j x q q' r : In j (insns_of (c_f s) b) -> f_insn (c_f s) j = Some x -> vsim q q' -> quiet R bi s (fill_insn o x) q = true -> vexec w bi s j (fill_insn o x) q = Some r ->
  (exists r', vexec w bi t j (fill_insn o x) q' = Some r' /\ vboth q q' r r') /\ quiet R bi t (fill_insn o x) q' = true.
Proof.
  intros Ij X S Qt H.
  assert (NV : i_op x <> ALLOC -> j <> v) by congruence.
  assert (Av : a_val (fill_addr o (i_addr x)) = a_val (i_addr x)). { unfold fill_addr. destruct (a_ot (i_addr x)); reflexivity. }
  assert (NA : i_op x = LOADRAW \/ i_op x = STORERAW -> v_data (a_val (fill_addr o (i_addr x))) <> VInsn v). { intros OO. rewrite Av. apply (NB j x X). cbn. destruct OO as [-> | ->]; auto. }
  assert (LD : forall k z, vr_bytes (i_vrt x) = Some k -> i_op x = LOADRAW \/ i_op x = STORERAW -> vaddr s bi q (fill_addr o (i_addr x)) = Some z -> off_of sa 8 z k).
  { intros k z K OO Az. apply (between_off sa 8). apply (touches_sub R Rs); [exact SUB|]. unfold quiet in Qt. cbn [fill_insn set_addr set_phi set_vals i_op i_vrt i_addr] in Qt. rewrite K, Az in Qt. destruct (touches R z k); [|reflexivity]. destruct OO as [OO|OO]; rewrite OO in Qt; discriminate Qt. }
  unfold vexec, quiet in *. cbn [fill_insn set_addr set_phi set_vals i_op i_vals i_alu i_vrt i_addr i_u i_ity i_imm64 i_bb1 i_bb2] in *. split.
  - rewrite CF.
    assert (LR : i_op x = LOADRAW -> (let? k := vr_bytes (i_vrt x) in let? a := vaddr s bi q (fill_addr o (i_addr x)) in vnext (vwr s q j (load (mem (v_st q)) a k))) = Some r ->
       exists r', (let? k := vr_bytes (i_vrt x) in let? a := vaddr t bi q' (fill_addr o (i_addr x)) in vnext (vwr t q' j (load (mem (v_st q')) a k))) = Some r' /\ vboth q q' r r').
    { intros OL H0. destruct (vr_bytes (i_vrt x)) as [k|] eqn:K; [|discriminate H0]. cbn [obind] in *. destruct (vaddr s bi q (fill_addr o (i_addr x))) as [z|] eqn:Az; [|discriminate H0]. cbn [obind] in *.
      rewrite (va_addr _ _ _ _ _ S (NA (or_introl OL)) Az). cbn [obind]. rewrite <- (load_agree Rs k _ _ z (vi_mem _ _ S)); [apply (va_next b j q q' _ r Ij); auto; apply NV; congruence|]. apply (between_off sa 8). apply LD; auto. }
    assert (NX : forall z, i_op x <> ALLOC -> vnext (vwr s q j z) = Some r -> exists r', vnext (vwr t q' j z) = Some r' /\ vboth q q' r r').
    { intros z No H0. exact (va_next b j q q' z r Ij (NV No) S H0). }
    destruct (map (fill_val o) (i_vals x)) as [|u1 [|u2 [|u3 l]]].
    all: destruct (i_op x) eqn:O; try discriminate H; try (exact (LR eq_refl H)); clear LR.
    all: try (injection H as <-; eexists; split; [reflexivity|]; cbn [vboth]; destruct S; constructor; cbn [v_st v_env]; auto; [intros d Nd; destruct (d =? j)%nat; auto|intros d z; destruct (d =? j)%nat; [discriminate|apply vi_word0]|intros z; destruct (v =? j)%nat; [discriminate|apply vi_slot0]]; fail).
    all: try (destruct (_ && _); [|discriminate H]; apply NX; [discriminate|exact H]).
    all: try (injection H as <-; eexists; split; [reflexivity|]; cbn; rewrite ?(va_rget _ _ _ S); auto; fail).
    all: try (injection H as <-; eexists; split; [reflexivity|]; cbn [vboth]; exact (va_call _ _ _ S)).
    all: try (repeat wd1 H; repeat e1 S H; apply NX; [discriminate|exact H]).
    all: try (destruct (_ || _); [|discriminate H]; repeat e1 S H; apply NX; [discriminate|exact H]).
    all: try (cbn [alu_op_of cmp_op_of] in *; repeat wd1 H; repeat e1 S H; apply NX; [discriminate|exact H]).
    all: try (cbn [alu_op_of cmp_op_of] in *; repeat wd1 H; repeat e1 S H; injection H as <-; eexists; split; [reflexivity|]; cbn; auto; fail).
    + destruct (variable (c_f s) u1) as [k|]; [|discriminate H]. cbn [obind] in *. e1 S H. apply NX; [discriminate|exact H].
    + destruct (vr_bytes (i_vrt x)) as [k|] eqn:K; [|discriminate H]. cbn [obind] in *. destruct (vaddr s bi q (fill_addr o (i_addr x))) as [z|] eqn:Az; [|discriminate H]. cbn [obind] in *.
      rewrite (va_addr _ _ _ _ _ S (NA (or_intror eq_refl)) Az). cbn [obind]. e1 S H. injection H as <-. eexists. split; [reflexivity|]. cbn [vboth].
      destruct S. constructor; cbn [v_st v_env mset regs ncall mem rget]; auto; [now apply store_agree|]. intros z' Ez. rewrite load_off; [auto|]. apply off_sym. apply LD; auto.
    + destruct (v_data u2) eqn:Du; try discriminate H. destruct (c_ex s i) as [e|] eqn:Ex; [|discriminate H]. cbn [obind] in H.
      assert (Ni : i <> v). { intros ->. rewrite Es in Ex. injection Ex as <-. rewrite va_fin in H. discriminate H. }
      rewrite (EX i Ni), Ex. cbn [obind]. destruct (_ && _); [|discriminate H]. e1 S H. unfold slot_addr in *. rewrite (va_rget _ _ _ S). apply NX; [discriminate|exact H].
    + destruct (variable (c_f s) u1) as [k|]; [|discriminate H]. cbn [obind] in *. e1 S H. destruct (vput s q (fst k) _) as [q1|] eqn:P; [|discriminate H]. cbn [obind vnext] in H. injection H as <-.
      destruct (va_put _ _ _ _ _ S P) as (q1' & -> & S1). eexists. split; [reflexivity|exact S1].
  - destruct (i_op x) eqn:O; try reflexivity.
    + destruct (vr_bytes (i_vrt x)) as [k|]; [|reflexivity]. cbn [obind] in H. destruct (map (fill_val o) (i_vals x)) as [|u [|u' [|u'' l]]]; try discriminate H.
      destruct (vaddr s bi q (fill_addr o (i_addr x))) as [z|] eqn:Az; [rewrite (va_addr _ _ _ _ _ S (NA (or_intror eq_refl)) Az); exact Qt|cbn [obind] in H; discriminate H].
    + destruct (vr_bytes (i_vrt x)) as [k|]; [|reflexivity]. cbn [obind] in H. destruct (vaddr s bi q (fill_addr o (i_addr x))) as [z|] eqn:Az; [rewrite (va_addr _ _ _ _ _ S (NA (or_introl eq_refl)) Az); exact Qt|cbn [obind] in H; discriminate H].
Qed.
Lemma va_body bi b M : forall q q' r, (forall j, In j M -> In j (insns_of (c_f s) b)) -> vsim q q' -> gbody R w bi s o q M = Some r -> exists r', gbody R w bi t o q' M = Some r' /\ vboth q q' r r'.
Proof.
  induction M as [|j M IH]; intros q q' r HM S H; cbn [gbody] in *.
  - injection H as <-. eexists. split; [reflexivity|exact S].
  - rewrite CF. destruct (f_insn (c_f s) j) as [x|] eqn:X; [|discriminate H]. cbn [obind] in *. destruct (quiet R bi s (fill_insn o x) q) eqn:Qt; [|discriminate H]. destruct (vexec w bi s j (fill_insn o x) q) as [r1|] eqn:Ev; [|discriminate H]. cbn [obind] in H.
    destruct (va_exec bi b j x q q' r1 (HM j (or_introl eq_refl)) X S Qt Ev) as ((r1' & -> & B) & ->). cbn [obind]. destruct r1 as [q1|c q1|z q1], r1' as [q1'|c' q1'|z' q1']; try contradiction.
    + destruct (IH q1 q1' r (fun k Ik => HM k (or_intror Ik)) B H) as (r' & E & B'). exists r'. split; [exact E|]. destruct r, r'; auto.
    + injection H as <-. eexists. split; [reflexivity|exact B].
    + injection H as <-. eexists. split; [reflexivity|exact B].
Qed.
Lemma va_phis bi c b q0 q0' M : vsim q0 q0' -> forall q q' l q1, (forall j, In j M -> In j (insns_of (c_f s) b)) -> vsim q q' -> vphis bi s o c q0 q M = Some (l, q1) ->
  exists q1', vphis bi t o c q0' q' M = Some (l, q1') /\ vsim q1 q1' /\ forall j, In j l -> In j (insns_of (c_f s) b).
Proof.
  intros S0. induction M as [|j M IH]; intros q q' l q1 HM S H; cbn [vphis] in *.
  - injection H as <- <-. exists q'. split; [reflexivity|]. split; [exact S|intros j []].
  - rewrite CF. destruct (f_insn (c_f s) j) as [x|] eqn:X; [|discriminate H]. cbn [obind] in *. destruct (iop_eqb (i_op x) PHI) eqn:O.
    + apply op_same in O. destruct (incoming x c) as [p|]; [|discriminate H]. cbn [obind] in *. e1 S0 H. destruct (vwr s q j z) as [q2|] eqn:Ew; [|discriminate H]. cbn [obind] in H.
      destruct (va_wr b j q q' z q2 (HM j (or_introl eq_refl)) ltac:(right; congruence) S Ew) as (q2' & -> & S2). cbn [obind]. exact (IH q2 q2' l q1 (fun k Ik => HM k (or_intror Ik)) S2 H).
    + injection H as <- <-. exists q'. split; [reflexivity|]. split; [exact S|exact HM].
Qed.
Lemma va_but q q' : vsim q q' -> same_but Rs (f_ni (c_f s)) [v] q q'.
Proof. intros S. destruct S. constructor; auto. intros d L N. symmetry. apply vi_env0. intros ->. apply N. now left. Qed.
Lemma va_block bi c b q q' r : vsim q q' -> gblock R w bi s o c b q = Some r -> exists r', gblock R w bi t o c b q' = Some r' /\ vboth q q' r r'.
Proof.
  intros S H. unfold gblock in *. rewrite CF. destruct (f_block (c_f s) b) as [k|] eqn:K; [|discriminate H]. cbn [obind] in *.
  destruct (vphis (bi c) s o c q q (b_insns k)) as [(l & q1)|] eqn:Ph; [|discriminate H]. cbn [obind] in H. destruct (gbody R w (bi b) s o q1 l) as [r1|] eqn:Bo; [|discriminate H]. cbn [obind] in H.
  destruct (va_phis (bi c) c b q q' (b_insns k) S q q' l q1) as (q1' & -> & S1 & L1); auto. { intros j Ij. unfold insns_of. now rewrite K. }
  cbn [obind]. destruct (va_body (bi b) b l q1 q1' r1 L1 S1 Bo) as (r1' & -> & B). cbn [obind]. destruct r1 as [q2|c2 q2|z2 q2], r1' as [q2'|c2' q2'|z2' q2']; try contradiction.
  - destruct (b_succs k) as [|s1 sl]; [discriminate H|]. injection H as <-. eexists. split; [reflexivity|]. cbn. auto.
  - injection H as <-. eexists. split; [reflexivity|exact B].
  - injection H as <-. eexists. split; [reflexivity|exact B].
Qed.
Lemma va_run bi k : forall c b q q' out, vsim q q' -> grun R w bi s o k c b q = Some out -> exists out', grun R w bi t o k c b q' = Some out' /\ same_end Rs (f_ni (c_f s)) [v] out out'.
Proof.
  induction k as [|k IH]; intros c b q q' out S H; cbn [grun] in *.
  - injection H as <-. eexists. split; [reflexivity|]. split; [reflexivity|]. split; [reflexivity|exact (va_but _ _ S)].
  - destruct (gblock R w bi s o c b q) as [r|] eqn:G; [|discriminate H]. cbn [obind] in H. destruct (va_block bi c b q q' r S G) as (r' & -> & B). cbn [obind]. destruct r as [q1|c1 q1|z1 q1], r' as [q1'|c1' q1'|z1' q1']; try contradiction.
    + discriminate H.
    + destruct B as (-> & S1). exact (IH _ _ _ _ _ S1 H).
    + destruct B as (-> & S1). injection H as <-. eexists. split; [reflexivity|]. split; [reflexivity|exact (va_but _ _ S1)].
Qed.
End Var.
