(** Spilling: the run of the function with one more value on the stack. *)
From Coq Require Import ZArith List Bool Arith Lia.
From Verif Require Import M_Base M_Ir M_Norm M_Edit M_Ra SpecWord SpecFlat SpecProg SpecSsa SpecIr SpecEdit SpecPass SpecShift SpecInstr SpecFrame SpecRa SpecVirt SpecSpill
  L_Word L_Edit L_Uses L_Hist L_Ins L_PrepInv L_SpillNew L_SpillStr L_SpillMem.
From Verif Require Import SpecIr SpecRa SpecVirt.
Import ListNotations.
Open Scope Z_scope.
Ltac Zify.zify_post_hook ::= Z.div_mod_to_equations.

Section Sim.
Context (s t : cgs) (v a st : nat) (pre tail : nat -> list nat) (xv : insn).
Hypothesis Sb : spillable s.
Hypothesis Tv : tracked s v.
Hypothesis Xv : f_insn (c_f s) v = Some xv.
Hypothesis NK : ~ In (i_op xv) [ALLOC; ALLOCARRAY; CALL].
Hypothesis W : spilt s t v a st pre tail.
Context (fp : Z).
Hypothesis OFF : c_off t = c_off s - 8 /\ - 2 ^ 31 <= c_off t.
Let n := f_ni (c_f s).
Let sa := fp + c_off t.
Let Rs := between sa (sa + 8).
Context (R : addrs) (w : world) (o : Z).
Hypothesis SUB : forall x, Rs x = true -> R x = true.
Hypothesis HID : hidden w Rs.

Record sim (q q' : vst) : Prop := {
  si_regs : regs (v_st q') = regs (v_st q);
  si_len : length (regs (v_st q)) = 11%nat;
  si_fp : rget (v_st q) 10 = fp;
  si_nc : ncall (v_st q') = ncall (v_st q);
  si_env : forall d, (d < n)%nat -> v_env q' d = v_env q d;
  si_mem : agree Rs (mem (v_st q)) (mem (v_st q'));
  si_word : forall d z, v_env q d = Some z -> 0 <= z < 2 ^ 64 }.
Definition slot (q' : vst) : Z := load (mem (v_st q')) sa 8.
Definition valid (q q' : vst) : Prop := forall z, v_env q v = Some z -> slot q' = z.
(** the slot and the new values stay *)
Definition keep (q q' : vst) : Prop := slot q' = slot q /\ forall d, (n <= d)%nat -> v_env q' d = v_env q d.

Lemma sim_rget q q' r : sim q q' -> rget (v_st q') r = rget (v_st q) r.
Proof. intros S. unfold rget. now rewrite (si_regs _ _ S). Qed.
Lemma ex_lt d e : c_ex s d = Some e -> (d < n)%nat.
Proof. intros E. apply (sh_ids _ (sb_shape _ Sb)). right. congruence. Qed.
Lemma ex_old d e : c_ex s d = Some e -> c_ex t d = Some e.
Proof. intros E. rewrite (w_ex _ _ _ _ _ _ _ W); [exact E|]. destruct (w_ids _ _ _ _ _ _ _ W) as (-> & _). exact (ex_lt _ _ E). Qed.
Lemma far d e : c_ex s d = Some e -> vp_spilled (x_pos e) <> 0 -> off_of sa 8 (fp + vp_spilled (x_pos e)) 8.
Proof.
  intros E N. destruct (sb_frame _ Sb) as (F & A & B). destruct (fr_place _ F d (vp_spilled (x_pos e)) (vp_size (x_pos e))) as (C1 & C2 & C3 & C4).
  { unfold region. rewrite E. apply Z.eqb_neq in N. now rewrite N. }
  destruct OFF as (O1 & O2). apply off_near; unfold sa; lia.
Qed.
Lemma far_touch d e : c_ex s d = Some e -> vp_spilled (x_pos e) <> 0 -> touches Rs (fp + vp_spilled (x_pos e)) 8 = false.
Proof. intros E N. apply (between_off sa 8). exact (far _ _ E N). Qed.

Lemma evalv_sim bi q q' x d e : sim q q' -> c_ex s d = Some e -> evalv bi (v_st q') (placed_at x (x_pos e)) = evalv bi (v_st q) (placed_at x (x_pos e)).
Proof.
  intros S E. unfold evalv, placed_at. cbn [v_data]. destruct (vp_alloc (x_pos e)); [|reflexivity]. destruct (Z.eqb_spec (vp_spilled (x_pos e)) 0) as [|N].
  - destruct (is_reg _); [|reflexivity]. now rewrite (sim_rget _ _ _ S).
  - unfold slot_addr. rewrite (sim_rget _ _ _ S), (si_fp _ _ S). f_equal. symmetry. apply (load_agree Rs); [exact (si_mem _ _ S)|exact (far_touch _ _ E N)].
Qed.
Lemma const_sim bi m m' x c : v_data x = VConst c -> evalv bi m' x = evalv bi m x.
Proof. intros D. unfold evalv. now rewrite D. Qed.

Definition vdone (q : vst) (l : nat -> Prop) : Prop := forall k, l k -> v_env q k = Some (slot q) /\ exists e, c_ex t k = Some e /\ x_fin e = false.
Lemma tv_ex : exists e, c_ex s v = Some e /\ x_fin e = false /\ x_dst e = Some v.
Proof. exact (proj2 Tv). Qed.
Lemma veval_sim bi q q' P x y z : sim q q' -> valid q q' -> vdone q' P -> vrel v P x y -> veval s bi q (fill_val o x) = Some z -> veval t bi q' (fill_val o y) = Some z.
Proof.
  intros S V D [->|(Dx & l & -> & Pl)] E.
  - unfold veval in *. destruct (v_data (fill_val o x)) eqn:Q; try discriminate E.
    + rewrite <- E. exact (const_sim _ _ _ _ _ Q).
    + destruct (c_ex s i) as [e|] eqn:Ex; [|discriminate E]. rewrite (ex_old _ _ Ex). cbn [obind] in *. destruct (x_fin e); [rewrite (evalv_sim _ _ _ _ _ _ S Ex); exact E|].
      rewrite (si_env _ _ S); [exact E|exact (ex_lt _ _ Ex)].
  - unfold veval in E. assert (F : fill_val o x = x) by (unfold fill_val; now rewrite Dx). rewrite F, Dx in E. destruct tv_ex as (e & Ex & Fi & _). rewrite Ex in E. cbn [obind] in E. rewrite Fi in E.
    destruct (D l Pl) as (El & e' & Ex' & Fi'). unfold veval. cbn [fill_val v_data val_insn]. rewrite Ex'. cbn [obind]. rewrite Fi'. rewrite El. now rewrite (V z E).
Qed.
Lemma vaddr_sim bi q q' P x y z : sim q q' -> valid q q' -> vdone q' P ->
  vrel v P (a_val x) (a_val y) -> a_off y = a_off x -> a_ot y = a_ot x -> vaddr s bi q (fill_addr o x) = Some z -> vaddr t bi q' (fill_addr o y) = Some z.
Proof.
  intros S V D Vr Ao At E. unfold vaddr in *.
  assert (Q : a_ot (fill_addr o y) = a_ot (fill_addr o x) /\ a_val (fill_addr o y) = a_val y /\ a_val (fill_addr o x) = a_val x /\ a_off (fill_addr o y) = a_off (fill_addr o x)).
  { unfold fill_addr. rewrite At. destruct (a_ot x) eqn:Q; cbn; repeat split; congruence. }
  destruct Q as (Q1 & Q2 & Q3 & Q4). rewrite Q1, Q2, Q4. rewrite Q3 in E. destruct (a_ot (fill_addr o x)) eqn:OT; try discriminate E. destruct Vr as [Ev|(Dx & l & Ev & Pl)]; rewrite Ev in *.
  - destruct (v_data (a_val x)) eqn:Dx; try discriminate E.
    + rewrite <- E. unfold addr_of. rewrite Q1, OT, Q2, Q3, Dx, Q4. reflexivity.
    + destruct (c_ex s i) as [e|] eqn:Ex; [|discriminate E]. rewrite (ex_old _ _ Ex). cbn [obind] in *. destruct (x_fin e).
      * rewrite <- E. unfold addr_of, placed_at, slot_addr. cbn. now rewrite !(sim_rget _ _ _ S).
      * rewrite (si_env _ _ S); [exact E|exact (ex_lt _ _ Ex)].
  - rewrite Dx in E. destruct tv_ex as (e & Ex & Fi & _). rewrite Ex in E. cbn [obind] in E. rewrite Fi in E. destruct (v_env q v) as [zv|] eqn:Evv; [|discriminate E]. cbn [obind] in E.
    destruct (D l Pl) as (El & e' & Ex' & Fi'). cbn [v_data val_insn]. rewrite Ex'. cbn [obind]. rewrite Fi', El. cbn [obind]. now rewrite (V zv Evv).
Qed.

Lemma rset_10 m r z : length (regs m) = 11%nat -> is_wreg r = true -> rget (rset m r z) 10 = rget m 10 /\ length (regs (rset m r z)) = 11%nat.
Proof.
  unfold is_wreg. intros L H. apply andb_true_iff in H as (H1 & H2). apply Z.leb_le in H1, H2. unfold rget, rset. cbn [regs].
  assert (Q : forall l k, (k < 10)%nat -> nth 10 (lset l k (u64 z)) 0 = nth 10 l 0 /\ length (lset l k (u64 z)) = length l).
  { intros l k Lk. do 11 (destruct l as [|? l]; [destruct k; cbn; auto; repeat (destruct k; cbn; auto)|]). do 10 (destruct k as [|k]; [cbn; auto|]). lia. }
  destruct (Q (regs m) (Z.to_nat r) ltac:(lia)) as (Q1 & Q2). rewrite Q2. auto.
Qed.
Lemma vput_sim q q' d z q1 : sim q q' -> vput s q d z = Some q1 -> exists q1', vput t q' d z = Some q1' /\ sim q1 q1' /\ keep q' q1' /\ (d <> v -> v_env q1 v = v_env q v) /\ (d = v -> v_env q1 v = Some (u64 z)).
Proof.
  intros S H. unfold vput in *. destruct (c_ex s d) as [e|] eqn:Ex; [|discriminate H]. rewrite (ex_old _ _ Ex). cbn [obind] in *. pose proof (ex_lt _ _ Ex) as Ld. destruct (x_fin e) eqn:Fi.
  - assert (Nv : d = v -> False). { intros ->. destruct tv_ex as (e' & E' & F' & _). congruence. }
    unfold wr in *. destruct (vp_alloc (x_pos e)); [|discriminate H]. destruct (Z.eqb_spec (vp_spilled (x_pos e)) 0) as [|N].
    + destruct (is_wreg (vp_reg (x_pos e))) eqn:Wr; [|discriminate H]. cbn [obind] in *. injection H as <-. eexists. split; [reflexivity|]. destruct (rset_10 (v_st q) _ z (si_len _ _ S) Wr) as (R1 & R2).
      split; [|split; [split; [reflexivity|reflexivity]|split; [reflexivity|tauto]]]. destruct S. constructor; cbn [v_st v_env]; auto.
      * unfold rset. cbn. now rewrite si_regs0.
      * congruence.
    + cbn [obind] in *. injection H as <-. eexists. split; [reflexivity|]. unfold slot_addr in *. rewrite (sim_rget _ _ _ S), (si_fp _ _ S).
      split; [|split; [split; [|reflexivity]|split; [reflexivity|tauto]]].
      * pose proof (si_fp _ _ S). destruct S. constructor; cbn [v_st v_env mset regs ncall mem rget]; auto. apply store_agree. assumption.
      * unfold slot. cbn [v_st mem mset]. apply load_off. apply off_sym. exact (far _ _ Ex N).
  - injection H as <-. eexists. split; [reflexivity|]. split; [|split; [split; [reflexivity|]|split]].
    + destruct S. constructor; cbn [v_st v_env]; auto.
      * intros d' L. unfold eupd. destruct (d' =? d)%nat; auto.
      * intros d' z'. unfold eupd. destruct (d' =? d)%nat; [|apply si_word0]. intros Q. injection Q as <-. unfold u64. lia.
    + intros d' L. cbn. unfold eupd. destruct (Nat.eqb_spec d' d); [lia|reflexivity].
    + intros N. cbn. unfold eupd. destruct (Nat.eqb_spec v d); [congruence|reflexivity].
    + intros ->. cbn. unfold eupd. now rewrite Nat.eqb_refl.
Qed.
Lemma dst_self b j e : In j (insns_of (c_f s) b) -> c_ex s j = Some e -> x_dst e = None \/ x_dst e = Some j.
Proof. intros I E. destruct (rd_insn _ (sb_ready _ Sb) b j (sb_all _ Sb _ _ I) I) as (x & e' & _ & _ & E' & D & _). rewrite E in E'. injection E' as <-. exact D. Qed.

(** what an old instruction does in both runs *)
Definition both (j : nat) (q q' : vst) (r r' : vres) : Prop :=
  match r, r' with
  | VNext q1, VNext q1' => sim q1 q1' /\ keep q' q1' /\ (j <> v -> v_env q1 v = v_env q v) /\ (j = v -> exists z, v_env q1 v = Some z)
  | VJmp b q1, VJmp b' q1' => b' = b /\ q1 = q /\ q1' = q'
  | VRet z q1, VRet z' q1' => z' = z /\ q1 = q /\ q1' = q'
  | _, _ => False
  end.
Lemma vwr_sim b j q q' z r : In j (insns_of (c_f s) b) -> sim q q' -> vnext (vwr s q j z) = Some r -> exists r', vnext (vwr t q' j z) = Some r' /\ both j q q' r r'.
Proof.
  intros I S H. unfold vwr in *. destruct (c_ex s j) as [e|] eqn:Ex; [|discriminate H]. rewrite (ex_old _ _ Ex). cbn [obind] in *. destruct (dst_self _ _ _ I Ex) as [D|D]; rewrite D in *; [discriminate H|].
  destruct (vput s q j z) as [q1|] eqn:P; [|discriminate H]. injection H as <-. destruct (vput_sim _ _ _ _ _ S P) as (q1' & -> & S1 & K1 & E1 & E2). eexists. split; [reflexivity|]. cbn. split; [exact S1|]. split; [exact K1|]. split; [exact E1|].
  intros Q. eexists. exact (E2 Q).
Qed.
Lemma v_no_var r k : variable (c_f s) r = Some k -> v_data r = VInsn v -> False.
Proof.
  unfold variable. intros H D. rewrite D, Xv in H. cbn [obind] in H. destruct (iop_eqb (i_op xv) ALLOC) eqn:Q; [|discriminate H]. apply op_same in Q. apply NK. rewrite Q. now left.
Qed.
Lemma variable_sim r k : variable (c_f s) r = Some k -> variable (c_f t) r = Some k /\ fst k <> v.
Proof.
  intros H. assert (NV : v_data r <> VInsn v) by (intros Q; exact (v_no_var _ _ H Q)). unfold variable in *. destruct (v_data r) as [| |i| | |] eqn:D; try discriminate H. destruct (f_insn (c_f s) i) as [x|] eqn:X; [|discriminate H]. cbn [obind] in *.
  destruct (w_old _ _ _ _ _ _ _ W _ _ X) as (y & Y & Ed). destruct (ed_rest _ _ _ _ _ Ed) as (Oy & Vy & _). rewrite Y. cbn [obind]. rewrite Oy, Vy. split; [exact H|].
  destruct (iop_eqb _ _); [|discriminate H]. destruct (vr_bytes (i_vrt x)); [|discriminate H]. injection H as <-. cbn. congruence.
Qed.
Lemma call_sim id q q' : sim q q' -> let q1 := mkV (v_env q) (call_helper w id (v_st q)) in let q1' := mkV (v_env q') (call_helper w id (v_st q')) in
  sim q1 q1' /\ keep q' q1'.
Proof.
  intros S. unfold call_helper. rewrite (si_nc _ _ S), !(sim_rget _ _ _ S).
  set (args := [rget (v_st q) 1; rget (v_st q) 2; rget (v_st q) 3; rget (v_st q) 4; rget (v_st q) 5]).
  destruct (HID (ncall (v_st q)) id args (mem (v_st q)) (mem (v_st q')) (si_mem _ _ S)) as (H1 & H2 & _).
  destruct (HID (ncall (v_st q)) id args (mem (v_st q')) (mem (v_st q')) (fun x _ => eq_refl)) as (_ & _ & H3).
  destruct (helper w (ncall (v_st q)) id args (mem (v_st q))) as [r m]. destruct (helper w (ncall (v_st q)) id args (mem (v_st q'))) as [r' m']. cbn [fst snd] in *. subst r'.
  cbv zeta. split.
  - destruct S. constructor; cbn [v_st v_env regs ncall mem]; auto.
    + now rewrite si_regs0.
    + rewrite app_length, map_length, skipn_length, si_len0. reflexivity.
    + rewrite <- si_fp0. unfold rget. cbn [regs]. destruct (regs (v_st q)) as [|a0 l0]; [discriminate si_len0|]. do 10 (destruct l0 as [|? l0]; [discriminate si_len0|]). reflexivity.
  - split; [|reflexivity]. unfold slot. cbn [v_st mem]. apply load_eq. intros j L. apply H3. apply (between_in sa 8). eauto.
Qed.
Lemma var_kept P u u' k : vrel v P u u' -> variable (c_f s) (fill_val o u) = Some k -> u' = u /\ variable (c_f t) (fill_val o u) = Some k /\ fst k <> v.
Proof.
  intros [->|(D & _)] H; [split; [reflexivity|exact (variable_sim _ _ H)]|]. exfalso. assert (F : fill_val o u = u) by (unfold fill_val; now rewrite D). rewrite F in H. exact (v_no_var _ _ H D).
Qed.
Lemma alloc_sim j q q' : sim q q' -> j <> v -> (j < n)%nat ->
  both j q q' (VNext (mkV (fun d => if (d =? j)%nat then None else v_env q d) (v_st q))) (VNext (mkV (fun d => if (d =? j)%nat then None else v_env q' d) (v_st q'))).
Proof.
  intros S N L. cbn. split; [|split; [split; [reflexivity|]|split; [|intros ->; congruence]]].
  - destruct S. constructor; cbn [v_st v_env]; auto.
    + intros d Ld. destruct (d =? j)%nat; auto.
    + intros d z. destruct (d =? j)%nat; [discriminate|apply si_word0].
  - intros d Ld. cbn. destruct (Nat.eqb_spec d j); [lia|reflexivity].
  - intros _. cbn. destruct (Nat.eqb_spec v j); [congruence|reflexivity].
Qed.
Ltac ev1 S V D H :=
  match type of H with
  | context [obind (veval s ?bi ?q (fill_val o ?u)) _] =>
    match goal with Vr : vrel v _ u ?u' |- _ =>
      let z := fresh "z" in let Q := fresh "Q" in
      destruct (veval s bi q (fill_val o u)) as [z|] eqn:Q; [|discriminate H]; rewrite (veval_sim _ _ _ _ _ _ _ S V D Vr Q); clear Q; cbn [obind] in H |- *
    end
  end.
Ltac wd H := match type of H with context [obind (width_of ?k) _] => destruct (width_of k); [|discriminate H]; cbn [obind] in H |- * end.
Lemma exec_sim bi b j x y q q' r : In j (insns_of (c_f s) b) -> f_insn (c_f s) j = Some x -> edited v (fun l => In l (pre j)) (ends s pre tail) x y -> i_op x <> PHI ->
  sim q q' -> valid q q' -> vdone q' (fun l => In l (pre j)) -> quiet R bi s (fill_insn o x) q = true -> vexec w bi s j (fill_insn o x) q = Some r ->
  exists r', vexec w bi t j (fill_insn o y) q' = Some r' /\ both j q q' r r'.
Proof.
  intros Ij X Ed NP S V D Qt H. destruct (ed_rest _ _ _ _ _ Ed) as (Oy & Ty & Ay & B1 & B2 & Uy & Iy & Iz & _). pose proof (ed_vals _ _ _ _ _ Ed) as EV. destruct (ed_addr _ _ _ _ _ Ed) as (EA & Eo & Et).
  assert (NKj : j = v -> i_op x = i_op xv) by congruence.
  assert (NA : (i_op x = ALLOC \/ i_op x = ALLOCARRAY) -> j <> v). { intros O Q. rewrite (NKj Q) in O. apply NK. cbn. intuition. }
  assert (NC : In (i_op x) [STORE; STORERAW; CALL] -> j <> v).
  { intros O ->. destruct Tv as (Lk & e & Ex & _ & De). rewrite (sh_dst _ (sb_shape _ Sb) v x e Lk X Ex O) in De. discriminate De. }
  assert (Lj : (j < n)%nat) by (apply (sh_ids _ (sb_shape _ Sb)); left; congruence).
  assert (LD : forall k z, vr_bytes (i_vrt x) = Some k -> i_op x = LOADRAW \/ i_op x = STORERAW -> vaddr s bi q (fill_addr o (i_addr x)) = Some z -> off_of sa 8 z k).
  { intros k z K OO Az. apply (between_off sa 8). apply (touches_sub R Rs); [exact SUB|]. unfold quiet in Qt. cbn [fill_insn set_addr set_phi set_vals i_op i_vrt i_addr] in Qt. rewrite K, Az in Qt. destruct (touches R z k); [|reflexivity]. destruct OO as [OO|OO]; rewrite OO in Qt; discriminate Qt. }
  unfold vexec in *. cbn [fill_insn set_addr set_phi set_vals i_op i_vals i_alu i_vrt i_addr i_u i_ity i_imm64 i_bb1 i_bb2] in *.
  rewrite Oy, Ty, Ay, B1, B2, Uy, Iy, Iz. clear Oy Ty Ay B1 B2 Uy Iy Iz Ed Qt.
  assert (LR : i_op x = LOADRAW -> (let? k := vr_bytes (i_vrt x) in let? a := vaddr s bi q (fill_addr o (i_addr x)) in vnext (vwr s q j (load (mem (v_st q)) a k))) = Some r ->
     exists r', (let? k := vr_bytes (i_vrt x) in let? a := vaddr t bi q' (fill_addr o (i_addr y)) in vnext (vwr t q' j (load (mem (v_st q')) a k))) = Some r' /\ both j q q' r r').
  { intros OL H0. destruct (vr_bytes (i_vrt x)) as [k|] eqn:K; [|discriminate H0]. cbn [obind] in *. destruct (vaddr s bi q (fill_addr o (i_addr x))) as [z|] eqn:Az; [|discriminate H0]. cbn [obind] in *.
    rewrite (vaddr_sim _ _ _ _ _ _ _ S V D EA Eo Et Az). cbn [obind]. rewrite <- (load_agree Rs k _ _ z (si_mem _ _ S)); [exact (vwr_sim _ _ _ _ _ _ Ij S H0)|]. apply (between_off sa 8). apply LD; auto. }
  destruct EV as [|u1 u1' l l' V1 EV]; [|destruct EV as [|u2 u2' l l' V2 EV]; [|destruct EV as [|u3 u3' l l' V3 EV]]]; cbn [map] in *.
  all: destruct (i_op x) eqn:O; try discriminate H; try (destruct NP; reflexivity); try (exact (LR eq_refl H)); clear LR.
  all: try (injection H as <-; eexists; split; [reflexivity|]; apply alloc_sim; auto; fail).
  all: try (destruct (_ && _); [|discriminate H]; exact (vwr_sim _ _ _ _ _ _ Ij S H)).
  all: try (injection H as <-; eexists; split; [reflexivity|]; cbn; rewrite ?(sim_rget _ _ _ S); auto; fail).
  all: try (repeat wd H; repeat ev1 S V D H; exact (vwr_sim _ _ _ _ _ _ Ij S H)).
  all: try (destruct (_ || _); [|discriminate H]; repeat ev1 S V D H; exact (vwr_sim _ _ _ _ _ _ Ij S H)).
  all: try (cbn [alu_op_of cmp_op_of] in *; repeat wd H; repeat ev1 S V D H; exact (vwr_sim _ _ _ _ _ _ Ij S H)).
  all: try (cbn [alu_op_of cmp_op_of] in *; repeat wd H; repeat ev1 S V D H; injection H as <-; eexists; split; [reflexivity|]; cbn; auto; fail).
  - injection H as <-. eexists. split; [reflexivity|]. destruct (call_sim (i_u x) _ _ S) as (S1 & K1). cbn [both]. split; [exact S1|]. split; [exact K1|]. split; [reflexivity|]. intros ->. exfalso. apply NC; auto. cbn. tauto.
  - destruct (variable (c_f s) (fill_val o u1)) as [k|] eqn:K; [|discriminate H]. destruct (var_kept _ _ _ _ V1 K) as (-> & K2 & _). rewrite K2. cbn [obind] in *.
    destruct (veval s bi q (fill_val o u1)) as [z|] eqn:Q; [|discriminate H]. rewrite (veval_sim _ _ _ _ _ _ _ S V D V1 Q). cbn [obind] in *. exact (vwr_sim _ _ _ _ _ _ Ij S H).
  - destruct (vr_bytes (i_vrt x)) as [k|] eqn:K; [|discriminate H]. cbn [obind] in *. destruct (vaddr s bi q (fill_addr o (i_addr x))) as [z|] eqn:Az; [|discriminate H]. cbn [obind] in *.
    rewrite (vaddr_sim _ _ _ _ _ _ _ S V D EA Eo Et Az). cbn [obind]. ev1 S V D H. injection H as <-. eexists. split; [reflexivity|]. cbn [both].
    split; [|split; [split; [|reflexivity]|split; [reflexivity|intros ->; exfalso; apply NC; auto; cbn; tauto]]].
    + destruct S. constructor; cbn [v_st v_env mset regs ncall mem rget]; auto. now apply store_agree.
    + unfold slot. cbn [v_st mem mset]. apply load_off. apply off_sym. apply LD; auto.
  - destruct (v_data (fill_val o u2)) eqn:Du; try discriminate H. rename i into d. destruct (c_ex s d) as [e|] eqn:Ex; [|discriminate H]. cbn [obind] in H.
    assert (Qu : u2' = u2).
    { destruct V2 as [->|(Dv & _)]; [reflexivity|]. exfalso. assert (F : fill_val o u2 = u2) by (unfold fill_val; now rewrite Dv). rewrite F, Dv in Du. injection Du as <-. destruct tv_ex as (e' & Ex' & Fi & _).
      rewrite Ex in Ex'. injection Ex' as <-. rewrite Fi in H. discriminate H. }
    rewrite Qu, Du, (ex_old _ _ Ex). cbn [obind]. destruct (_ && _); [|discriminate H]. ev1 S V D H. unfold slot_addr in *. rewrite (sim_rget _ _ _ S). exact (vwr_sim _ _ _ _ _ _ Ij S H).
  - destruct (variable (c_f s) (fill_val o u1)) as [k|] eqn:K; [|discriminate H]. destruct (var_kept _ _ _ _ V1 K) as (-> & K2 & Nk). rewrite K2. cbn [obind] in *.
    ev1 S V D H. destruct (vput s q (fst k) _) as [q1|] eqn:P; [|discriminate H]. cbn [obind vnext] in H. injection H as <-.
    destruct (vput_sim _ _ _ _ _ S P) as (q1' & -> & S1 & K1 & E1 & _). eexists. split; [reflexivity|]. cbn [both]. split; [exact S1|]. split; [exact K1|]. split; [intros _; exact (E1 Nk)|]. intros ->. exfalso. apply NC; auto. cbn. tauto.
Qed.
Lemma quiet_sim bi b j x y q q' r : In j (insns_of (c_f s) b) -> f_insn (c_f s) j = Some x -> edited v (fun l => In l (pre j)) (ends s pre tail) x y ->
  sim q q' -> valid q q' -> vdone q' (fun l => In l (pre j)) -> quiet R bi s (fill_insn o x) q = true -> vexec w bi s j (fill_insn o x) q = Some r -> quiet R bi t (fill_insn o y) q' = true.
Proof.
  intros Ij X Ed S V D Qt H. destruct (ed_rest _ _ _ _ _ Ed) as (Oy & Ty & _). destruct (ed_addr _ _ _ _ _ Ed) as (EA & Eo & Et).
  unfold quiet, vexec in *. cbn [fill_insn set_addr set_phi set_vals i_op i_vals i_alu i_vrt i_addr i_u i_ity i_imm64 i_bb1 i_bb2] in *. rewrite Oy, Ty.
  destruct (i_op x) eqn:O; try reflexivity.
  - destruct (vr_bytes (i_vrt x)) as [k|]; [|reflexivity]. cbn [obind] in H. destruct (map (fill_val o) (i_vals x)) as [|u [|u' [|u'' l]]]; try discriminate H.
    destruct (vaddr s bi q (fill_addr o (i_addr x))) as [z|] eqn:Az; [rewrite (vaddr_sim _ _ _ _ _ _ _ S V D EA Eo Et Az); exact Qt|cbn [obind] in H; discriminate H].
  - destruct (vr_bytes (i_vrt x)) as [k|]; [|reflexivity]. cbn [obind] in H. destruct (vaddr s bi q (fill_addr o (i_addr x))) as [z|] eqn:Az; [rewrite (vaddr_sim _ _ _ _ _ _ _ S V D EA Eo Et Az); exact Qt|cbn [obind] in H; discriminate H].
Qed.

(** *** the new instructions *)
Lemma slot_word q : 0 <= slot q < 2 ^ 64.
Proof. exact (load_range _ _ 8). Qed.
Lemma off_neg : c_off t < 0. Proof. destruct (sb_frame _ Sb) as (_ & A & _). destruct OFF. lia. Qed.
Lemma ids : a = n /\ st = S n. Proof. destruct (w_ids _ _ _ _ _ _ _ W) as (A & B & _). unfold n. lia. Qed.
Lemma v_lt : (v < n)%nat. Proof. apply (sh_ids _ (sb_shape _ Sb)). left. congruence. Qed.
Lemma slot_var : variable (c_f t) (val_insn a) = Some (a, 8%nat).
Proof. unfold variable. cbn [v_data val_insn]. destruct (w_a _ _ _ _ _ _ _ W) as ((u & ->) & _). reflexivity. Qed.
Definition got (q : vst) (l : nat) : vst := mkV (eupd (v_env q) l (slot q)) (v_st q).
Lemma load_exec bi l q q' : sim q q' -> (st < l < f_ni (c_f t))%nat -> exists y, f_insn (c_f t) l = Some y /\ quiet R bi t (fill_insn o y) q' = true /\ vexec w bi t l (fill_insn o y) q' = Some (VNext (got q' l)).
Proof.
  intros S L. destruct (w_ld _ _ _ _ _ _ _ W l L) as ((u & b & Y) & Ex & _). eexists. split; [exact Y|]. split; [reflexivity|].
  remember (fill_insn o (set_users u (load_insn b a l))) as y eqn:Ey. assert (Oy : i_op y = LOAD) by (rewrite Ey; reflexivity). assert (Vy : i_vals y = [val_insn a]) by (rewrite Ey; reflexivity). clear Ey.
  unfold vexec. rewrite Oy, Vy, slot_var. cbn [obind].
  unfold veval. cbn [v_data val_insn]. destruct (w_a _ _ _ _ _ _ _ W) as (_ & Ea). rewrite Ea. cbn [obind x_fin set_pos set_fin x_pos]. unfold evalv, placed_at. cbn [v_data vp_alloc vp_spilled]. pose proof off_neg. destruct (Z.eqb_spec (c_off t) 0); [lia|]. cbn [obind].
  unfold slot_addr. cbn [vp_spilled]. rewrite (sim_rget _ _ _ S), (si_fp _ _ S). fold sa. fold (slot q'). cbn [snd]. change (8 * Z.of_nat 8) with 64. pose proof (slot_word q') as Ws. rewrite (Z.mod_small (slot q')) by exact Ws.
  unfold vwr. rewrite Ex. cbn [obind]. change (x_dst (ex0 l LOAD)) with (Some l). cbv iota beta. unfold vput. rewrite Ex. cbn [obind ex0 x_fin]. unfold vnext. cbn [obind]. unfold got. do 3 f_equal. f_equal. unfold u64. rewrite Z.mod_small by exact Ws. reflexivity.
Qed.
Lemma got_sim q q' l : sim q q' -> (st < l)%nat -> sim q (got q' l) /\ slot (got q' l) = slot q'.
Proof.
  intros S L. destruct ids as (I1 & I2). split; [|reflexivity]. destruct S. constructor; cbn [got v_st v_env]; auto. intros d Ld. unfold eupd. destruct (Nat.eqb_spec d l); [lia|auto].
Qed.
Lemma ld_ex l : (st < l < f_ni (c_f t))%nat -> exists e, c_ex t l = Some e /\ x_fin e = false.
Proof. intros L. destruct (w_ld _ _ _ _ _ _ _ W l L) as (_ & Ex & _). eexists. split; [exact Ex|reflexivity]. Qed.
Lemma loads_exec bi L : forall q q' rest, sim q q' -> (forall l, In l L -> (st < l < f_ni (c_f t))%nat) ->
  exists q2, gbody R w bi t o q' (L ++ rest) = gbody R w bi t o q2 rest /\ sim q q2 /\ slot q2 = slot q' /\ vdone q2 (fun l => In l L) /\ (forall d, ~ In d L -> v_env q2 d = v_env q' d).
Proof.
  induction L as [|l L IH]; intros q q' rest S HL; cbn [app].
  - exists q'. split; [reflexivity|]. split; [exact S|]. split; [reflexivity|]. split; [intros k []|reflexivity].
  - pose proof (HL l (or_introl eq_refl)) as Ll. destruct (load_exec bi l q q' S Ll) as (y & Y & Qy & Ey). cbn [gbody]. rewrite Y. cbn [obind]. rewrite Qy, Ey. cbn [obind].
    destruct (got_sim q q' l S (proj1 Ll)) as (S1 & K1). destruct (IH q (got q' l) rest S1 (fun k Ik => HL k (or_intror Ik))) as (q2 & E2 & S2 & K2 & D2 & N2).
    exists q2. split; [exact E2|]. split; [exact S2|]. split; [congruence|]. split.
    + intros k Ik. destruct (in_dec Nat.eq_dec k L) as [I|N]; [exact (D2 k I)|]. destruct Ik as [->|I]; [|contradiction]. split; [|exact (ld_ex _ Ll)]. rewrite (N2 k N), K2, K1. cbn. unfold eupd. now rewrite Nat.eqb_refl.
    + intros d Nd. rewrite N2 by (intros I; apply Nd; now right). cbn. unfold eupd. destruct (Nat.eqb_spec d l) as [->|]; [destruct Nd; now left|reflexivity].
Qed.
Lemma alloc_exec bi q q' rest : sim q q' -> exists q2, gbody R w bi t o q' (a :: rest) = gbody R w bi t o q2 rest /\ sim q q2 /\ slot q2 = slot q'.
Proof.
  intros S. destruct (w_a _ _ _ _ _ _ _ W) as ((u & Ya) & _). cbn [gbody]. rewrite Ya. cbn [obind].
  remember (fill_insn o (set_users u (build (f_entry (c_f s)) (K_alloc VR_64)))) as y eqn:Ey. assert (Oy : i_op y = ALLOC) by (rewrite Ey; reflexivity). clear Ey. unfold quiet, vexec. rewrite Oy. cbn [obind].
  eexists. split; [reflexivity|]. split; [|reflexivity]. destruct ids as (I1 & _). destruct S. constructor; cbn [v_st v_env]; auto. intros d Ld. destruct (Nat.eqb_spec d a); [lia|auto].
Qed.
Lemma store_exec bi q q' z rest : sim q q' -> v_env q v = Some z -> exists q2, gbody R w bi t o q' (st :: rest) = gbody R w bi t o q2 rest /\ sim q q2 /\ slot q2 = z /\ valid q q2 /\ v_env q2 = v_env q'.
Proof.
  intros S Ez. destruct (w_st _ _ _ _ _ _ _ W) as ((u & b & Ys) & _). cbn [gbody]. rewrite Ys. cbn [obind].
  remember (fill_insn o (set_users u (build b (K_store a (val_insn v))))) as y eqn:Ey. assert (Oy : i_op y = STORE) by (rewrite Ey; reflexivity). assert (Vy : i_vals y = [val_insn a; val_insn v]) by (rewrite Ey; reflexivity). clear Ey.
  unfold quiet, vexec. rewrite Oy, Vy, slot_var. cbn [obind]. unfold veval. cbn [v_data val_insn]. destruct tv_ex as (e & Ex & Fi & _). rewrite (ex_old _ _ Ex). cbn [obind]. rewrite Fi, (si_env _ _ S _ v_lt), Ez. cbn [obind fst snd].
  change (8 * Z.of_nat 8) with 64. pose proof (si_word _ _ S _ _ Ez) as Wz. rewrite (Z.mod_small z) by exact Wz. unfold vput. destruct (w_a _ _ _ _ _ _ _ W) as (_ & Ea). rewrite Ea. cbn [obind x_fin set_pos set_fin x_pos].
  unfold wr. cbn [vp_alloc vp_spilled]. pose proof off_neg. destruct (Z.eqb_spec (c_off t) 0); [lia|]. cbn [obind vnext]. unfold slot_addr. cbn [vp_spilled]. rewrite (sim_rget _ _ _ S), (si_fp _ _ S). fold sa.
  eexists. split; [reflexivity|].
  assert (SL : slot (mkV (v_env q') (mset (v_st q') (store (mem (v_st q')) sa 8 z))) = z). { unfold slot. cbn [v_st mem mset]. rewrite load_store by lia. apply Z.mod_small. exact Wz. }
  split; [|split; [exact SL|split; [|reflexivity]]].
  - destruct S. constructor; cbn [v_st v_env mset regs ncall mem]; auto. apply store_inside; [|assumption]. intros k Lk. apply (between_in sa 8). eauto.
  - intros z' Ez'. rewrite SL. congruence.
Qed.

(** *** a block *)
Lemma next_no_term bi j x q q1 : f_insn (c_f s) j = Some x -> vexec w bi s j (fill_insn o x) q = Some (VNext q1) -> ~ is_terminator (c_f s) j.
Proof.
  intros X H T. apply (term_jmp _ _ _ X) in T. unfold vexec in H. cbn [fill_insn set_addr set_phi set_vals i_op i_vals i_alu i_vrt i_addr i_u i_ity i_imm64 i_bb1 i_bb2] in H.
  destruct (map (fill_val o) (i_vals x)) as [|u1 [|u2 [|u3 l]]]; destruct (i_op x); try discriminate T; try discriminate H; cbn [alu_op_of cmp_op_of] in H;
  repeat match type of H with obind ?e _ = _ => destruct e; [cbn [obind] in H|discriminate H] end; discriminate H.
Qed.
Lemma jump_term bi j x q c q1 : f_insn (c_f s) j = Some x -> vexec w bi s j (fill_insn o x) q = Some (VJmp c q1) -> is_terminator (c_f s) j.
Proof.
  intros X H. apply (term_jmp _ _ _ X). unfold vexec in H. cbn [fill_insn set_addr set_phi set_vals i_op i_vals i_alu i_vrt i_addr i_u i_ity i_imm64 i_bb1 i_bb2] in H.
  destruct (map (fill_val o) (i_vals x)) as [|u1 [|u2 [|u3 l]]]; destruct (i_op x); try reflexivity; try discriminate H; exfalso; cbn [alu_op_of cmp_op_of] in H; unfold vnext in H;
  repeat match type of H with context [obind ?e _] => destruct e; cbn [obind] in H; try discriminate H | context [if ?c then _ else _] => destruct c; try discriminate H | context [match v_data ?c with _ => _ end] => destruct (v_data c); try discriminate H end.
Qed.

Definition landed (b : nat) (r r' : vres) : Prop :=
  match r, r' with
  | VNext q1, VNext q1' => sim q1 q1' /\ valid q1 q1' /\ vdone q1' (fun l => In l (tail b))
  | VJmp c q1, VJmp c' q1' => c' = c /\ sim q1 q1' /\ valid q1 q1' /\ exists j, In j (insns_of (c_f s) b) /\ is_terminator (c_f s) j /\ vdone q1' (fun l => In l (pre j))
  | VRet z q1, VRet z' q1' => z' = z /\ sim q1 q1'
  | _, _ => False
  end.
Lemma body_sim bi b M : forall q q' r, (forall j, In j M -> In j (insns_of (c_f s) b) /\ ~ is_phi (c_f s) j) -> sim q q' -> valid q q' -> gbody R w bi s o q M = Some r ->
  exists r', gbody R w bi t o q' (flat_map (group v st pre) M ++ tail b) = Some r' /\ landed b r r'.
Proof.
  induction M as [|j M IH]; intros q q' r HM S V H; cbn [flat_map app gbody] in H |- *.
  - injection H as <-. destruct (loads_exec bi (tail b) q q' [] S) as (q2 & E2 & S2 & K2 & D2 & _). { intros l Il. apply (w_tail _ _ _ _ _ _ _ W _ _ Il). }
    rewrite app_nil_r in E2. rewrite E2. exists (VNext q2). split; [reflexivity|]. split; [exact S2|]. split; [|exact D2]. intros z Ez. rewrite K2. exact (V z Ez).
  - destruct (HM j (or_introl eq_refl)) as (Ij & Nj). destruct (f_insn (c_f s) j) as [x|] eqn:X; [|discriminate H]. cbn [obind] in H. destruct (quiet R bi s (fill_insn o x) q) eqn:Qt; [|discriminate H].
    destruct (vexec w bi s j (fill_insn o x) q) as [r1|] eqn:Ev; [|discriminate H]. cbn [obind] in H.
    unfold group at 1. rewrite <- !app_assoc. destruct (loads_exec bi (pre j) q q' (((j :: behind v st j) ++ flat_map (group v st pre) M) ++ tail b) S) as (q2 & E2 & S2 & K2 & D2 & _). { intros l Il. exact (w_pre _ _ _ _ _ _ _ W _ _ Il). }
    rewrite <- app_assoc in E2. rewrite E2. clear E2. assert (V2 : valid q q2). { intros z Ez. rewrite K2. exact (V z Ez). }
    destruct (w_old _ _ _ _ _ _ _ W j x X) as (y & Y & Ed). assert (NP : i_op x <> PHI). { intros P. apply Nj. exists x. auto. }
    destruct (exec_sim bi b j x y q q2 r1 Ij X Ed NP S2 V2 D2 Qt Ev) as (r1' & Ev' & B). pose proof (quiet_sim bi b j x y q q2 r1 Ij X Ed S2 V2 D2 Qt Ev) as Qt'.
    cbn [app gbody]. rewrite Y. cbn [obind]. rewrite Qt', Ev'. cbn [obind]. destruct r1 as [q1|c q1|z q1], r1' as [q1'|c' q1'|z' q1']; try contradiction.
    + destruct B as (S1 & K1 & A1 & A2). unfold behind. destruct (Nat.eqb_spec j v) as [Ejv|N].
      * destruct (A2 Ejv) as (z & Ez). cbn [app]. destruct (store_exec bi q1 q1' z (flat_map (group v st pre) M ++ tail b) S1 Ez) as (q3 & E3 & S3 & _ & V3 & _). rewrite E3. apply (IH q1 q3 r); auto. intros k Ik. apply HM. now right.
      * cbn [app]. apply (IH q1 q1' r); auto; [intros k Ik; apply HM; now right|]. intros z Ez. rewrite (A1 N) in Ez. destruct K1 as (K1 & _). rewrite K1. exact (V2 z Ez).
    + injection H as <-. destruct B as (-> & -> & ->). eexists. split; [reflexivity|]. split; [reflexivity|]. split; [exact S2|]. split; [exact V2|]. exists j. split; [exact Ij|]. split; [exact (jump_term _ _ _ _ _ _ X Ev)|exact D2].
    + injection H as <-. destruct B as (-> & -> & ->). eexists. split; [reflexivity|]. split; [reflexivity|exact S2].
Qed.
Lemma landed_ends b j q : In j (insns_of (c_f s) b) -> is_terminator (c_f s) j -> vdone q (fun l => In l (pre j)) -> vdone q (ends s pre tail b).
Proof.
  intros I T D l [L|(k & Ik & Tk & L)]; [destruct (proj2 (proj2 (w_tail _ _ _ _ _ _ _ W _ _ L)) j I T)|].
  assert (k = j) as ->; [|exact (D l L)]. apply in_split in I as (l1 & l2 & E1). apply in_split in Ik as (k1 & k2 & E2). pose proof (jump_last _ Sb _ _ _ _ E1 T) as ->. pose proof (jump_last _ Sb _ _ _ _ E2 Tk) as ->.
  rewrite E1 in E2. apply app_inj_tail in E2 as (_ & E2). auto.
Qed.
Lemma next_ends bi M : forall q q1, gbody R w bi s o q M = Some (VNext q1) -> forall j, In j M -> ~ is_terminator (c_f s) j.
Proof.
  induction M as [|k M IH]; intros q q1 H j Ij; [destruct Ij|]. cbn [gbody] in H. destruct (f_insn (c_f s) k) as [x|] eqn:X; [|discriminate H]. cbn [obind] in H. destruct (quiet R bi s (fill_insn o x) q); [|discriminate H].
  destruct (vexec w bi s k (fill_insn o x) q) as [r1|] eqn:Ev; [|discriminate H]. cbn [obind] in H. destruct r1; try discriminate H. destruct Ij as [->|Ij]; [exact (next_no_term _ _ _ _ _ X Ev)|exact (IH _ _ H j Ij)].
Qed.

(** *** phis *)
Lemma incoming_sim x y c p : Forall2 (fun a b => snd b = snd a /\ vrel v (ends s pre tail (snd a)) (fst a) (fst b)) (i_phi x) (i_phi y) -> incoming x c = Some p ->
  exists p', incoming y c = Some p' /\ vrel v (ends s pre tail c) p p'.
Proof.
  unfold incoming. induction 1 as [|u u' l l' (E1 & E2) F IH]; cbn [find option_map]; [discriminate|]. rewrite E1. destruct (Nat.eqb_spec (snd u) c) as [E|N]; [|exact IH]. cbn [option_map]. intros Q. injection Q as <-. exists (fst u'). split; [reflexivity|]. rewrite <- E. exact E2.
Qed.
Lemma phis_sim bi c b q0 q0' M M' : sim q0 q0' -> valid q0 q0' -> vdone q0' (ends s pre tail c) -> (forall i, In i M -> ~ is_phi (c_f s) i) ->
  match M' with [] => True | i :: _ => exists x, f_insn (c_f t) i = Some x /\ i_op x <> PHI end -> forall P q q' l q1, (forall i, In i P -> is_phi (c_f s) i /\ In i (insns_of (c_f s) b)) ->
  sim q q' -> vphis bi s o c q0 q (P ++ M) = Some (l, q1) ->
  l = M /\ exists q1', vphis bi t o c q0' q' (P ++ M') = Some (M', q1') /\ sim q1 q1' /\ slot q1' = slot q' /\ (~ In v P -> v_env q1 v = v_env q v) /\ (In v P \/ (exists z, v_env q v = Some z) -> exists z, v_env q1 v = Some z).
Proof.
  intros S0 V0 D0 NM HM' P. induction P as [|i P IH]; intros q q' l q1 HP S H; cbn [app] in *.
  - assert (l = M /\ q1 = q) as (-> & ->). { destruct M as [|m M]; cbn [vphis] in H; [split; congruence|]. destruct (f_insn (c_f s) m) as [x|] eqn:X; [|discriminate H]. cbn [obind] in H. destruct (iop_eqb (i_op x) PHI) eqn:O; [|split; congruence]. apply op_same in O. destruct (NM m (or_introl eq_refl)). exists x. auto. }
    split; [reflexivity|]. exists q'. split; [|split; [exact S|split; [reflexivity|split; [reflexivity|intros [[]|E]; exact E]]]].
    destruct M' as [|m M']; [reflexivity|]. destruct HM' as (x & X & O). cbn [vphis]. rewrite X. cbn [obind]. destruct (iop_eqb (i_op x) PHI) eqn:Q; [apply op_same in Q; contradiction|reflexivity].
  - destruct (HP i (or_introl eq_refl)) as ((x & X & O) & Ii). cbn [vphis] in *. rewrite X in H. cbn [obind] in H. rewrite O in H. cbn [iop_eqb] in H. change (iop_eqb PHI PHI) with true in H. cbv iota in H.
    destruct (incoming x c) as [p|] eqn:In0; [|discriminate H]. cbn [obind] in H. destruct (veval s bi q0 (fill_val o p)) as [z|] eqn:Ez; [|discriminate H]. cbn [obind] in H. destruct (vwr s q i z) as [q2|] eqn:Ew; [|discriminate H]. cbn [obind] in H.
    destruct (w_old _ _ _ _ _ _ _ W i x X) as (y & Y & Ed). destruct (incoming_sim x y c p (ed_phi _ _ _ _ _ Ed) In0) as (p' & In1 & Vp). pose proof (veval_sim bi q0 q0' _ p p' z S0 V0 D0 Vp Ez) as Ez'.
    destruct (vwr_sim b i q q' z (VNext q2) Ii S) as (r' & Er & B). { rewrite Ew. reflexivity. }
    destruct r' as [q2'| |]; try contradiction. destruct B as (S2 & (K2 & _) & A1 & A2). destruct (vwr t q' i z) as [q3|] eqn:Ew'; [|discriminate Er]. injection Er as ->.
    assert (O' : i_op y = PHI). { destruct (ed_rest _ _ _ _ _ Ed) as (-> & _). exact O. }
    destruct (IH q2 q2' l q1 (fun k Ik => HP k (or_intror Ik)) S2 H) as (El & q1' & E1 & S1 & K1 & A3 & A4). split; [exact El|]. exists q1'. split.
    { rewrite Y. cbn [obind]. rewrite O'. change (iop_eqb PHI PHI) with true. cbv iota. rewrite In1. cbn [obind]. rewrite Ez'. cbn [obind]. rewrite Ew'. cbn [obind]. exact E1. }
    split; [exact S1|]. split; [congruence|]. split.
    + intros N. rewrite A3 by (intros I; apply N; now right). apply A1. intros ->. apply N. now left.
    + intros Hv. destruct (Nat.eq_dec i v) as [Ei|N]; [apply A4; right; exact (A2 Ei)|]. apply A4. destruct Hv as [[E|I]|E]; [congruence|now left|right]. rewrite (A1 N). exact E.
Qed.

(** *** blocks *)
Definition went (b : nat) (r r' : vres) : Prop :=
  match r, r' with
  | VJmp c q1, VJmp c' q1' => c' = c /\ sim q1 q1' /\ valid q1 q1' /\ vdone q1' (ends s pre tail b)
  | VRet z q1, VRet z' q1' => z' = z /\ sim q1 q1'
  | _, _ => False
  end.
Lemma block_sim bi c b q q' r : sim q q' -> valid q q' -> vdone q' (ends s pre tail c) \/ phi_free s b -> gblock R w bi s o c b q = Some r ->
  exists r', gblock R w bi t o c b q' = Some r' /\ went b r r'.
Proof.
  intros S V D H. unfold gblock in *. destruct (f_block (c_f s) b) as [k|] eqn:K; [|discriminate H]. destruct (f_block (c_f t) b) as [k'|] eqn:K'; [|apply (proj1 (proj2 (w_cfg _ _ _ _ _ _ _ W))) in K'; congruence]. cbn [obind] in *.
  destruct (vphis (bi c) s o c q q (b_insns k)) as [(l & q1)|] eqn:Ph; [|discriminate H]. cbn [obind] in H. destruct (gbody R w (bi b) s o q1 l) as [r1|] eqn:Bo; [|discriminate H]. cbn [obind] in H.
  assert (Es : insns_of (c_f s) b = b_insns k) by (unfold insns_of; now rewrite K). assert (Et : insns_of (c_f t) b = b_insns k') by (unfold insns_of; now rewrite K').
  assert (Su : b_succs k' = b_succs k). { pose proof (proj1 (proj2 (proj2 (w_cfg _ _ _ _ _ _ _ W))) b) as Q. unfold succs_of in Q. now rewrite K, K' in Q. }
  destruct (w_list _ _ _ _ _ _ _ W b) as (P & M & LP & HP & HM & LT). rewrite <- Es, LP in Ph. rewrite <- Et, LT.
  assert (IP : forall i, In i P -> is_phi (c_f s) i /\ In i (insns_of (c_f s) b)). { intros i Ii. split; [auto|]. rewrite LP. apply in_or_app. now left. }
  assert (IM : forall j, In j M -> In j (insns_of (c_f s) b) /\ ~ is_phi (c_f s) j). { intros j Ij. split; [rewrite LP; apply in_or_app; now right|auto]. }
  set (M' := flat_map (group v st pre) M ++ tail b) in *.
  assert (HM' : match atop s v a st b ++ M' with [] => True | i :: _ => exists x, f_insn (c_f t) i = Some x /\ i_op x <> PHI end).
  { destruct (atop s v a st b ++ M') as [|i rest] eqn:Q; [exact I|]. assert (Ii : In i (atop s v a st b ++ M')) by (rewrite Q; now left).
    assert (Ld : forall l, (st < l < f_ni (c_f t))%nat -> exists x, f_insn (c_f t) l = Some x /\ i_op x <> PHI). { intros l0 L0. destruct (w_ld _ _ _ _ _ _ _ W l0 L0) as ((u & b0 & Y) & _). eexists. split; [exact Y|]. discriminate. }
    assert (La : exists x, f_insn (c_f t) a = Some x /\ i_op x <> PHI). { destruct (w_a _ _ _ _ _ _ _ W) as ((u & Y) & _). eexists. split; [exact Y|]. discriminate. }
    assert (Ls : exists x, f_insn (c_f t) st = Some x /\ i_op x <> PHI). { destruct (w_st _ _ _ _ _ _ _ W) as ((u & b0 & Y) & _). eexists. split; [exact Y|]. discriminate. }
    unfold M', atop in Ii. rewrite !in_app_iff in Ii. destruct Ii as [[Ii|Ii]|[Ii|Ii]].
    - destruct (b =? f_entry (c_f s))%nat; [|destruct Ii]. destruct Ii as [<-|[]]. exact La.
    - destruct (f_insn (c_f s) v); [|destruct Ii]. destruct (_ && _); [|destruct Ii]. destruct Ii as [<-|[]]. exact Ls.
    - apply in_flat_map in Ii as (j & Ij & Ii). unfold group in Ii. apply in_app_or in Ii as [Ii|[<-|Ii]]; [exact (Ld _ (w_pre _ _ _ _ _ _ _ W _ _ Ii))| |].
      + destruct (td_linked _ (sb_tidy _ Sb) b j (proj1 (IM j Ij))) as (x & X & _). destruct (w_old _ _ _ _ _ _ _ W j x X) as (y & Y & Ed). exists y. split; [exact Y|]. destruct (ed_rest _ _ _ _ _ Ed) as (-> & _). intros O. apply (HM j Ij). exists x. auto.
      + unfold behind in Ii. destruct (j =? v)%nat; [|destruct Ii]. destruct Ii as [<-|[]]. exact Ls.
    - exact (Ld _ (proj1 (w_tail _ _ _ _ _ _ _ W _ _ Ii))). }
  assert (Done : exists q1', l = M /\ vphis (bi c) t o c q' q' (P ++ atop s v a st b ++ M') = Some (atop s v a st b ++ M', q1') /\ sim q1 q1' /\ slot q1' = slot q' /\ (~ In v P -> v_env q1 v = v_env q v) /\ (In v P -> exists z, v_env q1 v = Some z)).
  { destruct P as [|i0 P].
    - cbn [app] in *. assert (l = M /\ q1 = q) as (-> & ->). { destruct M as [|m M0]; cbn [vphis] in Ph; [split; congruence|]. destruct (f_insn (c_f s) m) as [x|] eqn:X; [|discriminate Ph]. cbn [obind] in Ph. destruct (iop_eqb (i_op x) PHI) eqn:O; [|split; congruence]. apply op_same in O. destruct (HM m (or_introl eq_refl)). exists x. auto. }
      exists q'. split; [reflexivity|]. split; [|split; [exact S|split; [reflexivity|split; [reflexivity|intros []]]]].
      destruct (atop s v a st b ++ M') as [|m rest]; [reflexivity|]. destruct HM' as (x & X & O). cbn [vphis]. rewrite X. cbn [obind]. destruct (iop_eqb (i_op x) PHI) eqn:Q; [apply op_same in Q; contradiction|reflexivity].
    - assert (D' : vdone q' (ends s pre tail c)). { destruct D as [D|PF]; [exact D|]. destruct (PF i0 (P ++ M)); [exact LP|]. apply HP. now left. }
      destruct (phis_sim (bi c) c b q q' M _ S V D' HM HM' (i0 :: P) q q' l q1 IP S Ph) as (El & q1' & E1 & S1 & K1 & A1 & A2). exists q1'. split; [exact El|]. split; [exact E1|]. split; [exact S1|]. split; [exact K1|]. split; [exact A1|]. intros Iv. apply A2. now left. }
  destruct Done as (q1' & -> & E1 & S1 & K1 & A1 & A2). rewrite E1. cbn [obind].
  assert (Top : exists q2, gbody R w (bi b) t o q1' (atop s v a st b ++ M') = gbody R w (bi b) t o q2 M' /\ sim q1 q2 /\ valid q1 q2).
  { unfold atop. rewrite <- app_assoc.
    assert (T1 : exists q2, gbody R w (bi b) t o q1' ((if (b =? f_entry (c_f s))%nat then [a] else []) ++ (match f_insn (c_f s) v with Some x => if iop_eqb (i_op x) PHI && (b =? i_parent x)%nat then [st] else [] | None => [] end) ++ M') =
       gbody R w (bi b) t o q2 ((match f_insn (c_f s) v with Some x => if iop_eqb (i_op x) PHI && (b =? i_parent x)%nat then [st] else [] | None => [] end) ++ M') /\ sim q1 q2 /\ slot q2 = slot q1').
    { destruct (b =? f_entry (c_f s))%nat; cbn [app]; [exact (alloc_exec (bi b) q1 q1' _ S1)|]. exists q1'. auto. }
    destruct T1 as (q2 & -> & S2 & K2). rewrite Xv. destruct (iop_eqb (i_op xv) PHI && (b =? i_parent xv)%nat) eqn:Pv.
    - apply andb_true_iff in Pv as (O & Eb). apply op_same in O. apply Nat.eqb_eq in Eb. assert (Iv : In v P).
      { destruct (proj1 Tv) as (b0 & Ib & I0). destruct (td_linked _ (sb_tidy _ Sb) b0 v I0) as (x & X & Pa). rewrite Xv in X. injection X as <-. assert (Q0 : b0 = b) by congruence. rewrite Q0, LP in I0. apply in_app_or in I0 as [I0|I0]; [exact I0|]. destruct (HM v I0). exists xv. auto. }
      destruct (A2 Iv) as (z & Ez). cbn [app]. destruct (store_exec (bi b) q1 q2 z M' S2 Ez) as (q3 & E3 & S3 & _ & V3 & _). exists q3. auto.
    - cbn [app]. exists q2. split; [reflexivity|]. split; [exact S2|]. intros z Ez. rewrite K2, K1. apply V. rewrite <- A1; [exact Ez|]. intros Iv. destruct (IP v Iv) as ((x & X & O) & Ib). rewrite Xv in X. injection X as <-. destruct (td_linked _ (sb_tidy _ Sb) b v Ib) as (x & X & Pa). rewrite Xv in X. injection X as <-.
      rewrite O in Pv. change (iop_eqb PHI PHI) with true in Pv. cbn [andb] in Pv. apply Nat.eqb_neq in Pv. congruence. }
  destruct Top as (q2 & -> & S2 & V2). destruct (body_sim (bi b) b M q1 q2 r1 IM S2 V2 Bo) as (r1' & E3 & La). fold M' in E3. rewrite E3. cbn [obind].
  destruct r1 as [q3|c3 q3|z3 q3], r1' as [q3'|c3' q3'|z3' q3']; try contradiction.
  - destruct La as (S3 & V3 & D3). rewrite Su. destruct (b_succs k) as [|s1 sl]; [discriminate H|]. injection H as <-. eexists. split; [reflexivity|]. split; [reflexivity|]. split; [exact S3|]. split; [exact V3|].
    intros l0 [L|(j & Ij & Tj & L)]; [exact (D3 l0 L)|]. exfalso. rewrite LP in Ij. apply in_app_or in Ij as [Ij|Ij]; [|exact (next_ends _ _ _ _ Bo j Ij Tj)].
    destruct (HP j Ij) as (x & X & O). apply (term_jmp _ _ _ X) in Tj. rewrite O in Tj. discriminate Tj.
  - injection H as <-. destruct La as (-> & S3 & V3 & j & Ij & Tj & D3). eexists. split; [reflexivity|]. split; [reflexivity|]. split; [exact S3|]. split; [exact V3|]. exact (landed_ends _ _ _ Ij Tj D3).
  - injection H as <-. destruct La as (-> & S3). eexists. split; [reflexivity|]. split; [reflexivity|exact S3].
Qed.
Lemma sim_but q q' : sim q q' -> same_but Rs n [v] q q'.
Proof. intros S. destruct S. constructor; auto. intros d L _. symmetry. auto. Qed.
Lemma run_sim bi k : forall c b q q' out, sim q q' -> valid q q' -> vdone q' (ends s pre tail c) \/ phi_free s b -> grun R w bi s o k c b q = Some out ->
  exists out', grun R w bi t o k c b q' = Some out' /\ same_end Rs n [v] out out'.
Proof.
  induction k as [|k IH]; intros c b q q' out S V D H; cbn [grun] in *.
  - injection H as <-. eexists. split; [reflexivity|]. split; [reflexivity|]. split; [reflexivity|exact (sim_but _ _ S)].
  - destruct (gblock R w bi s o c b q) as [r|] eqn:G; [|discriminate H]. cbn [obind] in H. destruct (block_sim bi c b q q' r S V D G) as (r' & -> & Wt). cbn [obind]. destruct r as [q1|c1 q1|z1 q1], r' as [q1'|c1' q1'|z1' q1']; try contradiction.
    + destruct Wt as (-> & S1 & V1 & D1). exact (IH _ _ _ _ _ S1 V1 (or_introl D1) H).
    + destruct Wt as (-> & S1). injection H as <-. eexists. split; [reflexivity|]. split; [reflexivity|exact (sim_but _ _ S1)].
Qed.
End Sim.
