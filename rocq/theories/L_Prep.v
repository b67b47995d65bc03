(** Preparing a function for register allocation: what the edits do to its executions.
    The executions are those of [SpecVirt] except that a call that has not been changed yet (it has a
    result) takes its operands itself. *)
From Coq Require Import ZArith List Bool Arith Lia.
From Verif Require Import M_Base M_Ir M_Norm M_Edit M_Ra SpecWord SpecFlat SpecProg SpecSsa SpecIr SpecRa SpecPass SpecShift SpecVirt SpecSpill L_Virt L_Guard.
From Verif Require Import SpecRa SpecVirt.
Import ListNotations.
Open Scope nat_scope.

Fixpoint evs (s : cgs) (bi : bconst -> Z) (q : vst) (l : list value) : option (list Z) :=
  match l with
  | [] => Some []
  | v :: r => let? z := veval s bi q v in let? t := evs s bi q r in Some (z :: t)
  end.
(** the arguments in R(k+1), R(k+2), ... *)
Fixpoint set_args (k : nat) (m : st) (a : list Z) : st :=
  match a with [] => m | z :: r => set_args (S k) (rset m (Z.of_nat (S k)) z) r end.
Definition hexec0 (w : world) (bi : bconst -> Z) (s : cgs) (i : nat) (x : insn) (q : vst) : option vres :=
  if iop_eqb (i_op x) CALL then
    let? e := c_ex s i in
    match x_dst e with
    | Some _ => let? a := evs s bi q (i_vals x) in
                let m := call_helper w (i_u x) (set_args 0 (v_st q) a) in
                Some (VNext (mkV (eupd (v_env q) i (u64 (rget m 0))) m))
    | None => vexec w bi s i x q
    end
  else vexec w bi s i x q.
(** nothing touches the addresses in [R] *)
Definition hexec (R : addrs) (w : world) (bi : bconst -> Z) (s : cgs) (i : nat) (x : insn) (q : vst) : option vres :=
  if quiet R bi s x q then hexec0 w bi s i x q else None.
Fixpoint hbody (R : addrs) (w : world) (bi : bconst -> Z) (s : cgs) (o : Z) (q : vst) (l : list nat) : option vres :=
  match l with
  | [] => Some (VNext q)
  | i :: r =>
    let? x := f_insn (c_f s) i in
    let? t := hexec R w bi s i (fill_insn o x) q in
    match t with VNext q' => hbody R w bi s o q' r | _ => Some t end
  end.
Definition hblock (R : addrs) (w : world) (bi : nat -> bconst -> Z) (s : cgs) (o : Z) (prev b : nat) (q : vst) : option vres :=
  let? k := f_block (c_f s) b in
  let? r := vphis (bi prev) s o prev q q (b_insns k) in
  let '(l, q1) := r in
  let? t := hbody R w (bi b) s o q1 l in
  match t with
  | VNext q2 => match b_succs k with b' :: _ => Some (VJmp b' q2) | [] => None end
  | _ => Some t
  end.
Fixpoint hrun (R : addrs) (w : world) (bi : nat -> bconst -> Z) (s : cgs) (o : Z) (n prev b : nat) (q : vst) : option vout :=
  match n with
  | O => Some (VAt prev b q)
  | S k =>
    let? t := hblock R w bi s o prev b q in
    match t with
    | VJmp b' q' => hrun R w bi s o k b b' q'
    | VRet r q' => Some (VDone r q')
    | VNext _ => None
    end
  end.

Lemma raw_addr w bi s i x q r : i_op x = LOADRAW \/ i_op x = STORERAW -> hexec0 w bi s i x q = Some r ->
  exists k a, vr_bytes (i_vrt x) = Some k /\ vaddr s bi q (i_addr x) = Some a.
Proof.
  intros O. unfold hexec0, vexec. destruct O as [O|O]; rewrite O; change (iop_eqb _ CALL) with false; cbv iota.
  all: destruct (i_vals x) as [|v1 [|v2 [|v3 l]]]; cbn [alu_op_of cmp_op_of]; try discriminate; destruct (vr_bytes (i_vrt x)) as [k|]; try discriminate; destruct (vaddr s bi q (i_addr x)) as [a|]; try discriminate; eauto.
Qed.
Lemma quiet_as R bi s t x y q q' : i_op y = i_op x -> i_vrt y = i_vrt x ->
  (i_op x = LOADRAW \/ i_op x = STORERAW -> exists a a', vaddr s bi q (i_addr x) = Some a /\ vaddr t bi q' (i_addr y) = Some a' /\ u64 a' = u64 a) ->
  quiet R bi s x q = true -> quiet R bi t y q' = true.
Proof.
  intros O V A. unfold quiet. rewrite O, V. destruct (i_op x); auto; destruct (A ltac:(auto)) as (a & a' & -> & -> & E); destruct (vr_bytes (i_vrt x)); auto; now rewrite (touches_u64 R _ _ _ E).
Qed.
Lemma quiet_op R bi s x q : i_op x <> LOADRAW -> i_op x <> STORERAW -> quiet R bi s x q = true.
Proof. unfold quiet. destruct (i_op x); congruence. Qed.
Lemma hexec_op R w bi s i x q : i_op x <> LOADRAW -> i_op x <> STORERAW -> hexec R w bi s i x q = hexec0 w bi s i x q.
Proof. intros A B. unfold hexec. now rewrite quiet_op. Qed.
Lemma hbody_app R w bi s o l1 : forall q l2, hbody R w bi s o q (l1 ++ l2) =
  let? t := hbody R w bi s o q l1 in match t with VNext q' => hbody R w bi s o q' l2 | _ => Some t end.
Proof.
  induction l1 as [|i l1 IH]; intros q l2; cbn [app hbody obind]; [reflexivity|].
  destruct (f_insn (c_f s) i) as [x|]; cbn [obind]; [|reflexivity]. destruct (hexec R w bi s i (fill_insn o x) q) as [[q'| |]|]; cbn [obind]; auto.
Qed.

(** ** Operands renamed by [τ] *)
Definition vsim (τ : nat -> nat) (v v' : value) : Prop :=
  match v_data v with VInsn d => v_data v' = VInsn (τ d) | _ => v' = v end.
Record isim (τ : nat -> nat) (x y : insn) : Prop := {
  is_rest : i_op y = i_op x /\ i_vrt y = i_vrt x /\ i_alu y = i_alu x /\ i_bb1 y = i_bb1 x /\ i_bb2 y = i_bb2 x /\
            i_u y = i_u x /\ i_ity y = i_ity x /\ i_imm64 y = i_imm64 x /\ i_parent y = i_parent x;
  is_vals : Forall2 (vsim τ) (i_vals x) (i_vals y);
  is_phi : i_op x = PHI -> Forall2 (fun e e' => vsim τ (fst e) (fst e') /\ snd e' = snd e) (i_phi x) (i_phi y);
  is_addr : i_op x = LOADRAW \/ i_op x = STORERAW ->
    vsim τ (a_val (i_addr x)) (a_val (i_addr y)) /\ a_off (i_addr y) = a_off (i_addr x) /\ a_ot (i_addr y) = a_ot (i_addr x) }.
Lemma vsim_fill τ o v v' : vsim τ v v' -> vsim τ (fill_val o v) (fill_val o v').
Proof. unfold vsim, fill_val. destruct (v_data v) eqn:D; intros H; cbn [v_data]; try (subst v'; rewrite ?D; reflexivity). now rewrite H, D. Qed.
Lemma fill_data o v d : v_data (fill_val o v) = VInsn d -> v_data v = VInsn d.
Proof. unfold fill_val. destruct (v_data v) eqn:D; cbn; congruence. Qed.

(** ** One edit: [i] becomes [seg i], block [b0] gets [pre] in front, and operands are renamed *)
Record edit (s t : cgs) (τ : nat -> nat) (i : nat) (seg : nat -> list nat) (pre : list nat) (b0 : nat) : Prop := {
  ed_reach : c_reach t = c_reach s;
  ed_list : forall b, In b (c_reach s) -> insns_of (c_f t) b = (if b =? b0 then pre else []) ++ flat_map seg (insns_of (c_f s) b);
  ed_seg : forall j, j <> i -> seg j = [j];
  ed_head : linked s i -> exists j r y, seg i = j :: r /\ f_insn (c_f t) j = Some y /\ i_op y <> PHI;
  ed_i : forall x, f_insn (c_f s) i = Some x -> i_op x <> PHI /\ i_op x <> ALLOC;
  ed_blk : forall b, In b (c_reach s) -> f_block (c_f t) b <> None;
  ed_succs : forall b, In b (c_reach s) -> succs_of (c_f t) b = succs_of (c_f s) b;
  ed_insn : forall j x, j <> i -> f_insn (c_f s) j = Some x -> exists y, f_insn (c_f t) j = Some y /\ isim τ x y;
  ed_tau : forall d a, f_insn (c_f s) a <> None -> τ d = a -> d = a;
  ed_fix : forall j x, f_insn (c_f s) j = Some x -> linked s j \/ i_op x = ALLOC -> j <> i -> τ j = j;
  ed_ex : forall d e, c_ex s d = Some e -> exists e', c_ex t (τ d) = Some e' /\ x_fin e' = x_fin e /\ (x_fin e = true -> x_pos e' = x_pos e);
  ed_exj : forall j, linked s j -> j <> i -> c_ex t j = c_ex s j }.

(** values that are used *)
Definition used (s : cgs) (d : nat) : Prop :=
  exists u x v, linked s u /\ f_insn (c_f s) u = Some x /\ In v (operand_values x) /\ v_data v = VInsn d.
Record hrel (s : cgs) (τ : nat -> nat) (q q' : vst) : Prop := {
  hr_st : v_st q' = v_st q;
  hr_env : forall d z, used s d -> v_env q d = Some z -> v_env q' (τ d) = Some z }.
Definition hres (s : cgs) (τ : nat -> nat) (r r' : vres) : Prop :=
  match r, r' with
  | VNext q, VNext q' => hrel s τ q q'
  | VJmp b q, VJmp b' q' => b' = b /\ hrel s τ q q'
  | VRet z q, VRet z' q' => z' = z /\ hrel s τ q q'
  | _, _ => False
  end.

Section Edit.
Context (s t : cgs) (τ : nat -> nat) (i : nat) (seg : nat -> list nat) (pre : list nat) (b0 : nat) (R : addrs) (w : world) (o : Z).
Hypothesis E : edit s t τ i seg pre b0.
(** the data of an instruction names the instruction itself *)
Hypothesis Self : forall j e d, linked s j -> c_ex s j = Some e -> x_dst e = Some d -> d = j.
Hypothesis Live : forall j, linked s j -> f_insn (c_f s) j <> None.

Lemma eval_h bi q q' v v' z : hrel s τ q q' -> vsim τ v v' -> (forall d, v_data v = VInsn d -> used s d) ->
  veval s bi q v = Some z -> veval t bi q' v' = Some z.
Proof.
  intros H V U. unfold veval, vsim in *. destruct (v_data v) eqn:D; try discriminate.
  - subst v'. rewrite D. now rewrite (hr_st _ _ _ _ H).
  - rewrite V. destruct (c_ex s i0) as [e|] eqn:X; [|discriminate]. cbn [obind]. destruct (ed_ex _ _ _ _ _ _ _ E _ _ X) as (e' & X' & F & P). rewrite X'. cbn [obind]. rewrite F.
    destruct (x_fin e) eqn:Fe.
    + rewrite (P eq_refl), (hr_st _ _ _ _ H). intros K. exact K.
    + apply (hr_env _ _ _ _ H). now apply U.
Qed.
Lemma addr_h bi q q' a a' z : hrel s τ q q' -> vsim τ (a_val a) (a_val a') -> a_off a' = a_off a -> a_ot a' = a_ot a -> (forall d, v_data (a_val a) = VInsn d -> used s d) ->
  vaddr s bi q a = Some z -> vaddr t bi q' a' = Some z.
Proof.
  intros H V Eo Et U. unfold vaddr, vsim in *. rewrite Et, Eo. destruct (a_ot a) eqn:T; try discriminate. destruct (v_data (a_val a)) eqn:D; try discriminate.
  - rewrite V, D. unfold addr_of. rewrite Et, V, T, D, Eo. intros K; exact K.
  - rewrite V. destruct (c_ex s i0) as [e|] eqn:X; [|discriminate]. cbn [obind]. destruct (ed_ex _ _ _ _ _ _ _ E _ _ X) as (e' & X' & F & P). rewrite X'. cbn [obind]. rewrite F.
    destruct (x_fin e) eqn:Fe.
    + rewrite (P eq_refl), (hr_st _ _ _ _ H). intros K. exact K.
    + destruct (v_env q i0) as [z0|] eqn:Q; [|discriminate]. cbn [obind]. intros K. rewrite (hr_env _ _ _ _ H _ _ (U _ eq_refl) Q). exact K.
Qed.
Lemma hrel_env q q' j z : hrel s τ q q' -> f_insn (c_f s) j <> None -> τ j = j ->
  hrel s τ (mkV (eupd (v_env q) j z) (v_st q)) (mkV (eupd (v_env q') j z) (v_st q')).
Proof.
  intros H L T. constructor; cbn; [apply (hr_st _ _ _ _ H)|]. intros d a U. unfold eupd. destruct (Nat.eqb_spec d j) as [->|N].
  - intros K. rewrite T, Nat.eqb_refl. exact K.
  - intros K. destruct (Nat.eqb_spec (τ d) j) as [Q|_]; [exfalso; apply N; exact (ed_tau _ _ _ _ _ _ _ E _ _ L Q)|]. now apply (hr_env _ _ _ _ H).
Qed.
Lemma hrel_st q q' m : hrel s τ q q' -> hrel s τ (mkV (v_env q) m) (mkV (v_env q') m).
Proof. intros H. constructor; cbn; [reflexivity|apply (hr_env _ _ _ _ H)]. Qed.
Lemma put_h q q' d z q1 : hrel s τ q q' -> f_insn (c_f s) d <> None -> τ d = d -> vput s q d z = Some q1 ->
  exists q1', vput t q' d z = Some q1' /\ hrel s τ q1 q1'.
Proof.
  intros H L T. unfold vput. destruct (c_ex s d) as [e|] eqn:X; [|discriminate]. destruct (ed_ex _ _ _ _ _ _ _ E _ _ X) as (e' & X' & F & P).
  rewrite T in X'. rewrite X'. cbn [obind]. rewrite F. destruct (x_fin e) eqn:Fe.
  - rewrite (P eq_refl), (hr_st _ _ _ _ H). destruct (wr (v_st q) (x_pos e) z) as [m|]; [|discriminate]. cbn [obind]. intros K. injection K as <-.
    eexists. split; [reflexivity|]. now apply hrel_st.
  - intros K. injection K as <-. eexists. split; [reflexivity|]. now apply hrel_env.
Qed.
Lemma vwr_h q q' j z q1 : hrel s τ q q' -> linked s j -> j <> i -> vwr s q j z = Some q1 ->
  exists q1', vwr t q' j z = Some q1' /\ hrel s τ q1 q1'.
Proof.
  intros H L N. unfold vwr. rewrite (ed_exj _ _ _ _ _ _ _ E j L N). destruct (c_ex s j) as [e|] eqn:X; [|discriminate]. cbn [obind].
  destruct (x_dst e) as [d|] eqn:D; [|discriminate]. pose proof (Self j e d L X D) as ->. apply put_h; [exact H|now apply Live|].
  pose proof (Live j L) as Lj. destruct (f_insn (c_f s) j) as [x|] eqn:Y; [|congruence]. exact (ed_fix _ _ _ _ _ _ _ E j x Y (or_introl L) N).
Qed.
Lemma var_h v v' r : vsim τ v v' -> variable (c_f s) v = Some r -> variable (c_f t) v' = Some r /\ f_insn (c_f s) (fst r) <> None /\ τ (fst r) = fst r.
Proof.
  unfold variable, vsim. destruct (v_data v) eqn:D; try discriminate. intros V. rewrite V. destruct (f_insn (c_f s) i0) as [y|] eqn:Y; [|discriminate]. cbn [obind].
  destruct (iop_eqb (i_op y) ALLOC) eqn:O; [|discriminate]. assert (O' : i_op y = ALLOC) by (destruct (i_op y); discriminate || reflexivity).
  destruct (vr_bytes (i_vrt y)) as [k|] eqn:K; [|discriminate]. cbn [obind]. intros Q. injection Q as <-. cbn [fst].
  assert (N : i0 <> i). { intros ->. destruct (ed_i _ _ _ _ _ _ _ E y Y). contradiction. }
  pose proof (ed_fix _ _ _ _ _ _ _ E i0 y Y (or_intror O') N) as T. rewrite T.
  destruct (ed_insn _ _ _ _ _ _ _ E i0 y N Y) as (y' & Y' & I'). destruct (is_rest _ _ _ I') as (R1 & R2 & _). rewrite Y'. cbn [obind]. rewrite R1, O, R2, K. cbn [obind].
  split; [reflexivity|]. split; congruence.
Qed.
Lemma evs_h bi q q' l l' a : hrel s τ q q' -> Forall2 (vsim τ) l l' -> (forall v d, In v l -> v_data v = VInsn d -> used s d) -> evs s bi q l = Some a -> evs t bi q' l' = Some a.
Proof.
  intros H F. revert a. induction F as [|v v' l l' V F IH]; intros a U; cbn [evs]; [auto|].
  destruct (veval s bi q v) as [z|] eqn:Q; [|discriminate]. cbn [obind]. destruct (evs s bi q l) as [b|]; [|discriminate]. cbn [obind]. intros K. injection K as <-.
  rewrite (eval_h bi q q' v v' z H V (fun d => U v d (or_introl eq_refl)) Q). cbn [obind]. rewrite (IH b (fun v0 d I0 => U v0 d (or_intror I0)) eq_refl). reflexivity.
Qed.
Lemma Forall2_fill l l' : Forall2 (vsim τ) l l' -> Forall2 (vsim τ) (map (fill_val o) l) (map (fill_val o) l').
Proof. induction 1; cbn; constructor; auto. now apply vsim_fill. Qed.

Ltac step1 H := match type of H with context [obind ?e _] => let z := fresh "z" in let Q := fresh "Q" in destruct e as [z|] eqn:Q; [cbn [obind] in H|discriminate H] end.
Ltac vals F := repeat match type of F with
  | Forall2 _ [] _ => inversion F; subst; clear F
  | Forall2 _ (_ :: _) _ => let V := fresh "V" in let F' := fresh "F" in inversion F as [|? ? ? ? V F']; subst; clear F; rename F' into F
  end.

Ltac evv := repeat match goal with
  | VO : (forall v v' z, In v _ -> vsim τ v v' -> _), Q : veval s _ _ ?v = Some ?z, V : vsim τ ?v ?y |- context [veval t _ _ ?y] => rewrite (VO v y z ltac:(cbn; auto) V Q); cbn [obind] end.
Lemma exec_h bi j x y q q' r : linked s j -> j <> i -> f_insn (c_f s) j = Some x -> isim τ x y -> hrel s τ q q' ->
  hexec R w bi s j (fill_insn o x) q = Some r -> exists r', hexec R w bi t j (fill_insn o y) q' = Some r' /\ hres s τ r r'.
Proof.
  intros L N X I H Ex. destruct (is_rest _ _ _ I) as (Eo & Ev & Ea & E1 & E2 & Eu & Ei & E6 & _).
  assert (Fv : Forall2 (vsim τ) (i_vals (fill_insn o x)) (i_vals (fill_insn o y))) by (cbn; apply Forall2_fill, I).
  assert (US : forall v d, In v (i_vals (fill_insn o x)) -> v_data v = VInsn d -> used s d).
  { intros v d K D. cbn in K. apply in_map_iff in K as (v0 & <- & K). exists j, x, v0. split; [exact L|]. split; [exact X|]. split; [apply in_or_app; now left|now apply fill_data in D]. }
  assert (AO : forall z, i_op x = LOADRAW \/ i_op x = STORERAW -> vaddr s bi q (i_addr (fill_insn o x)) = Some z -> vaddr t bi q' (i_addr (fill_insn o y)) = Some z).
  { intros z OR. destruct (is_addr _ _ _ I OR) as (A1 & A2 & A3). apply addr_h; cbn; auto.
    - unfold fill_addr. rewrite A3. destruct (a_ot (i_addr x)); cbn; auto.
    - unfold fill_addr. rewrite A3, A2. destruct (a_ot (i_addr x)); cbn; auto.
    - unfold fill_addr. rewrite A3. destruct (a_ot (i_addr x)) eqn:T; cbn; auto. now rewrite A3, T.
    - intros d D. exists j, x, (a_val (i_addr x)). split; [exact L|]. split; [exact X|]. split.
      + unfold operand_values. apply in_or_app. right. destruct OR as [-> | ->]; now left.
      + revert D. unfold fill_addr. destruct (a_ot (i_addr x)); cbn; auto. }
  assert (VO : forall v v' z, In v (i_vals (fill_insn o x)) -> vsim τ v v' -> veval s bi q v = Some z -> veval t bi q' v' = Some z).
  { intros v v' z K V. apply eval_h; auto. intros d D. exact (US v d K D). }
  assert (RO : forall z q1, vwr s q j z = Some q1 -> exists r, vnext (vwr t q' j z) = Some r /\ hres s τ (VNext q1) r).
  { intros z q1 K. destruct (vwr_h q q' j z q1 H L N K) as (q1' & K' & R'). exists (VNext q1'). rewrite K'. split; [reflexivity|exact R']. }
  assert (PH : i_op x <> PHI \/ i_op x = PHI) by (destruct (i_op x); (now right) || (left; discriminate)).
  unfold hexec in Ex. destruct (quiet R bi s (fill_insn o x) q) eqn:Qt; [|discriminate Ex].
  assert (Qt' : quiet R bi t (fill_insn o y) q' = true).
  { revert Qt. apply quiet_as. - cbn. now rewrite Eo. - cbn. now rewrite Ev. - intros OR. destruct (raw_addr _ _ _ _ _ _ _ OR Ex) as (k & a & _ & A). exists a, a. split; [exact A|]. split; [exact (AO _ OR A)|reflexivity]. }
  unfold hexec. rewrite Qt'. clear Qt Qt'.
  unfold hexec0 in Ex |- *. change (i_op (fill_insn o x)) with (i_op x) in *. change (i_op (fill_insn o y)) with (i_op y) in *. rewrite Eo.
  destruct (iop_eqb (i_op x) CALL) eqn:Cl.
  { rewrite (ed_exj _ _ _ _ _ _ _ E j L N). destruct (c_ex s j) as [e|] eqn:Xe; [|discriminate Ex]. cbn [obind] in Ex |- *. destruct (x_dst e) as [d|] eqn:De.
    - destruct (evs s bi q (i_vals (fill_insn o x))) as [a|] eqn:A; [|discriminate Ex]. cbn [obind] in Ex. rewrite (evs_h bi q q' _ _ a H Fv US A). cbn [obind].
      change (i_u (fill_insn o x)) with (i_u x) in Ex. change (i_u (fill_insn o y)) with (i_u y). rewrite Eu, (hr_st _ _ _ _ H). injection Ex as <-. eexists. split; [reflexivity|].
      cbn. set (m := call_helper _ _ _). refine (hrel_env (mkV (v_env q) m) (mkV (v_env q') m) j _ (hrel_st q q' m H) _ _); [now apply Live|].
      exact (ed_fix _ _ _ _ _ _ _ E j x X (or_introl L) N).
    - unfold vexec in Ex |- *. change (i_op (fill_insn o x)) with (i_op x) in Ex. change (i_op (fill_insn o y)) with (i_op y). change (i_u (fill_insn o x)) with (i_u x) in Ex. change (i_u (fill_insn o y)) with (i_u y).
      rewrite Eo, Eu. generalize dependent (i_vals (fill_insn o y)). intros vs' Fv. destruct (i_op x); try discriminate Cl.
      destruct (i_vals (fill_insn o x)) as [|? [|? [|]]]; try discriminate Ex. vals Fv. injection Ex as <-. eexists. split; [reflexivity|]. cbn. rewrite (hr_st _ _ _ _ H). now apply hrel_st. }
  unfold vexec in Ex |- *. revert Ex Fv US AO VO.
  change (i_op (fill_insn o x)) with (i_op x). change (i_alu (fill_insn o x)) with (i_alu x). change (i_bb1 (fill_insn o x)) with (i_bb1 x).
  change (i_bb2 (fill_insn o x)) with (i_bb2 x). change (i_u (fill_insn o x)) with (i_u x). change (i_ity (fill_insn o x)) with (i_ity x).
  change (i_imm64 (fill_insn o x)) with (i_imm64 x). change (i_vrt (fill_insn o x)) with (i_vrt x).
  change (i_op (fill_insn o y)) with (i_op y). change (i_alu (fill_insn o y)) with (i_alu y). change (i_bb1 (fill_insn o y)) with (i_bb1 y).
  change (i_bb2 (fill_insn o y)) with (i_bb2 y). change (i_u (fill_insn o y)) with (i_u y). change (i_ity (fill_insn o y)) with (i_ity y).
  change (i_imm64 (fill_insn o y)) with (i_imm64 y). change (i_vrt (fill_insn o y)) with (i_vrt y).
  rewrite Eo, Ea, E1, E2, Eu, Ei, E6, Ev.
  generalize (i_addr (fill_insn o x)) (i_addr (fill_insn o y)). intros ad ad'.
  generalize dependent (i_vals (fill_insn o x)). intros vs. generalize dependent (i_vals (fill_insn o y)). intros vs'.
  assert (NA : i_op x = ALLOC \/ i_op x = ALLOCARRAY -> exists r', Some (VNext (mkV (fun v => if (v =? j)%nat then None else v_env q' v) (v_st q'))) = Some r' /\
     hres s τ (VNext (mkV (fun v => if (v =? j)%nat then None else v_env q v) (v_st q))) r').
  { intros _. eexists. split; [reflexivity|]. cbn. constructor; cbn; [apply (hr_st _ _ _ _ H)|]. intros d z U. destruct (Nat.eqb_spec d j) as [->|Nd]; [discriminate|].
    intros K. destruct (Nat.eqb_spec (τ d) j) as [Q|_]; [exfalso; apply Nd; exact (ed_tau _ _ _ _ _ _ _ E _ _ (Live j L) Q)|]. now apply (hr_env _ _ _ _ H). }
  assert (O0 : exists op, i_op x = op) by eauto. destruct O0 as [op O]. rewrite O in *.
  destruct op; cbn [iop_eqb orb alu_op_of cmp_op_of]; try discriminate Cl.
  all: try (intros Ex; discriminate Ex).
  all: destruct vs as [|v1 [|v2 [|v3 vr]]]; try (intros Ex; discriminate Ex); intros Ex Fv US AO VO.
  all: vals Fv.
  all: unfold vnext in Ex.
  all: try (injection Ex as <-; apply NA; solve [auto]).
  all: try (injection Ex as <-; eexists; split; [reflexivity|]; split; [reflexivity|exact H]).
  all: try (repeat step1 Ex; evv;
    cbn [obind]; injection Ex as <-; solve [apply RO; assumption | eexists; split; [reflexivity|]; split; [reflexivity|exact H]]).
  all: try (destruct ((i_u x =? 16) || (i_u x =? 32) || (i_u x =? 64))%Z; [|discriminate Ex]; repeat step1 Ex;
    evv; injection Ex as <-; apply RO; assumption).
  all: try (destruct ((0 <=? i_ity x) && (i_ity x <=? 6))%Z; [|discriminate Ex]; repeat step1 Ex; injection Ex as <-; apply RO; assumption).
  all: try (repeat step1 Ex; injection Ex as <-; cbn [obind]; erewrite AO by (solve [auto|eassumption]); cbn [obind]; rewrite (hr_st _ _ _ _ H); apply RO; assumption).
  - (* array element *)
    destruct (v_data v2) eqn:D2; try discriminate Ex. match goal with V : vsim τ v2 _ |- _ => unfold vsim in V; rewrite D2 in V; rewrite V end.
    step1 Ex. destruct (ed_ex _ _ _ _ _ _ _ E _ _ Q) as (e' & X' & F & P). rewrite X'. cbn [obind]. rewrite F.
    destruct (x_fin z); [|discriminate Ex]. rewrite (P eq_refl). destruct (true && _); [|discriminate Ex]. repeat step1 Ex.
    evv.
    rewrite (hr_st _ _ _ _ H). injection Ex as <-. apply RO; assumption.
  - (* store to a variable *)
    repeat step1 Ex. injection Ex as <-. match goal with Q : variable _ _ = Some _, V : vsim τ v1 _ |- _ => destruct (var_h _ _ _ V Q) as (A1 & A2 & A3) end. rewrite A1. cbn [obind].
    evv.
    match goal with Q : vput s q _ _ = Some _ |- _ => destruct (put_h _ _ _ _ _ H A2 A3 Q) as (q1' & K1 & K2) end. rewrite K1. exists (VNext q1'). split; [reflexivity|exact K2].
  - (* load from a variable *)
    repeat step1 Ex. injection Ex as <-. match goal with Q : variable _ _ = Some _, V : vsim τ v1 _ |- _ => destruct (var_h _ _ _ V Q) as (A1 & A2 & A3) end. rewrite A1. cbn [obind].
    evv. apply RO; assumption.
  - (* store to memory *)
    repeat step1 Ex. injection Ex as <-. cbn [obind]. erewrite AO by (solve [auto|eassumption]). cbn [obind].
    evv.
    eexists. split; [reflexivity|]. cbn. rewrite (hr_st _ _ _ _ H). now apply hrel_st.
  - (* return R0 *)
    injection Ex as <-. eexists. split; [reflexivity|]. cbn. rewrite (hr_st _ _ _ _ H). auto.
Qed.

Hypothesis This : forall bi x q q' r, linked s i -> f_insn (c_f s) i = Some x -> hrel s τ q q' ->
  hexec R w bi s i (fill_insn o x) q = Some r -> exists r', hbody R w bi t o q' (seg i) = Some r' /\ hres s τ r r'.

Lemma body_h bi l : forall q q' r, (forall j, In j l -> linked s j) -> hrel s τ q q' -> hbody R w bi s o q l = Some r ->
  exists r', hbody R w bi t o q' (flat_map seg l) = Some r' /\ hres s τ r r'.
Proof.
  induction l as [|j l IH]; intros q q' r L H Ex; cbn [hbody flat_map] in Ex |- *.
  - injection Ex as <-. eexists. split; [reflexivity|exact H].
  - destruct (f_insn (c_f s) j) as [x|] eqn:X; [|discriminate Ex]. cbn [obind] in Ex. destruct (hexec R w bi s j (fill_insn o x) q) as [r1|] eqn:X1; [|discriminate Ex]. cbn [obind] in Ex.
    pose proof (L j (or_introl eq_refl)) as Lj.
    assert (K : exists r', hbody R w bi t o q' (seg j) = Some r' /\ hres s τ r1 r').
    { destruct (Nat.eq_dec j i) as [->|N]; [exact (This bi x q q' r1 Lj X H X1)|]. rewrite (ed_seg _ _ _ _ _ _ _ E j N). cbn [hbody].
      destruct (ed_insn _ _ _ _ _ _ _ E j x N X) as (y & Y & I). rewrite Y. cbn [obind]. destruct (exec_h bi j x y q q' r1 Lj N X I H X1) as (r' & Er & Hr). rewrite Er. cbn [obind].
      exists r'. split; [|exact Hr]. destruct r'; reflexivity. }
    destruct K as (r' & K & Hr). rewrite hbody_app, K. cbn [obind]. destruct r1 as [q1|c q1|z q1], r' as [q2|c' q2|z' q2]; cbn in Hr; try contradiction.
    + apply (IH q1 q2 r (fun k K0 => L k (or_intror K0)) Hr Ex).
    + injection Ex as <-. eexists. split; [reflexivity|exact Hr].
    + injection Ex as <-. eexists. split; [reflexivity|exact Hr].
Qed.
Lemma phis_h bi prev q0 q0' : hrel s τ q0 q0' -> forall l q q' l' q1, (forall j, In j l -> linked s j) -> hrel s τ q q' ->
  vphis bi s o prev q0 q l = Some (l', q1) -> exists q1', vphis bi t o prev q0' q' (flat_map seg l) = Some (flat_map seg l', q1') /\ hrel s τ q1 q1' /\ incl l' l.
Proof.
  intros H0. induction l as [|j l IH]; intros q q' l' q1 L H Ex; cbn [vphis flat_map] in Ex |- *.
  - injection Ex as <- <-. exists q'. split; [reflexivity|]. split; [exact H|apply incl_refl].
  - destruct (f_insn (c_f s) j) as [x|] eqn:X; [|discriminate Ex]. cbn [obind] in Ex. pose proof (L j (or_introl eq_refl)) as Lj. destruct (Nat.eq_dec j i) as [->|N].
    + destruct (ed_i _ _ _ _ _ _ _ E x X) as (NP & _). assert (NP' : iop_eqb (i_op x) PHI = false) by (destruct (i_op x); reflexivity || congruence). rewrite NP' in Ex.
      injection Ex as <- <-. destruct (ed_head _ _ _ _ _ _ _ E Lj) as (k & r & y & S1 & Y & NY). cbn [flat_map]. rewrite S1. cbn [app vphis]. rewrite Y. cbn [obind].
      assert (NY' : iop_eqb (i_op y) PHI = false) by (destruct (i_op y); reflexivity || congruence). rewrite NY'. exists q'. split; [reflexivity|]. split; [exact H|apply incl_refl].
    + rewrite (ed_seg _ _ _ _ _ _ _ E j N). cbn [app vphis]. destruct (ed_insn _ _ _ _ _ _ _ E j x N X) as (y & Y & I). rewrite Y. cbn [obind].
      destruct (is_rest _ _ _ I) as (Eo & _). rewrite Eo. destruct (iop_eqb (i_op x) PHI) eqn:P.
      * assert (P' : i_op x = PHI) by (destruct (i_op x); reflexivity || discriminate P).
        destruct (incoming x prev) as [v|] eqn:Iv; [|discriminate Ex]. cbn [obind] in Ex.
        assert (IN : exists v', incoming y prev = Some v' /\ vsim τ v v' /\ In v (operand_values x)).
        { pose proof (is_phi _ _ _ I P') as F. unfold operand_values. rewrite P'. unfold incoming in *. clear -F Iv. revert Iv.
          assert (G : forall l l', Forall2 (fun e e' => vsim τ (fst e) (fst e') /\ snd e' = snd e) l l' -> option_map fst (find (fun q => (snd q =? prev)%nat) l) = Some v ->
             exists v', option_map fst (find (fun q => (snd q =? prev)%nat) l') = Some v' /\ vsim τ v v' /\ In v (map fst l)).
          { intros l l' FF. induction FF as [|e e' l l' (V & S0) FF IH]; cbn; [discriminate|]. rewrite S0. destruct (snd e =? prev); cbn.
            - intros K. injection K as <-. exists (fst e'). auto.
            - intros K. destruct (IH K) as (v' & A & B & C). exists v'. auto. }
          intros K. destruct (G _ _ F K) as (v' & A & B & C). exists v'. split; [exact A|]. split; [exact B|]. apply in_or_app. now right. }
        destruct IN as (v' & Iv' & V & Inv). rewrite Iv'. cbn [obind]. destruct (veval s bi q0 (fill_val o v)) as [z|] eqn:Q; [|discriminate Ex]. cbn [obind] in Ex.
        rewrite (eval_h bi q0 q0' (fill_val o v) (fill_val o v') z H0 (vsim_fill τ o v v' V)); [|intros d D; exists j, x, v; repeat split; auto; now apply fill_data in D|exact Q]. cbn [obind].
        destruct (vwr s q j z) as [q2|] eqn:W; [|discriminate Ex]. cbn [obind] in Ex. destruct (vwr_h q q' j z q2 H Lj N W) as (q2' & W' & H2). rewrite W'. cbn [obind].
        destruct (IH q2 q2' l' q1 (fun k K => L k (or_intror K)) H2 Ex) as (q1' & A & B & C). exists q1'. split; [exact A|]. split; [exact B|]. now apply incl_tl.
      * injection Ex as <- <-. cbn [flat_map]. rewrite (ed_seg _ _ _ _ _ _ _ E j N). exists q'. split; [reflexivity|]. split; [exact H|apply incl_refl].
Qed.
Hypothesis Closed : forall b c, In b (c_reach s) -> leads s b c -> In c (c_reach s) /\ (pre = [] \/ c <> b0).

Lemma hexec_jump bi j x q c q' : hexec R w bi s j (fill_insn o x) q = Some (VJmp c q') ->
  (i_op x = JA /\ i_bb1 x = c) \/ (is_cond_jmp_op (i_op x) = true /\ (i_bb1 x = c \/ i_bb2 x = c)).
Proof.
  unfold hexec. destruct (quiet _ _ _ _ _); [|discriminate]. unfold hexec0. destruct (iop_eqb (i_op (fill_insn o x)) CALL); [|apply vexec_jump]. destruct (c_ex s j) as [e|]; [|discriminate]. cbn [obind].
  destruct (x_dst e); [|apply vexec_jump]. destruct (evs _ _ _ _); discriminate.
Qed.
Lemma hbody_jump bi l : forall q c q', hbody R w bi s o q l = Some (VJmp c q') ->
  exists j x, In j l /\ f_insn (c_f s) j = Some x /\ ((i_op x = JA /\ i_bb1 x = c) \/ (is_cond_jmp_op (i_op x) = true /\ (i_bb1 x = c \/ i_bb2 x = c))).
Proof.
  induction l as [|j l IH]; intros q c q'; cbn [hbody]; [discriminate|]. destruct (f_insn (c_f s) j) as [x|] eqn:X; [|discriminate]. cbn [obind].
  destruct (hexec R w bi s j (fill_insn o x) q) as [[q1|c1 q1|z q1]|] eqn:Ex; cbn [obind]; try discriminate.
  - intros K. destruct (IH _ _ _ K) as (k & y & A & B & C). exists k, y. split; [now right|auto].
  - intros K. injection K as <- <-. exists j, x. split; [now left|]. split; [exact X|]. exact (hexec_jump _ _ _ _ _ _ Ex).
Qed.
Lemma vphis_incl bi prev q0 l : forall q l' q1, vphis bi s o prev q0 q l = Some (l', q1) -> incl l' l.
Proof.
  induction l as [|j l IH]; intros q l' q1; cbn [vphis]; [intros K; injection K as <- <-; apply incl_refl|]. destruct (f_insn (c_f s) j) as [x|]; [|discriminate]. cbn [obind].
  destruct (iop_eqb (i_op x) PHI); [|intros K; injection K as <- <-; apply incl_refl]. destruct (incoming x prev); [|discriminate]. cbn [obind].
  destruct (veval _ _ _ _); [|discriminate]. cbn [obind]. destruct (vwr _ _ _ _) as [q2|]; [|discriminate]. cbn [obind]. intros K. apply incl_tl. exact (IH _ _ _ K).
Qed.
Lemma hblock_leads bi prev b q c q' : hblock R w bi s o prev b q = Some (VJmp c q') -> leads s b c.
Proof.
  unfold hblock, leads, insns_of, succs_of. destruct (f_block (c_f s) b) as [k|]; [|discriminate]. cbn [obind]. destruct (vphis _ _ _ _ _ _ _) as [[l q1]|] eqn:V; [|discriminate]. cbn [obind].
  pose proof (vphis_incl _ _ _ _ _ _ _ V) as In0. destruct (hbody R w (bi b) s o q1 l) as [[q2|c2 q2|z q2]|] eqn:Hb; cbn [obind]; try discriminate.
  - destruct (b_succs k) as [|b' r] eqn:Sc; [discriminate|]. intros K. injection K as <- <-. right. reflexivity.
  - intros K. injection K as <- <-. left. destruct (hbody_jump _ _ _ _ _ Hb) as (j & x & A & B & C). exists j, x. split; [now apply In0|auto].
Qed.
Lemma blk_ex b : In b (c_reach s) -> f_block (c_f s) b <> None -> exists k k', f_block (c_f s) b = Some k /\ f_block (c_f t) b = Some k' /\ b_succs k' = b_succs k /\
  b_insns k' = (if b =? b0 then pre else []) ++ flat_map seg (b_insns k).
Proof.
  intros Hb Nb. destruct (f_block (c_f s) b) as [k|] eqn:B; [|congruence]. pose proof (ed_blk _ _ _ _ _ _ _ E b Hb) as B'. destruct (f_block (c_f t) b) as [k'|] eqn:B2; [|congruence].
  exists k, k'. pose proof (ed_succs _ _ _ _ _ _ _ E b Hb) as S1. pose proof (ed_list _ _ _ _ _ _ _ E b Hb) as L1. unfold succs_of, insns_of in *. rewrite B, B2 in *. auto.
Qed.
Lemma block_h bi prev b q q' r : In b (c_reach s) -> pre = [] \/ b <> b0 -> hrel s τ q q' -> hblock R w bi s o prev b q = Some r ->
  exists r', hblock R w bi t o prev b q' = Some r' /\ hres s τ r r'.
Proof.
  intros Hb Np H Ex. pose proof Ex as Ex0. unfold hblock in Ex0. destruct (f_block (c_f s) b) as [k|] eqn:B; [|discriminate Ex0]. clear Ex0.
  destruct (blk_ex b Hb ltac:(congruence)) as (k0 & k' & B0 & B' & Sc & Li). rewrite B in B0. injection B0 as <-. unfold hblock in Ex |- *. rewrite B in Ex. rewrite B'. cbn [obind] in Ex |- *.
  assert (Li' : b_insns k' = flat_map seg (b_insns k)). { rewrite Li. destruct Np as [->|N]; [destruct (b =? b0); reflexivity|]. apply Nat.eqb_neq in N. now rewrite N. }
  rewrite Li', Sc. clear Li Li'. destruct (vphis (bi prev) s o prev q q (b_insns k)) as [[l q1]|] eqn:V; [|discriminate Ex]. cbn [obind] in Ex.
  assert (LK : forall j, In j (b_insns k) -> linked s j). { intros j J. exists b. split; [exact Hb|]. unfold insns_of. now rewrite B. }
  destruct (phis_h (bi prev) prev q q' H (b_insns k) q q' l q1 LK H V) as (q1' & V' & H1 & I1). rewrite V'. cbn [obind].
  destruct (hbody R w (bi b) s o q1 l) as [r1|] eqn:Hb1; [|discriminate Ex]. cbn [obind] in Ex.
  destruct (body_h (bi b) l q1 q1' r1 (fun j J => LK j (I1 j J)) H1 Hb1) as (r1' & Hb2 & Hr). rewrite Hb2. cbn [obind].
  destruct r1 as [q2|c q2|z q2], r1' as [q2'|c' q2'|z' q2']; cbn in Hr; try contradiction.
  - destruct (b_succs k) as [|c rr]; [discriminate Ex|]. injection Ex as <-. eexists. split; [reflexivity|]. cbn. auto.
  - injection Ex as <-. eexists. split; [reflexivity|]. exact Hr.
  - injection Ex as <-. eexists. split; [reflexivity|]. exact Hr.
Qed.
Lemma run_h bi n : forall prev b q q' z q1, In b (c_reach s) -> pre = [] \/ b <> b0 -> hrel s τ q q' -> hrun R w bi s o n prev b q = Some (VDone z q1) ->
  exists q1', hrun R w bi t o n prev b q' = Some (VDone z q1') /\ v_st q1' = v_st q1.
Proof.
  induction n as [|n IH]; intros prev b q q' z q1 Hb Np H Ex; cbn [hrun] in Ex |- *; [discriminate|].
  destruct (hblock R w bi s o prev b q) as [r|] eqn:B; [|discriminate Ex]. cbn [obind] in Ex. destruct (block_h bi prev b q q' r Hb Np H B) as (r' & B' & Hr). rewrite B'. cbn [obind].
  destruct r as [q2|c q2|z2 q2], r' as [q2'|c' q2'|z' q2']; cbn in Hr; try contradiction; try discriminate Ex.
  - destruct Hr as (-> & Hr). destruct (Closed b c Hb (hblock_leads _ _ _ _ _ _ B)) as (Hc & Nc). exact (IH b c q2 q2' z q1 Hc Nc Hr Ex).
  - destruct Hr as (-> & Hr). injection Ex as <- <-. eexists. split; [reflexivity|]. apply (hr_st _ _ _ _ Hr).
Qed.
(** the first block, when [pre] is put in front of it *)
Lemma first_h bi n prev q q1 z q2 : In b0 (c_reach s) -> f_block (c_f s) b0 <> None -> phi_free s b0 -> (exists j r y, pre = j :: r /\ f_insn (c_f t) j = Some y /\ i_op y <> PHI) ->
  hbody R w (bi b0) t o q pre = Some (VNext q1) -> hrel s τ q q1 ->
  hrun R w bi s o n prev b0 q = Some (VDone z q2) -> exists q2', hrun R w bi t o n prev b0 q = Some (VDone z q2') /\ v_st q2' = v_st q2.
Proof.
  intros Hb Nb PF (j & r & y & Ep & Y & NY) Pr H Ex. destruct n as [|n]; cbn [hrun] in Ex |- *; [discriminate|]. destruct (blk_ex b0 Hb Nb) as (k & k' & B & B' & Sc & Li).
  rewrite Nat.eqb_refl in Li.
  assert (V : forall q, vphis (bi prev) s o prev q q (b_insns k) = Some (b_insns k, q)).
  { intros q0. destruct (b_insns k) as [|a l] eqn:Bi; [reflexivity|]. cbn [vphis]. assert (La : linked s a). { exists b0. split; [exact Hb|]. unfold insns_of. rewrite B, Bi. now left. }
    pose proof (Live a La) as Xa. destruct (f_insn (c_f s) a) as [x|] eqn:X; [|congruence]. cbn [obind]. destruct (iop_eqb (i_op x) PHI) eqn:P; [|reflexivity]. exfalso. apply (PF a l).
    - unfold insns_of. now rewrite B.
    - exists x. split; [exact X|]. destruct (i_op x); reflexivity || discriminate P. }
  assert (V' : vphis (bi prev) t o prev q q (b_insns k') = Some (b_insns k', q)).
  { rewrite Li, Ep. cbn [app vphis]. rewrite Y. cbn [obind]. assert (NY' : iop_eqb (i_op y) PHI = false) by (destruct (i_op y); reflexivity || congruence). now rewrite NY'. }
  destruct (hblock R w bi s o prev b0 q) as [r1|] eqn:Hb1; [|discriminate Ex]. cbn [obind] in Ex.
  assert (K : exists r1', hblock R w bi t o prev b0 q = Some r1' /\ hres s τ r1 r1').
  { unfold hblock in Hb1 |- *. rewrite B in Hb1. rewrite B'. cbn [obind] in Hb1 |- *. rewrite V in Hb1. rewrite V'. cbn [obind] in Hb1 |- *. rewrite Li, Sc, hbody_app, Pr. cbn [obind].
    destruct (hbody R w (bi b0) s o q (b_insns k)) as [r2|] eqn:Hb2; [|discriminate Hb1]. cbn [obind] in Hb1.
    destruct (body_h (bi b0) (b_insns k) q q1 r2) as (r2' & Hb2' & Hr); [intros a A; exists b0; split; [exact Hb|]; unfold insns_of; now rewrite B|exact H|exact Hb2|]. rewrite Hb2'. cbn [obind].
    destruct r2 as [q3|c q3|z3 q3], r2' as [q3'|c' q3'|z3' q3']; cbn in Hr; try contradiction.
    - destruct (b_succs k) as [|c rr]; [discriminate Hb1|]. injection Hb1 as <-. eexists. split; [reflexivity|]. cbn. auto.
    - injection Hb1 as <-. eexists. split; [reflexivity|]. exact Hr.
    - injection Hb1 as <-. eexists. split; [reflexivity|]. exact Hr. }
  destruct K as (r1' & K & Hr). rewrite K. cbn [obind]. destruct r1 as [q3|c q3|z3 q3], r1' as [q3'|c' q3'|z3' q3']; cbn in Hr; try contradiction; try discriminate Ex.
  - destruct Hr as (-> & Hr). pose proof (hblock_leads _ _ _ _ _ _ Hb1) as Ld. destruct (Closed b0 c Hb Ld) as (Hc & Nc). exact (run_h bi n b0 c q3 q3' z q2 Hc Nc Hr Ex).
  - destruct Hr as (-> & Hr). injection Ex as <- <-. eexists. split; [reflexivity|]. apply (hr_st _ _ _ _ Hr).
Qed.
End Edit.
