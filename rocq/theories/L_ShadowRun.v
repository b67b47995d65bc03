(** The memory sanitizer pass: executions with shadow accesses. *)
From Coq Require Import ZArith List Bool Arith Lia.
From Verif Require Import M_Base M_Ir M_Edit M_Pass SpecWord SpecFlat SpecSsa SpecIr SpecEdit SpecPass SpecStrict SpecInstr SpecWeave SpecShadow
  L_Edit L_Uses L_Hist L_Ctor L_Ins L_PassAlloc L_SpillNew L_Weave L_Jump L_Shadow.
Import ListNotations.
Open Scope nat_scope.

(** ** Memories that differ in [D] only *)
Lemma load_same D m m' : same_outside D m m' -> forall k p, (forall j, (0 <= j < Z.of_nat k)%Z -> ~ D (u64 (p + j))) -> load m p k = load m' p k.
Proof.
  intros S. induction k as [|k IH]; intros p N; [reflexivity|]. cbn [load].
  rewrite (S (u64 p)) by (replace p with (p + 0)%Z by lia; apply N; lia). rewrite (IH (p + 1)%Z); [reflexivity|].
  intros j J. replace (p + 1 + j)%Z with (p + (1 + j))%Z by lia. apply N. lia.
Qed.
Lemma store_both D k : forall m m' p v, same_outside D m m' -> same_outside D (store m p k v) (store m' p k v).
Proof.
  induction k as [|k IH]; intros m m' p v S; [exact S|]. cbn [store]. apply IH. intros q Q. unfold mem_set. destruct (q =? u64 p)%Z; auto.
Qed.
Lemma store_right D k : forall m m' p v, same_outside D m m' -> (forall j, (0 <= j < Z.of_nat k)%Z -> D (u64 (p + j))) -> same_outside D m (store m' p k v).
Proof.
  induction k as [|k IH]; intros m m' p v S N; [exact S|]. cbn [store]. apply IH.
  - intros q Q. unfold mem_set. destruct (Z.eqb_spec q (u64 p)) as [->|]; [|auto]. exfalso. apply Q. replace p with (p + 0)%Z by lia. apply N. lia.
  - intros j J. replace (p + 1 + j)%Z with (p + (1 + j))%Z by lia. apply N. lia.
Qed.

Section Run.
Variables (f h : func) (w : world) (bi : bconst -> Z) (D : Z -> Prop) (a : nat) (base : Z).
Hypothesis OL : operands_live f.
Hypothesis KP : kept f h.
Hypothesis NA : f_insn f a = None.
Hypothesis HH : forall n c l m m', same_outside D m m' ->
    fst (helper w n c l m) = fst (helper w n c l m') /\ same_outside D (snd (helper w n c l m)) (snd (helper w n c l m')).

Definition agm (s s' : sst) : Prop :=
  (forall i, f_insn f i <> None -> s_env s i = s_env s' i /\ s_var s i = s_var s' i) /\ same_outside D (s_mem s) (s_mem s') /\ s_nc s = s_nc s' /\
  s_env s' a = Some base.
Inductive qrm : sres -> sres -> Prop :=
| m_next s s' : agm s s' -> qrm (SNext s) (SNext s')
| m_jmp b s s' : agm s s' -> qrm (SJmp b s) (SJmp b s')
| m_ret r s s' : agm s s' -> qrm (SRet r s) (SRet r s')
| m_throw s s' : agm s s' -> qrm (SThrow s) (SThrow s').
Lemma agm_res s s' i v : f_insn f i <> None -> agm s s' -> agm (sres_ s i v) (sres_ s' i v).
Proof.
  intros L (A & B & C & E). split; [|split; [exact B|split; [exact C|]]].
  - intros j J. destruct (A j J) as (E1 & V). cbn. unfold eupd. destruct (j =? i); auto.
  - cbn. unfold eupd. destruct (Nat.eqb_spec a i) as [<-|]; [contradiction|exact E].
Qed.
Lemma agm_seval s s' v : agm s s' -> (forall d, v_data v = VInsn d -> f_insn f d <> None) -> seval bi (s_env s) v = seval bi (s_env s') v.
Proof. intros (A & _) L. unfold seval. destruct (v_data v) eqn:E; auto. apply A. apply L. reflexivity. Qed.

Lemma sexec_agm i x y s s' : f_insn f i = Some x -> f_insn h i = Some y -> agm s s' ->
  (i_op x = LOADRAW -> forall k p, vr_bytes (i_vrt x) = Some k -> seval bi (s_env s) (a_val (i_addr x)) = Some p ->
     forall j, (0 <= j < Z.of_nat k)%Z -> ~ D (u64 (p + a_off (i_addr x) + j))) ->
  orel qrm (sexec w bi f i x s) (sexec w bi h i y s').
Proof.
  intros X Y A GL. destruct (KP i x X) as (u & q & Y'). rewrite Y in Y'. injection Y' as ->. clear Y.
  assert (LI : f_insn f i <> None) by congruence.
  assert (V : forall v, In v (i_vals x) -> seval bi (s_env s) v = seval bi (s_env s') v).
  { intros v I. apply agm_seval; auto. intros d E. apply (OL i x v d X); auto. unfold operand_values. apply in_or_app. auto. }
  assert (VA : (i_op x = LOADRAW \/ i_op x = STORERAW) -> seval bi (s_env s) (a_val (i_addr x)) = seval bi (s_env s') (a_val (i_addr x))).
  { intros O. apply agm_seval; auto. intros d E. apply (OL i x (a_val (i_addr x)) d X); auto. unfold operand_values. apply in_or_app. right. destruct O as [-> | ->]; now left. }
  assert (LD : i_op x = LOADRAW -> forall k p, vr_bytes (i_vrt x) = Some k -> seval bi (s_env s') (a_val (i_addr x)) = Some p ->
     load (s_mem s) (p + a_off (i_addr x)) k = load (s_mem s') (p + a_off (i_addr x)) k).
  { intros O k p K P. apply (load_same D); [apply A|]. apply GL; auto. rewrite VA; auto. }
  assert (LV : forall v d, In v (i_vals x) -> v_data v = VInsn d -> f_insn f d <> None).
  { intros v d I E. apply (OL i x v d X); auto. unfold operand_values. apply in_or_app. auto. }
  assert (VS : forall l, (forall v, In v l -> In v (i_vals x)) -> sevals bi (s_env s) l = sevals bi (s_env s') l).
  { induction l as [|v l IH]; intros I; [reflexivity|]. cbn. rewrite (V v) by (apply I; now left). rewrite IH by (intros v' I'; apply I; now right). reflexivity. }
  assert (RT : forall v, orel qrm (Some (SNext (sres_ s i v))) (Some (SNext (sres_ s' i v)))).
  { intros v. constructor. constructor. apply agm_res; auto. }
  assert (EN : s_nc s = s_nc s') by apply A.
  assert (CL : forall c l, orel qrm
     (let '(r, m) := helper w (s_nc s') c l (s_mem s) in Some (SNext (mkS (eupd (s_env s) i (u64 (nth 0 r 0))) (s_var s) m (S (s_nc s')))))%Z
     (let '(r, m) := helper w (s_nc s') c l (s_mem s') in Some (SNext (mkS (eupd (s_env s') i (u64 (nth 0 r 0))) (s_var s') m (S (s_nc s')))))%Z).
  { intros c l. destruct A as (A1 & A2 & A3 & A4). destruct (HH (s_nc s') c l _ _ A2) as (H1 & H2). destruct (helper w (s_nc s') c l (s_mem s)) as [r m], (helper w (s_nc s') c l (s_mem s')) as [r' m'].
    cbn [fst snd] in *. subst r'. constructor. constructor. split; [|split; [exact H2|split; [reflexivity|]]].
    - intros j J. destruct (A1 j J). cbn. unfold eupd. destruct (j =? i); auto.
    - cbn. unfold eupd. destruct (Nat.eqb_spec a i) as [<-|]; [contradiction|exact A4]. }
  unfold sexec. cbn [i_op i_vals i_addr i_vrt i_ity i_imm64 i_alu i_u i_bb1 i_bb2 set_users set_parent].
  destruct (i_op x) eqn:O; destruct (i_vals x) as [|v1 [|v2 [|v3 r]]] eqn:EV; cbn [alu_op_of cmp_op_of];
    try rewrite (V v1) by (cbn; auto); try rewrite (V v2) by (cbn; auto); try rewrite VA by auto;
    try rewrite (VS _ (fun v H => H)); rewrite ?EN; unfold obind;
    repeat match goal with
    | |- orel _ None None => constructor
    | |- orel _ (Some (SNext s)) (Some (SNext s')) => constructor; constructor; exact A
    | |- orel _ (Some (SRet _ _)) _ => constructor; constructor; exact A
    | |- orel _ (Some (SThrow _)) _ => constructor; constructor; exact A
    | |- orel _ (Some (SJmp _ _)) _ => constructor; constructor; exact A
    | |- orel _ (Some (SNext (sres_ _ _ ?v))) (Some (SNext (sres_ _ _ ?v))) => apply RT
    | |- orel _ (Some (SNext (sres_ _ _ (load _ _ _)))) _ => rewrite LD by auto; apply RT
    | |- orel _ (let '(_, _) := helper _ _ _ _ _ in _) _ => apply CL
    | |- orel _ (match ?e with _ => _ end) (match ?e with _ => _ end) => destruct e eqn:?
    end; auto.
  - assert (L : f_insn f i0 <> None) by (apply (LV v1); [now left|assumption]). destruct (f_insn f i0) as [z|] eqn:Z; [|congruence].
    destruct (KP i0 z Z) as (u' & q' & ->). cbn [i_op i_vrt set_users set_parent].
    destruct (iop_eqb (i_op z) ALLOC); [|constructor]. destruct (vr_bytes (i_vrt z)); [|constructor]. destruct (seval bi (s_env s') v2); [|constructor].
    constructor. constructor. destruct A as (A1 & A2 & A3 & A4). split; [|cbn; auto]. intros j L'. destruct (A1 j L') as (E1 & E2). cbn. unfold eupd. destruct (j =? i0); auto.
  - assert (L : f_insn f i0 <> None) by (apply (LV v1); [now left|assumption]). rewrite (proj2 (proj1 A i0 L)). destruct (s_var s' i0); [apply RT|constructor].
  - constructor. constructor. destruct A as (A1 & A2 & A3 & A4). split; [exact A1|]. split; [now apply store_both|]. auto.
Qed.
Lemma sphis_agm prev s0 s0' : agm s0 s0' -> forall l s s', (forall i, In i l -> f_insn f i <> None) -> agm s s' ->
  orel (fun p q => fst p = fst q /\ agm (snd p) (snd q)) (sphis bi f prev s0 s l) (sphis bi h prev s0' s' l).
Proof.
  intros A0. induction l as [|i l IH]; intros s s' L A; [constructor; split; auto|].
  destruct (kept_some f h KP i (L i (or_introl eq_refl))) as (x & y & X & Y & O & P & _). cbn [sphis]. rewrite X, Y. cbn [obind]. rewrite O.
  destruct (iop_eqb (i_op x) PHI) eqn:Q; [|constructor; split; auto]. unfold incoming. rewrite P.
  destruct (find _ (i_phi x)) as [[v b]|] eqn:F; cbn [option_map obind fst]; [|constructor].
  rewrite (agm_seval s0 s0' v A0).
  - destruct (seval bi (s_env s0') v) as [z|]; cbn [obind]; [|constructor]. apply IH; [intros k I; apply L; now right|]. apply agm_res; [congruence|exact A].
  - intros d E. apply (OL i x v d X); auto. unfold operand_values. apply in_or_app. right. unfold iop_eqb in Q. destruct (iop_eq_dec (i_op x) PHI) as [E'|]; [|discriminate]. rewrite E'.
    apply find_some in F as (F & _). change v with (fst (v, b)). now apply in_map.
Qed.

(** the shadow accesses *)
Variables (sp : nat) (sh : nat -> list nat) (s0 : sst).
Hypothesis SP : forall b, ~ In sp (insns_of f b).
Hypothesis SHN : forall i n, In n (sh i) -> sh i = [n] /\ f_insn f n = None /\ n <> a /\ exists x y, stack_access f sp i x /\ f_insn h n = Some y /\ shadow_of x y.
Hypothesis OWN : forall i s x k p j, reaches w bi f s0 i s -> f_insn f i = Some x -> i_op x = LOADRAW \/ i_op x = STORERAW ->
    vr_bytes (i_vrt x) = Some k -> seval bi (s_env s) (a_val (i_addr x)) = Some p -> (0 <= j < Z.of_nat k)%Z -> ~ D (u64 (p + a_off (i_addr x) + j)).
Hypothesis SHD : forall i s x k p j, reaches w bi f s0 i s -> stack_access f sp i x ->
    vr_bytes (i_vrt x) = Some k -> seval bi (s_env s) (a_val (i_addr x)) = Some p -> (0 <= j < Z.of_nat k)%Z -> D (u64 (p + s16 (a_off (i_addr x) + 256) + j)).

Lemma shadow_step b i x n y s t t' : In i (insns_of f b) -> stack_access f sp i x -> f_insn h n = Some y -> shadow_of x y -> f_insn f n = None -> n <> a ->
  reaches w bi f s0 i s -> sexec w bi f i x s = Some (SNext t) -> agm t t' -> exists t2, sexec w bi h n y t' = Some (SNext t2) /\ agm t t2.
Proof.
  intros IB SA Y SO NF NE RE EX A. pose proof SA as (X & O & d & B & F).
  assert (ND : d <> i). { intros ->. inversion F as [|i' x' m v d' X' O' L V' D' F']; subst; [eapply SP; eauto|]. rewrite X in X'. injection X' as <-. destruct O as [O|O]; rewrite O in O'; discriminate O'. }
  assert (LD : f_insn f d <> None). { apply (OL i x (a_val (i_addr x)) d X); auto. unfold operand_values. apply in_or_app. right. destruct O as [-> | ->]; now left. }
  assert (K : exists k p, vr_bytes (i_vrt x) = Some k /\ seval bi (s_env s) (a_val (i_addr x)) = Some p /\ s_env t d = Some p).
  { unfold sexec in EX. destruct O as [O|O]; rewrite O in EX.
    - destruct (vr_bytes (i_vrt x)) as [k|]; cbn [obind] in EX; [|discriminate]. destruct (seval bi (s_env s) (a_val (i_addr x))) as [p|] eqn:P; cbn [obind] in EX; [|discriminate].
      injection EX as <-. exists k, p. split; [reflexivity|]. split; [reflexivity|]. unfold seval in P. rewrite B in P. cbn. unfold eupd. destruct (Nat.eqb_spec d i); [contradiction|exact P].
    - destruct (i_vals x) as [|v [|v2 [|v3 r]]]; try discriminate EX.
      destruct (vr_bytes (i_vrt x)) as [k|]; cbn [obind] in EX; [|discriminate]. destruct (seval bi (s_env s) (a_val (i_addr x))) as [p|] eqn:P; cbn [obind] in EX; [|discriminate].
      destruct (seval bi (s_env s) v); cbn [obind] in EX; [|discriminate]. injection EX as <-. exists k, p. split; [reflexivity|]. split; [reflexivity|]. unfold seval in P. rewrite B in P. exact P. }
  destruct K as (k & p & VK & P & TD).
  assert (TP : seval bi (s_env t') (a_val (i_addr y)) = Some p). { rewrite (so_base _ _ SO). unfold seval. rewrite B. rewrite <- (proj1 (proj1 A d LD)). exact TD. }
  assert (IN := SHD i s x k p). destruct A as (A1 & A2 & A3 & A4). unfold sexec. rewrite (so_op _ _ SO), (so_vrt _ _ SO), VK, TP, (so_off _ _ SO). cbn [obind]. destruct O as [O|O]; rewrite O.
  - eexists. split; [reflexivity|]. split; [|split; [exact A2|split; [exact A3|]]].
    + intros j J. destruct (A1 j J). cbn. unfold eupd. destruct (Nat.eqb_spec j n); [congruence|auto].
    + cbn. unfold eupd. destruct (Nat.eqb_spec a n); [congruence|exact A4].
  - destruct (so_val _ _ SO O) as (c & ->). unfold seval at 1. cbn [v_data obind]. eexists. split; [reflexivity|]. split; [exact A1|]. split; [|auto].
    cbn. apply store_right; [exact A2|]. intros j J. now apply IN.
Qed.
Lemma sbody_sim b : forall l s s', (forall i, In i l -> In i (insns_of f b)) -> (forall i, In i l -> f_insn f i <> None) ->
  (forall l1 i l2 s2, l = l1 ++ i :: l2 -> sbody w bi f s l1 = Some (SNext s2) -> reaches w bi f s0 i s2) -> agm s s' ->
  orel qrm (sbody w bi f s l) (sbody w bi h s' (flat_map (exp sh) l)).
Proof.
  induction l as [|i l IH]; intros s s' IB L R A; [constructor; constructor; exact A|].
  destruct (kept_some f h KP i (L i (or_introl eq_refl))) as (x & y & X & Y & _).
  assert (RI : reaches w bi f s0 i s) by (apply (R [] i l s); reflexivity).
  cbn [flat_map]. unfold exp at 1. cbn [app sbody]. rewrite X, Y. cbn [obind].
  assert (Q : orel qrm (sexec w bi f i x s) (sexec w bi h i y s')).
  { apply sexec_agm; auto. intros O k p K P j J. eapply OWN; eauto. }
  destruct (sexec w bi f i x s) as [t|] eqn:EX; inversion Q as [E1 E2|t0 t' Q' E1 E2]; subst; [|constructor]. cbn [obind].
  destruct Q' as [s1 s1' R1|c s1 s1' R1|r s1 s1' R1|s1 s1' R1]; [|constructor; constructor; exact R1..].
  assert (NXT : exists s2', sbody w bi h s1' (sh i) = Some (SNext s2') /\ agm s1 s2').
  { destruct (sh i) as [|n l'] eqn:S; [exists s1'; auto|]. destruct (SHN i n) as (S1 & NF & NE & x' & z & SA & Z & SO); [rewrite S; now left|]. rewrite S in S1. injection S1 as ->.
    assert (x' = x) by (destruct SA as (K & _); congruence). subst x'.
    destruct (shadow_step b i x n z s s1 s1' (IB i (or_introl eq_refl)) SA Z SO NF NE RI EX R1) as (t2 & E3 & A3). exists t2. cbn [sbody]. rewrite Z. cbn [obind]. rewrite E3. auto. }
  destruct NXT as (s2' & E4 & A4). rewrite sbody_cat, E4. apply IH; auto.
  - intros k I. apply IB. now right.
  - intros k I. apply L. now right.
  - intros l1 k l2 s3 EL ES. apply (R (i :: l1) k l2 s3); [cbn; now rewrite EL|]. cbn [sbody]. rewrite X. cbn [obind]. rewrite EX. exact ES.
Qed.

(** blocks *)
Variable ini : list nat.
Hypothesis INI : forall n, In n ini -> f_insn f n = None /\ n <> a /\ exists k y, (0 <= k < 32)%Z /\ f_insn h n = Some y /\ fills a k y.
Hypothesis ARR : forall j, (0 <= j < 256)%Z -> D (u64 (base + j)).
Lemma ini_run s : forall l s', (forall n, In n l -> In n ini) -> agm s s' -> exists s2, sbody w bi h s' l = Some (SNext s2) /\ agm s s2.
Proof.
  induction l as [|n l IH]; intros s' I A; [exists s'; auto|]. destruct (INI n (I n (or_introl eq_refl))) as (NF & NE & k & y & K & Y & (O & VR & B & OF & v & VV & VC & VB)).
  cbn [sbody]. rewrite Y. cbn [obind]. unfold sexec. rewrite O, VV, VR. cbn [vr_bytes obind]. unfold seval at 1. rewrite B. destruct A as (A1 & A2 & A3 & A4). rewrite A4. cbn [obind].
  unfold seval. rewrite VC. cbn [obind]. apply IH; [intros m M; apply I; now right|]. split; [exact A1|]. split; [|auto]. cbn [s_mem smem].
  apply store_right; [exact A2|]. intros j J. rewrite OF. rewrite <- Z.add_assoc. apply ARR. lia.
Qed.
Lemma sphis_head (g : func) prev t0 : forall pre t r, (forall i, In i pre -> is_phi g i) -> (forall z q, r = z :: q -> f_insn g z <> None /\ ~ is_phi g z) ->
  sphis bi g prev t0 t (pre ++ r) = match sphis bi g prev t0 t pre with Some (_, t1) => Some (r, t1) | None => None end.
Proof.
  induction pre as [|i pre IH]; intros t r P N; cbn [app].
  - cbn [sphis]. destruct r as [|z q]; [reflexivity|]. destruct (N z q eq_refl) as (L & NP). cbn [sphis]. destruct (f_insn g z) as [x|] eqn:X; [|congruence]. cbn [obind].
    unfold iop_eqb. destruct (iop_eq_dec (i_op x) PHI) as [E|]; [|reflexivity]. exfalso. apply NP. exists x. auto.
  - destruct (P i (or_introl eq_refl)) as (x & X & O). cbn [sphis]. rewrite X. cbn [obind]. rewrite O. cbn [iop_eqb]. unfold iop_eqb. destruct (iop_eq_dec PHI PHI) as [_|]; [|congruence].
    destruct (incoming x prev) as [v|]; cbn [obind]; [|reflexivity]. destruct (seval bi (s_env t0) v); cbn [obind]; [|reflexivity].
    apply IH; auto. intros j J. apply P. now right.
Qed.
Hypothesis LK : linked_ok f.
Hypothesis DOM : forall b, f_block h b = None <-> f_block f b = None.
Hypothesis SUC : forall b, succs_of h b = succs_of f b.
Hypothesis ENT : f_entry h = f_entry f.
Hypothesis LST : forall b, exists pre post mid, insns_of f b = pre ++ post /\ (forall i, In i pre -> is_phi f i) /\ (forall z r, post = z :: r -> ~ is_phi f z) /\
  insns_of h b = pre ++ mid ++ flat_map (exp sh) post /\ (forall n, In n mid -> In n ini).
Lemma phi_kept i : f_insn f i <> None -> is_phi h i <-> is_phi f i.
Proof.
  intros L. destruct (kept_some f h KP i L) as (x & y & X & Y & O & _). split; intros (z & Z & P); [exists x|exists y]; split; auto; congruence.
Qed.
Lemma sblock_sim n prev b s s' : srun w bi f n 0 (f_entry f) s0 = Some (OAt prev b s) -> agm s s' ->
  orel qrm (sblock w bi f prev b s) (sblock w bi h prev b s').
Proof.
  intros RU A. destruct (f_block f b) as [k|] eqn:FB.
  2:{ unfold sblock. rewrite FB, (proj2 (DOM b) FB). constructor. }
  rewrite !sblock_eq; [|intros K; apply DOM in K; congruence|congruence].
  destruct (LST b) as (pre & post & mid & L & P1 & P2 & LH & MI). rewrite SUC, L, LH.
  assert (LV : forall i, In i (pre ++ post) -> f_insn f i <> None). { intros i I. rewrite <- L in I. destruct (LK b i I) as (x & -> & _). discriminate. }
  rewrite (sphis_head f prev s pre s post).
  2:{ exact P1. }
  2:{ intros z q E. split; [apply LV; apply in_or_app; right; rewrite E; now left|eauto]. }
  rewrite (sphis_head h prev s' pre s' (mid ++ flat_map (exp sh) post)).
  2:{ intros i I. apply phi_kept; [apply LV; apply in_or_app; auto|auto]. }
  2:{ intros z q E. destruct mid as [|m mid].
      - destruct post as [|z' post]; [discriminate E|]. cbn in E. injection E as <- _. assert (LZ : f_insn f z' <> None) by (apply LV; apply in_or_app; right; now left).
        split; [destruct (kept_some f h KP z' LZ) as (? & ? & _ & -> & _); discriminate|]. intros K. apply phi_kept in K; auto. eapply P2; eauto.
      - cbn in E. injection E as <- _. destruct (INI m (MI m (or_introl eq_refl))) as (_ & _ & kk & y & _ & Y & (O & _)). split; [congruence|]. intros (y' & Y' & Q). congruence. }
  assert (LP : forall i, In i pre -> f_insn f i <> None) by (intros i I; apply LV; apply in_or_app; auto).
  assert (R := sphis_agm prev s s' A pre s s' LP A).
  destruct (sphis bi f prev s s pre) as [[rest s1]|] eqn:EP; inversion R as [E1 E2|p0 [rest' s1'] (R1 & R2) E1 E2]; subst; [|constructor].
  cbn [fst snd] in *. destruct (ini_run s1 mid s1' MI R2) as (s2 & E3 & A3). rewrite sbody_cat, E3.
  assert (Q : orel qrm (sbody w bi f s1 post) (sbody w bi h s2 (flat_map (exp sh) post))).
  { apply (sbody_sim b); auto.
    - intros i I. rewrite L. apply in_or_app; auto.
    - intros i I. apply LV. apply in_or_app; auto.
    - intros l1 i l2 s3 E ES. exists n, prev, b, s, (pre ++ l1), l2, l1, s1. split; [exact RU|]. split; [rewrite L, E, <- app_assoc; reflexivity|]. split; [|exact ES].
      rewrite (sphis_head f prev s pre s l1), EP; auto. intros z q E'. split; [apply LV; apply in_or_app; right; rewrite E, E'; now left|]. apply (P2 z (q ++ i :: l2)). rewrite E, E'. reflexivity. }
  destruct Q as [|t t' Q]; [constructor|]. destruct Q; try (constructor; constructor; assumption).
  destruct (succs_of f b); constructor. constructor. assumption.
Qed.
Inductive outm : sout -> sout -> Prop :=
| om_at p b s s' : agm s s' -> outm (OAt p b s) (OAt p b s')
| om_ret r s s' : agm s s' -> outm (ORet r s) (ORet r s')
| om_throw s s' : agm s s' -> outm (OThrow s) (OThrow s').
Lemma srun_next : forall n prev b s p c t, srun w bi f n prev b s = Some (OAt p c t) -> forall d t', sblock w bi f p c t = Some (SJmp d t') -> srun w bi f (S n) prev b s = Some (OAt c d t').
Proof.
  induction n as [|n IH]; intros prev b s p c t E d t' B.
  - cbn in E. injection E as <- <- <-. cbn [srun]. rewrite B. reflexivity.
  - remember (S n) as m eqn:M. cbn [srun]. rewrite M in E. cbn [srun] in E. destruct (sblock w bi f prev b s) as [[]|]; cbn [obind] in *; try discriminate E. subst m. eapply IH; eauto.
Qed.
Lemma srun_sim : forall k n prev b s s', srun w bi f n 0 (f_entry f) s0 = Some (OAt prev b s) -> agm s s' -> orel outm (srun w bi f k prev b s) (srun w bi h k prev b s').
Proof.
  induction k as [|k IH]; intros n prev b s s' RU A; [constructor; constructor; exact A|]. cbn [srun].
  assert (Q := sblock_sim n prev b s s' RU A).
  destruct (sblock w bi f prev b s) as [t|] eqn:E; inversion Q as [E1 E2|t0 t' Q' E1 E2]; subst; cbn [obind]; [|constructor].
  destruct Q' as [s1 s1' R1|c s1 s1' R1|r s1 s1' R1|s1 s1' R1].
  - constructor.
  - apply (IH (S n)); [|exact R1]. eapply srun_next; eauto.
  - constructor. constructor. exact R1.
  - constructor. constructor. exact R1.
Qed.
Lemma run_sim k : s_env s0 a = Some base -> orel outm (srun w bi f k 0 (f_entry f) s0) (srun w bi h k 0 (f_entry h) s0).
Proof. intros E. rewrite ENT. apply (srun_sim k 0); [reflexivity|]. repeat split; auto. Qed.
End Run.

(** ** The whole pass *)
Lemma insns_take a g b : insns_of (take_out a g) b = filter (fun i => negb (i =? a)) (insns_of g b).
Proof. unfold insns_of, take_out. cbn. destruct (f_block g b); reflexivity. Qed.
Lemma filter_all {A} (P : A -> bool) l : (forall i, In i l -> P i = true) -> filter P l = l.
Proof. induction l as [|n m IH]; intros B; [reflexivity|]. cbn. rewrite (B n (or_introl eq_refl)). f_equal. apply IH. intros k K. apply B. now right. Qed.
Lemma phi_split f l : (forall i, In i l -> f_insn f i <> None) -> exists pre post, l = pre ++ post /\ (forall i, In i pre -> is_phi f i) /\ (forall z r, post = z :: r -> ~ is_phi f z).
Proof.
  induction l as [|i l IH]; intros L. { exists [], []. split; [reflexivity|]. split; [intros i []|intros z r E; discriminate E]. }
  destruct (f_insn f i) as [x|] eqn:X; [|exfalso; apply (L i); [now left|exact X]].
  destruct (iop_eq_dec (i_op x) PHI) as [O|O].
  - destruct IH as (pre & post & -> & A & B); [intros j J; apply L; now right|]. exists (i :: pre), post. split; [reflexivity|]. split; [|exact B]. intros j [<-|J]; [exists x; auto|auto].
  - exists [], (i :: l). split; [reflexivity|]. split; [intros j []|]. intros z r E. injection E as <- _. intros (y & Y & P). congruence.
Qed.
Theorem msan_same fuel sp reach f g : cfg_ok f -> operands_live f -> NoDup reach -> (forall b, ~ In sp (insns_of f b)) -> msan fuel sp reach f = Ok g ->
  exists a, shadows f g sp reach a /\
  forall w bi s0 D base, s_env s0 a = Some base -> keeps_off w bi f sp s0 D base ->
    (forall n r m k, returns_in w bi f n s0 r m k -> exists m', returns_in w bi (take_out a g) n s0 r m' k /\ same_outside D m m') /\
    (forall n r m' k, returns_in w bi (take_out a g) n s0 r m' k -> exists m, returns_in w bi f n s0 r m k /\ same_outside D m m') /\
    (throws w bi (take_out a g) s0 <-> throws w bi f s0).
Proof.
  intros C OL N SP E. destruct (msan_inv fuel sp reach f g C OL N E) as (sh & a & ini & pre & post & V & FI & ALL). exists a. split; [eapply shape; eauto|].
  intros w bi s0 D base EA [K1 K2 K3 K4].
  destruct (v_arr _ _ _ _ _ _ _ _ V) as (HA & ya & YA & OA & _).
  assert (HI : forall n, f_ni f <= n -> f_insn f n = None) by (apply C).
  assert (NI : forall n, In n ini -> n <> a). { intros n I ->. destruct (v_ini _ _ _ _ _ _ _ _ V a I) as (_ & k & y & _ & Y & (O & _)). congruence. }
  assert (NS : forall i n, In n (sh i) -> n <> a).
  { intros i n I ->. destruct (v_sh _ _ _ _ _ _ _ _ V i a I) as (_ & _ & x & y & (_ & O & _) & Y & SO). assert (i_op y = i_op x) by apply SO. assert (i_op y = ALLOCARRAY) by congruence. destruct O; congruence. }
  assert (FX : forall b l, (forall i, In i l -> In i (insns_of f b)) -> filter (fun i => negb (i =? a)) (flat_map (exp sh) l) = flat_map (exp sh) l).
  { intros b l LB. apply filter_all. intros i I. destruct (Nat.eqb_spec i a) as [->|]; [exfalso|reflexivity]. apply fm_new in I as [I|(j & J & I)]; [|eapply NS; eauto].
    apply LB in I. pose proof (placed_low f C b a I). lia. }
  destruct (v_front _ _ _ _ _ _ _ _ V) as (FF & FP & FN).
  assert (SIM : forall k, orel (outm f D a base) (srun w bi f k 0 (f_entry f) s0) (srun w bi (take_out a g) k 0 (f_entry (take_out a g)) s0)).
  { intros k. apply (run_sim f (take_out a g) w bi D a base OL) with (sp := sp) (sh := sh) (ini := ini); auto.
    - intros i x X. destruct (v_kept _ _ _ _ _ _ _ _ V i x X) as (u & Y). exists u, (i_parent x). cbn. rewrite Y. destruct x; reflexivity.
    - intros i n I. destruct (v_sh _ _ _ _ _ _ _ _ V i n I) as (S1 & HN & x & y & SA & Y & SO). split; [exact S1|]. split; [auto|]. split; [eapply NS; eauto|]. exists x, y. auto.
    - intros n I. destruct (v_ini _ _ _ _ _ _ _ _ V n I) as (HN & kk & y & KK & Y & F). split; [auto|]. split; [auto|]. exists kk, y. auto.
    - apply C.
    - intros b. rewrite <- (v_blocks _ _ _ _ _ _ _ _ V b). unfold take_out. cbn. destruct (f_block g b); cbn; split; congruence.
    - intros b. rewrite <- (v_succs _ _ _ _ _ _ _ _ V b). unfold succs_of, take_out. cbn. destruct (f_block g b); reflexivity.
    - cbn. apply V.
    - intros b. rewrite insns_take, (v_list _ _ _ _ _ _ _ _ V b). destruct (Nat.eqb_spec b (f_entry f)) as [->|NE].
      + exists pre, post, ini. split; [exact FF|]. split; [exact FP|]. split; [exact FN|]. split; [|auto].
        rewrite !filter_app. rewrite (FX (f_entry f) pre), (FX (f_entry f) post); try (intros i I; rewrite FF; apply in_or_app; auto).
        rewrite (fm_phis f g sp sh a ini pre post V pre FP). cbn [filter]. rewrite Nat.eqb_refl. cbn [negb]. rewrite filter_all; [reflexivity|].
        intros i I. destruct (Nat.eqb_spec i a); [exfalso; eapply NI; eauto|reflexivity].
      + destruct (phi_split f (insns_of f b)) as (p1 & p2 & L & A & B). { intros i I. destruct (cf_linked _ C b i I) as (x & -> & _). discriminate. }
        exists p1, p2, []. split; [exact L|]. split; [exact A|]. split; [exact B|]. split; [|intros n []]. rewrite (FX b) by auto. rewrite L, flat_map_app. rewrite (fm_phis f g sp sh a ini pre post V p1 A). reflexivity. }
  split; [|split; [|split]].
  - intros n r m k (t & R & <- & <-). specialize (SIM n). rewrite R in SIM. inversion SIM as [|o1 o2 OM E1 E2]; subst. inversion OM as [|r' t' t2 (A1 & A2 & A3 & A4)|]; subst.
    exists (s_mem t2). split; [|exact A2]. exists t2. auto.
  - intros n r m k (t & R & <- & <-). specialize (SIM n). rewrite R in SIM. inversion SIM as [|o1 o2 OM E1 E2]; subst. inversion OM as [|r' t1 t' (A1 & A2 & A3 & A4)|]; subst.
    exists (s_mem t1). split; [|exact A2]. exists t1. auto.
  - intros (n & t & R). specialize (SIM n). rewrite R in SIM. inversion SIM as [|o1 o2 OM E1 E2]; subst. inversion OM; subst. exists n. eexists. symmetry. eassumption.
  - intros (n & t & R). specialize (SIM n). rewrite R in SIM. inversion SIM as [|o1 o2 OM E1 E2]; subst. inversion OM; subst. exists n. eexists. symmetry. eassumption.
Qed.

(** ** Nothing is ever reported *)
Lemma sexec_throw w bi f i x s t : sexec w bi f i x s = Some (SThrow t) -> i_op x = THROW.
Proof.
  unfold sexec, obind. intros E. destruct (i_op x); auto; exfalso; revert E; cbn [alu_op_of cmp_op_of];
    repeat match goal with |- match ?e with _ => _ end = _ -> _ => destruct e end; discriminate.
Qed.
Lemma sbody_throw w bi f t : forall l s, sbody w bi f s l = Some (SThrow t) -> exists i x, In i l /\ f_insn f i = Some x /\ i_op x = THROW.
Proof.
  induction l as [|i l IH]; intros s E; [discriminate E|]. cbn [sbody] in E. destruct (f_insn f i) as [x|] eqn:X; cbn [obind] in E; [|discriminate E].
  destruct (sexec w bi f i x s) as [q|] eqn:Q; cbn [obind] in E; [|discriminate E]. destruct q; try discriminate E.
  - destruct (IH _ E) as (j & y & J & Y). exists j, y. split; [now right|exact Y].
  - injection E as ->. apply sexec_throw in Q. exists i, x. split; [now left|]. auto.
Qed.
Lemma sphis_incl bi f prev t0 : forall l t r t1, sphis bi f prev t0 t l = Some (r, t1) -> forall i, In i r -> In i l.
Proof.
  induction l as [|i l IH]; intros t r t1 E; cbn [sphis] in E. { injection E as <- _. auto. }
  destruct (f_insn f i) as [x|]; cbn [obind] in E; [|discriminate E]. destruct (iop_eqb (i_op x) PHI).
  - destruct (incoming x prev) as [v|]; cbn [obind] in E; [|discriminate E]. destruct (seval bi (s_env t0) v); cbn [obind] in E; [|discriminate E]. intros j J. right. eapply IH; eauto.
  - injection E as <- _. auto.
Qed.
Lemma throws_where w bi f : forall n prev b s t, srun w bi f n prev b s = Some (OThrow t) -> exists c i x, In i (insns_of f c) /\ f_insn f i = Some x /\ i_op x = THROW.
Proof.
  induction n as [|n IH]; intros prev b s t E; [discriminate E|]. cbn [srun] in E. destruct (sblock w bi f prev b s) as [q|] eqn:B; cbn [obind] in E; [|discriminate E].
  destruct q as [z|c z|r z|z]; try discriminate E; [eapply IH; eauto|]. unfold sblock in B. destruct (f_block f b) as [k|] eqn:FB; cbn [obind] in B; [|discriminate B].
  destruct (sphis bi f prev s s (b_insns k)) as [[r s1]|] eqn:P; cbn [obind] in B; [|discriminate B]. destruct (sbody w bi f s1 r) as [q|] eqn:S; cbn [obind] in B; [|discriminate B].
  assert (q = SThrow z \/ exists z', q = SNext z') as [->|(z' & ->)] by (destruct q; try discriminate B; [eauto|left; congruence]).
  - destruct (sbody_throw _ _ _ _ _ _ S) as (i & x & I & X & O). exists b, i, x. split; [|auto]. unfold insns_of. rewrite FB. eapply sphis_incl; eauto.
  - destruct (b_succs k); discriminate B.
Qed.
Theorem msan_silent fuel sp reach f g : cfg_ok f -> operands_live f -> NoDup reach -> (forall b i x, In i (insns_of f b) -> f_insn f i = Some x -> i_op x <> THROW) ->
  msan fuel sp reach f = Ok g -> forall c w bi s0, ~ throws w bi (take_out c g) s0.
Proof.
  intros C OL N NT E c w bi s0 (n & t & R). destruct (msan_shape fuel sp reach f g C OL N E) as (a & SW).
  destruct (throws_where _ _ _ _ _ _ _ _ R) as (b & i & y & I & Y & O). rewrite insns_take in I. apply filter_In in I as (I & _). cbn in Y.
  destruct (f_insn f i) as [x|] eqn:X.
  - destruct (sw_kept _ _ _ _ _ SW i x X) as (u & q & Y'). rewrite Y in Y'. injection Y' as ->. cbn in O. apply (NT b i x); auto.
    rewrite <- (sw_order _ _ _ _ _ SW b). apply filter_In. split; [exact I|]. apply Nat.ltb_lt. destruct (Nat.lt_ge_cases i (f_ni f)); auto. rewrite (proj1 (cf_fresh _ C)) in X by assumption. discriminate.
  - destruct (sw_only _ _ _ _ _ SW b i I X) as (y' & Y' & [->|[(_ & k & _ & (O' & _))|(l1 & j & l2 & x & _ & (_ & [O'|O'] & _) & SO)]]).
    + destruct (sw_array _ _ _ _ _ SW) as (_ & z & Z & OZ & _). congruence.
    + congruence.
    + assert (i_op y' = i_op x) by apply SO. congruence.
    + assert (i_op y' = i_op x) by apply SO. congruence.
Qed.
