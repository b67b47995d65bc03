(** Preparing a function for register allocation: from the meaning of the IR in SSA form. *)
From Coq Require Import ZArith List Bool Arith Lia Permutation.
From Verif Require Import M_Base M_Ir M_Norm M_Edit M_Ra SpecWord SpecFlat SpecProg SpecSsa SpecIr SpecEdit SpecRa SpecPass SpecShift SpecVirt SpecSpill SpecPrep
  L_Edit L_Uses L_Hist L_Ctor L_Ins L_PassPhi L_PassAlloc L_Sim L_RaGraph L_Word L_Shift L_Virt L_Prep L_PrepStr L_PrepInv L_PrepThis L_PrepAll L_PrepEnd L_PrepReady L_PrepInit.
From Verif Require Import L_Guard SpecGuard SpecSpill SpecRa SpecVirt.
Import ListNotations.
Open Scope nat_scope.

Lemma set_args_ok a : forall k m, st_ok m -> st_ok (set_args k m a).
Proof. induction a as [|z a IH]; intros k m O; cbn [set_args]; [exact O|]. apply IH. now apply rset_ok. Qed.
Lemma set_args_rest a : forall k m, SpecWord.mem (set_args k m a) = SpecWord.mem m /\ ncall (set_args k m a) = ncall m.
Proof. induction a as [|z a IH]; intros k m; cbn [set_args]; [auto|]. apply (IH (S k) (rset m (Z.of_nat (S k)) z)). Qed.
Lemma set_args_ten a : forall k m, k + length a <= 5 -> rget (set_args k m a) 10 = rget m 10.
Proof. induction a as [|z a IH]; intros k m L; cbn [set_args length] in *; [reflexivity|]. rewrite IH by lia. apply rget_rset_ten. lia. Qed.
Lemma set_args_get a : forall m j n, st_ok m -> (forall z, In z a -> u64 z = z) -> j + length a <= 5 -> 1 <= n <= 10 ->
  rget (set_args j m a) (Z.of_nat n) = if (j <? n) && (n <=? j + length a) then nth (n - S j) a 0%Z else rget m (Z.of_nat n).
Proof.
  induction a as [|z a IH]; intros m j n O U L Hn; cbn [set_args length] in *.
  - destruct (Nat.ltb_spec j n), (Nat.leb_spec n (j + 0)); cbn; try reflexivity. lia.
  - rewrite IH; [|now apply rset_ok|intros z0 I0; apply U; now right|lia|lia].
    destruct (Nat.ltb_spec (S j) n), (Nat.leb_spec n (S j + length a)), (Nat.ltb_spec j n), (Nat.leb_spec n (j + S (length a))); cbn [andb]; try lia.
    + replace (n - S j) with (S (n - S (S j))) by lia. reflexivity.
    + apply rget_rset_other; auto; [apply is_wreg_range|..]; lia.
    + replace n with (S j) by lia. rewrite Nat.sub_diag. cbn [nth]. rewrite rget_rset_same; [apply U; now left|auto|apply is_wreg_range; lia].
    + apply rget_rset_other; auto; [apply is_wreg_range|..]; lia.
Qed.
Lemma set_args_five m a n : st_ok m -> (forall z, In z a -> u64 z = z) -> length a <= 5 -> n <= length a ->
  let r := set_args 0 m a in firstn n [rget r 1; rget r 2; rget r 3; rget r 4; rget r 5] = firstn n (args5 a).
Proof.
  intros O U L Ln r. assert (G : forall k, 1 <= k <= 5 -> k <= length a -> rget r (Z.of_nat k) = nth (k - 1) a 0%Z).
  { intros k Hk Lk. unfold r. rewrite set_args_get by (auto; lia). destruct (Nat.ltb_spec 0 k), (Nat.leb_spec k (0 + length a)); cbn [andb]; try lia; reflexivity. }
  pose proof (G 1) as G1. pose proof (G 2) as G2. pose proof (G 3) as G3. pose proof (G 4) as G4. pose proof (G 5) as G5. clear G. clearbody r. cbn [Z.of_nat Pos.of_succ_nat Pos.succ] in *.
  unfold args5. destruct n as [|[|[|[|[|[|n]]]]]]; [reflexivity|..]; [rewrite G1 by lia|rewrite G1, G2 by lia|rewrite G1, G2, G3 by lia|rewrite G1, G2, G3, G4 by lia|rewrite G1, G2, G3, G4, G5 by lia|lia];
    destruct a as [|a1 [|a2 [|a3 [|a4 [|a5 [|a6 a]]]]]]; cbn in L, Ln; try lia; reflexivity.
Qed.

Section Ssa.
Context (f : func) (reach : list nat) (sp : nat) (args : list nat) (s : cgs) (Rg : addrs) (w : world) (ar : arity) (o : Z) (bi : bconst -> Z) (bb : nat -> bconst -> Z).
Hypothesis P : prepable f reach sp args.
Hypothesis T : inited f s reach sp args.
Hypothesis G : straight f reach.
Hypothesis FA : few_args w ar.
Hypothesis EA : enough_args ar f reach.

Record srel (t : sst) (q : vst) : Prop := {
  sr_mem : s_mem t = SpecWord.mem (v_st q);
  sr_nc : s_nc t = ncall (v_st q);
  sr_ok : st_ok (v_st q);
  sr_sp : forall z, s_env t sp = Some z -> z = rget (v_st q) 10;
  sr_env : forall d z, d <> sp -> s_env t d = Some z -> v_env q d = Some z;
  sr_range : forall d z, s_env t d = Some z -> u64 z = z }.

Lemma aug_linked j x : placed_in f reach j -> f_insn f j = Some x -> c_ex (aug s) j = Some (ex0 j (i_op x)).
Proof. intros Pl X. apply aug_ex. exact (nt_ex _ _ _ _ _ T _ _ Pl X). Qed.
Lemma aug_args a : In a args -> c_ex (aug s) a = Some (ex0 a ASSIGN).
Proof.
  intros Ia. pose proof (init_inv _ _ _ _ _ P T) as V. destruct (nt_rest _ _ _ _ _ T) as (_ & _ & Ea & _). rewrite <- Ea in Ia. apply aug_arg; [|exact Ia].
  destruct (n_args _ V) as (_ & _ & R). now destruct (R _ Ia).
Qed.
Lemma ev_s bi' u x v t q z : placed_in f reach u -> f_insn f u = Some x -> In v (operand_values x) -> srel t q ->
  seval bi (s_env t) (fill_val o v) = Some z -> veval (aug s) bi' q (fill_val o v) = Some z /\ u64 z = z.
Proof.
  intros Pl X I R. pose proof (pp_ops _ _ _ _ P _ _ _ Pl X I) as F. pose proof (sg_bi _ _ G _ _ _ Pl X I) as B.
  unfold seval, veval, fill_val. destruct (v_data v) eqn:D; cbn [v_data v_bi]; rewrite ?D; try discriminate.
  all: try (unfold evalv, const_val; cbn [v_data v_bi]; rewrite ?D, B; intros K; injection K as <-; split; [reflexivity|apply u64_u64]; fail).
  intros K. split; [|exact (sr_range _ _ R _ _ K)]. cbn in F. destruct F as [F|[->|(F & y & Y & Vo)]].
    + rewrite (aug_args _ F). cbn [obind ex0 x_fin]. apply (sr_env _ _ R); [|exact K]. intros ->. destruct (pp_args _ _ _ _ P) as (_ & _ & N & _). contradiction.
    + rewrite (aug_ex _ _ _ (nt_sp _ _ _ _ _ T)). cbn [obind ex_reg x_fin x_pos]. unfold evalv. cbn. f_equal. symmetry. exact (sr_sp _ _ R _ K).
    + rewrite (aug_linked _ _ F Y). cbn [obind ex0 x_fin]. apply (sr_env _ _ R); [|exact K]. intros ->. destruct (pp_sp _ _ _ _ P) as (N & _). contradiction.
Qed.
Lemma evs_s bi' u x t q : placed_in f reach u -> f_insn f u = Some x -> srel t q -> forall l a, (forall v, In v l -> In v (operand_values x)) ->
  sevals bi (s_env t) (map (fill_val o) l) = Some a -> evs (aug s) bi' q (map (fill_val o) l) = Some a /\ (forall z, In z a -> u64 z = z) /\ length a = length l.
Proof.
  intros Pl X R. induction l as [|v l IH]; intros a S; cbn [map sevals evs].
  - intros K. injection K as <-. repeat split. intros z [].
  - destruct (seval bi (s_env t) (fill_val o v)) as [z|] eqn:Ez; [|discriminate]. cbn [obind]. destruct (sevals bi (s_env t) (map (fill_val o) l)) as [b|] eqn:Eb; [|discriminate]. cbn [obind]. intros K. injection K as <-.
    destruct (ev_s bi' u x v t q z Pl X (S v (or_introl eq_refl)) R Ez) as (-> & Uz). destruct (IH b (fun v0 I0 => S v0 (or_intror I0)) eq_refl) as (-> & Ub & Lb). cbn [obind length]. split; [reflexivity|].
    split; [intros z0 [<-|I0]; auto|congruence].
Qed.
(** results *)
Lemma res_s t q i x z : placed_in f reach i -> f_insn f i = Some x -> is_void_op (i_op x) = false -> srel t q ->
  exists q', vwr (aug s) q i z = Some q' /\ srel (sres_ t i z) q'.
Proof.
  intros Pl X Vo R. unfold vwr. rewrite (aug_linked _ _ Pl X). cbn [obind ex0 x_dst]. rewrite Vo. unfold vput. rewrite (aug_linked _ _ Pl X). cbn [obind ex0 x_fin].
  eexists. split; [reflexivity|]. constructor; cbn [s_mem s_nc s_env sres_ v_st v_env]; try apply R.
  - unfold eupd. intros z0. destruct (Nat.eqb_spec sp i) as [->|_]; [destruct (pp_sp _ _ _ _ P); contradiction|]. apply (sr_sp _ _ R).
  - unfold eupd. intros d z0 N. destruct (Nat.eqb_spec d i) as [->|_]; [auto|]. now apply (sr_env _ _ R).
  - unfold eupd. intros d z0. destruct (Nat.eqb_spec d i) as [->|_]; [intros K; injection K as <-; apply u64_u64|]. apply (sr_range _ _ R).
Qed.
Definition sres_rel (r : sres) (r' : vres) : Prop :=
  match r, r' with
  | SNext t, VNext q => srel t q
  | SJmp b t, VJmp b' q => b' = b /\ srel t q
  | SRet z t, VRet z' q => z' = z /\ srel t q
  | SThrow _, _ => True
  | _, _ => False
  end.
Lemma addr_s bi' u x t q z : placed_in f reach u -> f_insn f u = Some x -> i_op x = LOADRAW \/ i_op x = STORERAW -> srel t q ->
  seval bi (s_env t) (a_val (fill_addr o (i_addr x))) = Some z ->
  exists a, vaddr (aug s) bi' q (fill_addr o (i_addr x)) = Some a /\ u64 a = u64 (z + a_off (fill_addr o (i_addr x))).
Proof.
  intros Pl X O R K.
  assert (I : In (a_val (i_addr x)) (operand_values x)) by (unfold operand_values; apply in_or_app; right; destruct O as [-> | ->]; now left).
  pose proof (pp_ops _ _ _ _ P _ _ _ Pl X I) as F. pose proof (sg_bi _ _ G _ _ _ Pl X I) as B.
  assert (Va : a_val (fill_addr o (i_addr x)) = a_val (i_addr x)) by (unfold fill_addr; destruct (a_ot (i_addr x)); reflexivity).
  assert (Vt : a_ot (fill_addr o (i_addr x)) = O_CONST) by (unfold fill_addr; destruct (a_ot (i_addr x)) eqn:Q; auto).
  set (A := fill_addr o (i_addr x)) in *. rewrite Va in K. unfold seval in K. unfold vaddr. rewrite Vt, Va. destruct (v_data (a_val (i_addr x))) eqn:D; try discriminate K.
  - injection K as <-. unfold addr_of. rewrite Vt, Va, D. eexists. split; [reflexivity|]. unfold const_val. rewrite B, u64_add_l. reflexivity.
  - cbn in F. destruct F as [F|[->|(F & y & Y & Vo)]].
    + rewrite (aug_args _ F). cbn [obind ex0 x_fin]. rewrite (sr_env _ _ R _ z); [cbn [obind]; eauto| |exact K]. intros ->. destruct (pp_args _ _ _ _ P) as (_ & _ & N & _). contradiction.
    + rewrite (aug_ex _ _ _ (nt_sp _ _ _ _ _ T)). cbn [obind ex_reg x_fin x_pos]. unfold addr_of. cbn. eexists. split; [reflexivity|]. now rewrite (sr_sp _ _ R _ K).
    + rewrite (aug_linked _ _ F Y). cbn [obind ex0 x_fin]. rewrite (sr_env _ _ R _ z); [cbn [obind]; eauto| |exact K]. intros ->. destruct (pp_sp _ _ _ _ P) as (N & _). contradiction.
Qed.
Lemma srel_mem t q m : srel t q -> srel (smem t m) (mkV (v_env q) (mset (v_st q) m)).
Proof.
  intros R. constructor; cbn [s_mem s_nc s_env smem v_st v_env]; [reflexivity|apply (sr_nc _ _ R)|apply mset_ok, (sr_ok _ _ R)|exact (sr_sp _ _ R)|exact (sr_env _ _ R)|exact (sr_range _ _ R)].
Qed.

Lemma exec_s0 bi' i x t q r : placed_in f reach i -> f_insn f i = Some x -> srel t q -> (forall t', r <> SThrow t') ->
  sexec w bi (fill o f) i (fill_insn o x) t = Some r -> exists r', hexec0 w bi' (aug s) i (fill_insn o x) q = Some r' /\ sres_rel r r'.
Proof.
  intros Pl X R NT H. destruct (sg_ops _ _ G _ _ Pl X) as (N1 & N2 & N3).
  assert (EV : forall v z, In v (i_vals x) -> seval bi (s_env t) (fill_val o v) = Some z -> veval (aug s) bi' q (fill_val o v) = Some z).
  { intros v z I K. apply (ev_s bi' i x v t q z Pl X); auto. apply in_or_app. now left. }
  assert (RS : forall z, is_void_op (i_op x) = false -> exists r', vnext (vwr (aug s) q i z) = Some r' /\ sres_rel (SNext (sres_ t i z)) r').
  { intros z Vo. destruct (res_s t q i x z Pl X Vo R) as (q' & Q & R'). rewrite Q. exists (VNext q'). split; [reflexivity|exact R']. }
  unfold hexec0. change (i_op (fill_insn o x)) with (i_op x). destruct (iop_eqb (i_op x) CALL) eqn:Oc.
  - apply op_call in Oc. rewrite (aug_linked _ _ Pl X), Oc. cbn [obind ex0 x_dst]. change (is_void_op CALL) with false. cbv iota.
    unfold sexec in H. change (i_op (fill_insn o x)) with (i_op x) in H. rewrite Oc in H. change (i_vals (fill_insn o x)) with (map (fill_val o) (i_vals x)) in *. change (i_u (fill_insn o x)) with (i_u x) in *.
    destruct (sevals bi (s_env t) (map (fill_val o) (i_vals x))) as [a|] eqn:Ea; [|discriminate H]. cbn [obind] in H.
    destruct (evs_s bi' i x t q Pl X R (i_vals x) a (fun v I0 => in_or_app _ _ _ (or_introl I0)) Ea) as (-> & Ua & La). cbn [obind]. eexists. split; [reflexivity|].
    pose proof (pp_call _ _ _ _ P _ _ Pl X Oc) as L5. pose proof (EA _ _ Pl X Oc) as Le.
    assert (A5 : firstn (ar (i_u x)) (args5 a) = firstn (ar (i_u x)) (let r0 := set_args 0 (v_st q) a in [rget r0 1; rget r0 2; rget r0 3; rget r0 4; rget r0 5])).
    { symmetry. apply set_args_five; auto; [apply (sr_ok _ _ R)|lia|lia]. }
    pose proof (set_args_ok a 0 (v_st q) (sr_ok _ _ R)) as Ok1. pose proof (set_args_rest a 0 (v_st q)) as (Em & En). pose proof (set_args_ten a 0 (v_st q) ltac:(lia)) as E10.
    set (m1 := set_args 0 (v_st q) a) in *. cbv zeta in A5.
    assert (HE : helper w (s_nc t) (i_u x) (args5 a) (s_mem t) = helper w (ncall m1) (i_u x) [rget m1 1; rget m1 2; rget m1 3; rget m1 4; rget m1 5] (SpecWord.mem m1)).
    { rewrite Em, En, (sr_mem _ _ R), (sr_nc _ _ R). apply FA; auto. unfold args5. rewrite firstn_length, app_length. cbn [length]. lia. }
    rewrite HE in H. pose proof (call_ok w (i_u x) m1 Ok1) as Ok2. pose proof (call_rget w (i_u x) m1 10 Ok1 ltac:(lia)) as C10.
    unfold call_helper in Ok2, C10 |- *. destruct (helper w (ncall m1) _ _ _) as [rr mm] eqn:Hh. injection H as <-. cbn [sres_rel].
    constructor; cbn [s_mem s_nc s_env v_st v_env]; auto.
    + cbn. now rewrite (sr_nc _ _ R), En.
    + unfold eupd. intros z. destruct (Nat.eqb_spec sp i) as [->|_]; [destruct (pp_sp _ _ _ _ P); contradiction|]. intros K. rewrite C10, E10. exact (sr_sp _ _ R _ K).
    + unfold eupd. intros d z N. destruct (Nat.eqb_spec d i) as [->|_]; [|now apply (sr_env _ _ R)]. intros K. injection K as <-. unfold rget. cbn [regs map app Z.to_nat nth]. now rewrite u64_u64.
    + unfold eupd. intros d z. destruct (Nat.eqb_spec d i) as [->|_]; [intros K; injection K as <-; apply u64_u64|]. apply (sr_range _ _ R).
  - assert (NC : i_op x <> CALL) by (intros Q; rewrite Q in Oc; discriminate Oc).
    unfold sexec in H. unfold vexec. change (i_op (fill_insn o x)) with (i_op x) in *. change (i_vals (fill_insn o x)) with (map (fill_val o) (i_vals x)) in *.
    change (i_addr (fill_insn o x)) with (fill_addr o (i_addr x)) in *. change (i_alu (fill_insn o x)) with (i_alu x) in *. change (i_vrt (fill_insn o x)) with (i_vrt x) in *.
    change (i_u (fill_insn o x)) with (i_u x) in *. change (i_ity (fill_insn o x)) with (i_ity x) in *. change (i_imm64 (fill_insn o x)) with (i_imm64 x) in *.
    change (i_bb1 (fill_insn o x)) with (i_bb1 x) in *. change (i_bb2 (fill_insn o x)) with (i_bb2 x) in *.
    assert (AD : forall z, i_op x = LOADRAW \/ i_op x = STORERAW -> seval bi (s_env t) (a_val (fill_addr o (i_addr x))) = Some z ->
       exists a, vaddr (aug s) bi' q (fill_addr o (i_addr x)) = Some a /\ u64 a = u64 (z + a_off (fill_addr o (i_addr x)))).
    { intros z O K. exact (addr_s bi' i x t q z Pl X O R K). }
    destruct (i_op x) eqn:O; try contradiction;
    (destruct (i_vals x) as [|v1 [|v2 [|v3 l]]]; cbn [map] in H |- *; try discriminate H);
    repeat match type of H with
    | obind (seval bi (s_env t) (fill_val o ?v)) _ = _ => let z := fresh "z" in let K := fresh "K" in
        destruct (seval bi (s_env t) (fill_val o v)) as [z|] eqn:K; [|discriminate H]; cbn [obind] in H; apply EV in K; [|cbn; auto]
    | obind (seval bi (s_env t) (a_val _)) _ = _ => let z := fresh "z" in let K := fresh "K" in let a := fresh "a" in
        destruct (seval bi (s_env t) (a_val (fill_addr o (i_addr x)))) as [z|] eqn:K; [|discriminate H]; cbn [obind] in H
    | obind ?e _ = _ => let z := fresh "z" in let K := fresh "K" in destruct e as [z|] eqn:K; [|discriminate H]; cbn [obind] in H |- *
    | match alu_op_of ?c with _ => _ end = _ => cbn [alu_op_of cmp_op_of] in H |- *
    | (if ?c then _ else _) = _ => destruct c; [|discriminate H]
    end; try discriminate H.
    all: repeat match goal with K : veval _ _ _ ?v = Some _ |- context [veval _ _ _ ?v] => rewrite K; cbn [obind] end.
    all: try (cbn [obind]; injection H as <-; apply RS; reflexivity).
    all: try (injection H as <-; eexists; split; [reflexivity|]; cbn; auto; fail).
    all: try (exfalso; injection H as <-; exact (NT _ eq_refl)).
    all: match goal with AD0 : (forall z, _ -> Some ?z0 = Some z -> _) |- _ => destruct (AD0 z0 ltac:(auto) eq_refl) as (ad & Ha & Ua) end; rewrite Ha; cbn [obind]; injection H as <-; rewrite <- (sr_mem _ _ R).
    2-5: rewrite (load_addr _ _ _ _ Ua); apply RS; reflexivity.
    rewrite (store_addr _ _ _ _ _ Ua). eexists. split; [reflexivity|]. cbn [sres_rel]. now apply srel_mem.
Qed.
Lemma exec_s bi' i x t q r : placed_in f reach i -> f_insn f i = Some x -> srel t q -> (forall t', r <> SThrow t') ->
  gsexec Rg w bi (fill o f) i (fill_insn o x) t = Some r -> exists r', hexec Rg w bi' (aug s) i (fill_insn o x) q = Some r' /\ sres_rel r r'.
Proof.
  intros Pl X R NT H. unfold gsexec in H. destruct (squiet Rg bi (fill_insn o x) t) eqn:Qt; [|discriminate H].
  destruct (exec_s0 bi' i x t q r Pl X R NT H) as (r' & H' & Rr). exists r'. split; [|exact Rr]. unfold hexec. rewrite H'.
  assert (Q' : quiet Rg bi' (aug s) (fill_insn o x) q = true); [|now rewrite Q'].
  destruct (iop_eq_dec (i_op x) LOADRAW) as [O|N1]; [|destruct (iop_eq_dec (i_op x) STORERAW) as [O|N2]; [|now apply quiet_op]].
  all: assert (Or : i_op x = LOADRAW \/ i_op x = STORERAW) by auto; destruct (raw_addr w bi' (aug s) i (fill_insn o x) q r' Or H') as (k & a & K & A); change (i_vrt (fill_insn o x)) with (i_vrt x) in K.
  all: unfold squiet in Qt; unfold quiet; unfold sexec in H; change (i_op (fill_insn o x)) with (i_op x) in *; change (i_vrt (fill_insn o x)) with (i_vrt x) in *;
    change (i_addr (fill_insn o x)) with (fill_addr o (i_addr x)) in *; rewrite O, K in Qt, H; rewrite O, K, A.
  all: destruct (seval bi (s_env t) (a_val (fill_addr o (i_addr x)))) as [z|] eqn:Ez;
    [|exfalso; destruct (i_vals (fill_insn o x)) as [|v1 [|v2 [|v3 l]]]; cbn [obind alu_op_of cmp_op_of] in H; discriminate H].
  all: destruct (addr_s bi' i x t q z Pl X Or R Ez) as (a' & A' & Ua); rewrite A in A'; injection A' as <-; now rewrite (touches_u64 Rg _ _ _ Ua).
Qed.
Lemma fill_op y : i_op (fill_insn o y) = i_op y.
Proof. reflexivity. Qed.
Lemma body_s bi' l : forall t q r, (forall j, In j l -> placed_in f reach j) -> srel t q -> (forall t', r <> SThrow t') ->
  gsbody Rg w bi (fill o f) t l = Some r -> exists r', hbody Rg w bi' (aug s) o q l = Some r' /\ sres_rel r r'.
Proof.
  induction l as [|i l IH]; intros t q r Pl R NT H; cbn [gsbody hbody] in H |- *.
  - injection H as <-. eexists. split; [reflexivity|exact R].
  - assert (Pi : placed_in f reach i) by (apply Pl; now left). destruct (placed_insn _ _ _ _ P _ Pi) as (x & X). change (f_insn (fill o f) i) with (option_map (fill_insn o) (f_insn f i)) in H. rewrite X in H. cbn [option_map obind] in H.
    change (c_f (aug s)) with (c_f s). rewrite (old_insn _ _ _ _ _ P T _ _ X). cbn [obind]. destruct (gsexec Rg w bi (fill o f) i (fill_insn o x) t) as [r1|] eqn:Ex; [|discriminate H]. cbn [obind] in H.
    assert (NT1 : forall t', r1 <> SThrow t') by (intros t' ->; injection H as <-; exact (NT _ eq_refl)).
    destruct (exec_s bi' i x t q r1 Pi X R NT1 Ex) as (r1' & -> & R1). cbn [obind]. destruct r1 as [t1|b t1|z t1|t1], r1' as [q1|b' q1|z' q1]; cbn [sres_rel] in R1; try contradiction.
    + apply (IH t1 q1 r); auto. intros j J. apply Pl. now right.
    + injection H as <-. eexists. split; [reflexivity|exact R1].
    + injection H as <-. eexists. split; [reflexivity|exact R1].
    + destruct (NT1 _ eq_refl).
    + destruct (NT1 _ eq_refl).
    + destruct (NT1 _ eq_refl).
Qed.
Lemma phis_s bi' prev t0 q0 : srel t0 q0 -> forall l t q l' t1, (forall j, In j l -> placed_in f reach j) -> srel t q ->
  sphis bi (fill o f) prev t0 t l = Some (l', t1) -> exists q1, vphis bi' (aug s) o prev q0 q l = Some (l', q1) /\ srel t1 q1 /\ incl l' l.
Proof.
  intros R0. induction l as [|i l IH]; intros t q l' t1 Pl R H; cbn [sphis vphis] in H |- *.
  - injection H as <- <-. exists q. split; [reflexivity|]. split; [exact R|apply incl_refl].
  - assert (Pi : placed_in f reach i) by (apply Pl; now left). destruct (placed_insn _ _ _ _ P _ Pi) as (x & X). change (f_insn (fill o f) i) with (option_map (fill_insn o) (f_insn f i)) in H. rewrite X in H. cbn [option_map obind] in H.
    change (c_f (aug s)) with (c_f s). rewrite (old_insn _ _ _ _ _ P T _ _ X). cbn [obind]. rewrite fill_op in H. destruct (iop_eqb (i_op x) PHI) eqn:O.
    + assert (Op : i_op x = PHI) by (destruct (i_op x); cbn in O; congruence). rewrite (incoming_fill o x x prev eq_refl) in H.
      destruct (incoming x prev) as [v|] eqn:I; [|discriminate H]. cbn [option_map obind] in H |- *. destruct (seval bi (s_env t0) (fill_val o v)) as [z|] eqn:Ez; [|discriminate H]. cbn [obind] in H.
      apply incoming_in in I as (b & I). destruct (ev_s bi' i x v t0 q0 z Pi X) as (-> & _); auto.
      { unfold operand_values. rewrite Op. apply in_or_app. right. apply in_map_iff. exists (v, b). auto. }
      cbn [obind]. destruct (res_s t q i x z Pi X) as (q' & -> & R'); [rewrite Op; reflexivity|exact R|]. cbn [obind].
      destruct (IH (sres_ t i z) q' l' t1 (fun j J => Pl j (or_intror J)) R' H) as (q1 & A & B & C). exists q1. split; [exact A|]. split; [exact B|]. now apply incl_tl.
    + injection H as <- <-. exists q. split; [reflexivity|]. split; [exact R|apply incl_refl].
Qed.
Lemma block_s prev b t q r : In b reach -> srel t q -> (forall t', r <> SThrow t') -> gsblock Rg w bi (fill o f) prev b t = Some r ->
  exists r', hblock Rg w bb (aug s) o prev b q = Some r' /\ sres_rel r r'.
Proof.
  intros Hb R NT H. unfold gsblock in H. unfold hblock. change (f_block (fill o f) b) with (f_block f b) in H. change (c_f (aug s)) with (c_f s). rewrite (proj1 (nt_f _ _ _ _ _ T)).
  destruct (f_block f b) as [k|] eqn:B; [|discriminate H]. cbn [obind] in H |- *.
  assert (Pl : forall j, In j (b_insns k) -> placed_in f reach j) by (intros j J; exists b; split; [exact Hb|]; unfold insns_of; now rewrite B).
  destruct (sphis bi (fill o f) prev t t (b_insns k)) as [[l t1]|] eqn:Ph; [|discriminate H]. cbn [obind] in H. destruct (phis_s (bb prev) prev t q R _ _ _ _ _ Pl R Ph) as (q1 & -> & R1 & In1). cbn [obind].
  destruct (gsbody Rg w bi (fill o f) t1 l) as [r1|] eqn:Bd; [|discriminate H]. cbn [obind] in H. assert (NT1 : forall t', r1 <> SThrow t') by (intros t' ->; injection H as <-; exact (NT _ eq_refl)).
  destruct (body_s (bb b) l t1 q1 r1 (fun j J => Pl j (In1 j J)) R1 NT1 Bd) as (r1' & -> & Rr). cbn [obind]. destruct r1 as [t2|c t2|z t2|t2], r1' as [q2|c' q2|z' q2]; cbn [sres_rel] in Rr; try contradiction; try destruct (NT1 _ eq_refl).
  - destruct (b_succs k) as [|c l']; [discriminate H|]. injection H as <-. eexists. split; [reflexivity|]. cbn. auto.
  - injection H as <-. eexists. split; [reflexivity|exact Rr].
  - injection H as <-. eexists. split; [reflexivity|exact Rr].
Qed.
Lemma run_s n : forall prev b t q z t', In b reach -> srel t q -> gsrun Rg w bi (fill o f) n prev b t = Some (ORet z t') ->
  exists q', hrun Rg w bb (aug s) o n prev b q = Some (VDone z q') /\ srel t' q'.
Proof.
  induction n as [|n IH]; intros prev b t q z t' Hb R H; cbn [gsrun hrun] in H |- *; [discriminate H|].
  destruct (gsblock Rg w bi (fill o f) prev b t) as [r|] eqn:B; [|discriminate H]. cbn [obind] in H. assert (NT : forall t0, r <> SThrow t0) by (intros t0 ->; discriminate H).
  destruct (block_s prev b t q r Hb R NT B) as (r' & Bh & Rr). rewrite Bh. cbn [obind]. destruct r as [t2|c t2|z2 t2|t2], r' as [q2|c' q2|z2' q2]; cbn [sres_rel] in Rr; try contradiction; try discriminate H.
  - destruct Rr as (-> & Rr). apply (IH b c t2 q2 z t'); auto. apply (hblock_leads (aug s)) in Bh. pose proof (init_inv _ _ _ _ _ P T) as V. destruct (nt_rest _ _ _ _ _ T) as (Er & _).
    assert (Hb' : In b (c_reach s)) by now rewrite Er. destruct (n_leads _ V b c Hb' Bh) as (Hc & _). now rewrite Er in Hc.
  - destruct Rr as (-> & Rr). injection H as <- <-. eauto.
Qed.
End Ssa.
