(** The preparation of stack addresses: proofs. *)
From Coq Require Import ZArith List Bool Arith Lia.
From Verif Require Import M_Base M_Ir M_Edit M_Ra M_Pass SpecWord SpecIsa SpecFlat SpecSsa SpecIr SpecEdit SpecPass SpecStrict SpecInstr SpecFrame SpecShift SpecGuard.
From Verif Require Import L_Guard L_Word L_Edit L_Uses L_Hist L_Ctor L_Ins L_Sim.
Import ListNotations.
Open Scope Z_scope.
Ltac Zify.zify_post_hook ::= Z.div_mod_to_equations.

(** ** Words *)
Lemma u64_add_l a b : u64 (u64 a + b) = u64 (a + b).
Proof. unfold u64. now rewrite Zplus_mod_idemp_l. Qed.
Lemma u64_add_r a b : u64 (a + u64 b) = u64 (a + b).
Proof. unfold u64. now rewrite Zplus_mod_idemp_r. Qed.
Lemma u64_idem a : u64 (u64 a) = u64 a.
Proof. unfold u64. now rewrite Zmod_mod. Qed.
Lemma load_addr m k : forall a a', u64 a = u64 a' -> load m a k = load m a' k.
Proof.
  induction k as [|k IH]; intros a a' H; cbn [load]; [reflexivity|]. rewrite H. f_equal. f_equal. apply IH.
  rewrite <- (u64_add_l a), <- (u64_add_l a'), H. reflexivity.
Qed.
Lemma store_addr k : forall m a a' v, u64 a = u64 a' -> store m a k v = store m a' k v.
Proof.
  induction k as [|k IH]; intros m a a' v H; cbn [store]; [reflexivity|]. rewrite H. apply IH.
  rewrite <- (u64_add_l a), <- (u64_add_l a'), H. reflexivity.
Qed.
Lemma trunc_add w a b : trunc w (trunc w a + trunc w b) = trunc w (a + b).
Proof. unfold trunc; now rewrite <- Zplus_mod. Qed.
Lemma trunc_u64 w a : trunc w (u64 a) = trunc w a.
Proof.
  destruct w; unfold trunc, u64, bits; [apply Zmod_mod|]. rewrite <- Znumtheory.Zmod_div_mod; try lia. exists (2 ^ 32). reflexivity.
Qed.
Lemma add_fn w a b : alu_fn AAdd w a b = trunc w (a + b).
Proof. unfold alu_fn. apply trunc_add. Qed.
Lemma add_moved w z o k : alu_fn AAdd w (u64 (z + o)) (u64 k) = alu_fn AAdd w (u64 z) (u64 (k + o)).
Proof.
  rewrite !add_fn. rewrite <- (trunc_add w (u64 (z + o))), <- (trunc_add w (u64 z)), !trunc_u64, !trunc_add. f_equal. lia.
Qed.

(** ** One function and the prepared one *)
Inductive vmoved (sp : nat) (T : list nat) : value -> value -> Prop :=
| vm_same v : is_use_of sp v = false -> vmoved sp T v v
| vm_tmp v t : is_use_of sp v = true -> In t T -> vmoved sp T v (val_insn t).
Inductive moved (sp : nat) (T : list nat) (x y : insn) : Prop :=
| mv_vals : (i_op x = LOAD -> i_vals y = i_vals x) -> (i_op x = PHI -> i_vals y = i_vals x /\ forall e, In e (i_phi x) -> is_use_of sp (fst e) = false) ->
    Forall2 (vmoved sp T) (i_vals x) (i_vals y) -> moved sp T x y
| mv_add v c k : i_op x = ADD -> i_vals x = [v; c] -> is_use_of sp v = true -> v_data c = VConst k -> v_bi c = B_NONE ->
    i_vals y = [v; mkVal (VRawOff k) (v_ct c) (v_bi c)] -> moved sp T x y.
Record keeps (x y : insn) : Prop := {
  ke_op : i_op y = i_op x; ke_vrt : i_vrt y = i_vrt x; ke_addr : i_addr y = i_addr x; ke_alu : i_alu y = i_alu x;
  ke_bb1 : i_bb1 y = i_bb1 x; ke_bb2 : i_bb2 y = i_bb2 x; ke_phi : i_phi y = i_phi x; ke_u : i_u y = i_u x;
  ke_ity : i_ity y = i_ity x; ke_imm : i_imm64 y = i_imm64 x; ke_par : i_parent y = i_parent x }.
Definition ex (u : nat) (T : list nat) (i : nat) : list nat := if (i =? u)%nat then T ++ [i] else [i].
Definition is_tmp (g : func) (sp t : nat) : Prop :=
  exists l b v, f_insn g t = Some (set_users l (build b (K_bin v (val_rawoff32 0) ADD A_64))) /\ is_use_of sp v = true.
Record shifted (f g : func) (sp u : nat) (T : list nat) : Prop := {
  sh_insns : forall b, insns_of g b = flat_map (ex u T) (insns_of f b);
  sh_blk : forall b, f_block f b <> None -> f_block g b <> None;
  sh_succs : forall b, succs_of g b = succs_of f b;
  sh_tmp : forall t, In t T -> (f_ni f <= t)%nat /\ is_tmp g sp t;
  sh_u : forall x, f_insn f u = Some x -> i_op x = PHI -> T = [];
  sh_insn : forall i x, f_insn f i = Some x -> exists y, f_insn g i = Some y /\ keeps x y /\ moved sp (if (i =? u)%nat then T else []) x y }.

Section Run.
Variables (Rg : SpecGs.addrs) (f g : func) (sp u : nat) (T : list nat) (o z : Z).
Hypothesis F : fresh_ok f.
Hypothesis NH : no_holes f.
Hypothesis OUT : forall b, ~ In sp (insns_of f b).
Hypothesis SP : exists x, f_insn f sp = Some x /\ i_op x <> ALLOC.
Hypothesis RAW : forall i x, f_insn f i = Some x -> i_op x = LOADRAW \/ i_op x = STORERAW ->
    a_ot (i_addr x) = if is_use_of sp (a_val (i_addr x)) then O_RAWOFF else O_CONST.
Hypothesis LIVE : forall i x v d, f_insn f i = Some x -> In v (operand_values x) -> v_data v = VInsn d -> f_insn f d <> None.
Hypothesis LINK : forall b i, In i (insns_of f b) -> f_insn f i <> None.
Hypothesis SH : shifted f g sp u T.

Record rel (s t : sst) : Prop := {
  re_mem : s_mem s = s_mem t; re_nc : s_nc s = s_nc t; re_var : s_var s = s_var t;
  re_s : s_env s sp = Some (u64 (z + o)); re_t : s_env t sp = Some (u64 z);
  re_env : forall i, i <> sp -> (i < f_ni f)%nat -> s_env s i = s_env t i }.

Lemma live_lt i : f_insn f i <> None -> (i < f_ni f)%nat.
Proof. intros H. destruct (Nat.lt_ge_cases i (f_ni f)) as [L|L]; [exact L|]. now rewrite (proj1 F) in H. Qed.

Lemma fill_same v : match v_data v with VRawOff _ | VRawOffRev _ => False | _ => True end -> fill_val o v = v.
Proof. unfold fill_val. destruct (v_data v); tauto. Qed.

Lemma eval_same bi s t i x v : rel s t -> f_insn f i = Some x -> In v (operand_values x) -> is_use_of sp v = false ->
  seval bi (s_env s) v = seval bi (s_env t) (fill_val o v).
Proof.
  intros R X I U. rewrite fill_same by exact (NH i x v X I). unfold seval. destruct (v_data v) as [c|c|c|d|p|] eqn:D; try reflexivity.
  apply (re_env _ _ R).
  - intros ->. unfold is_use_of in U. rewrite D, Nat.eqb_refl in U. discriminate U.
  - apply live_lt. exact (LIVE i x v d X I D).
Qed.
Lemma use_is v : is_use_of sp v = true -> v_data v = VInsn sp.
Proof. unfold is_use_of. destruct (v_data v); try discriminate. intros H. apply Nat.eqb_eq in H. now subst. Qed.

(** the temporaries *)
Lemma tmp_run w bi : forall T' t, incl T' T -> s_env t sp = Some (u64 z) ->
  exists t', (forall r q, gsbody Rg w bi (fill o g) t' r = q -> gsbody Rg w bi (fill o g) t (T' ++ r) = q) /\
    s_mem t' = s_mem t /\ s_nc t' = s_nc t /\ s_var t' = s_var t /\ (forall i, ~ In i T' -> s_env t' i = s_env t i) /\
    forall i, In i T' -> s_env t' i = Some (u64 (z + o)).
Proof.
  induction T' as [|a T' IH]; intros t I S.
  - exists t. repeat split; auto. intros i [].
  - destruct (sh_tmp _ _ _ _ _ SH a (I a (or_introl eq_refl))) as (La & l & b & v & A & U).
    set (t1 := sres_ t a (alu_fn AAdd true (u64 z) (u64 (0 + o)))).
    assert (Spa : sp <> a). { intros <-. destruct SP as (x & X & _). pose proof (live_lt sp). rewrite X in H. specialize (H ltac:(discriminate)). lia. }
    assert (S1 : s_env t1 sp = Some (u64 z)).
    { unfold t1. cbn. unfold eupd. destruct (Nat.eqb_spec sp a); [contradiction|exact S]. }
    destruct (IH t1 (fun j J => I j (or_intror J)) S1) as (t' & B & M & N & V & E0 & E1).
    exists t'. split; [|split; [|split; [|split; [|split]]]].
    + intros r q Q. cbn [app gsbody]. replace (f_insn (fill o g) a) with (option_map (fill_insn o) (f_insn g a)) by reflexivity.
      rewrite A. cbn [option_map obind]. unfold gsexec, squiet, sexec. cbn [fill_insn set_addr set_phi set_vals i_op i_vals set_users build set_alu set_op map i_alu].
      rewrite (fill_same v) by now rewrite (use_is v U). cbn [alu_op_of width_of obind].
      unfold seval at 1. rewrite (use_is v U), S. cbn [obind]. unfold seval, fill_val, val_rawoff32. cbn [v_data v_bi const_val obind].
      unfold const_val. cbn [v_bi v_data obind]. apply (B r q Q).
    + rewrite M. reflexivity.
    + rewrite N. reflexivity.
    + rewrite V. reflexivity.
    + intros i Hi. rewrite E0 by (intros K; apply Hi; now right). unfold t1. cbn. unfold eupd. destruct (Nat.eqb_spec i a) as [->|]; [|reflexivity].
      exfalso. apply Hi. now left.
    + intros i Hi. destruct (in_dec Nat.eq_dec i T') as [J|J]; [now apply E1|]. destruct Hi as [<-|Hi]; [|contradiction].
      rewrite E0 by exact J. unfold t1. cbn [s_env sres_]. unfold eupd. rewrite Nat.eqb_refl. f_equal.
      rewrite <- (add_moved true z o 0), add_fn. cbn [trunc]. rewrite u64_idem, u64_add_r, Z.add_0_r. apply u64_idem.
Qed.

Lemma eval_moved bi s t Ti i x v v' : rel s t -> (forall a, In a Ti -> s_env t a = Some (u64 (z + o))) ->
  f_insn f i = Some x -> In v (operand_values x) -> vmoved sp Ti v v' ->
  seval bi (s_env s) v = seval bi (s_env t) (fill_val o v').
Proof.
  intros R A X I M. destruct M as [v U|v a U J].
  - exact (eval_same bi s t i x v R X I U).
  - unfold seval at 1. rewrite (use_is v U), (re_s _ _ R). unfold fill_val, val_insn, seval. cbn [v_data]. now rewrite (A a J).
Qed.
Lemma evals_moved bi s t Ti i x : rel s t -> (forall a, In a Ti -> s_env t a = Some (u64 (z + o))) ->
  f_insn f i = Some x -> forall l l', incl l (operand_values x) -> Forall2 (vmoved sp Ti) l l' ->
  Forall2 (fun v v' => seval bi (s_env s) v = seval bi (s_env t) v') l (map (fill_val o) l').
Proof.
  intros R A X l l' I M. induction M as [|v v' l l' V _ IH]; [constructor|]. cbn [map]. constructor.
  - apply (eval_moved bi s t Ti i x v v' R A X); [apply I; now left|exact V].
  - apply IH. intros a J. apply I. now right.
Qed.
Lemma vals_in x : incl (i_vals x) (operand_values x).
Proof. intros v I. apply in_or_app. now left. Qed.

Lemma cell_kept a : cell_like f (fill o g) a.
Proof.
  unfold cell_like. destruct (f_insn f a) as [y|] eqn:Y; [|exact I]. intros _. destruct (sh_insn _ _ _ _ _ SH a y Y) as (y' & Y' & K & _).
  exists (fill_insn o y'). cbn [fill f_insn]. rewrite Y'. split; [reflexivity|]. split; [exact (ke_op _ _ K)|exact (ke_vrt _ _ K)].
Qed.

Lemma exec_moved w bi s t Ti i x y q : rel s t -> (forall a, In a Ti -> s_env t a = Some (u64 (z + o))) ->
  f_insn f i = Some x -> keeps x y -> moved sp Ti x y -> sexec w bi f i x s = Some q ->
  exists q', sexec w bi (fill o g) i (fill_insn o y) t = Some q' /\ par i s t q q'.
Proof.
  intros R A X K M E.
  destruct M as [ML MP MV|v c k Op Vx U Dc Bc Vy].
  2:{ unfold sexec in E |- *. cbn [fill_insn set_addr set_phi set_vals i_op i_vals i_alu]. rewrite (ke_op _ _ K), Op, Vy, (ke_alu _ _ K).
      rewrite Op, Vx in E. cbn [alu_op_of map] in E |- *. destruct (width_of (i_alu x)) as [wd|]; [|discriminate E]. cbn [obind] in E |- *.
      rewrite (fill_same v) by now rewrite (use_is v U). unfold seval at 1 in E. unfold seval at 1. rewrite (use_is v U) in E |- *.
      rewrite (re_s _ _ R) in E. rewrite (re_t _ _ R). cbn [obind] in E |- *. unfold seval in E |- *. unfold fill_val. cbn [v_data].
      rewrite Dc in E. unfold const_val in *. cbn [v_bi]. rewrite Bc in *. cbn [obind] in E |- *. injection E as <-.
      eexists. split; [reflexivity|]. rewrite add_moved. apply par_res; [exact (re_mem _ _ R)|exact (re_nc _ _ R)]. }
  pose proof (evals_moved bi s t Ti i x R A X _ _ (vals_in x) MV) as EV.
  assert (RS : (i_op x = LOADRAW \/ i_op x = STORERAW) /\ is_use_of sp (a_val (i_addr x)) = true \/
              (i_op x = LOADRAW \/ i_op x = STORERAW -> is_use_of sp (a_val (i_addr x)) = false)).
  { destruct (is_use_of sp (a_val (i_addr x))); [|auto]. destruct (iop_eq_dec (i_op x) LOADRAW); [left; auto|].
    destruct (iop_eq_dec (i_op x) STORERAW); [left; auto|]. right. intros [|]; contradiction. }
  destruct RS as [(OR & U)|NU].
  - pose proof (RAW i x X OR) as OT. rewrite U in OT.
    assert (AY : fill_addr o (i_addr y) = mkAddr (a_val (i_addr x)) (a_off (i_addr x) + o) O_CONST).
    { unfold fill_addr. now rewrite (ke_addr _ _ K), OT. }
    assert (EA : forall k m, load m (u64 (z + o) + a_off (i_addr x)) k = load m (u64 z + (a_off (i_addr x) + o)) k).
    { intros k m. apply load_addr. rewrite !u64_add_l. f_equal. lia. }
    assert (EB : forall k m v, store m (u64 (z + o) + a_off (i_addr x)) k v = store m (u64 z + (a_off (i_addr x) + o)) k v).
    { intros k m v. apply store_addr. rewrite !u64_add_l. f_equal. lia. }
    unfold sexec in E |- *. cbn [fill_insn set_addr set_phi set_vals i_op i_vals i_vrt i_addr]. rewrite AY, (ke_op _ _ K), (ke_vrt _ _ K). cbn [a_val a_off].
    destruct OR as [Op|Op]; rewrite Op in E |- *.
    + destruct (vr_bytes (i_vrt x)) as [k|]; [|discriminate E]. cbn [obind] in E |- *. unfold seval in E |- *. rewrite (use_is _ U) in E |- *.
      rewrite (re_s _ _ R) in E. rewrite (re_t _ _ R). cbn [obind] in E |- *. injection E as <-. eexists. split; [reflexivity|].
      rewrite EA, (re_mem _ _ R). apply par_res; [exact (re_mem _ _ R)|exact (re_nc _ _ R)].
    + destruct (i_vals x) as [|v1 [|v2 [|v3 r]]]; try discriminate E. inversion EV as [|? v1' ? r1 EV1 EV2 Q1 Q2]. inversion EV2; subst r1.
      destruct (vr_bytes (i_vrt x)) as [k|]; [|discriminate E]. cbn [obind] in E |- *. unfold seval at 1 in E. unfold seval at 1. rewrite (use_is _ U) in E |- *.
      rewrite (re_s _ _ R) in E. rewrite (re_t _ _ R). cbn [obind] in E |- *. rewrite EV1 in E. destruct (seval bi (s_env t) v1') as [z1|]; [|discriminate E].
      cbn [obind] in E |- *. injection E as <-. eexists. split; [reflexivity|]. rewrite EB, (re_mem _ _ R).
      set (m := store _ _ _ _). replace (smem s m) with (chg s i None None m (s_nc s)) by reflexivity.
      replace (smem t m) with (chg t i None None m (s_nc s)) by (rewrite (re_nc _ _ R); reflexivity). constructor.
  - assert (LK : like x (fill_insn o (set_addr (mkAddr (a_val (i_addr x)) (a_off (i_addr x)) O_CONST) y))).
    { unfold like. cbn. repeat split; apply K. }
    assert (SE : sexec w bi (fill o g) i (fill_insn o y) t = sexec w bi (fill o g) i (fill_insn o (set_addr (mkAddr (a_val (i_addr x)) (a_off (i_addr x)) O_CONST) y)) t).
    { unfold sexec. cbn [fill_insn set_addr set_phi set_vals i_op i_vals i_vrt i_addr i_alu i_bb1 i_bb2 i_u i_ity i_imm64]. rewrite (ke_op _ _ K).
      destruct (iop_eq_dec (i_op x) LOADRAW) as [Q|Q]; [|destruct (iop_eq_dec (i_op x) STORERAW) as [Q'|Q']].
      - rewrite Q. assert (OR : i_op x = LOADRAW \/ i_op x = STORERAW) by now left. pose proof (RAW i x X OR) as OT. rewrite (NU OR) in OT.
        unfold fill_addr. rewrite (ke_addr _ _ K), OT. reflexivity.
      - rewrite Q'. assert (OR : i_op x = LOADRAW \/ i_op x = STORERAW) by now right. pose proof (RAW i x X OR) as OT. rewrite (NU OR) in OT.
        unfold fill_addr. rewrite (ke_addr _ _ K), OT. reflexivity.
      - destruct (i_op x); congruence || reflexivity. }
    rewrite SE.
    assert (AG : agree_ops bi f (fill o g) x (fill_insn o (set_addr (mkAddr (a_val (i_addr x)) (a_off (i_addr x)) O_CONST) y)) s t).
    { split.
      - cbn [fill_insn set_addr set_phi set_vals i_vals]. destruct (i_op x) eqn:Op; try exact I; try exact EV.
        + intros v v2 Hv. rewrite Hv in EV, MV. inversion MV as [|? v' ? l1 MV1 MV2 Q1 Q2]; subst. inversion MV2 as [|? v2' ? l2 MV3 MV4 Q3 Q4]; subst. inversion MV4; subst.
          rewrite <- Q2 in EV. cbn [map] in EV |- *. inversion EV as [|? ? ? ? EV1 EV2]; subst. inversion EV2 as [|? ? ? ? EV3 EV4]; subst.
          assert (Uv : is_use_of sp v = false).
          { destruct (is_use_of sp v) eqn:Uv; [|reflexivity]. exfalso. unfold sexec in E. rewrite Op, Hv, (use_is v Uv) in E.
            destruct SP as (xs & Xs & Ns). rewrite Xs in E. cbn [obind] in E. unfold iop_eqb in E. destruct (iop_eq_dec (i_op xs) ALLOC); [contradiction|discriminate E]. }
          inversion MV1; subst; [|congruence]. exists (fill_val o v'), (fill_val o v2'). split; [reflexivity|].
          rewrite (fill_same v') by (apply (NH i x v' X); apply vals_in; rewrite Hv; now left).
          split; [reflexivity|]. split; [exact EV3|]. intros a _. apply cell_kept.
        + intros v Hv. rewrite (ML eq_refl), Hv. exists (fill_val o v). split; [reflexivity|].
          rewrite (fill_same v) by (apply (NH i x v X); apply vals_in; rewrite Hv; now left). split; [reflexivity|]. intros a _. now rewrite (re_var _ _ R).
      - intros OR. cbn [fill_insn set_addr set_phi set_vals i_addr fill_addr a_ot a_val]. pose proof (NU OR) as Ua.
        assert (Ia : In (a_val (i_addr x)) (operand_values x)).
        { unfold operand_values. apply in_or_app. right. destruct OR as [-> | ->]; now left. }
        rewrite (eval_same bi s t i x _ R X Ia Ua). now rewrite (fill_same _) by exact (NH i x _ X Ia). }
    pose proof (exec_par w bi f (fill o g) i x _ s t LK (re_mem _ _ R) (re_nc _ _ R) AG) as P. rewrite E in P. exact P.
Qed.

Lemma quiet_moved bi s t Ti i x y : rel s t -> f_insn f i = Some x -> keeps x y -> moved sp Ti x y ->
  squiet Rg bi x s = true -> squiet Rg bi (fill_insn o y) t = true.
Proof.
  intros R X K M Q. unfold squiet in *. cbn [fill_insn set_addr set_phi set_vals i_op i_vrt i_addr]. rewrite (ke_op _ _ K), (ke_vrt _ _ K), (ke_addr _ _ K).
  destruct (iop_eq_dec (i_op x) LOADRAW) as [O|O]; [|destruct (iop_eq_dec (i_op x) STORERAW) as [O'|O']; [|destruct (i_op x); congruence || reflexivity]].
  1,2: assert (OR : i_op x = LOADRAW \/ i_op x = STORERAW) by tauto; pose proof (RAW i x X OR) as OT; 
    assert (Q' : match vr_bytes (i_vrt x) with Some k => match seval bi (s_env s) (a_val (i_addr x)) with Some z => negb (SpecGs.touches Rg (z + a_off (i_addr x)) k) | None => true end | None => true end = true)
      by (destruct OR as [OR|OR]; rewrite OR in Q; exact Q);
    assert (G : match vr_bytes (i_vrt x) with Some k => match seval bi (s_env t) (a_val (fill_addr o (i_addr x))) with Some z => negb (SpecGs.touches Rg (z + a_off (fill_addr o (i_addr x))) k) | None => true end | None => true end = true);
    [|destruct OR as [OR|OR]; rewrite OR; exact G].
  all: clear Q; destruct (vr_bytes (i_vrt x)) as [k|]; [|reflexivity]; unfold fill_addr; rewrite OT; destruct (is_use_of sp (a_val (i_addr x))) eqn:U; cbn [a_val a_off].
  1,3: unfold seval in *; rewrite (use_is _ U) in *; rewrite (re_s _ _ R) in Q'; rewrite (re_t _ _ R); rewrite <- Q'; f_equal; apply touches_u64; rewrite !u64_add_l; f_equal; lia.
  all: assert (Ia : In (a_val (i_addr x)) (operand_values x)) by (unfold operand_values; apply in_or_app; right; destruct OR as [-> | ->]; now left).
  all: rewrite (eval_same bi s t i x _ R X Ia U) in Q'; rewrite (fill_same _) in Q' by exact (NH i x _ X Ia); exact Q'.
Qed.

Lemma rel_chg s t i r v m n : rel s t -> i <> sp -> rel (chg s i r v m n) (chg t i r v m n).
Proof.
  intros R N. constructor; try reflexivity.
  - unfold chg. cbn [s_var]. destruct v as [[a b]|]; rewrite (re_var _ _ R); reflexivity.
  - unfold chg. cbn [s_env]. destruct r as [a|]; [|exact (re_s _ _ R)]. unfold eupd. destruct (Nat.eqb_spec sp i); [congruence|exact (re_s _ _ R)].
  - unfold chg. cbn [s_env]. destruct r as [a|]; [|exact (re_t _ _ R)]. unfold eupd. destruct (Nat.eqb_spec sp i); [congruence|exact (re_t _ _ R)].
  - intros j N1 L. unfold chg. cbn [s_env]. destruct r as [a|]; [|exact (re_env _ _ R j N1 L)]. unfold eupd. destruct (j =? i)%nat; [reflexivity|exact (re_env _ _ R j N1 L)].
Qed.
Inductive qrel : sres -> sres -> Prop :=
| qr_next s t : rel s t -> qrel (SNext s) (SNext t)
| qr_jmp b s t : rel s t -> qrel (SJmp b s) (SJmp b t)
| qr_ret r s t : rel s t -> qrel (SRet r s) (SRet r t)
| qr_throw s t : rel s t -> qrel (SThrow s) (SThrow t).
Lemma par_qrel s t i q q' : rel s t -> i <> sp -> par i s t q q' -> qrel q q'.
Proof. intros R N P. destruct P; constructor; auto. now apply rel_chg. Qed.

Lemma body_moved w bi : forall l s t q, rel s t -> (forall i, In i l -> i <> sp /\ f_insn f i <> None) ->
  gsbody Rg w bi f s l = Some q -> exists q', gsbody Rg w bi (fill o g) t (flat_map (ex u T) l) = Some q' /\ qrel q q'.
Proof.
  induction l as [|i l IH]; intros s t q R HL E.
  - cbn in E |- *. injection E as <-. eexists. split; [reflexivity|]. now constructor.
  - cbn [gsbody] in E. destruct (f_insn f i) as [x|] eqn:X; [|discriminate E]. cbn [obind] in E.
    unfold gsexec in E. destruct (squiet Rg bi x s) eqn:QX; [|discriminate E].
    destruct (sexec w bi f i x s) as [q1|] eqn:EX; [|discriminate E]. cbn [obind] in E.
    destruct (HL i (or_introl eq_refl)) as (Ni & _). destruct (sh_insn _ _ _ _ _ SH i x X) as (y & Y & K & M).
    cbn [flat_map].
    assert (ST : exists t1, rel s t1 /\ (forall a, In a (if (i =? u)%nat then T else []) -> s_env t1 a = Some (u64 (z + o))) /\
                 forall r p, gsbody Rg w bi (fill o g) t1 (i :: r) = p -> gsbody Rg w bi (fill o g) t (ex u T i ++ r) = p).
    { unfold ex. destruct (Nat.eqb_spec i u) as [->|Q].
      - destruct (tmp_run w bi T t (incl_refl T) (re_t _ _ R)) as (t1 & B & M1 & N1 & V1 & E0 & E1). exists t1. split; [|split; [exact E1|]].
        + assert (NT : forall j, (j < f_ni f)%nat -> ~ In j T). { intros j L J. destruct (sh_tmp _ _ _ _ _ SH j J) as (L' & _). lia. }
          constructor; try (rewrite ?M1, ?N1, ?V1; apply R).
          * rewrite E0; [exact (re_t _ _ R)|]. apply NT, live_lt. destruct SP as (xs & Xs & _). congruence.
          * intros j N L. rewrite (E0 j (NT j L)). exact (re_env _ _ R j N L).
        + intros r p P. rewrite <- app_assoc. apply B. exact P.
      - exists t. split; [exact R|]. split; [intros a []|]. intros r p P. exact P. }
    destruct ST as (t1 & R1 & A1 & B1). destruct (exec_moved w bi s t1 _ i x y q1 R1 A1 X K M EX) as (q2 & EX2 & P).
    pose proof (par_qrel _ _ _ _ _ R1 Ni P) as QR.
    assert (SB : gsbody Rg w bi (fill o g) t1 (i :: flat_map (ex u T) l) = match q2 with SNext t2 => gsbody Rg w bi (fill o g) t2 (flat_map (ex u T) l) | _ => Some q2 end).
    { cbn [gsbody]. cbn [fill f_insn]. rewrite Y. cbn [option_map obind]. fold (fill o g). unfold gsexec. rewrite (quiet_moved bi s t1 _ i x y R1 X K M QX), EX2. reflexivity. }
    destruct QR as [s2 t2 R2|b s2 t2 R2|r s2 t2 R2|s2 t2 R2].
    + destruct (IH s2 t2 q R2 (fun j J => HL j (or_intror J)) E) as (q' & E' & Q'). exists q'. split; [|exact Q']. apply B1. rewrite SB. exact E'.
    + injection E as <-. eexists. split; [apply B1; exact SB|]. now constructor.
    + injection E as <-. eexists. split; [apply B1; exact SB|]. now constructor.
    + injection E as <-. eexists. split; [apply B1; exact SB|]. now constructor.
Qed.

Lemma incoming_fill x y prev : i_phi y = i_phi x -> incoming (fill_insn o y) prev = option_map (fill_val o) (incoming x prev).
Proof.
  intros E. unfold incoming. cbn [fill_insn set_addr set_phi set_vals i_phi]. rewrite E. clear E. induction (i_phi x) as [|[v b] l IH]; [reflexivity|].
  cbn [map find fst snd]. destruct (b =? prev)%nat; [reflexivity|exact IH].
Qed.
Lemma ex_nonphi i x r : f_insn f i = Some x -> i_op x <> PHI ->
  exists a l y, ex u T i ++ r = a :: l /\ f_insn (fill o g) a = Some y /\ i_op y <> PHI.
Proof.
  intros X N. destruct (sh_insn _ _ _ _ _ SH i x X) as (y & Y & K & _). unfold ex. destruct (Nat.eqb_spec i u) as [->|Q].
  - destruct T as [|a T'] eqn:ET.
    + exists u, r, (fill_insn o y). split; [reflexivity|]. cbn [fill f_insn]. rewrite Y. split; [reflexivity|]. cbn. now rewrite (ke_op _ _ K).
    + destruct (sh_tmp _ _ _ _ _ SH a (or_introl eq_refl)) as (_ & l & b & v & A & _). eexists a, _, _. split; [reflexivity|].
      cbn [fill f_insn]. rewrite A. split; [reflexivity|]. discriminate.
  - exists i, r, (fill_insn o y). split; [reflexivity|]. cbn [fill f_insn]. rewrite Y. split; [reflexivity|]. cbn. now rewrite (ke_op _ _ K).
Qed.
Lemma phis_moved bi prev s0 t0 : rel s0 t0 -> forall l s t l1 s1, rel s t -> (forall i, In i l -> i <> sp) ->
  sphis bi f prev s0 s l = Some (l1, s1) ->
  exists t1, sphis bi (fill o g) prev t0 t (flat_map (ex u T) l) = Some (flat_map (ex u T) l1, t1) /\ rel s1 t1 /\ incl l1 l.
Proof.
  intros R0. induction l as [|i l IH]; intros s t l1 s1 R HL E.
  - cbn in E. injection E as <- <-. exists t. repeat split; try apply R. intros a [].
  - cbn [sphis] in E. destruct (f_insn f i) as [x|] eqn:X; [|discriminate E]. cbn [obind] in E.
    unfold iop_eqb in E. destruct (iop_eq_dec (i_op x) PHI) as [P|P].
    + destruct (sh_insn _ _ _ _ _ SH i x X) as (y & Y & K & M).
      assert (XI : ex u T i = [i]). { unfold ex. destruct (Nat.eqb_spec i u) as [->|]; [|reflexivity]. rewrite (sh_u _ _ _ _ _ SH x X P). reflexivity. }
      cbn [flat_map]. rewrite XI. cbn [app sphis]. replace (f_insn (fill o g) i) with (option_map (fill_insn o) (f_insn g i)) by reflexivity.
      rewrite Y. cbn [option_map obind]. replace (i_op (fill_insn o y)) with (i_op y) by reflexivity. rewrite (ke_op _ _ K), P.
      unfold iop_eqb. cbn. rewrite (incoming_fill x y prev (ke_phi _ _ K)).
      destruct (incoming x prev) as [v|] eqn:IN; [|discriminate E]. cbn [option_map obind] in E |- *.
      assert (IO : exists e, In e (i_phi x) /\ fst e = v).
      { unfold incoming in IN. destruct (find _ (i_phi x)) as [e|] eqn:FE; [|discriminate IN]. injection IN as <-. apply find_some in FE as (FE & _). eauto. }
      destruct IO as (e & Ie & <-).
      assert (U : is_use_of sp (fst e) = false).
      { destruct M as [_ MP _|? ? ? Op]; [now apply (proj2 (MP P))|congruence]. }
      assert (Io : In (fst e) (operand_values x)). { unfold operand_values. apply in_or_app. right. rewrite P. now apply in_map. }
      rewrite <- (eval_same bi s0 t0 i x (fst e) R0 X Io U).
      destruct (seval bi (s_env s0) (fst e)) as [q|]; [|discriminate E]. cbn [obind] in E |- *.
      destruct (IH (sres_ s i q) (sres_ t i q) l1 s1) as (t1 & E1 & R1 & I1); [| |exact E|].
      * replace (sres_ s i q) with (chg s i (Some (u64 q)) None (s_mem s) (s_nc s)) by reflexivity.
        replace (sres_ t i q) with (chg t i (Some (u64 q)) None (s_mem s) (s_nc s)) by (rewrite (re_mem _ _ R), (re_nc _ _ R); reflexivity).
        apply rel_chg; [exact R|]. apply HL. now left.
      * intros j J. apply HL. now right.
      * exists t1. split; [exact E1|]. split; [exact R1|]. intros j J. right. now apply I1.
    + injection E as <- <-. exists t. split; [|split; [exact R|apply incl_refl]]. cbn [flat_map].
      destruct (ex_nonphi i x (flat_map (ex u T) l) X P) as (a & m & y & -> & Y & N). cbn [sphis]. rewrite Y. cbn [obind].
      unfold iop_eqb. destruct (iop_eq_dec (i_op y) PHI); [contradiction|reflexivity].
Qed.
Lemma block_moved w bi prev b s t q : rel s t -> gsblock Rg w bi f prev b s = Some q ->
  exists q', gsblock Rg w bi (fill o g) prev b t = Some q' /\ qrel q q'.
Proof.
  intros R E. unfold gsblock in E |- *. destruct (f_block f b) as [k|] eqn:B; [|discriminate E]. cbn [obind] in E.
  pose proof (sh_blk _ _ _ _ _ SH b) as GB. rewrite B in GB. specialize (GB ltac:(discriminate)).
  replace (f_block (fill o g) b) with (f_block g b) by reflexivity.
  destruct (f_block g b) as [k'|] eqn:B'; [|congruence]. cbn [obind].
  pose proof (sh_insns _ _ _ _ _ SH b) as IS. unfold insns_of in IS. rewrite B, B' in IS. rewrite IS.
  pose proof (sh_succs _ _ _ _ _ SH b) as SU. unfold succs_of in SU. rewrite B, B' in SU. rewrite SU.
  destruct (sphis bi f prev s s (b_insns k)) as [[l1 s1]|] eqn:P; [|discriminate E]. cbn [obind] in E.
  assert (NI : forall i, In i (b_insns k) -> i <> sp). { intros i I ->. apply (OUT b). unfold insns_of. now rewrite B. }
  destruct (phis_moved bi prev s t R _ s t l1 s1 R NI P) as (t1 & P' & R1 & I1). rewrite P'. cbn [obind].
  destruct (gsbody Rg w bi f s1 l1) as [q1|] eqn:EB; [|discriminate E]. cbn [obind] in E.
  destruct (body_moved w bi l1 s1 t1 q1 R1) as (q2 & EB2 & Q2); [|exact EB|].
  { intros i I. split; [apply NI, I1, I|]. apply (LINK b). unfold insns_of. rewrite B. apply I1, I. }
  rewrite EB2. cbn [obind]. destruct Q2 as [s2 t2 R2|c s2 t2 R2|r s2 t2 R2|s2 t2 R2].
  - destruct (b_succs k) as [|c r]; [discriminate E|]. injection E as <-. eexists. split; [reflexivity|]. now constructor.
  - injection E as <-. eexists. split; [reflexivity|]. now constructor.
  - injection E as <-. eexists. split; [reflexivity|]. now constructor.
  - injection E as <-. eexists. split; [reflexivity|]. now constructor.
Qed.
Lemma run_moved w bi : forall n prev b s t r, rel s t -> gsrun Rg w bi f n prev b s = Some r ->
  exists r', gsrun Rg w bi (fill o g) n prev b t = Some r' /\ same_effect r r'.
Proof.
  induction n as [|n IH]; intros prev b s t r R E; cbn [gsrun] in E |- *.
  - injection E as <-. eexists. split; [reflexivity|]. constructor. split; apply R.
  - destruct (gsblock Rg w bi f prev b s) as [q|] eqn:EB; [|discriminate E]. cbn [obind] in E.
    destruct (block_moved w bi prev b s t q R EB) as (q' & EB' & Q). rewrite EB'. cbn [obind].
    destruct Q as [s2 t2 R2|c s2 t2 R2|v s2 t2 R2|s2 t2 R2].
    + discriminate E.
    + exact (IH b c s2 t2 r R2 E).
    + injection E as <-. eexists. split; [reflexivity|]. constructor. split; apply R2.
    + injection E as <-. eexists. split; [reflexivity|]. constructor. split; apply R2.
Qed.
End Run.

Lemma shifted_guarded f g sp u T : fresh_ok f -> no_holes f -> (forall b, ~ In sp (insns_of f b)) ->
  (exists x, f_insn f sp = Some x /\ i_op x <> ALLOC) ->
  (forall i x, f_insn f i = Some x -> i_op x = LOADRAW \/ i_op x = STORERAW ->
    a_ot (i_addr x) = if is_use_of sp (a_val (i_addr x)) then O_RAWOFF else O_CONST) ->
  (forall i x v d, f_insn f i = Some x -> In v (operand_values x) -> v_data v = VInsn d -> f_insn f d <> None) ->
  (forall b i, In i (insns_of f b) -> f_insn f i <> None) -> shifted f g sp u T -> relocates_guarded sp f g.
Proof.
  intros F NH OUT SP RAW LIVE LINK SH Rg o w bi n prev b s z r E.
  refine (run_moved Rg f g sp u T o z F NH OUT SP RAW LIVE LINK SH w bi n prev b _ _ r _ E).
  constructor; try reflexivity.
  - cbn. unfold eupd. now rewrite Nat.eqb_refl.
  - cbn. unfold eupd. now rewrite Nat.eqb_refl.
  - intros i N _. cbn. unfold eupd. destruct (Nat.eqb_spec i sp); [contradiction|reflexivity].
Qed.

Lemma guarded_relocates sp f g : relocates_guarded sp f g -> relocates sp f g.
Proof.
  intros H o w bi n prev b s z r E. rewrite <- gsrun_nowhere in E. destruct (H nowhere o w bi n prev b s z r E) as (r' & E' & S). exists r'. now rewrite gsrun_nowhere in E'.
Qed.

(** ** The pass *)
Open Scope nat_scope.
Ltac bo H r E := apply bind_ok in H as (r & E & H).

Lemma change_raw f u sl new f' x : f_insn f u = Some x -> change_value f u sl new = Ok f' ->
  f_ni f' = f_ni f /\ f_nb f' = f_nb f /\ (forall b, f_block f' b = f_block f b) /\
  (exists l, f_insn f' u = Some (set_users l (slot_set x sl new))) /\ (forall j, j <> u -> upto (f_insn f j) (f_insn f' j)).
Proof.
  intros Hx E. unfold change_value in E. rewrite (proj2 (get_insn_ok _ _ _) Hx) in E. cbn [bind] in E.
  destruct (slot_get x sl) as [old|]; [|discriminate E].
  bo E f1 E1. apply remove_user_spec in E1 as (UE1 & _). bo E x1 Hx1. apply get_insn_ok in Hx1. apply add_user_spec in E as (UE2 & _).
  destruct (ue_rec _ _ UE1 u) as [l R]. rewrite Hx, Hx1 in R. cbn in R. injection R as ->.
  set (f2 := put_insn f1 u _) in *.
  split; [now rewrite (ue_ni _ _ UE2); unfold f2; cbn; rewrite (ue_ni _ _ UE1)|].
  split; [now rewrite (ue_nb _ _ UE2); unfold f2; cbn; rewrite (ue_nb _ _ UE1)|].
  split; [intros b; rewrite (ue_block _ _ UE2); unfold f2; cbn; apply (ue_block _ _ UE1)|].
  split.
  - destruct (ue_rec _ _ UE2 u) as [k R]. unfold f2 in R at 1. rewrite f_insn_put, Nat.eqb_refl in R. exists k. rewrite R. cbn. f_equal.
    destruct sl; cbn; try reflexivity. destruct (nth_error (i_phi x) k0) as [[? ?]|]; reflexivity.
  - intros j N. destruct (ue_rec _ _ UE1 j) as [l1 R1]. destruct (ue_rec _ _ UE2 j) as [l2 R2]. unfold f2 in R2 at 1. rewrite f_insn_put in R2.
    apply Nat.eqb_neq in N. rewrite N in R2. rewrite R2, R1. unfold upto. destruct (f_insn f j) as [y|]; cbn; [|exact I]. exists l2. reflexivity.
Qed.

Section Slots.
Variables (h0 : func) (sp u : nat) (x0 : insn) (l1 l2 : list nat).
Hypothesis X0 : f_insn h0 u = Some x0.
Hypothesis NP : i_op x0 <> PHI.
Hypothesis PL : insns_of h0 (i_parent x0) = l1 ++ u :: l2.
Hypothesis NU : ~ In u l1.
Hypothesis FR : fresh_ok h0.

Record inv (h : func) (T done : list nat) : Prop := {
  iv_fresh : fresh_ok h;
  iv_ni : f_ni h0 <= f_ni h;
  iv_u : exists l vs, f_insn h u = Some (set_users l (set_vals vs x0)) /\ length vs = length (i_vals x0) /\
         (forall k, ~ In k done -> nth_error vs k = nth_error (i_vals x0) k) /\
         (forall k, In k done -> exists t, In t T /\ nth_error vs k = Some (val_insn t));
  iv_old : forall i, i < f_ni h0 -> i <> u -> upto (f_insn h0 i) (f_insn h i);
  iv_tmp : forall t, In t T -> f_ni h0 <= t /\ is_tmp h sp t;
  iv_insns : forall b, insns_of h b = if b =? i_parent x0 then l1 ++ T ++ u :: l2 else insns_of h0 b;
  iv_blk : forall b, f_block h b = None <-> f_block h0 b = None;
  iv_succs : forall b, succs_of h b = succs_of h0 b }.

Lemma u_lt : u < f_ni h0.
Proof. destruct (Nat.lt_ge_cases u (f_ni h0)) as [L|L]; [exact L|]. rewrite (proj1 FR) in X0 by exact L. discriminate X0. Qed.
Lemma upto_set f g i y l : upto (f_insn f i) (f_insn g i) -> f_insn f i = Some (set_users l y) -> exists l', f_insn g i = Some (set_users l' y).
Proof. intros U E. rewrite E in U. unfold upto in U. destruct (f_insn g i); [|destruct U]. destruct U as (l' & ->). now exists l'. Qed.
Lemma upto_tmp f g t : upto (f_insn f t) (f_insn g t) -> is_tmp f sp t -> is_tmp g sp t.
Proof. intros U (l & b & v & E & Q). destruct (upto_set _ _ _ _ _ U E) as (l' & E'). exists l', b, v. auto. Qed.
Lemma nth_set_nth {A} (l : list A) : forall k j v, k < length l -> nth_error (set_nth k v l) j = if j =? k then Some v else nth_error l j.
Proof.
  induction l as [|a l IH]; intros k j v L; [cbn in L; lia|]. destruct k as [|k]; cbn [set_nth].
  - destruct j; reflexivity.
  - destruct j as [|j]; [reflexivity|]. cbn [nth_error Nat.eqb]. apply IH. cbn in L. lia.
Qed.
Lemma set_nth_length {A} (l : list A) : forall k v, length (set_nth k v l) = length l.
Proof. induction l as [|a l IH]; intros [|k] v; cbn; auto. Qed.
Lemma upto_trans' a b c : upto a b -> upto b c -> upto a c.
Proof. unfold upto. destruct a, b, c; try tauto. intros (l & ->) (l3 & ->). exists l3. reflexivity. Qed.

Lemma shift_slot_inv h T done cap ok k v h' c' : inv h T done -> ~ In k done -> nth_error (i_vals x0) k = Some v -> is_use_of sp v = true ->
  shift_slot sp u (h, (cap, ok)) (SVal k) = Ok (h', c') -> exists t, inv h' (T ++ [t]) (done ++ [k]).
Proof.
  intros [Fh Ni (lu & vs & Hu & Ln & V0 & V1) Old Tm Is Bk Su] Nk Hk Us E. unfold shift_slot in E.
  bo E xu Xu. apply get_insn_ok in Xu. rewrite Hu in Xu. injection Xu as <-.
  cbn [slot_get i_vals set_users set_vals] in E. rewrite (V0 k Nk), Hk in E.
  bo E n Hn. bo E r Hr. destruct r as (g & t). cbn [fst snd] in E. bo E g2 Hg. injection E as <- <-.
  assert (Bx : f_block h (i_parent x0) <> None).
  { intros K. apply Bk in K. unfold insns_of in PL. rewrite K in PL. destruct l1; discriminate PL. }
  assert (NI2 : ~ In u (l1 ++ T)).
  { intros K. apply in_app_or in K as [K|K]; [contradiction|]. destruct (Tm u K) as (L & _). pose proof u_lt. lia. }
  assert (IS : insns_of h (i_parent (set_users lu (set_vals vs x0))) = (l1 ++ T) ++ u :: l2).
  { cbn [i_parent set_users set_vals]. rewrite Is, Nat.eqb_refl. now rewrite app_assoc. }
  assert (G : grown h g t (i_parent x0) (K_bin v (val_rawoff32 0) ADD A_64) ((l1 ++ T) ++ t :: u :: l2)).
  { refine (grown_at h u (set_users lu (set_vals vs x0)) (K_bin v (val_rawoff32 0) ADD A_64) P_FRONT g t (l1 ++ T) l2 Fh Hu Bx IS NI2 (or_introl eq_refl) _ _ Hr).
    - discriminate.
    - cbn. intros K. contradiction. }
  assert (tn : f_ni h0 <= t) by (rewrite (gr_id _ _ _ _ _ _ G); exact Ni).
  assert (tu : u <> t) by (pose proof u_lt; lia).
  destruct (gr_old _ _ _ _ _ _ G u tu) as (l3 & Hu3). rewrite Hu in Hu3. cbn [option_map] in Hu3.
  destruct (change_raw g u (SVal k) (val_insn t) g2 _ Hu3 Hg) as (Nc & Nb & Bc & (l4 & Hu4) & Oc).
  assert (GU : forall i, i <> u -> i <> t -> upto (f_insn h i) (f_insn g2 i)).
  { intros i N1 N2. destruct (gr_old _ _ _ _ _ _ G i N2) as (l5 & E5). apply (upto_trans' _ (f_insn g i)); [|exact (Oc i N1)].
    rewrite E5. unfold upto. destruct (f_insn h i); cbn; [|exact I]. now exists l5. }
  assert (Kl : k < length vs) by (rewrite Ln; apply nth_error_Some; congruence).
  exists t. constructor.
  - split; [intros i L; specialize (Oc i)|intros b L].
    + rewrite Nc, (gr_ni _ _ _ _ _ _ G) in L. assert (i <> u) by (pose proof u_lt; lia). assert (i <> t) by lia.
      specialize (GU i H H0). rewrite (proj1 Fh) in GU by (rewrite (gr_id _ _ _ _ _ _ G) in L; lia). unfold upto in GU. destruct (f_insn g2 i); [destruct GU|reflexivity].
    + rewrite Bc. apply (gr_dom _ _ _ _ _ _ G). apply (proj2 Fh). rewrite Nb, (gr_nb _ _ _ _ _ _ G) in L. exact L.
  - rewrite Nc, (gr_ni _ _ _ _ _ _ G). lia.
  - exists l4, (set_nth k (val_insn t) vs). cbn [slot_set i_vals set_users set_vals] in Hu4. split; [exact Hu4|]. split; [now rewrite set_nth_length|]. split.
    + intros j Nj. rewrite nth_set_nth by exact Kl. destruct (Nat.eqb_spec j k) as [->|Q]; [exfalso; apply Nj; apply in_or_app; right; now left|].
      apply V0. intros K. apply Nj. apply in_or_app. now left.
    + intros j Ij. rewrite nth_set_nth by exact Kl. destruct (Nat.eqb_spec j k) as [->|Q].
      * exists t. split; [apply in_or_app; right; now left|reflexivity].
      * apply in_app_or in Ij as [Ij|[Ij|[]]]; [|congruence]. destruct (V1 j Ij) as (a & Ia & Ea). exists a. split; [apply in_or_app; now left|exact Ea].
  - intros i L N. apply (upto_trans' _ (f_insn h i)); [exact (Old i L N)|]. apply GU; [exact N|lia].
  - intros a Ia. apply in_app_or in Ia as [Ia|[<-|[]]].
    + destruct (Tm a Ia) as (La & Ta). split; [exact La|]. assert (Na : a <> u) by (pose proof u_lt; lia).
      assert (Nt : a <> t). { intros ->. destruct Ta as (q1 & q2 & q3 & Ta & _). rewrite (proj1 Fh) in Ta; [discriminate Ta|]. rewrite (gr_id _ _ _ _ _ _ G). lia. }
      exact (upto_tmp h g2 a (GU a Na Nt) Ta).
    + split; [exact tn|]. destruct (gr_new _ _ _ _ _ _ G) as (l5 & E5). destruct (upto_set g g2 t _ _ (Oc t (not_eq_sym tu)) E5) as (l6 & E6).
      exists l6, (i_parent x0), v. auto.
  - intros b. unfold insns_of at 1. rewrite Bc. fold (insns_of g b). rewrite (gr_insns _ _ _ _ _ _ G). destruct (b =? i_parent x0) eqn:Qb.
    + rewrite <- !app_assoc. reflexivity.
    + rewrite Is, Qb. reflexivity.
  - intros b. rewrite Bc, (gr_dom _ _ _ _ _ _ G). apply Bk.
  - intros b. unfold succs_of at 1. rewrite Bc. fold (succs_of g b). rewrite (gr_succs _ _ _ _ _ _ G). apply Su.
Qed.

Lemma shift_slots_inv : forall ks h T done c h' c', inv h T done -> NoDup ks -> (forall k, In k ks -> ~ In k done) ->
  (forall k, In k ks -> exists v, nth_error (i_vals x0) k = Some v /\ is_use_of sp v = true) ->
  ofold (shift_slot sp u) (h, c) (map SVal ks) = Ok (h', c') -> exists T', inv h' T' (done ++ ks).
Proof.
  induction ks as [|k ks IH]; intros h T done (cap & ok) h' c' Iv Nd Dj Hk E.
  - cbn in E. injection E as <- <-. exists T. now rewrite app_nil_r.
  - cbn [map ofold] in E. bo E s1 E1. destruct s1 as (h1 & c1). inversion_clear Nd.
    destruct (Hk k (or_introl eq_refl)) as (v & Ev & Uv).
    destruct (shift_slot_inv h T done cap ok k v h1 c1 Iv (Dj k (or_introl eq_refl)) Ev Uv E1) as (t & Iv1).
    destruct (IH h1 (T ++ [t]) (done ++ [k]) c1 h' c' Iv1 H0) as (T' & Iv').
    + intros j J K. apply in_app_or in K as [K|[K|[]]]; [exact (Dj j (or_intror J) K)|subst j; contradiction].
    + intros j J. apply Hk. now right.
    + exact E.
    + exists T'. now rewrite <- app_assoc in Iv'.
Qed.
End Slots.

Definition isadd (sp : nat) (x : insn) : bool :=
  is_bin_alu_op (i_op x) &&
  match i_vals x with
  | v0 :: v1 :: _ => refers sp v0 && match v_data v1 with VConst _ => true | _ => false end
  | _ => false
  end.
Lemma refers_use sp v : refers sp v = is_use_of sp v.
Proof. unfold refers, is_use_of, val_target. destruct (v_data v); reflexivity. Qed.
Lemma slots_from sp : forall l a, map fst (filter (fun e => refers sp (snd e)) (combine (map SVal (seq a (length l))) l)) =
  map SVal (filter (fun k => match nth_error l (k - a) with Some v => refers sp v | None => false end) (seq a (length l))).
Proof.
  induction l as [|v l IH]; intros a; [reflexivity|]. cbn [length seq map combine filter snd].
  rewrite Nat.sub_diag. cbn [nth_error].
  assert (E : filter (fun k => match nth_error (v :: l) (k - a) with Some v => refers sp v | None => false end) (seq (S a) (length l)) =
              filter (fun k => match nth_error l (k - S a) with Some v => refers sp v | None => false end) (seq (S a) (length l))).
  { apply filter_ext_in. intros k I. apply in_seq in I. replace (k - a) with (S (k - S a)) by lia. reflexivity. }
  rewrite E. destruct (refers sp v); cbn [map fst]; rewrite IH; reflexivity.
Qed.
Lemma slots_vals sp x : i_op x <> PHI -> i_op x <> LOADRAW -> i_op x <> STORERAW ->
  exists ks, sp_slots sp x = map SVal ks /\ NoDup ks /\ forall k, In k ks <-> exists v, nth_error (i_vals x) k = Some v /\ is_use_of sp v = true.
Proof.
  intros N1 N2 N3. exists (filter (fun k => match nth_error (i_vals x) (k - 0) with Some v => refers sp v | None => false end) (seq 0 (length (i_vals x)))).
  split; [|split].
  - unfold sp_slots, iop_eqb. destruct (iop_eq_dec (i_op x) PHI); [contradiction|]. destruct (iop_eq_dec (i_op x) LOADRAW); [contradiction|].
    destruct (iop_eq_dec (i_op x) STORERAW); [contradiction|]. cbn [orb]. rewrite !app_nil_r. apply slots_from.
  - apply NoDup_filter, seq_NoDup.
  - intros k. rewrite filter_In, in_seq, Nat.sub_0_r. split.
    + intros (_ & H). destruct (nth_error (i_vals x) k) as [v|]; [|discriminate H]. exists v. rewrite refers_use in H. auto.
    + intros (v & E & U). rewrite E, refers_use. split; [|exact U]. split; [lia|]. cbn. apply nth_error_Some. congruence.
Qed.

Section Pass.
Variables (f : func) (sp : nat).
Hypothesis TD : tidy f.
Hypothesis FR : fresh_ok f.
Hypothesis SO : sp_ok f sp.

Definition mk (D : list nat) (i : nat) (x : insn) : insn := if existsb (Nat.eqb i) D && isadd sp x then mark_offset x else x.
Record marked (h : func) (D : list nat) : Prop := {
  ma_insn : forall i, f_insn h i = option_map (mk D i) (f_insn f i);
  ma_block : forall b, f_block h b = f_block f b;
  ma_ni : f_ni h = f_ni f; ma_nb : f_nb h = f_nb f }.

Lemma mark_keeps x : keeps x (mark_offset x) /\ i_users (mark_offset x) = i_users x.
Proof.
  unfold mark_offset. destruct (i_vals x) as [|v0 [|v1 r]]; try (split; [constructor|]; reflexivity).
  destruct (v_data v1); split; try constructor; reflexivity.
Qed.
Lemma mk_keeps D i x : keeps x (mk D i x) /\ i_users (mk D i x) = i_users x.
Proof. unfold mk. destruct (_ && _); [apply mark_keeps|]. split; [constructor|]; reflexivity. Qed.
Lemma ma_users h D : marked h D -> users_of h sp = users_of f sp.
Proof. intros M. unfold users_of. rewrite (ma_insn _ _ M). destruct (f_insn f sp); cbn; [apply mk_keeps|reflexivity]. Qed.

Lemma mk_more D i x u : i <> u \/ isadd sp x = false \/ In u D -> mk (D ++ [u]) i x = mk D i x.
Proof.
  intros H. unfold mk. rewrite existsb_app. cbn [existsb]. rewrite orb_false_r. destruct H as [H|[H|H]].
  - apply Nat.eqb_neq in H. rewrite H, orb_false_r. reflexivity.
  - rewrite H, !andb_false_r. reflexivity.
  - destruct (Nat.eqb_spec i u) as [->|]; [|now rewrite orb_false_r].
    assert (K : existsb (Nat.eqb u) D = true) by (apply existsb_exists; exists u; split; [exact H|apply Nat.eqb_refl]). now rewrite K.
Qed.
Lemma marked_more h D u x : marked h D -> f_insn f u = Some x -> isadd sp x = false -> marked h (D ++ [u]).
Proof.
  intros [A B C E] X N. constructor; auto. intros i. rewrite A. destruct (f_insn f i) as [y|] eqn:Y; [|reflexivity]. cbn. f_equal. symmetry. apply mk_more.
  destruct (Nat.eq_dec i u) as [->|Q]; [right; left; congruence|now left].
Qed.
Lemma raw_not_add x : is_raw (i_op x) = true -> isadd sp x = false.
Proof. intros H. unfold isadd. destruct (i_op x); try discriminate H; reflexivity. Qed.
Lemma indirect_add x : indirect sp x -> is_raw (i_op x) = true \/ (isadd sp x = true /\ exists v c k, i_op x = ADD /\ i_vals x = [v; c] /\ is_use_of sp v = true /\ v_data c = VConst k /\ v_bi c = B_NONE).
Proof.
  intros [[O|O] _|v c k O V U D B].
  - left. now rewrite O.
  - left. now rewrite O.
  - right. split; [|exists v, c, k; auto]. unfold isadd. rewrite O, V, refers_use, U, D. reflexivity.
Qed.
Lemma direct_not x : direct sp x -> is_raw (i_op x) = false /\ isadd sp x = false /\ i_op x <> PHI /\ i_op x <> LOAD.
Proof.
  intros [A B]. assert (N : forall q, In q [PHI; LOAD; LOADRAW; STORERAW] -> i_op x <> q) by (intros q Hq <-; contradiction).
  split; [|split; [|split; apply N; cbn; tauto]].
  - unfold is_raw, iop_eqb. destruct (iop_eq_dec (i_op x) LOADRAW) as [Q|_]; [exfalso; exact (N LOADRAW ltac:(cbn; tauto) Q)|].
    destruct (iop_eq_dec (i_op x) STORERAW) as [Q|_]; [exfalso; exact (N STORERAW ltac:(cbn; tauto) Q)|reflexivity].
  - unfold isadd. destruct (is_bin_alu_op (i_op x)) eqn:AL; [|reflexivity]. cbn [andb].
    destruct (i_vals x) as [|v0 [|v1 r]] eqn:V; try reflexivity. rewrite refers_use. destruct (is_use_of sp v0) eqn:U; [|reflexivity]. cbn [andb].
    destruct (v_data v1) eqn:DV; try reflexivity. exfalso. apply (B v0 v1 r c eq_refl); [|exact U|exact DV].
    destruct (i_op x); try discriminate AL; discriminate.
Qed.

(** instructions other than the last user are as required *)
Lemma moved_other h D i x T : marked h D -> f_insn f i = Some x -> (0 < uses f i sp -> In i D /\ indirect sp x) ->
  exists y, f_insn h i = Some y /\ keeps x y /\ moved sp T x y.
Proof.
  intros M X HD. exists (mk D i x). rewrite (ma_insn _ _ M), X. split; [reflexivity|]. split; [apply mk_keeps|].
  assert (US : forall v, In v (operand_values x) -> is_use_of sp v = true -> In i D /\ indirect sp x).
  { intros v Iv Uv. apply HD. unfold uses. rewrite X. destruct (filter (is_use_of sp) (operand_values x)) eqn:Q; [|cbn; lia].
    assert (K : In v (filter (is_use_of sp) (operand_values x))) by (apply filter_In; auto). rewrite Q in K. destruct K. }
  assert (NV : (exists v, In v (i_vals x) /\ is_use_of sp v = true) \/ forall v, In v (i_vals x) -> is_use_of sp v = false).
  { destruct (existsb (is_use_of sp) (i_vals x)) eqn:Q; [left; apply existsb_exists in Q; exact Q|right]. intros v Iv.
    destruct (is_use_of sp v) eqn:U; [|reflexivity]. rewrite <- Q. symmetry. apply existsb_exists. eauto. }
  destruct NV as [(v & Iv & Uv)|NV].
  - destruct (US v (vals_in x v Iv) Uv) as (ID & IN).
    destruct IN as [_ NR|v' c k O V U Dc Bc].
    + rewrite (NR v Iv) in Uv. discriminate Uv.
    + apply (mv_add sp T x _ v' c k O V U Dc Bc). unfold mk.
      assert (K : existsb (Nat.eqb i) D = true) by (apply existsb_exists; exists i; split; [exact ID|apply Nat.eqb_refl]). rewrite K.
      unfold isadd. rewrite O, V, refers_use, U, Dc. cbn [is_bin_alu_op opnum Nat.leb Nat.ltb andb]. unfold mark_offset. rewrite V, Dc. reflexivity.
  - assert (K : mk D i x = x).
    { unfold mk. destruct (isadd sp x) eqn:Q; [|now rewrite andb_false_r]. exfalso. unfold isadd in Q. apply andb_prop in Q as (_ & Q).
      destruct (i_vals x) as [|v0 [|v1 r]] eqn:V; try discriminate Q. apply andb_prop in Q as (Q & _). rewrite refers_use, NV in Q by now left. discriminate Q. }
    rewrite K. constructor; [reflexivity| |].
    + intros P. split; [reflexivity|]. intros e Ie. destruct (is_use_of sp (fst e)) eqn:U; [|reflexivity]. exfalso.
      assert (Io : In (fst e) (operand_values x)). { unfold operand_values. apply in_or_app. right. rewrite P. now apply in_map. }
      destruct (US _ Io U) as (_ & IN). destruct IN as [[O|O] _|? ? ? O]; congruence.
    + clear - NV. induction (i_vals x) as [|v l IH]; constructor; [constructor; apply NV; now left|apply IH; intros w I; apply NV; now right].
Qed.

Lemma flat_ex_nil u l : flat_map (ex u []) l = l.
Proof. induction l as [|a l IH]; [reflexivity|]. cbn [flat_map]. unfold ex at 1. cbn [app]. destruct (a =? u); cbn; now rewrite IH. Qed.
Lemma flat_ex_out u T l : ~ In u l -> flat_map (ex u T) l = l.
Proof.
  induction l as [|a l IH]; intros N; [reflexivity|]. cbn [flat_map]. unfold ex at 1. destruct (Nat.eqb_spec a u) as [->|_]; [exfalso; apply N; now left|].
  cbn. rewrite IH; [reflexivity|]. intros K. apply N. now right.
Qed.

Lemma users_all i x : f_insn f i = Some x -> 0 < uses f i sp -> In i (users_of f sp).
Proof. intros X H. exact (proj1 (td_users _ TD i sp) H). Qed.

Lemma pre_loop : forall R D h cap g c, marked h D -> users_of f sp = D ++ R -> (forall d x, In d D -> f_insn f d = Some x -> indirect sp x) ->
  ofold (pre_user sp) (h, (cap, true)) (seq (length D) (length R)) = Ok (g, c) -> exists u T, shifted f g sp u T.
Proof.
  induction R as [|u R IH]; intros D h cap g c M HU ID E.
  - cbn in E. injection E as <- <-. exists 0, []. constructor.
    + intros b. rewrite flat_ex_nil. unfold insns_of. now rewrite (ma_block _ _ M).
    + intros b H. now rewrite (ma_block _ _ M).
    + intros b. unfold succs_of. now rewrite (ma_block _ _ M).
    + intros t [].
    + reflexivity.
    + intros i x X. destruct (i =? 0); apply (moved_other h D i x [] M X); intros P; pose proof (users_all i x X P) as K; rewrite HU, app_nil_r in K; eauto.
  - cbn [length seq ofold] in E. bo E s1 E1. destruct s1 as (h1 & c1). unfold pre_user in E1. cbn [negb] in E1.
    bo E1 n Hn. apply get_insn_ok in Hn.
    assert (US : i_users n = D ++ u :: R). { rewrite <- HU, <- (ma_users _ _ M). unfold users_of. now rewrite Hn. }
    assert (NE : nth_error (i_users n) (length D) = Some u). { rewrite US, nth_error_app2, Nat.sub_diag by lia. reflexivity. }
    rewrite NE in E1. bo E1 x Hx. apply get_insn_ok in Hx. rewrite (ma_insn _ _ M) in Hx.
    destruct (f_insn f u) as [x0|] eqn:X0; [|discriminate Hx]. cbn in Hx. injection Hx as <-.
    assert (OPK : i_op (mk D u x0) = i_op x0) by apply mk_keeps. rewrite OPK in E1.
    assert (SQ : seq (S (length D)) (length R) = seq (length (D ++ [u])) (length R)). { rewrite app_length. cbn. now rewrite Nat.add_1_r. }
    assert (HU' : users_of f sp = (D ++ [u]) ++ R) by (rewrite <- app_assoc; exact HU).
    assert (ID' : indirect sp x0 -> forall d y, In d (D ++ [u]) -> f_insn f d = Some y -> indirect sp y).
    { intros I0 d y Id Y. apply in_app_or in Id as [Id|[<-|[]]]; [exact (ID d y Id Y)|]. congruence. }
    destruct (so_users _ _ SO D u R x0 HU X0) as [IN|(-> & DI)].
    + destruct (indirect_add x0 IN) as [RW|(AD & v & k & kk & O & V & U & Dc & Bc)].
      * rewrite RW in E1. injection E1 as <- <-. rewrite SQ in E.
        exact (IH (D ++ [u]) h cap g c (marked_more h D u x0 M X0 (raw_not_add x0 RW)) HU' (ID' IN) E).
      * assert (RW : is_raw (i_op x0) = false) by now rewrite O. rewrite RW in E1.
        assert (NI : ~ In u D).
        { intros K. pose proof (proj2 (td_users _ TD u sp)) as CT. rewrite HU, count_occ_app in CT. cbn [count_occ] in CT.
          destruct (Nat.eq_dec u u); [|congruence]. apply (count_occ_In Nat.eq_dec) in K.
          unfold uses in CT. rewrite X0 in CT. unfold operand_values in CT. rewrite O, V, app_nil_r in CT. cbn [filter] in CT. rewrite U in CT.
          unfold is_use_of in CT. rewrite Dc in CT. cbn in CT. lia. }
        assert (MK : mk D u x0 = x0).
        { unfold mk. assert (Q : existsb (Nat.eqb u) D = false); [|now rewrite Q].
          destruct (existsb (Nat.eqb u) D) eqn:Q; [|reflexivity]. exfalso. apply existsb_exists in Q as (w & Iw & Ew). apply Nat.eqb_eq in Ew. congruence. }
        rewrite MK in E1. assert (CD : is_bin_alu_op (i_op x0) && match i_vals x0 with v0 :: v1 :: _ => refers sp v0 && match v_data v1 with VConst _ => true | _ => false end | _ => false end = true) by exact AD.
        rewrite CD in E1. injection E1 as <- <-. rewrite SQ in E.
        refine (IH (D ++ [u]) _ cap g c _ HU' (ID' IN) E). destruct M as [A B C0 F0]. constructor; auto.
        intros i. rewrite f_insn_put. destruct (Nat.eqb_spec i u) as [->|Q].
        -- rewrite X0. cbn. f_equal. unfold mk. rewrite AD, existsb_app. cbn. rewrite Nat.eqb_refl, orb_true_r. reflexivity.
        -- rewrite A. destruct (f_insn f i); cbn; [|reflexivity]. f_equal. symmetry. apply mk_more. now left.
    + destruct (direct_not x0 DI) as (RW & AD & NPh & NL).
      assert (MK : mk D u x0 = x0) by (unfold mk; now rewrite AD, andb_false_r). rewrite MK, RW in E1.
      assert (CD : is_bin_alu_op (i_op x0) && match i_vals x0 with v0 :: v1 :: _ => refers sp v0 && match v_data v1 with VConst _ => true | _ => false end | _ => false end = false) by exact AD.
      rewrite CD in E1. cbn in E. injection E as <- <-.
      assert (NR : i_op x0 <> LOADRAW /\ i_op x0 <> STORERAW).
      { split; intros Q; rewrite Q in RW; discriminate RW. }
      destruct (slots_vals sp x0 NPh (proj1 NR) (proj2 NR)) as (ks & Eks & Nks & Iks). rewrite Eks in E1.
      assert (UU : 0 < uses f u sp).
      { pose proof (proj2 (td_users _ TD u sp)) as CT. rewrite HU, count_occ_app in CT. cbn [count_occ] in CT.
        destruct (Nat.eq_dec u u); [|congruence]. lia. }
      destruct (td_placed _ TD u sp UU) as (xp & Xp & PLu). rewrite X0 in Xp. injection Xp as <-.
      assert (X0h : f_insn h u = Some x0) by (rewrite (ma_insn _ _ M), X0; cbn; now rewrite MK).
      assert (PLh : In u (insns_of h (i_parent x0))) by (unfold insns_of in *; now rewrite (ma_block _ _ M)).
      apply in_split in PLu as (l1 & l2 & PL). pose proof (td_once _ TD (i_parent x0)) as ND. rewrite PL in ND. apply NoDup_remove_2 in ND.
      assert (NU1 : ~ In u l1) by (intros K; apply ND; apply in_or_app; now left).
      assert (NU2 : ~ In u l2) by (intros K; apply ND; apply in_or_app; now right).
      assert (PL' : insns_of h (i_parent x0) = l1 ++ u :: l2) by (unfold insns_of in *; rewrite (ma_block _ _ M); exact PL).
      assert (Fh : fresh_ok h).
      { split; [intros i L; rewrite (ma_insn _ _ M), (proj1 FR) by (rewrite (ma_ni _ _ M) in L; exact L); reflexivity|].
        intros b L. rewrite (ma_block _ _ M). apply (proj2 FR). now rewrite (ma_nb _ _ M) in L. }
      assert (I0 : inv h sp u x0 l1 l2 h [] []).
      { constructor; auto.
        - exists (i_users x0), (i_vals x0). split; [rewrite X0h; f_equal; destruct x0; reflexivity|]. split; [reflexivity|]. split; [reflexivity|intros k []].
        - intros i _ _. unfold upto. destruct (f_insn h i) as [y|]; [|exact I]. exists (i_users y). destruct y; reflexivity.
        - intros t [].
        - intros b. destruct (Nat.eqb_spec b (i_parent x0)) as [->|]; [exact PL'|reflexivity].
        - reflexivity. }
      destruct (shift_slots_inv h sp u x0 l1 l2 X0h NPh PL' NU1 Fh ks h [] [] (cap, true) h1 c1 I0 Nks) as (T & IV).
      { intros k _ []. } { intros k Ik. now apply Iks. } { exact E1. }
      cbn [app] in IV. destruct IV as [Fg Ng (lu & vs & Hu & Ln & V0 & V1) Old Tm Is Bk Su].
      exists u, T. constructor.
      * intros b. rewrite Is. destruct (Nat.eqb_spec b (i_parent x0)) as [->|Q].
        -- rewrite PL, flat_map_app. cbn [flat_map]. rewrite (flat_ex_out u T l1 NU1), (flat_ex_out u T l2 NU2). unfold ex. rewrite Nat.eqb_refl.
           now rewrite <- app_assoc.
        -- unfold insns_of at 1. rewrite (ma_block _ _ M). fold (insns_of f b). symmetry. apply flat_ex_out. intros K.
           destruct (td_linked _ TD b u K) as (y & Y & P). congruence.
      * intros b H K. apply Bk in K. rewrite (ma_block _ _ M) in K. contradiction.
      * intros b. rewrite Su. unfold succs_of. now rewrite (ma_block _ _ M).
      * intros t It. destruct (Tm t It) as (L & Tt). rewrite (ma_ni _ _ M) in L. auto.
      * intros y Y P. congruence.
      * intros i x X. destruct (Nat.eqb_spec i u) as [->|Q].
        -- rewrite X0 in X. injection X as <-. exists (set_users lu (set_vals vs x0)). split; [exact Hu|]. split; [constructor; reflexivity|].
           constructor; [intros K; contradiction|intros K; contradiction|]. cbn [i_vals set_users set_vals].
           clear - Ln V0 V1 Iks. revert Ln V0 V1 Iks. generalize (i_vals x0) as vs0. intros vs0 Ln V0 V1 Iks.
           assert (P : forall k v v', nth_error vs0 k = Some v -> nth_error vs k = Some v' -> vmoved sp T v v').
           { intros k v v' E0 E1. destruct (in_dec Nat.eq_dec k ks) as [K|K].
             - destruct (V1 k K) as (t & It & Et). rewrite E1 in Et. injection Et as ->. apply Iks in K as (v2 & E2 & U2). rewrite E0 in E2. injection E2 as ->.
               now constructor 2.
             - rewrite (V0 k K), E0 in E1. injection E1 as <-. constructor 1. destruct (is_use_of sp v) eqn:U; [|reflexivity]. exfalso. apply K. apply Iks. eauto. }
           clear V0 V1 Iks. revert vs Ln P. induction vs0 as [|a vs0 IHv]; intros vs Ln P; destruct vs as [|b vs]; try discriminate Ln; constructor.
           ++ apply (P 0); reflexivity.
           ++ apply IHv; [now injection Ln|]. intros k v v' A B. apply (P (S k)); assumption.
        -- assert (Li : i < f_ni h). { rewrite (ma_ni _ _ M). destruct (Nat.lt_ge_cases i (f_ni f)) as [L|L]; [exact L|]. rewrite (proj1 FR) in X by exact L. discriminate X. }
           destruct (moved_other h D i x [] M X) as (y & Y & K & MV).
           { intros P. pose proof (users_all i x X P) as J. rewrite HU in J. apply in_app_or in J as [J|[J|[]]]; [eauto|congruence]. }
           pose proof (Old i Li Q) as UP. rewrite Y in UP. unfold upto in UP. destruct (f_insn h1 i) as [y'|]; [|destruct UP]. destruct UP as (l & ->).
           exists (set_users l y). split; [reflexivity|]. split; [destruct K; constructor; assumption|].
           destruct MV as [A B C0|v cc kk A B C0 D0 E0 F0]; [constructor 1; auto|econstructor 2; eauto].
Qed.

Lemma pre_shifted cap g : stack_offset_pre sp cap f = Ok g -> exists u T, shifted f g sp u T.
Proof.
  intros E. unfold stack_offset_pre in E. bo E n Hn. bo E r Hr. injection E as <-. destruct r as (g & c). cbn [fst].
  apply get_insn_ok in Hn. apply (pre_loop (i_users n) [] f cap g c); [| |intros d x []|exact Hr].
  - constructor; try reflexivity. intros i. destruct (f_insn f i); reflexivity.
  - unfold users_of. now rewrite Hn.
Qed.
Lemma pre_guarded cap g : no_holes f -> stack_offset_pre sp cap f = Ok g -> relocates_guarded sp f g.
Proof.
  intros NH E. destruct (pre_shifted cap g E) as (u & T & SH).
  refine (shifted_guarded f g sp u T FR NH (so_out _ _ SO) (so_sp _ _ SO) (so_raw _ _ SO) _ _ SH).
  - intros i x v d X I D K. assert (P : 0 < uses f i d).
    { unfold uses. rewrite X. destruct (filter (is_use_of d) (operand_values x)) eqn:Q; [|cbn; lia].
      assert (J : In v (filter (is_use_of d) (operand_values x))) by (apply filter_In; split; [exact I|]; unfold is_use_of; rewrite D; apply Nat.eqb_refl).
      rewrite Q in J. destruct J. }
    apply (td_users _ TD) in P. unfold users_of in P. rewrite K in P. destruct P.
  - intros b i I K. destruct (td_linked _ TD b i I) as (y & Y & _). congruence.
Qed.
Lemma pre_relocates cap g : no_holes f -> stack_offset_pre sp cap f = Ok g -> relocates sp f g.
Proof. intros NH E. apply guarded_relocates. exact (pre_guarded cap g NH E). Qed.
End Pass.

(** ** Filling the holes *)
Open Scope Z_scope.
From Verif Require Import SpecRa L_Frame.
Lemma shift_fill o v : value_fits o v -> shift_value o v = fill_val o v.
Proof.
  unfold value_fits, shift_value, fill_val. destruct (v_data v); try reflexivity; intros H; unfold s64; rewrite sgn_small; try reflexivity; try lia; exact H.
Qed.
Lemma fill_none o v : no_hole v -> fill_val o v = v.
Proof. unfold no_hole, fill_val. destruct (v_data v); tauto. Qed.
Lemma map_fill_none o l : (forall v, In v l -> no_hole v) -> map (fill_val o) l = l.
Proof. intros H. rewrite <- (map_id l) at 2. apply map_ext_in. intros v I. apply fill_none, H, I. Qed.
Lemma no_hole_shift o v : no_hole v -> shift_value o v = v.
Proof. unfold no_hole, shift_value. destruct (v_data v); tauto. Qed.
Lemma shift_filled o x : fits o x -> filled o x (shift_insn o x).
Proof.
  intros [FV FP FR].
  assert (MV : map (shift_value o) (i_vals x) = map (fill_val o) (i_vals x)) by (apply map_ext_in; intros v I; apply shift_fill, FV, I).
  destruct (is_raw (i_op x)) eqn:RW.
  - assert (OR : i_op x = LOADRAW \/ i_op x = STORERAW) by (destruct (i_op x); try discriminate RW; auto).
    destruct (FR OR) as (NV & NA & RG). assert (NE : i_op x <> LOADRAW -> i_op x <> STORERAW -> False) by tauto.
    assert (NP : iop_eqb (i_op x) PHI = false) by (destruct OR as [-> | ->]; reflexivity).
    assert (NPH : i_op x <> PHI) by (destruct OR as [-> | ->]; discriminate).
    unfold shift_insn. rewrite RW, NP. destruct (a_ot (i_addr x)) eqn:OT.
    + constructor; try reflexivity; try (intros; contradiction); try (intros; exfalso; auto; fail); cbn; [exact MV| |repeat split].
      intros _. rewrite no_hole_shift by exact NA. unfold fill_addr. rewrite OT. rewrite <- OT. destruct (i_addr x); reflexivity.
    + constructor; try reflexivity; try (intros; contradiction); try (intros; exfalso; auto; fail); cbn; [now rewrite map_fill_none| |repeat split].
      intros _. unfold fill_addr. rewrite OT. unfold s16. rewrite sgn_small; [reflexivity|lia|exact RG].
    + constructor; try reflexivity; try (intros; contradiction); try (intros; exfalso; auto; fail); cbn; [now rewrite map_fill_none| |repeat split].
      intros _. unfold fill_addr. rewrite OT. unfold s16. rewrite sgn_small; [reflexivity|lia|exact RG].
  - assert (NR : ~ (i_op x = LOADRAW \/ i_op x = STORERAW)) by (intros [Q|Q]; rewrite Q in RW; discriminate RW).
    unfold shift_insn. rewrite RW. unfold iop_eqb. destruct (iop_eq_dec (i_op x) PHI) as [P|P].
    + constructor; try reflexivity; try (intros; contradiction); cbn; [exact MV| |repeat split]. intros _. apply map_ext_in. intros e I.
      now rewrite shift_fill by exact (FP P e I).
    + constructor; try reflexivity; try (intros; contradiction); cbn; [exact MV|repeat split].
Qed.
Lemma filled_ok s t i x : NoDup (flat_map (insns_of (c_f s)) (c_reach s)) -> add_stack_offset s (c_off s) = Ok t ->
  - 2 ^ 15 <= c_off s < 2 ^ 15 -> linked s i -> f_insn (c_f s) i = Some x -> fits (c_off s) x ->
  exists y, f_insn (c_f t) i = Some y /\ filled (c_off s) x y.
Proof.
  intros Nd H Hb L X FT. destruct (add_stack_offset_ok s t Nd H Hb) as (_ & _ & G). exists (shift_insn (c_off s) x). split; [exact (G i x L X)|].
  now apply shift_filled.
Qed.
