(** SSA construction: the invariant of the current-definition tables and what reading a variable
    does to it. *)
From Coq Require Import ZArith List Bool Arith Lia.
From Verif Require Import M_Base M_Ir M_Edit SpecWord SpecIsa M_GenBB M_Lift L_Edit.
Import ListNotations.
Open Scope nat_scope.

Definition regmap := Z -> option value.
Definition regok (r : Z) : Prop := (0 <= r <= 9)%Z.
Definition wrote (m : regmap) (r : Z) (v : value) : regmap := fun r' => if (r' =? r)%Z then Some v else m r'.
Definition regv (m : regmap) (r : Z) : option value := if (r =? 10)%Z then Some (val_insn sp_id) else m r.
Definition srcv (m : regmap) (pi : pre_insn) : option value :=
  if src_x (pi_code pi) then regv m (pi_src pi) else Some (val_const32 (pi_imm pi)).

Definition sim_i (x y : insn) : Prop := set_users [] x = set_users [] y.
Definition like (f : func) (i : nat) (x : insn) : Prop := exists y, f_insn f i = Some y /\ sim_i y x.

Lemma sim_refl x : sim_i x x. Proof. reflexivity. Qed.
Lemma sim_trans x y z : sim_i x y -> sim_i y z -> sim_i x z.
Proof. unfold sim_i; congruence. Qed.
Lemma sim_users u x : sim_i (set_users u x) x. Proof. destruct x; reflexivity. Qed.
Lemma sim_op x y : sim_i x y -> i_op x = i_op y.
Proof. intros H; apply (f_equal i_op) in H; exact H. Qed.
Lemma sim_parent x y : sim_i x y -> i_parent x = i_parent y.
Proof. intros H; apply (f_equal i_parent) in H; exact H. Qed.
Lemma sim_phi x y : sim_i x y -> i_phi x = i_phi y.
Proof. intros H; apply (f_equal i_phi) in H; exact H. Qed.

Definition is_alu (c : Z) : bool := ((cls c =? 4) || (cls c =? 7))%Z.
Definition alu_w (c : Z) : alut := if (cls c =? 4)%Z then A_32 else A_64.
Definition jmp_w (c : Z) : alut := if (cls c =? 5)%Z then A_64 else A_32.

Fixpoint argv (m : regmap) (j k : nat) : option (list value) :=
  match k with
  | O => Some []
  | S k' => match regv m (Z.of_nat (S j)), argv m (S j) k' with
            | Some v, Some t => Some (v :: t)
            | _, _ => None
            end
  end.

(** [lifts f bs b m pi ids m']: with the register contents [m], the instructions [ids] of [f] are
    what the lifter makes of [pi] in block [b]; [m'] are the register contents afterwards. *)
Inductive lifts (f : func) (bs : list pblock) (b : nat) (m : regmap) (pi : pre_insn) : list nat -> regmap -> Prop :=
| lf_bin i o v1 v2 m' : is_alu (pi_code pi) = true -> bin_of (opn (pi_code pi)) = Some o -> pi_off pi = 0%Z ->
    regv m (pi_dst pi) = Some v1 -> srcv m pi = Some v2 ->
    like f i (set_alu (alu_w (pi_code pi)) (set_vals [v1; v2] (set_op o (insn0 b)))) ->
    (forall r, m' r = wrote m (pi_dst pi) (val_insn i) r) -> lifts f bs b m pi [i] m'
| lf_mov v m' : is_alu (pi_code pi) = true -> opn (pi_code pi) = 11%Z -> pi_off pi = 0%Z ->
    srcv m pi = Some v -> (forall r, m' r = wrote m (pi_dst pi) v r) -> lifts f bs b m pi [] m'
| lf_un i o a u v m' : is_alu (pi_code pi) = true ->
    (opn (pi_code pi) = 13%Z /\ cls (pi_code pi) = 4%Z /\ o = (if src_x (pi_code pi) then HTOBE else HTOLE) /\
     a = A_32 /\ u = pi_imm pi \/
     opn (pi_code pi) = 8%Z /\ src_x (pi_code pi) = false /\ o = NEG /\ a = alu_w (pi_code pi) /\ u = 0%Z) ->
    pi_off pi = 0%Z -> regv m (pi_dst pi) = Some v ->
    like f i (set_u u (set_alu a (set_vals [v] (set_op o (insn0 b))))) ->
    (forall r, m' r = wrote m (pi_dst pi) (val_insn i) r) -> lifts f bs b m pi [i] m'
| lf_imm i m' : cls (pi_code pi) = 0%Z -> mode (pi_code pi) = 0%Z -> szf (pi_code pi) = 3%Z -> (pi_src pi <= 6)%Z ->
    like f i (set_imm (pi_src pi) (pi_imm64 pi) (set_op LOADIMM_EXTRA (insn0 b))) ->
    (forall r, m' r = wrote m (pi_dst pi) (val_insn i) r) -> lifts f bs b m pi [i] m'
| lf_ldx i v m' : cls (pi_code pi) = 1%Z -> (mode (pi_code pi) = 4 \/ mode (pi_code pi) = 3)%Z ->
    regv m (pi_src pi) = Some v ->
    like f i (set_addr (mem_addr v (pi_src pi) (pi_off pi)) (set_vrt (ld_vrt (pi_code pi)) (set_op LOADRAW (insn0 b)))) ->
    (forall r, m' r = wrote m (pi_dst pi) (val_insn i) r) -> lifts f bs b m pi [i] m'
| lf_st i v1 v2 m' : mode (pi_code pi) = 3%Z ->
    (cls (pi_code pi) = 2%Z /\ v2 = val_const32 (pi_imm pi) \/ cls (pi_code pi) = 3%Z /\ regv m (pi_src pi) = Some v2) ->
    regv m (pi_dst pi) = Some v1 ->
    like f i (set_vals [v2] (set_addr (mem_addr v1 (pi_dst pi) (pi_off pi))
               (set_vrt (ld_vrt (pi_code pi)) (set_op STORERAW (insn0 b))))) ->
    (forall r, m' r = m r) -> lifts f bs b m pi [i] m'
| lf_ja i t m' : jmp_cls (pi_code pi) = true -> opn (pi_code pi) = 0%Z ->
    bb_from bs (Z.of_nat (pi_pos pi) + pi_off pi + 1) = Ok t ->
    like f i (set_bb1 t (set_op JA (insn0 b))) -> (forall r, m' r = m r) -> lifts f bs b m pi [i] m'
| lf_ret i v m' : jmp_cls (pi_code pi) = true -> opn (pi_code pi) = 9%Z -> regv m 0 = Some v ->
    like f i (set_vals [v] (set_op RET (insn0 b))) -> (forall r, m' r = m r) -> lifts f bs b m pi [i] m'
| lf_cond i o v1 v2 t1 t2 m' : jmp_cls (pi_code pi) = true -> cond_of (opn (pi_code pi)) = Some o ->
    regv m (pi_dst pi) = Some v1 -> srcv m pi = Some v2 ->
    bb_from bs (Z.of_nat (pi_pos pi) + 1) = Ok t1 ->
    bb_from bs (Z.of_nat (pi_pos pi) + pi_off pi + 1) = Ok t2 ->
    like f i (set_bb2 t2 (set_bb1 t1 (set_alu (jmp_w (pi_code pi)) (set_vals [v1; v2] (set_op o (insn0 b)))))) ->
    (forall r, m' r = m r) -> lifts f bs b m pi [i] m'
| lf_call i o k vs m' : jmp_cls (pi_code pi) = true -> opn (pi_code pi) = 8%Z -> (0 <= pi_imm pi)%Z ->
    (o = ECALL /\ pi_src pi = 6%Z \/
     o = CALL /\ pi_src pi <> 6%Z /\ exists a, nth_error helper_args (Z.to_nat (pi_imm pi)) = Some a /\
       (pi_imm pi = 6%Z \/ a = Z.of_nat k)) ->
    argv m 0 k = Some vs ->
    like f i (set_u (pi_imm pi) (set_vals vs (set_op o (insn0 b)))) ->
    (forall r, m' r = wrote m 0 (val_insn i) r) -> k <= 5 -> (o = CALL -> pi_imm pi = 6%Z -> 2 <= k) -> lifts f bs b m pi [i] m'.

Inductive lifts_l (f : func) (bs : list pblock) (b : nat) : regmap -> list pre_insn -> list nat -> regmap -> Prop :=
| ll_nil m m' : (forall r, m' r = m r) -> lifts_l f bs b m [] [] m'
| ll_cons m pi l i1 i2 m1 m' : lifts f bs b m pi i1 m1 -> lifts_l f bs b m1 l i2 m' -> lifts_l f bs b m (pi :: l) (i1 ++ i2) m'.

(** ** Properties of [lifts] *)

Lemma wrote_same m r v : wrote m r v r = Some v.
Proof. unfold wrote; now rewrite Z.eqb_refl. Qed.
Lemma wrote_other m r v r' : r' <> r -> wrote m r v r' = m r'.
Proof. intros; unfold wrote; destruct (Z.eqb_spec r' r); congruence. Qed.

Lemma lifts_mono f bs b m pi ids m' r : lifts f bs b m pi ids m' -> m r <> None -> m' r <> None.
Proof.
  intros H N; inversion H; subst; try (match goal with E : forall r, m' r = _ |- _ => rewrite E end);
    try exact N; unfold wrote; destruct (Z.eqb r _); congruence.
Qed.

Lemma regv_wrote m r v r' x : r <> 10%Z -> m r = None -> regv m r' = Some x -> regv (wrote m r v) r' = Some x.
Proof.
  intros H1 H2; unfold regv; destruct (Z.eqb_spec r' 10); [easy|]; intros H.
  rewrite wrote_other; [exact H | congruence].
Qed.
Lemma srcv_wrote m r v pi x : r <> 10%Z -> m r = None -> srcv m pi = Some x -> srcv (wrote m r v) pi = Some x.
Proof. intros H1 H2; unfold srcv; destruct (src_x _); [now apply regv_wrote | easy]. Qed.
Lemma argv_wrote m r v : r <> 10%Z -> m r = None -> forall k j l, argv m j k = Some l -> argv (wrote m r v) j k = Some l.
Proof.
  intros H1 H2; induction k as [|k IH]; intros j l; cbn [argv]; [easy|].
  destruct (regv m _) as [x|] eqn:E; [|easy]. destruct (argv m (S j) k) as [t|] eqn:E2; [|easy].
  intros H; rewrite (regv_wrote _ _ v _ _ H1 H2 E), (IH _ _ E2); exact H.
Qed.
Lemma wrote_comm m r v r' v' x : r' <> r -> wrote (wrote m r' v') r v x = wrote (wrote m r v) r' v' x.
Proof. intros; unfold wrote; destruct (Z.eqb_spec x r), (Z.eqb_spec x r'); congruence. Qed.

(** the same instructions with one more register known at the start *)
Lemma lifts_ext f bs b m pi ids m' r v m1 : lifts f bs b m pi ids m' -> r <> 10%Z -> m' r = None ->
  (forall x, m1 x = wrote m r v x) ->
  exists m2, lifts f bs b m1 pi ids m2 /\ forall x, m2 x = wrote m' r v x.
Proof.
  intros H R N E1.
  assert (N0 : m r = None).
  { destruct (m r) eqn:E; [|reflexivity]. exfalso; apply (lifts_mono _ _ _ _ _ _ _ r H); congruence. }
  assert (G : forall r' x, regv m r' = Some x -> regv m1 r' = Some x).
  { intros r' x Hx. pose proof (regv_wrote m r v r' x R N0 Hx) as Hy. clear Hx; rename Hy into Hx. unfold regv in *. destruct (r' =? 10)%Z; [exact Hx|].
    now rewrite E1. }
  assert (Gs : forall x, srcv m pi = Some x -> srcv m1 pi = Some x).
  { intros x; unfold srcv; destruct (src_x _); [apply G | easy]. }
  assert (Ga : forall k j l, argv m j k = Some l -> argv m1 j k = Some l).
  { induction k as [|k IH]; intros j l; cbn [argv]; [easy|].
    destruct (regv m _) as [x|] eqn:E; [|easy]. destruct (argv m (S j) k) as [t|] eqn:E2; [|easy].
    intros Hx; rewrite (G _ _ E), (IH _ _ E2); exact Hx. }
  assert (C : forall d y, (forall x, m' x = wrote m d y x) -> forall x, wrote m1 d y x = wrote m' r v x).
  { intros d y Hd x. assert (r <> d) by (intros ->; rewrite Hd, wrote_same in N; discriminate).
    unfold wrote in *. rewrite Hd, E1. destruct (Z.eqb_spec x d), (Z.eqb_spec x r); congruence. }
  assert (C0 : (forall x, m' x = m x) -> forall x, m1 x = wrote m' r v x).
  { intros Hd x. rewrite E1. unfold wrote. now rewrite Hd. }
  inversion H; subst;
    match goal with
    | E : forall r, m' r = wrote m ?d ?y r |- _ => exists (wrote m1 d y); split; [|apply C; exact E]
    | _ => exists m1; split; [|now apply C0]
    end;
    [eapply lf_bin | eapply lf_mov | eapply lf_un | eapply lf_imm | eapply lf_ldx | eapply lf_st | eapply lf_ja
    | eapply lf_ret | eapply lf_cond | eapply lf_call ]; eauto.
  match goal with Q : _ \/ _ |- _ => destruct Q as [?|[? ?]] end; [left|right]; auto.
Qed.

Lemma lifts_l_ext f bs b m l ids m' : lifts_l f bs b m l ids m' -> forall r v m1, r <> 10%Z -> m' r = None ->
  (forall x, m1 x = wrote m r v x) -> exists m2, lifts_l f bs b m1 l ids m2 /\ forall x, m2 x = wrote m' r v x.
Proof.
  induction 1 as [m m' E|m pi l i1 i2 ma m' H1 H2 IH]; intros r v m1 R N E1.
  - exists m1; split; [now constructor|]. intros x; rewrite E1; unfold wrote; now rewrite E.
  - assert (Na : ma r = None).
    { clear - H2 N. induction H2 as [m m' E|m pi l i1 i2 mb m' H1 H2 IH].
      - now rewrite <- E.
      - specialize (IH N). destruct (m r) eqn:Em; [|reflexivity].
        exfalso; apply (lifts_mono _ _ _ _ _ _ _ r H1); congruence. }
    destruct (lifts_ext _ _ _ _ _ _ _ r v m1 H1 R Na E1) as (mb & K1 & K2).
    destruct (IH r v mb R N K2) as (mc & K3 & K4).
    exists mc; split; [now apply ll_cons with mb | exact K4].
Qed.

Lemma lifts_l_none f bs b m l ids m' r : lifts_l f bs b m l ids m' -> m' r = None -> m r = None.
Proof.
  induction 1 as [m m' E|m pi l i1 i2 mb m' H1 H2 IH]; intros N.
  - now rewrite <- E.
  - specialize (IH N). destruct (m r) eqn:Em; [|reflexivity].
    exfalso; apply (lifts_mono _ _ _ _ _ _ _ r H1); congruence.
Qed.

(** the register written by an instruction *)
Definition wreg (pi : pre_insn) : option Z :=
  let c := pi_code pi in
  if is_alu c then Some (pi_dst pi)
  else if (cls c =? 0)%Z || (cls c =? 1)%Z then Some (pi_dst pi)
  else if jmp_cls c && (opn c =? 8)%Z then Some 0%Z else None.

Lemma jmp_not_alu c : jmp_cls c = true -> is_alu c = false /\ cls c <> 0%Z /\ cls c <> 1%Z.
Proof.
  unfold jmp_cls, is_alu. destruct (Z.eqb_spec (cls c) 5) as [->|]; [cbn; repeat split; lia|].
  destruct (Z.eqb_spec (cls c) 6) as [->|]; [cbn; repeat split; lia|]. discriminate.
Qed.

Lemma lifts_wreg f bs b m pi ids m' : lifts f bs b m pi ids m' ->
  match wreg pi with
  | None => forall r, m' r = m r
  | Some d => (forall r, r <> d -> m' r = m r) /\ m' d <> None
  end.
Proof.
  assert (A : forall d v, (forall r, m' r = wrote m d v r) -> (forall r, r <> d -> m' r = m r) /\ m' d <> None).
  { intros d v E; split; [intros r N; rewrite E; now apply wrote_other|]. rewrite E, wrote_same; discriminate. }
  intros H; inversion H; subst; unfold wreg;
    try (match goal with Q : is_alu _ = true |- _ => rewrite Q end; eapply A; eassumption);
    try (match goal with Q : jmp_cls _ = true |- _ => pose proof (jmp_not_alu _ Q) as (Q1 & Q2 & Q3); rewrite Q1, Q;
      rewrite (proj2 (Z.eqb_neq _ _) Q2), (proj2 (Z.eqb_neq _ _) Q3) end; cbn [orb andb]).
  - replace (is_alu (pi_code pi)) with false by (unfold is_alu; rewrite H0; reflexivity).
    rewrite H0; cbn [Z.eqb orb]. eapply A; eassumption.
  - replace (is_alu (pi_code pi)) with false by (unfold is_alu; rewrite H0; reflexivity).
    rewrite H0; cbn [Z.eqb orb]. eapply A; eassumption.
  - replace (is_alu (pi_code pi)) with false by (unfold is_alu; destruct H1 as [[-> _]|[-> _]]; reflexivity).
    replace (jmp_cls (pi_code pi)) with false by (unfold jmp_cls; destruct H1 as [[-> _]|[-> _]]; reflexivity).
    destruct H1 as [[-> _]|[-> _]]; cbn [Z.eqb orb andb]; assumption.
  - rewrite H1; cbn [Z.eqb]. assumption.
  - rewrite H1; cbn [Z.eqb]. assumption.
  - replace (opn (pi_code pi) =? 8)%Z with false; [assumption|].
    symmetry; apply Z.eqb_neq; intros Q. rewrite Q in H1; discriminate.
  - rewrite H1; cbn [Z.eqb]. eapply A; eassumption.
Qed.

Lemma lifts_l_unwritten f bs b m l ids m' r : lifts_l f bs b m l ids m' -> m' r = None ->
  forall f2 m2 ids2 m2', lifts_l f2 bs b m2 l ids2 m2' -> m2' r = m2 r.
Proof.
  induction 1 as [m m' E|m pi l i1 i2 mb m' H1 H2 IH]; intros N f2 m2 ids2 m2' K; inversion K; subst.
  - auto.
  - match goal with Q : lifts_l f2 _ _ _ l _ m2' |- _ => rewrite (IH N _ _ _ _ Q) end.
    match goal with Q : lifts f2 _ _ m2 pi _ _ |- _ => rename Q into H4 end.
    pose proof (lifts_l_none _ _ _ _ _ _ _ r H2 N) as Nb.
    apply lifts_wreg in H1. apply lifts_wreg in H4.
    destruct (wreg pi) as [d|]; [|apply H4].
    destruct (Z.eq_dec r d) as [->|Q]; [destruct H1; contradiction|]. now apply H4.
Qed.

(** only the contents of the new instructions matter *)
Lemma like_trans f f' i x : (forall i x, f_insn f i = Some x -> like f' i x) -> like f i x -> like f' i x.
Proof.
  intros H (y & E & S). destruct (H _ _ E) as (z & E' & S'). exists z; split; [exact E' | now apply sim_trans with y].
Qed.
Lemma lifts_heap f f' bs b m pi ids m' : (forall i x, In i ids -> f_insn f i = Some x -> like f' i x) ->
  lifts f bs b m pi ids m' -> lifts f' bs b m pi ids m'.
Proof.
  intros G H.
  assert (L : forall i x, In i ids -> like f i x -> like f' i x).
  { intros i x Hi (y & E & S). destruct (G _ _ Hi E) as (z & E' & S'). exists z; split; [exact E' | now apply sim_trans with y]. }
  inversion H; subst;
    [eapply lf_bin | eapply lf_mov | eapply lf_un | eapply lf_imm | eapply lf_ldx | eapply lf_st | eapply lf_ja
    | eapply lf_ret | eapply lf_cond | eapply lf_call ]; eauto; try (apply L; [now left | eassumption]).
Qed.
Lemma lifts_l_heap f f' bs b m l ids m' : (forall i x, In i ids -> f_insn f i = Some x -> like f' i x) ->
  lifts_l f bs b m l ids m' -> lifts_l f' bs b m l ids m'.
Proof.
  intros G H; induction H as [m m' E|m pi l i1 i2 mb m' H1 H2 IH]; [now constructor|].
  apply ll_cons with mb; [eapply lifts_heap; [|exact H1] | apply IH]; intros; eapply G; eauto using in_or_app.
Qed.
Lemma regv_eq m m1 r : (forall r, m1 r = m r) -> regv m1 r = regv m r.
Proof. intros E; unfold regv; now rewrite E. Qed.
Lemma argv_eq m m1 : (forall r, m1 r = m r) -> forall k j, argv m1 j k = argv m j k.
Proof. intros E; induction k as [|k IH]; intros j; cbn [argv]; [easy|]. now rewrite (regv_eq _ _ _ E), IH. Qed.
Lemma lifts_eqm f bs b m m1 pi ids m' : (forall r, m1 r = m r) -> lifts f bs b m pi ids m' -> lifts f bs b m1 pi ids m'.
Proof.
  intros E H.
  assert (R : forall r, regv m1 r = regv m r) by (intros; now apply regv_eq).
  assert (S : srcv m1 pi = srcv m pi) by (unfold srcv; now rewrite R).
  assert (W : forall d v r, wrote m1 d v r = wrote m d v r) by (intros; unfold wrote; now rewrite E).
  inversion H; subst;
    [eapply lf_bin | eapply lf_mov | eapply lf_un | eapply lf_imm | eapply lf_ldx | eapply lf_st | eapply lf_ja
    | eapply lf_ret | eapply lf_cond | eapply lf_call ]; rewrite ?R, ?S; try rewrite (argv_eq _ _ E); eauto;
    try (intros; rewrite W; auto); try (intros; rewrite E; auto).
Qed.
Lemma lifts_l_snoc f bs b m l ids m1 pi i2 m2 : lifts_l f bs b m l ids m1 -> lifts f bs b m1 pi i2 m2 ->
  lifts_l f bs b m (l ++ [pi]) (ids ++ i2) m2.
Proof.
  induction 1 as [m m' E|m p l i1 i3 mb m' H1 H2 IH]; intros H; cbn [app].
  - rewrite <- (app_nil_r i2). apply ll_cons with m2; [|now constructor].
    apply lifts_eqm with m'; [|exact H]. intros; symmetry; apply E.
  - rewrite <- app_assoc. apply ll_cons with mb; auto.
Qed.
