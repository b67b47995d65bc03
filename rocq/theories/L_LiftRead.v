(** The invariant of SSA construction, and reading a variable. *)
From Coq Require Import ZArith List Bool Arith Lia.
From Verif Require Import M_Base M_Ir M_Edit SpecWord SpecIsa M_GenBB M_Lift L_Edit L_Lift.
Import ListNotations.
Open Scope nat_scope.

(** what reading register [r] at the end of block [b] gives *)
Definition rdv (s : lst) (b : nat) (r : Z) : option value :=
  match l_def s r b with
  | Some v => Some v
  | None => if (b =? 1) && (1 <=? r)%Z && (r <=? 5)%Z then Some (val_insn (arg_id r)) else None
  end.

Definition eset (e : nat -> regmap) (b : nat) (r : Z) (v : value) : nat -> regmap :=
  fun b' r' => if (b' =? b) && (r' =? r)%Z then Some v else e b' r'.

Definition single (pb : pblock) : option nat := match pb_preds pb with [p] => Some p | _ => None end.

Definition complete (s : lst) (pb : pblock) (r : Z) (l : list (value * nat)) : Prop :=
  Forall2 (fun q p => snd q = S p /\ rdv s (S p) r = Some (fst q)) l (pb_preds pb).

Section Inv.
Variable bs : list pblock.

Definition blk (b : nat) : option pblock := match b with O => None | S k => nth_error bs k end.

(** the instructions of [b] lifted so far *)
Definition done (dn : nat -> option (list pre_insn)) (b : nat) : list pre_insn :=
  match dn b with Some l => l | None => [] end.

Record binv (e : nat -> regmap) (dn : nat -> option (list pre_insn)) (s : lst) (b : nat) (pb : pblock)
  (phs ids : list nat) (m : regmap) : Prop := {
  bi_blk : f_block (l_f s) b = Some (mkBlock (phs ++ ids) (map S (pb_preds pb)) (map S (pb_succs pb)) 0%Z);
  bi_phs : forall i, In i phs -> exists x r, f_insn (l_f s) i = Some x /\ i_op x = PHI /\ i_parent x = b /\
             regok r /\ e b r = Some (val_insn i);
  bi_single : single pb <> None -> phs = [];
  bi_ids : forall i, In i ids -> exists x, f_insn (l_f s) i = Some x /\ i_op x <> PHI /\ i_parent x = b;
  bi_nodup : NoDup (phs ++ ids);
  bi_ge : forall i, In i (phs ++ ids) -> 7 <= i;
  bi_lifts : lifts_l (l_f s) bs b (e b) (done dn b) ids m;
  bi_rdv : forall r, regok r -> rdv s b r = m r;
  bi_none : dn b = None -> b <> 1 -> forall r, e b r = None
}.

Definition ph_ok (s : lst) (P : nat -> Prop) (b : nat) (pb : pblock) (r : Z) (i : nat) : Prop :=
  exists x k, f_insn (l_f s) i = Some x /\ i_op x = PHI /\ i_parent x = b /\
    f_block (l_f s) b = Some k /\ In i (b_insns k) /\
    (P i \/ if l_seal s b then complete s pb r (i_phi x) else l_inc s b r = Some i /\ i_phi x = []).

Record inv (e : nat -> regmap) (dn : nat -> option (list pre_insn)) (P : nat -> Prop) (s : lst) : Prop := {
  iv_e1 : forall r, e 1 r = if ((1 <=? r) && (r <=? 5))%Z then Some (val_insn (arg_id r)) else None;
  iv_blk : forall b pb, blk b = Some pb -> exists phs ids m, binv e dn s b pb phs ids m;
  iv_range : forall i x, f_insn (l_f s) i = Some x -> i < f_ni (l_f s);
  iv_ni : 7 <= f_ni (l_f s);
  iv_ent : forall b pb r v, blk b = Some pb -> b <> 1 -> e b r = Some v -> regok r /\
    match single pb with
    | Some p => l_seal s b = true /\ rdv s (S p) r = Some v
    | None => exists i, v = val_insn i /\ ph_ok s P b pb r i
    end;
  iv_seal : forall b pb p, blk b = Some pb -> l_seal s b = true -> In p (pb_preds pb) -> l_fill s (S p) = true;
  iv_fill : forall b pb, blk b = Some pb -> l_fill s b = true -> dn b = Some (pb_insns pb);
  iv_one : forall b pb, blk b = Some pb -> dn b <> None -> single pb <> None -> l_seal s b = true;
  iv_inc : forall b r i, l_inc s b r = Some i -> b <> 1 /\ regok r /\ e b r = Some (val_insn i);
  iv_inj : forall b pb r r' i, blk b = Some pb -> b <> 1 -> single pb = None ->
    e b r = Some (val_insn i) -> e b r' = Some (val_insn i) -> r = r'
}.

(** ** Small facts *)

Lemma eset_same e b r v : eset e b r v b r = Some v.
Proof. unfold eset; now rewrite Nat.eqb_refl, Z.eqb_refl. Qed.
Lemma eset_other e b r v b' r' : ~ (b' = b /\ r' = r) -> eset e b r v b' r' = e b' r'.
Proof.
  intros H; unfold eset. destruct (Nat.eqb_spec b' b), (Z.eqb_spec r' r); cbn [andb]; try reflexivity.
  exfalso; auto.
Qed.
Lemma eset_row e b r v x : eset e b r v b x = wrote (e b) r v x.
Proof. unfold eset, wrote; now rewrite Nat.eqb_refl. Qed.

Lemma complete_mono s s' pb r l : (forall p v, In p (pb_preds pb) -> rdv s (S p) r = Some v -> rdv s' (S p) r = Some v) ->
  complete s pb r l -> complete s' pb r l.
Proof.
  unfold complete; intros H F. induction F as [|q p l' ps [A B] F IH]; constructor.
  - split; [exact A|]. apply H; [now left | exact B].
  - apply IH. intros; apply H; [now right | assumption].
Qed.

Lemma rdv_def s b r v : l_def s r b = Some v -> rdv s b r = Some v.
Proof. unfold rdv; now intros ->. Qed.
Lemma rdv_not1 s b r : b <> 1 -> rdv s b r = l_def s r b.
Proof.
  intros H; unfold rdv. destruct (l_def s r b); [reflexivity|].
  apply Nat.eqb_neq in H; now rewrite H.
Qed.

(** an entry of [e] is visible in the tables *)
Lemma ent_rdv e dn P s b pb r : inv e dn P s -> blk b = Some pb -> regok r -> rdv s b r = None -> e b r = None.
Proof.
  intros I B R N. destruct (iv_blk _ _ _ _ I _ _ B) as (phs & ids & m & H).
  apply (lifts_l_none _ _ _ _ _ _ _ r (bi_lifts _ _ _ _ _ _ _ _ H)). now rewrite <- (bi_rdv _ _ _ _ _ _ _ _ H r R).
Qed.

Lemma lifts_l_eqm f b m m1 l ids m' : (forall r, m1 r = m r) -> lifts_l f bs b m l ids m' -> lifts_l f bs b m1 l ids m'.
Proof.
  intros E H; inversion H; subst.
  - constructor. intros r; rewrite E; auto.
  - econstructor; [eapply lifts_eqm; [exact E | eassumption] | eassumption].
Qed.

(** changes that only touch user lists and the operands of phis under construction *)
Definition hstep (P : nat -> Prop) (f f' : func) : Prop :=
  f_block f' = f_block f /\ f_ni f' = f_ni f /\
  (forall i x', f_insn f' i = Some x' -> exists x, f_insn f i = Some x) /\
  (forall i x, f_insn f i = Some x -> exists x', f_insn f' i = Some x' /\
     (sim_i x' x \/ P i /\ i_op x = PHI /\ i_op x' = PHI /\ i_parent x' = i_parent x)).

Lemma hstep_op P f f' i x : hstep P f f' -> f_insn f i = Some x ->
  exists x', f_insn f' i = Some x' /\ i_op x' = i_op x /\ i_parent x' = i_parent x /\ (~ P i -> i_phi x' = i_phi x).
Proof.
  intros (_ & _ & _ & H) E. destruct (H _ _ E) as (x' & E' & [S|(Q & A & B & C)]); exists x'.
  - repeat split; try exact E'; [now apply sim_op | now apply sim_parent | intros _; now apply sim_phi].
  - repeat split; try exact E'; congruence || tauto.
Qed.

Lemma inv_heap e dn P s g : inv e dn P s -> hstep P (l_f s) g -> inv e dn P (with_f g s).
Proof.
  intros I H. assert (H' := H). destruct H as (Hb & Hn & Hd & Hf).
  constructor; cbn [l_f l_def l_inc l_seal l_fill with_f].
  - exact (iv_e1 _ _ _ _ I).
  - intros b pb B. destruct (iv_blk _ _ _ _ I _ _ B) as (phs & ids & m & [K1 K2 K3 K4 K5 K6 K7 K8 K9]).
    exists phs, ids, m. constructor; cbn [l_f l_def with_f]; try assumption.
    + now rewrite Hb.
    + intros i Hi. destruct (K2 i Hi) as (x & r & E & O & Q & R & V).
      destruct (hstep_op _ _ _ _ _ H' E) as (x' & E' & O' & Q' & _).
      exists x', r. repeat split; try assumption; try (apply R); congruence.
    + intros i Hi. destruct (K4 i Hi) as (x & E & O & Q).
      destruct (hstep_op _ _ _ _ _ H' E) as (x' & E' & O' & Q' & _).
      exists x'. repeat split; congruence.
    + eapply lifts_l_heap; [|exact K7]. intros i x Hi E.
      destruct (K4 i Hi) as (y & Ey & O & _). rewrite E in Ey; injection Ey as <-.
      destruct (Hf _ _ E) as (x' & E' & [S|(_ & A & _)]); [|contradiction]. now exists x'.
  - intros i x E. rewrite Hn. destruct (Hd _ _ E) as (y & Ey). now apply (iv_range _ _ _ _ I) in Ey.
  - rewrite Hn. exact (iv_ni _ _ _ _ I).
  - intros b pb r v B N E. destruct (iv_ent _ _ _ _ I _ _ _ _ B N E) as (R & K). split; [exact R|].
    destruct (single pb) as [p|]; [exact K|]. destruct K as (i & -> & x & k & Ex & O & Q & Ek & Hi & C).
    exists i; split; [reflexivity|]. destruct (hstep_op _ _ _ _ _ H' Ex) as (x' & E' & O' & Q' & F').
    exists x', k. cbn [l_f l_seal l_inc with_f]. rewrite Hb.
    destruct (Hf _ _ Ex) as (y & Ey & S). rewrite E' in Ey; injection Ey as <-.
    repeat split; try assumption; try congruence.
    destruct S as [S|(S & _)]; [|now left]. apply sim_phi in S. rewrite S. exact C.
  - exact (iv_seal _ _ _ _ I).
  - exact (iv_fill _ _ _ _ I).
  - exact (iv_one _ _ _ _ I).
  - exact (iv_inc _ _ _ _ I).
  - exact (iv_inj _ _ _ _ I).
Qed.

(** states with the same contents *)
Lemma inv_ext e dn P s s' : inv e dn P s -> l_f s' = l_f s -> (forall r b, l_def s' r b = l_def s r b) ->
  (forall b r, l_inc s' b r = l_inc s b r) -> (forall b, l_seal s' b = l_seal s b) -> (forall b, l_fill s' b = l_fill s b) ->
  inv e dn P s'.
Proof.
  intros I Ef Ed Ei Es El.
  assert (Er : forall b r, rdv s' b r = rdv s b r) by (intros; unfold rdv; now rewrite Ed).
  constructor; rewrite ?Ef.
  - exact (iv_e1 _ _ _ _ I).
  - intros b pb B. destruct (iv_blk _ _ _ _ I _ _ B) as (phs & ids & m & [K1 K2 K3 K4 K5 K6 K7 K8 K9]).
    exists phs, ids, m. constructor; rewrite ?Ef; try assumption. intros r R; rewrite Er; auto.
  - exact (iv_range _ _ _ _ I).
  - exact (iv_ni _ _ _ _ I).
  - intros b pb r v B N E. destruct (iv_ent _ _ _ _ I _ _ _ _ B N E) as (R & K). split; [exact R|].
    destruct (single pb) as [p|]; [now rewrite Es, Er|]. destruct K as (i & -> & x & k & Ex & O & Q & Ek & Hi & C).
    exists i; split; [reflexivity|]. exists x, k. rewrite Ef, Es, Ei. repeat split; try assumption.
    destruct C as [C|C]; [now left|]. right. destruct (l_seal s b); [|exact C].
    eapply complete_mono; [|exact C]. intros; now rewrite Er.
  - intros b pb p; rewrite Es, El; apply (iv_seal _ _ _ _ I).
  - intros b pb; rewrite El; apply (iv_fill _ _ _ _ I).
  - intros b pb; rewrite Es; apply (iv_one _ _ _ _ I).
  - intros b r i; rewrite Ei; apply (iv_inc _ _ _ _ I).
  - exact (iv_inj _ _ _ _ I).
Qed.

Lemma inv_pending e dn (P P' : nat -> Prop) s : inv e dn P s -> (forall i, P i -> P' i) -> inv e dn P' s.
Proof.
  intros I H. constructor; try apply I.
  intros b pb r v B N E. destruct (iv_ent _ _ _ _ I _ _ _ _ B N E) as (R & K). split; [exact R|].
  destruct (single pb) as [p|]; [exact K|]. destruct K as (i & -> & x & k & Ex & O & Q & Ek & Hi & C).
  exists i; split; [reflexivity|]. exists x, k. repeat split; try assumption. destruct C; auto.
Qed.

(** ** A new phi *)

Definition phi_state (s : lst) (b : nat) (k : block) (reg : Z) (inc : nat -> Z -> option nat) : lst :=
  let g := l_f s in
  mkL (mkFunc (upd (f_insn g) (f_ni g) (Some (set_op PHI (insn0 b))))
              (upd (f_block g) b (Some (set_insns (f_ni g :: b_insns k) k)))
              (S (f_ni g)) (f_nb g) (f_all g) (f_entry g))
      (fun r b' => if ((r =? reg)%Z && (b' =? b)) then Some (val_insn (f_ni g)) else l_def s r b')
      inc (l_seal s) (l_fill s) (l_err s).

Lemma rdv_phi_state s b k reg inc b' r : b <> 1 ->
  rdv (phi_state s b k reg inc) b' r = if (r =? reg)%Z && (b' =? b) then Some (val_insn (f_ni (l_f s))) else rdv s b' r.
Proof.
  intros N. unfold rdv at 1; cbn [phi_state l_def]. destruct ((r =? reg)%Z && (b' =? b)); reflexivity.
Qed.

Lemma inv_new_phi e dn (P P' : nat -> Prop) s b pb k reg inc : inv e dn P s -> blk b = Some pb -> b <> 1 -> dn b <> None ->
  regok reg -> rdv s b reg = None -> single pb = None -> f_block (l_f s) b = Some k ->
  (forall i, P i -> P' i) ->
  (forall b' r, ~ (b' = b /\ r = reg) -> inc b' r = l_inc s b' r) ->
  (inc b reg = l_inc s b reg /\ P' (f_ni (l_f s)) \/ l_seal s b = false /\ inc b reg = Some (f_ni (l_f s))) ->
  inv (eset e b reg (val_insn (f_ni (l_f s)))) dn P' (phi_state s b k reg inc).
Proof.
  intros I B N1 St R Nr Sg Ek HP Hinc Hnew.
  set (i := f_ni (l_f s)) in *.
  assert (Ne : e b reg = None) by (eapply ent_rdv; eassumption).
  assert (Fr : forall j x, f_insn (l_f s) j = Some x -> j <> i).
  { intros j x E; apply (iv_range _ _ _ _ I) in E; unfold i; lia. }
  assert (Fh : forall j x, f_insn (l_f s) j = Some x -> f_insn (l_f (phi_state s b k reg inc)) j = Some x).
  { intros j x E; cbn [l_f phi_state f_insn]. rewrite upd_ne by (eapply Fr; eassumption). exact E. }
  assert (Fi : f_insn (l_f (phi_state s b k reg inc)) i = Some (set_op PHI (insn0 b))).
  { cbn [l_f phi_state f_insn]. apply upd_eq. }
  assert (Rm : forall b' r v, rdv s b' r = Some v -> rdv (phi_state s b k reg inc) b' r = Some v).
  { intros b' r v E. rewrite rdv_phi_state by assumption.
    destruct (Z.eqb_spec r reg) as [->|]; cbn [andb]; [|exact E].
    destruct (Nat.eqb_spec b' b) as [->|]; [congruence | exact E]. }
  constructor.
  - intros r. rewrite eset_other by (intros [Q _]; congruence). apply (iv_e1 _ _ _ _ I).
  - intros b0 pb0 B0. destruct (iv_blk _ _ _ _ I _ _ B0) as (phs & ids & m & [K1 K2 K3 K4 K5 K6 K7 K8 K9]).
    assert (Lk : lifts_l (l_f (phi_state s b k reg inc)) bs b0 (e b0) (done dn b0) ids m).
    { eapply lifts_l_heap; [|exact K7]. intros j x Hj E; exists x; split; [now apply Fh | apply sim_refl]. }
    assert (Nid : ~ In i (phs ++ ids)).
    { intros Hi. apply in_app_or in Hi as [Hi|Hi].
      - destruct (K2 _ Hi) as (x & r & E & _). now apply Fr in E.
      - destruct (K4 _ Hi) as (x & E & _). now apply Fr in E. }
    destruct (Nat.eq_dec b0 b) as [->|Nb].
    + rewrite B in B0; injection B0 as <-. rewrite Ek in K1; injection K1 as ->.
      assert (Nm : m reg = None) by (rewrite <- K8; assumption).
      destruct (lifts_l_ext _ _ _ _ _ _ _ Lk reg (val_insn i) (eset e b reg (val_insn i) b)) as (m2 & L2 & E2);
        [unfold regok in R; lia | exact Nm | intros; apply eset_row |].
      exists (i :: phs), ids, m2. constructor.
      * cbn [phi_state l_f f_block]. rewrite upd_eq. reflexivity.
      * intros j [<-|Hj].
        -- exists (set_op PHI (insn0 b)), reg. repeat split; try exact Fi; try apply R. apply eset_same.
        -- destruct (K2 j Hj) as (x & r & E & O & Q & Rr & V). exists x, r.
           repeat split; try assumption; try apply Rr; [now apply Fh|].
           rewrite eset_other; [exact V|]. intros [_ ->]; congruence.
      * rewrite Sg; congruence.
      * intros j Hj. destruct (K4 j Hj) as (x & E & O & Q). exists x. repeat split; try assumption. now apply Fh.
      * cbn [app]. constructor; assumption.
      * cbn [app]. intros j [<-|Hj]; [exact (iv_ni _ _ _ _ I) | now apply K6].
      * exact L2.
      * intros r Rr. rewrite rdv_phi_state, E2 by assumption. rewrite Nat.eqb_refl, andb_true_r. unfold wrote.
        destruct (r =? reg)%Z; [reflexivity | now apply K8].
      * intros Q; contradiction.
    + exists phs, ids, m. constructor; try assumption.
      * cbn [phi_state l_f f_block]. rewrite upd_ne by assumption. exact K1.
      * intros j Hj. destruct (K2 j Hj) as (x & r & E & O & Q & Rr & V). exists x, r.
        repeat split; try assumption; try apply Rr; [now apply Fh|]. rewrite eset_other; [exact V | tauto].
      * intros j Hj. destruct (K4 j Hj) as (x & E & O & Q). exists x. repeat split; try assumption. now apply Fh.
      * apply lifts_l_eqm with (e b0); [|exact Lk]. intros; apply eset_other; tauto.
      * intros r Rr. rewrite rdv_phi_state by assumption. apply Nat.eqb_neq in Nb. rewrite Nb, andb_false_r. now apply K8.
      * intros Q1 Q2 r. rewrite eset_other by tauto. now apply K9.
  - intros j x E. cbn [l_f phi_state f_ni f_insn] in *. fold i in E |- *. destruct (Nat.eq_dec j i) as [->|Q]; [lia|].
    rewrite upd_ne in E by assumption. apply (iv_range _ _ _ _ I) in E. unfold i; lia.
  - cbn [phi_state l_f f_ni]. pose proof (iv_ni _ _ _ _ I); lia.
  - intros b0 pb0 r v B0 N0 E.
    destruct (Nat.eq_dec b0 b) as [->|Nb]; [destruct (Z.eq_dec r reg) as [->|Nrr]|].
    + rewrite B in B0; injection B0 as <-. rewrite eset_same in E; injection E as <-. split; [exact R|].
      rewrite Sg. exists i; split; [reflexivity|].
      exists (set_op PHI (insn0 b)), (set_insns (i :: b_insns k) k). repeat split; try exact Fi.
      * cbn [phi_state l_f f_block]. apply upd_eq.
      * cbn [set_insns b_insns]. now left.
      * cbn [phi_state l_seal l_inc]. destruct Hnew as [[_ Hn]|[Hn1 Hn2]]; [now left|right]. rewrite Hn1.
        split; [exact Hn2 | reflexivity].
    + rewrite B in B0; injection B0 as <-. rewrite eset_other in E by tauto.
      destruct (iv_ent _ _ _ _ I _ _ _ _ B N0 E) as (Rr & K). split; [exact Rr|]. rewrite Sg in *.
      destruct K as (j & -> & x & k' & Ex & O & Q & Ek' & Hi & C). exists j; split; [reflexivity|].
      exists x, (set_insns (i :: b_insns k) k). rewrite Ek in Ek'; injection Ek' as <-.
      repeat split; try assumption; [now apply Fh | cbn [phi_state l_f f_block]; apply upd_eq | now right |].
      cbn [phi_state l_seal l_inc]. destruct C as [C|C]; [left; auto|right].
      destruct (l_seal s b); [|rewrite Hinc by tauto; exact C].
      eapply complete_mono; [|exact C]. intros p v _ Hv; now apply Rm.
    + rewrite eset_other in E by tauto.
      destruct (iv_ent _ _ _ _ I _ _ _ _ B0 N0 E) as (Rr & K). split; [exact Rr|].
      destruct (single pb0) as [p|]; [split; [apply K | now apply Rm]|].
      destruct K as (j & -> & x & k' & Ex & O & Q & Ek' & Hi & C). exists j; split; [reflexivity|].
      exists x, k'. repeat split; try assumption; [now apply Fh | cbn [phi_state l_f f_block]; now rewrite upd_ne |].
      cbn [phi_state l_seal l_inc]. destruct C as [C|C]; [left; auto|right].
      destruct (l_seal s b0); [|rewrite Hinc by tauto; exact C].
      eapply complete_mono; [|exact C]. intros p v _ Hv; now apply Rm.
  - exact (iv_seal _ _ _ _ I).
  - exact (iv_fill _ _ _ _ I).
  - exact (iv_one _ _ _ _ I).
  - intros b0 r j Hj. cbn [phi_state l_inc] in Hj.
    assert (Old : l_inc s b0 r = Some j -> b0 <> 1 /\ regok r /\ eset e b reg (val_insn i) b0 r = Some (val_insn j)).
    { intros Hj'. destruct (iv_inc _ _ _ _ I _ _ _ Hj') as (Nq & Rr & V). split; [exact Nq|]. split; [exact Rr|].
      rewrite eset_other; [exact V|]. intros [-> ->]; congruence. }
    destruct (Nat.eq_dec b0 b) as [->|Nb]; [|apply Old; now rewrite Hinc in Hj by tauto].
    destruct (Z.eq_dec r reg) as [->|Nrr]; [|apply Old; now rewrite Hinc in Hj by tauto].
    destruct Hnew as [[Hn _]|[_ Hn]]; rewrite Hn in Hj; [now apply Old|].
    injection Hj as <-. split; [exact N1|]. split; [exact R | apply eset_same].
  - intros b0 pb0 r r' j B0 N0 S0 E E'.
    destruct (Nat.eq_dec b0 b) as [->|Nb]; [|rewrite eset_other in E, E' by tauto; eapply (iv_inj _ _ _ _ I); eassumption].
    assert (Fi' : forall q, e b q = Some (val_insn i) -> False).
    { intros q Hq. destruct (iv_ent _ _ _ _ I _ _ _ _ B N0 Hq) as (_ & K). rewrite Sg in K.
      destruct K as (j' & Ej & x & k' & Ex & _). injection Ej as <-. now apply Fr in Ex. }
    destruct (Z.eq_dec r reg) as [->|N2], (Z.eq_dec r' reg) as [->|N3]; try reflexivity.
    + rewrite eset_same in E; injection E as <-. rewrite eset_other in E' by tauto. destruct (Fi' _ E').
    + rewrite eset_same in E'; injection E' as <-. rewrite eset_other in E by tauto. destruct (Fi' _ E).
    + rewrite eset_other in E, E' by tauto. eapply (iv_inj _ _ _ _ I); eassumption.
Qed.

(** ** Copying the definition of the only predecessor *)

(** the state after a write *)
Definition def_state (s : lst) (reg : Z) (b : nat) (v : value) : lst :=
  mkL (l_f s) (fun r b' => if ((r =? reg)%Z && (b' =? b)) then Some v else l_def s r b')
      (l_inc s) (l_seal s) (l_fill s) (l_err s).

Lemma rdv_def_state s b reg v b' r :
  rdv (def_state s reg b v) b' r = if (r =? reg)%Z && (b' =? b) then Some v else rdv s b' r.
Proof. unfold rdv at 1; cbn [def_state l_def]. destruct ((r =? reg)%Z && (b' =? b)); reflexivity. Qed.

Lemma inv_copy e dn P s b pb p reg v : inv e dn P s -> blk b = Some pb -> b <> 1 -> dn b <> None ->
  regok reg -> single pb = Some p -> l_seal s b = true -> rdv s (S p) reg = Some v ->
  (forall phs ids m, binv e dn s b pb phs ids m -> m reg = e b reg) ->
  exists e', inv e' dn P (def_state s reg b v) /\ (forall b' r, ~ (b' = b /\ r = reg) -> e' b' r = e b' r) /\
    (forall b' r v, e b' r = Some v -> e' b' r = Some v) /\
    (forall b' r v', rdv s b' r = Some v' -> rdv (def_state s reg b v) b' r = Some v').
Proof.
  intros I B N1 St R Sg Se Hv Hm.
  destruct (iv_blk _ _ _ _ I _ _ B) as (phs & ids & m & H).
  destruct (rdv s b reg) as [v'|] eqn:E.
  - (* already there: the same value *)
    assert (v' = v).
    { rewrite (bi_rdv _ _ _ _ _ _ _ _ H reg R), (Hm _ _ _ H) in E.
      destruct (iv_ent _ _ _ _ I _ _ _ _ B N1 E) as (_ & K). rewrite Sg in K. destruct K; congruence. }
    subst v'. assert (X : forall b' r, rdv (def_state s reg b v) b' r = rdv s b' r).
    { intros b' r. rewrite rdv_def_state. destruct (Z.eqb_spec r reg) as [->|]; cbn [andb]; [|reflexivity].
      destruct (Nat.eqb_spec b' b) as [->|]; congruence. }
    exists e; split; [|split; [easy|split; [easy|intros; now rewrite X]]].
    rewrite rdv_not1 in E by assumption.
    apply inv_ext with s; try easy.
    intros r b'; cbn [def_state l_def]. destruct (Z.eqb_spec r reg) as [->|]; cbn [andb]; [|reflexivity].
    destruct (Nat.eqb_spec b' b) as [->|]; congruence.
  - assert (Ne : e b reg = None) by (eapply ent_rdv; eassumption).
    assert (Rm : forall b' r w, rdv s b' r = Some w -> rdv (def_state s reg b v) b' r = Some w).
    { intros b' r w Hw. rewrite rdv_def_state. destruct (Z.eqb_spec r reg) as [->|]; cbn [andb]; [|exact Hw].
      destruct (Nat.eqb_spec b' b) as [->|]; congruence. }
    exists (eset e b reg v). split; [|split; [intros; now apply eset_other|split; [|intros; now apply Rm]]].
    2:{ intros b' r w Hw. rewrite eset_other; [exact Hw|]. intros [-> ->]; congruence. }
    constructor.
    + intros r. rewrite eset_other by (intros [Q _]; congruence). apply (iv_e1 _ _ _ _ I).
    + clear H. intros b0 pb0 B0. destruct (iv_blk _ _ _ _ I _ _ B0) as (phs0 & ids0 & m0 & [K1 K2 K3 K4 K5 K6 K7 K8 K9]).
      destruct (Nat.eq_dec b0 b) as [->|Nb].
      * rewrite B in B0; injection B0 as <-.
        assert (Nm : m0 reg = None) by (rewrite <- K8; assumption).
        destruct (lifts_l_ext _ _ _ _ _ _ _ K7 reg v (eset e b reg v b)) as (m2 & L2 & E2);
          [unfold regok in R; lia | exact Nm | intros; apply eset_row |].
        exists phs0, ids0, m2. constructor; try assumption.
        -- intros j Hj. rewrite K3 in Hj; [destruct Hj | rewrite Sg; discriminate].
        -- intros r Rr. rewrite rdv_def_state, E2. rewrite Nat.eqb_refl, andb_true_r. unfold wrote.
           destruct (r =? reg)%Z; [reflexivity | now apply K8].
        -- intros Q; contradiction.
      * exists phs0, ids0, m0. constructor; try assumption.
        -- intros j Hj. destruct (K2 j Hj) as (x & r & E' & O & Q & Rr & V). exists x, r.
           repeat split; try assumption; try apply Rr. rewrite eset_other; [exact V | tauto].
        -- apply lifts_l_eqm with (e b0); [|exact K7]. intros; apply eset_other; tauto.
        -- intros r Rr. rewrite rdv_def_state. apply Nat.eqb_neq in Nb. rewrite Nb, andb_false_r. now apply K8.
        -- intros Q1 Q2 r. rewrite eset_other by tauto. now apply K9.
    + exact (iv_range _ _ _ _ I).
    + exact (iv_ni _ _ _ _ I).
    + intros b0 pb0 r w B0 N0 Ew.
      destruct (Nat.eq_dec b0 b) as [->|Nb]; [destruct (Z.eq_dec r reg) as [->|Nrr]|].
      * rewrite B in B0; injection B0 as <-. rewrite eset_same in Ew; injection Ew as <-. split; [exact R|].
        rewrite Sg. split; [exact Se | now apply Rm].
      * rewrite B in B0; injection B0 as <-. rewrite eset_other in Ew by tauto.
        destruct (iv_ent _ _ _ _ I _ _ _ _ B N0 Ew) as (Rr & K). split; [exact Rr|]. rewrite Sg in *.
        split; [apply K | now apply Rm].
      * rewrite eset_other in Ew by tauto.
        destruct (iv_ent _ _ _ _ I _ _ _ _ B0 N0 Ew) as (Rr & K). split; [exact Rr|].
        destruct (single pb0) as [p0|]; [split; [apply K | now apply Rm]|].
        destruct K as (j & -> & x & k' & Ex & O & Q & Ek' & Hi & C). exists j; split; [reflexivity|].
        exists x, k'. repeat split; try assumption.
        cbn [def_state l_seal l_inc]. destruct C as [C|C]; [now left|right].
        destruct (l_seal s b0); [|exact C].
        eapply complete_mono; [|exact C]. intros q u _ Hu; now apply Rm.
    + exact (iv_seal _ _ _ _ I).
    + exact (iv_fill _ _ _ _ I).
    + exact (iv_one _ _ _ _ I).
    + intros b0 r j Hj. destruct (iv_inc _ _ _ _ I _ _ _ Hj) as (Nq & Rr & V). split; [exact Nq|]. split; [exact Rr|].
      rewrite eset_other; [exact V|]. intros [-> ->]; congruence.
    + intros b0 pb0 r r' j B0 N0 S0 E' E''. assert (b0 <> b) by congruence.
      rewrite eset_other in E', E'' by tauto. eapply (iv_inj _ _ _ _ I); eassumption.
Qed.

(** ** What an operation leaves alone *)

Record rframe (reg : Z) (X : nat -> Prop) (e e' : nat -> regmap) (s s' : lst) : Prop := {
  rf_rdv : forall b r v, rdv s b r = Some v -> rdv s' b r = Some v;
  rf_def : forall b r, r <> reg -> rdv s' b r = rdv s b r;
  rf_inc : forall b r, r <> reg \/ rdv s b r <> None -> l_inc s' b r = l_inc s b r;
  rf_e : forall b r, r <> reg -> e' b r = e b r;
  rf_em : forall b r v, e b r = Some v -> e' b r = Some v;
  rf_seal : l_seal s' = l_seal s;
  rf_fill : l_fill s' = l_fill s;
  rf_heap : forall i x, ~ X i -> f_insn (l_f s) i = Some x -> like (l_f s') i x;
  rf_ni : f_ni (l_f s) <= f_ni (l_f s')
}.
Definition noX : nat -> Prop := fun _ => False.

Lemma rframe_refl reg X e s : rframe reg X e e s s.
Proof.
  constructor; try easy. intros i x _ E; exists x; split; [exact E | apply sim_refl].
Qed.
Lemma rframe_trans reg X e e1 e2 s s1 s2 : rframe reg X e e1 s s1 -> rframe reg X e1 e2 s1 s2 -> rframe reg X e e2 s s2.
Proof.
  intros A B; constructor.
  - intros; apply (rf_rdv _ _ _ _ _ _ B), (rf_rdv _ _ _ _ _ _ A); assumption.
  - intros. rewrite (rf_def _ _ _ _ _ _ B), (rf_def _ _ _ _ _ _ A); auto.
  - intros b r H. rewrite (rf_inc _ _ _ _ _ _ B), (rf_inc _ _ _ _ _ _ A); auto.
    destruct H as [H|H]; [now left|right]. destruct (rdv s b r) as [v|] eqn:Ev; [|congruence].
    rewrite (rf_rdv _ _ _ _ _ _ A _ _ _ Ev). discriminate.
  - intros. rewrite (rf_e _ _ _ _ _ _ B), (rf_e _ _ _ _ _ _ A); auto.
  - intros; apply (rf_em _ _ _ _ _ _ B), (rf_em _ _ _ _ _ _ A); assumption.
  - rewrite (rf_seal _ _ _ _ _ _ B); apply A.
  - rewrite (rf_fill _ _ _ _ _ _ B); apply A.
  - intros i x Hx E. destruct (rf_heap _ _ _ _ _ _ A _ _ Hx E) as (y & Ey & S).
    destruct (rf_heap _ _ _ _ _ _ B _ _ Hx Ey) as (z & Ez & S'). exists z; split; [exact Ez | now apply sim_trans with y].
  - pose proof (rf_ni _ _ _ _ _ _ A); pose proof (rf_ni _ _ _ _ _ _ B); lia.
Qed.
Lemma rframe_weak reg (X X' : nat -> Prop) e e' s s' : (forall i x, f_insn (l_f s) i = Some x -> X i -> X' i) ->
  rframe reg X e e' s s' -> rframe reg X' e e' s s'.
Proof.
  intros H A; constructor; try apply A. intros i x Hx E. apply (rf_heap _ _ _ _ _ _ A); [|exact E].
  intros Q; apply Hx; eauto.
Qed.
Lemma rframe_f reg X e s g : f_ni (l_f s) <= f_ni g -> (forall i x, ~ X i -> f_insn (l_f s) i = Some x -> like g i x) ->
  rframe reg X e e s (with_f g s).
Proof. intros H1 H2; constructor; try easy. Qed.

Lemma use_val_hstep P g u v g' : use_val g u v = Ok g' -> hstep P g g' /\
  (forall i x, f_insn g i = Some x -> like g' i x).
Proof.
  assert (T : hstep P g g /\ (forall i x, f_insn g i = Some x -> like g i x)).
  { assert (forall i x, f_insn g i = Some x -> like g i x) by (intros i x E; exists x; split; [exact E | apply sim_refl]).
    split; [|assumption]. repeat split; eauto. intros i x E; exists x; split; [exact E | left; apply sim_refl]. }
  unfold use_val. destruct (v_data v); intros H; try (injection H as <-; exact T).
  apply bind_ok in H as (x & Hx & H). apply get_insn_ok in Hx. injection H as <-.
  assert (L : forall j y, f_insn g j = Some y -> exists y', f_insn (put_insn g i (set_users (push_unique (i_users x) u) x)) j = Some y' /\ sim_i y' y).
  { intros j y E. cbn [put_insn with_insn f_insn]. destruct (Nat.eq_dec j i) as [->|N].
    - rewrite upd_eq. rewrite E in Hx; injection Hx as <-. eexists; split; [reflexivity | apply sim_users].
    - rewrite upd_ne by assumption. exists y; split; [exact E | apply sim_refl]. }
  split; [|exact L].
  split; [reflexivity|]. split; [reflexivity|]. split.
  - intros j y E. cbn [put_insn with_insn f_insn] in E. destruct (Nat.eq_dec j i) as [->|N]; [eauto|].
    rewrite upd_ne in E by assumption. eauto.
  - intros j y E. destruct (L _ _ E) as (y' & E' & S). eauto.
Qed.

Lemma push_phi_hstep (P : nat -> Prop) g i v b g' x : push_phi g i v b = Ok g' -> f_insn g i = Some x -> P i -> i_op x = PHI ->
  hstep P g g' /\ (forall j y, j <> i -> f_insn g j = Some y -> like g' j y) /\
  f_insn g' i = Some (set_phi (i_phi x ++ [(v, b)]) x).
Proof.
  intros H Ex HP O. unfold push_phi in H. apply bind_ok in H as (x0 & Hx & H). apply get_insn_ok in Hx.
  rewrite Ex in Hx; injection Hx as <-. injection H as <-. split; [|split].
  - split; [reflexivity|]. split; [reflexivity|]. split.
    + intros j y E. cbn [put_insn with_insn f_insn] in E. destruct (Nat.eq_dec j i) as [->|N]; [eauto|].
      rewrite upd_ne in E by assumption. eauto.
    + intros j y E. cbn [put_insn with_insn f_insn]. destruct (Nat.eq_dec j i) as [->|N].
      * rewrite upd_eq. rewrite Ex in E; injection E as <-. eexists; split; [reflexivity|right]. now repeat split.
      * rewrite upd_ne by assumption. exists y; split; [exact E | left; apply sim_refl].
  - intros j y N E. exists y. cbn [put_insn with_insn f_insn]. rewrite upd_ne by assumption. split; [exact E | apply sim_refl].
  - cbn [put_insn with_insn f_insn]. apply upd_eq.
Qed.

(** ** The error flag is never cleared *)

Lemma write_var_eq s reg b v s' : write_var s reg b v = Ok s' -> s' = def_state s reg b v /\ (0 <= reg <= 10)%Z.
Proof.
  unfold write_var. destruct (Z.leb_spec 0 reg), (Z.leb_spec reg 10); cbn [andb]; try discriminate.
  intros H1; injection H1 as <-. split; [reflexivity | lia].
Qed.
Lemma new_phi_eq s b s' i : new_phi s b = Ok (s', i) -> exists k, f_block (l_f s) b = Some k /\ i = f_ni (l_f s) /\
  s' = with_f (mkFunc (upd (f_insn (l_f s)) i (Some (set_op PHI (insn0 b))))
                      (upd (f_block (l_f s)) b (Some (set_insns (i :: b_insns k) k)))
                      (S i) (f_nb (l_f s)) (f_all (l_f s)) (f_entry (l_f s))) s.
Proof.
  unfold new_phi. intros H. apply bind_ok in H as (k & Hk & H). apply get_block_ok in Hk.
  injection H as <- <-. exists k; auto.
Qed.

Definition rd_err (rd : lst -> Z -> nat -> outcome (lst * value)) : Prop :=
  forall s reg b s' v, rd s reg b = Ok (s', v) -> l_err s = true -> l_err s' = true.
Lemma phi_ops_err rd reg i ps : rd_err rd -> forall s s', phi_ops rd reg i ps s = Ok s' -> l_err s = true -> l_err s' = true.
Proof.
  intros HR; induction ps as [|p ps IH]; intros s s'; unfold phi_ops; cbn [ofold].
  - intros H; injection H as <-; auto.
  - intros H E. apply bind_ok in H as (s1 & H1 & H). apply bind_ok in H1 as ([s0 v] & H0 & H1).
    apply bind_ok in H1 as (g1 & _ & H1). apply bind_ok in H1 as (g2 & _ & H1). injection H1 as <-.
    eapply IH; [exact H|]. cbn [with_f l_err]. eapply HR; eassumption.
Qed.
Lemma add_phi_err rd reg i s s' : rd_err rd -> add_phi_operands rd reg i s = Ok s' -> l_err s = true -> l_err s' = true.
Proof.
  intros HR H. unfold add_phi_operands in H. apply bind_ok in H as (x & _ & H).
  destruct (negb _); [discriminate|]. apply bind_ok in H as (k & _ & H). eapply phi_ops_err; eassumption.
Qed.
Lemma read_err n : rd_err (read_var n).
Proof.
  induction n as [|n IH]; intros s reg b s' v; cbn [read_var]; [discriminate|].
  destruct (reg =? 10)%Z; [intros H; injection H as <- _; auto|]. destruct (negb _); [discriminate|].
  destruct (l_def s reg b); [intros H; injection H as <- _; auto|].
  destruct (b =? 1).
  { destruct (_ && _); intros H; injection H as <- _; auto. }
  destruct (negb (l_seal s b)).
  { intros H E. apply bind_ok in H as ([s1 i] & H1 & H). apply new_phi_eq in H1 as (k & _ & _ & ->).
    apply bind_ok in H as (s2 & H2 & H). apply write_var_eq in H2 as [-> _]. injection H as <- _. exact E. }
  intros H E. apply bind_ok in H as (k & _ & H).
  assert (M : (do r <- new_phi s b; let '(s1, i) := r in
               do s2 <- write_var s1 reg b (val_insn i);
               do s3 <- add_phi_operands (read_var n) reg i s2;
               do s4 <- write_var s3 reg b (val_insn i); Ok (s4, val_insn i)) = Ok (s', v) -> l_err s' = true).
  { clear H; intros H. apply bind_ok in H as ([s1 i] & H1 & H). apply new_phi_eq in H1 as (k' & _ & _ & ->).
    apply bind_ok in H as (s2 & H2 & H). apply write_var_eq in H2 as [-> _].
    apply bind_ok in H as (s3 & H3 & H). apply bind_ok in H as (s4 & H4 & H). apply write_var_eq in H4 as [-> _].
    injection H as <- _. cbn [def_state l_err]. eapply add_phi_err; [exact IH | exact H3 | exact E]. }
  destruct (b_preds k) as [|p [|q ps]]; try (apply M; exact H).
  apply bind_ok in H as ([s1 v1] & H1 & H). apply bind_ok in H as (s2 & H2 & H).
  apply write_var_eq in H2 as [-> _]. injection H as <- _. cbn [def_state l_err fst]. eapply IH; eassumption.
Qed.

(** ** Reading *)

Definition rd_ok (rd : lst -> Z -> nat -> outcome (lst * value)) : Prop :=
  forall e dn P s b reg s' v, inv e dn P s -> dn b <> None -> blk b <> None -> regok reg ->
    rd s reg b = Ok (s', v) -> l_err s' = false ->
    exists e', inv e' dn P s' /\ rdv s' b reg = Some v /\ rframe reg noX e e' s s'.

Lemma phi_ops_ok rd : rd_ok rd -> rd_err rd -> forall dn (P : nat -> Prop) reg i ps e s x s',
  inv e dn P s -> P i -> f_insn (l_f s) i = Some x -> i_op x = PHI -> regok reg ->
  (forall p, In p ps -> dn p <> None /\ blk p <> None) -> phi_ops rd reg i ps s = Ok s' -> l_err s' = false ->
  exists e' x' l, inv e' dn P s' /\ rframe reg (eq i) e e' s s' /\ f_insn (l_f s') i = Some x' /\
    i_op x' = PHI /\ i_parent x' = i_parent x /\ i_phi x' = i_phi x ++ l /\
    Forall2 (fun q p => snd q = p /\ rdv s' p reg = Some (fst q)) l ps.
Proof.
  intros HR HE dn P reg i ps. induction ps as [|p ps IH]; intros e s x s' I HP Ex O Rg Hps H Er.
  - injection H as <-. exists e, x, []. rewrite app_nil_r. split; [exact I|]. split; [apply rframe_refl|].
    repeat (split; [assumption || reflexivity|]). constructor.
  - unfold phi_ops in H; cbn [ofold] in H. apply bind_ok in H as (sa & H1 & H).
    apply bind_ok in H1 as ([s0 v] & H0 & H1).
    apply bind_ok in H1 as (g1 & G1 & H1). apply bind_ok in H1 as (g2 & G2 & H1). injection H1 as <-.
    assert (Er0 : l_err s0 = false).
    { destruct (l_err s0) eqn:Q; [|reflexivity]. rewrite <- Er. symmetry.
      eapply (phi_ops_err rd reg i ps HE); [exact H | exact Q]. }
    destruct (Hps p (or_introl eq_refl)) as (D1 & D2).
    destruct (HR _ _ _ _ _ _ _ _ I D1 D2 Rg H0 Er0) as (e0 & I0 & V0 & F0).
    destruct (rf_heap _ _ _ _ _ _ F0 i x (fun q => q) Ex) as (x0 & Ex0 & S0).
    destruct (use_val_hstep P _ _ _ _ G1) as (T1 & L1).
    destruct (L1 _ _ Ex0) as (x1 & Ex1 & S1).
    assert (O1 : i_op x1 = PHI) by (rewrite (sim_op _ _ S1), (sim_op _ _ S0); exact O).
    destruct (push_phi_hstep P _ _ _ _ _ _ G2 Ex1 HP O1) as (T2 & L2 & Ex2).
    pose proof (inv_heap _ _ _ _ _ I0 T1) as I1. pose proof (inv_heap _ _ _ _ _ I1 T2) as I2.
    change (with_f g2 (with_f g1 s0)) with (with_f g2 s0) in I2.
    assert (Fx : rframe reg (eq i) e e0 s (with_f g2 s0)).
    { apply rframe_trans with e0 s0; [apply rframe_weak with noX; [intros ? ? ? [] | exact F0]|].
      apply rframe_f.
      - destruct T1 as (_ & N1 & _), T2 as (_ & N2 & _). lia.
      - intros j y Nj Ey. destruct (L1 _ _ Ey) as (y1 & Ey1 & Sy1). destruct (L2 j y1 (fun q => Nj (eq_sym q)) Ey1) as (y2 & Ey2 & Sy2).
        exists y2; split; [exact Ey2 | now apply sim_trans with y1]. }
    edestruct (IH e0 (with_f g2 s0) _ s' I2 HP Ex2) as (e' & x' & l & I' & F' & Ex' & O' & Q' & Ph & Fa);
      [exact O1 | exact Rg | intros; apply Hps; now right | exact H | exact Er |].
    exists e', x', ((v, p) :: l). split; [exact I'|]. split; [now apply rframe_trans with e0 (with_f g2 s0)|].
    split; [exact Ex'|]. split; [exact O'|]. split; [|split].
    + rewrite Q'. cbn [set_phi i_parent]. rewrite (sim_parent _ _ S1), (sim_parent _ _ S0). reflexivity.
    + rewrite Ph. cbn [set_phi i_phi]. rewrite (sim_phi _ _ S1), (sim_phi _ _ S0), <- app_assoc. reflexivity.
    + constructor; [|exact Fa]. split; [reflexivity|]. apply (rf_rdv _ _ _ _ _ _ F'). exact V0.
Qed.

Lemma Forall2_mapS (s : lst) reg l : forall ps, Forall2 (fun q p => snd q = p /\ rdv s p reg = Some (fst q)) l (map S ps) ->
  Forall2 (fun q p => snd q = S p /\ rdv s (S p) reg = Some (fst q)) l ps.
Proof.
  induction l as [|q l IH]; intros [|p ps] H; inversion H; subst; constructor; auto.
Qed.

(** the pending phi [i] of (b, reg) has all its operands now *)
Lemma inv_finish e dn (P : nat -> Prop) s b pb reg i x : inv e dn (fun j => P j \/ j = i) s -> blk b = Some pb -> l_seal s b = true ->
  e b reg = Some (val_insn i) -> f_insn (l_f s) i = Some x -> i_parent x = b -> complete s pb reg (i_phi x) ->
  (forall r, e b r = Some (val_insn i) -> r = reg) -> inv e dn P s.
Proof.
  intros I B Se Eb Ex Qx Cx U. constructor; try apply I.
  intros b0 pb0 r v B0 N E. destruct (iv_ent _ _ _ _ I _ _ _ _ B0 N E) as (R & K). split; [exact R|].
  destruct (single pb0) as [p|]; [exact K|]. destruct K as (j & -> & y & k & Ey & O & Q & Ek & Hi & C).
  exists j; split; [reflexivity|]. exists y, k. repeat split; try assumption.
  destruct C as [[C|Ci]|C]; [now left| |now right]. subst j.
  right. rewrite Ex in Ey; injection Ey as <-. rewrite Qx in Q; subst b0. rewrite Se.
  rewrite (U _ E). rewrite B in B0; injection B0 as <-. exact Cx.
Qed.

Hypothesis Hpred : forall b pb p, blk b = Some pb -> In p (pb_preds pb) -> blk (S p) <> None.

Lemma pred_started e dn P s b pb p : inv e dn P s -> blk b = Some pb -> l_seal s b = true -> In p (pb_preds pb) ->
  dn (S p) <> None /\ blk (S p) <> None.
Proof.
  intros I B Se Hp. pose proof (Hpred _ _ _ B Hp) as Hb. split; [|exact Hb].
  pose proof (iv_seal _ _ _ _ I _ _ _ B Se Hp) as Hf. destruct (blk (S p)) as [q|] eqn:Eq; [|congruence].
  rewrite (iv_fill _ _ _ _ I _ _ Eq Hf). discriminate.
Qed.

Lemma read_ok n : rd_ok (read_var n).
Proof.
  induction n as [|n IH]; intros e dn P s b reg s' v I St Hb Rg H Er; cbn [read_var] in H; [discriminate|].
  assert (N10 : (reg =? 10)%Z = false) by (apply Z.eqb_neq; unfold regok in Rg; lia).
  rewrite N10 in H.
  replace (negb ((0 <=? reg) && (reg <=? 10))%Z) with false in H
    by (unfold regok in Rg; destruct (Z.leb_spec 0 reg), (Z.leb_spec reg 10); cbn; lia).
  destruct (l_def s reg b) as [v0|] eqn:Ed.
  { injection H as <- <-. exists e. split; [exact I|]. split; [now apply rdv_def | apply rframe_refl]. }
  destruct (Nat.eqb_spec b 1) as [->|N1].
  { destruct ((0 <? reg) && (reg <=? 5))%Z eqn:Ea.
    - injection H as <- <-. exists e. split; [exact I|]. split; [|apply rframe_refl].
      unfold rdv. rewrite Ed. cbn [Nat.eqb]. apply andb_prop in Ea as [A1 A2]. rewrite A2.
      replace (1 <=? reg)%Z with true by lia. reflexivity.
    - injection H as <- _. discriminate. }
  destruct (blk b) as [pb|] eqn:Eb; [|congruence].
  assert (Nr : rdv s b reg = None) by (rewrite rdv_not1; assumption).
  assert (Ne : e b reg = None) by (eapply ent_rdv; eassumption).
  assert (Pf : forall k inc (P' : nat -> Prop), f_block (l_f s) b = Some k -> (forall b' r, ~ (b' = b /\ r = reg) -> inc b' r = l_inc s b' r) ->
      rframe reg noX e (eset e b reg (val_insn (f_ni (l_f s)))) s (phi_state s b k reg inc)).
  { intros k inc P' Ek Hi. constructor; try easy.
    - intros b' r w Hw. rewrite rdv_phi_state by assumption. destruct (Z.eqb_spec r reg) as [->|]; cbn [andb]; [|exact Hw].
      destruct (Nat.eqb_spec b' b) as [->|]; congruence.
    - intros b' r Nrr. rewrite rdv_phi_state by assumption. apply Z.eqb_neq in Nrr. now rewrite Nrr.
    - intros b' r Nrr. apply Hi. intros [-> ->]. destruct Nrr; congruence.
    - intros b' r Nrr. apply eset_other; tauto.
    - intros b' r w Hw. rewrite eset_other; [exact Hw|]. intros [-> ->]; congruence.
    - intros j y _ Ey. exists y; split; [|apply sim_refl]. cbn [phi_state l_f f_insn]. rewrite upd_ne; [exact Ey|].
      apply (iv_range _ _ _ _ I) in Ey. lia.
    - cbn [phi_state l_f f_ni]. lia. }
  destruct (l_seal s b) eqn:Es; cbn [negb] in H.
  2:{ apply bind_ok in H as ([s1 i] & H1 & H). apply new_phi_eq in H1 as (k & Ek & -> & ->).
      apply bind_ok in H as (s2 & H2 & H). apply write_var_eq in H2 as [-> _]. injection H as <- <-.
      set (inc := fun b' r => if ((b' =? b) && (r =? reg)%Z) then Some (f_ni (l_f s)) else l_inc s b' r).
      change (def_state _ reg b (val_insn (f_ni (l_f s)))) with (phi_state s b k reg inc).
      assert (Hinc : forall b' r, ~ (b' = b /\ r = reg) -> inc b' r = l_inc s b' r).
      { intros b' r Q. unfold inc. destruct (Nat.eqb_spec b' b), (Z.eqb_spec r reg); cbn [andb]; tauto. }
      exists (eset e b reg (val_insn (f_ni (l_f s)))). split; [|split].
      - apply inv_new_phi with P pb; try assumption; try easy.
        + destruct (single pb) eqn:Sg; [|reflexivity].
          rewrite (iv_one _ _ _ _ I _ _ Eb St) in Es; [discriminate | rewrite Sg; discriminate].
        + right. split; [exact Es|]. unfold inc. now rewrite Nat.eqb_refl, Z.eqb_refl.
      - rewrite rdv_phi_state by assumption. now rewrite Z.eqb_refl, Nat.eqb_refl.
      - apply (Pf k inc P Ek Hinc). }
  apply bind_ok in H as (k & Ek & H). apply get_block_ok in Ek.
  destruct (iv_blk _ _ _ _ I _ _ Eb) as (phs & ids & m & Hbi).
  assert (Kp : b_preds k = map S (pb_preds pb)).
  { rewrite (bi_blk _ _ _ _ _ _ _ _ Hbi) in Ek. injection Ek as <-. reflexivity. }
  destruct (single pb) as [p|] eqn:Sg.
  - (* one predecessor *)
    assert (Ep : pb_preds pb = [p]).
    { unfold single in Sg. destruct (pb_preds pb) as [|a [|c l]]; congruence. }
    rewrite Kp, Ep in H. cbn [map] in H.
    apply bind_ok in H as ([s1 v1] & H1 & H). apply bind_ok in H as (s2 & H2 & H).
    apply write_var_eq in H2 as [-> _]. injection H as <- <-. cbn [fst snd] in *.
    destruct (pred_started _ _ _ _ _ _ p I Eb Es) as (D1 & D2); [rewrite Ep; now left|].
    destruct (IH _ _ _ _ _ _ _ _ I D1 D2 Rg H1 Er) as (e1 & I1 & V1 & F1).
    destruct (inv_copy _ _ _ _ _ _ _ _ v1 I1 Eb N1 St Rg Sg) as (e2 & I2 & Fo & Fm & Fr); try assumption.
    + rewrite (rf_seal _ _ _ _ _ _ F1). exact Es.
    + intros ph2 id2 m2 B2. symmetry.
      pose proof (bi_lifts _ _ _ _ _ _ _ _ Hbi) as L. pose proof (bi_lifts _ _ _ _ _ _ _ _ B2) as L2.
      symmetry. eapply lifts_l_unwritten; [exact L | | exact L2]. rewrite <- (bi_rdv _ _ _ _ _ _ _ _ Hbi); assumption.
    + exists e2. split; [exact I2|]. split.
      * rewrite rdv_def_state. now rewrite Z.eqb_refl, Nat.eqb_refl.
      * apply rframe_trans with e1 s1; [exact F1|]. constructor; try easy.
        -- intros b' r Nrr. rewrite rdv_def_state. apply Z.eqb_neq in Nrr. now rewrite Nrr.
        -- intros b' r Nrr. apply Fo; tauto.
        -- intros j y _ Ey. exists y; split; [exact Ey | apply sim_refl].
  - (* a phi *)
    assert (H' : (do r <- new_phi s b; let '(s1, i) := r in
               do s2 <- write_var s1 reg b (val_insn i);
               do s3 <- add_phi_operands (read_var n) reg i s2;
               do s4 <- write_var s3 reg b (val_insn i); Ok (s4, val_insn i)) = Ok (s', v)).
    { rewrite Kp in H. unfold single in Sg. destruct (pb_preds pb) as [|a [|c l]]; try discriminate; exact H. }
    clear H. rename H' into H.
    apply bind_ok in H as ([s1 i] & H1 & H). apply new_phi_eq in H1 as (k' & Ek' & Ei & ->).
    rewrite Ek in Ek'; injection Ek' as <-.
    apply bind_ok in H as (s2 & H2 & H). apply write_var_eq in H2 as [-> _].
    apply bind_ok in H as (s3 & H3 & H). apply bind_ok in H as (s4 & H4 & H). apply write_var_eq in H4 as [-> _].
    injection H as <- <-. cbn [def_state l_err] in Er.
    match type of H3 with add_phi_operands _ _ _ ?q = _ => change q with (phi_state s b k reg (l_inc s)) in H3 end || subst i.
    match type of H3 with add_phi_operands _ _ _ ?q = _ => change q with (phi_state s b k reg (l_inc s)) in H3 end.
    set (i := f_ni (l_f s)) in *.
    set (s2 := phi_state s b k reg (l_inc s)) in *.
    assert (I2 : inv (eset e b reg (val_insn i)) dn (fun j => P j \/ j = i) s2).
    { apply inv_new_phi with P pb; try assumption; try easy; [intros; now left|]. left. split; [reflexivity | now right]. }
    pose proof (Pf k (l_inc s) P Ek (fun _ _ _ => eq_refl)) as F2. fold i in F2. fold s2 in F2.
    assert (Ei2 : f_insn (l_f s2) i = Some (set_op PHI (insn0 b))) by (cbn [s2 phi_state l_f f_insn]; apply upd_eq).
    unfold add_phi_operands in H3. apply bind_ok in H3 as (x & Hx & H3). apply get_insn_ok in Hx.
    rewrite Ei2 in Hx; injection Hx as <-. cbn [set_op i_op] in H3.
    change (negb (iop_eqb PHI PHI)) with false in H3. cbn [i_parent] in H3.
    change (i_parent (insn0 b)) with b in H3.
    apply bind_ok in H3 as (k2 & Hk2 & H3). apply get_block_ok in Hk2.
    assert (Kp2 : b_preds k2 = map S (pb_preds pb)).
    { cbn [s2 phi_state l_f f_block] in Hk2. rewrite upd_eq in Hk2. injection Hk2 as <-. exact Kp. }
    rewrite Kp2 in H3.
    destruct (phi_ops_ok (read_var n) IH (read_err n) dn (fun j => P j \/ j = i) reg i (map S (pb_preds pb))
                _ s2 _ s3 I2 (or_intror eq_refl) Ei2 eq_refl Rg) as (e3 & x3 & l & I3 & F3 & Ex3 & O3 & Q3 & Ph3 & Fa3);
      [|exact H3|exact Er|].
    { intros q Hq. apply in_map_iff in Hq as (p & <- & Hp). eapply pred_started; [exact I2 | exact Eb | exact Es | exact Hp]. }
    assert (E3 : e3 b reg = Some (val_insn i)) by (apply (rf_em _ _ _ _ _ _ F3), eset_same).
    assert (V3 : rdv s3 b reg = Some (val_insn i)).
    { apply (rf_rdv _ _ _ _ _ _ F3). unfold s2. rewrite rdv_phi_state by assumption. now rewrite Z.eqb_refl, Nat.eqb_refl. }
    assert (I4 : inv e3 dn P s3).
    { apply inv_finish with b pb reg i x3; try assumption.
      - rewrite (rf_seal _ _ _ _ _ _ F3). exact Es.
      - apply Forall2_mapS. cbn [set_op i_phi insn0] in Ph3. cbn [app] in Ph3. rewrite Ph3. exact Fa3.
      - intros r Hr. destruct (Z.eq_dec r reg) as [|Nrr]; [assumption|exfalso].
        rewrite (rf_e _ _ _ _ _ _ F3) in Hr by assumption. rewrite eset_other in Hr by tauto.
        destruct (iv_ent _ _ _ _ I _ _ _ _ Eb N1 Hr) as (_ & K). rewrite Sg in K.
        destruct K as (j & Ej & x & k' & Ex & _). injection Ej as <-. apply (iv_range _ _ _ _ I) in Ex. unfold i in Ex; lia. }
    exists e3. split; [|split].
    + apply inv_ext with s3; try easy. intros r b'; cbn [def_state l_def].
      rewrite rdv_not1 in V3 by assumption. destruct (Z.eqb_spec r reg) as [->|]; cbn [andb]; [|reflexivity].
      destruct (Nat.eqb_spec b' b) as [->|]; congruence.
    + rewrite rdv_def_state. now rewrite Z.eqb_refl, Nat.eqb_refl.
    + apply rframe_trans with e3 s3.
      * apply rframe_weak with (eq i).
        { intros j y Ey <-. apply (iv_range _ _ _ _ I) in Ey. unfold i in Ey; lia. }
        apply rframe_trans with (eset e b reg (val_insn i)) s2; [|exact F3].
        apply rframe_weak with noX; [intros ? ? ? [] | exact F2].
      * constructor; try easy.
        -- intros b' r w Hw. rewrite rdv_def_state. destruct (Z.eqb_spec r reg) as [->|]; cbn [andb]; [|exact Hw].
           destruct (Nat.eqb_spec b' b) as [->|]; congruence.
        -- intros b' r Nrr. rewrite rdv_def_state. apply Z.eqb_neq in Nrr. now rewrite Nrr.
        -- intros j y _ Ey. exists y; split; [exact Ey | apply sim_refl].
Qed.
End Inv.
