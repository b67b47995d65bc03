(** The depth-first transformation of the blocks: at the end every reached block is filled, and
    sealed unless it has an unreached predecessor. *)
From Coq Require Import ZArith List Bool Arith Lia.
From Verif Require Import M_Base M_Ir M_Edit SpecWord SpecIsa M_GenBB M_Lift L_Edit L_Lift L_LiftRead L_LiftFill.
Import ListNotations.
Open Scope nat_scope.

Section Dfs.
Variable bs : list pblock.
Notation blk := (blk bs).
Notation inv := (inv bs).
Hypothesis Hpred : forall b pb p, blk b = Some pb -> In p (pb_preds pb) -> blk (S p) <> None.
Hypothesis Hsucc : forall b pb q, blk b = Some pb -> In q (pb_succs pb) -> blk (S q) <> None.
Hypothesis Hmir : forall p q pp pq, blk (S p) = Some pp -> blk (S q) = Some pq -> (In q (pb_succs pp) <-> In p (pb_preds pq)).
Hypothesis Hentry : forall pb, blk 1 = Some pb -> pb_preds pb = [].

Lemma inv_start e dn s b pb : inv e dn noX s -> blk b = Some pb -> dn b = None -> l_fill s b = false ->
  (single pb <> None -> l_seal s b = true) -> inv e (dset dn b []) noX s.
Proof.
  intros I B D F S1.
  assert (Ed : forall c, done (dset dn b []) c = done dn c).
  { intros c. unfold done. destruct (Nat.eq_dec c b) as [->|N]; [rewrite dset_same, D; reflexivity | now rewrite dset_other]. }
  constructor; try apply I.
  - intros b0 pb0 B0. destruct (iv_blk _ _ _ _ _ I _ _ B0) as (phs & ids & m & [K1 K2 K3 K4 K5 K6 K7 K8 K9]).
    exists phs, ids, m. constructor; try assumption; [now rewrite Ed|].
    intros D0. apply K9. destruct (Nat.eq_dec b0 b) as [->|N]; [rewrite dset_same in D0; discriminate | now rewrite dset_other in D0].
  - intros b0 pb0 B0 F0. destruct (Nat.eq_dec b0 b) as [->|N]; [congruence|]. rewrite dset_other by assumption.
    eapply (iv_fill _ _ _ _ _ I); eassumption.
  - intros b0 pb0 B0 D0 S0. destruct (Nat.eq_dec b0 b) as [->|N]; [rewrite B in B0; injection B0 as <-; auto|].
    rewrite dset_other in D0 by assumption. eapply (iv_one _ _ _ _ _ I); eassumption.
Qed.

Definition set_fill (s : lst) (b : nat) : lst :=
  mkL (l_f s) (l_def s) (l_inc s) (l_seal s) (fun x => if x =? b then true else l_fill s x) (l_err s).
Lemma inv_set_fill e dn s b pb : inv e dn noX s -> blk b = Some pb -> dn b = Some (pb_insns pb) -> inv e dn noX (set_fill s b).
Proof.
  intros I B D. constructor; try apply I.
  - intros b0 pb0 B0. destruct (iv_blk _ _ _ _ _ I _ _ B0) as (phs & ids & m & [K1 K2 K3 K4 K5 K6 K7 K8 K9]).
    exists phs, ids, m. constructor; assumption.
  - intros b0 pb0 p B0 S0 Hp. cbn [set_fill l_fill]. destruct (S p =? b); [reflexivity|]. eapply (iv_seal _ _ _ _ _ I); eassumption.
  - intros b0 pb0 B0 F0. cbn [set_fill l_fill] in F0. destruct (Nat.eqb_spec b0 b) as [->|N]; [congruence|].
    eapply (iv_fill _ _ _ _ _ I); eassumption.
Qed.

Lemma insns_err n b l : forall s s', ofold (lift_insn n bs b) s l = Ok s' -> l_err s = true -> l_err s' = true.
Proof.
  induction l as [|pi l IH]; intros s s'; cbn [ofold]; [intros H; injection H as <-; auto|].
  intros H E. apply bind_ok in H as (s1 & H1 & H). eapply IH; [exact H|]. eapply lift_insn_err; eassumption.
Qed.

Lemma insns_ok n b pb l : forall l0 e dn s s', inv e dn noX s -> blk b = Some pb -> dn b = Some l0 -> l_fill s b = false ->
  ofold (lift_insn n bs b) s l = Ok s' -> l_err s' = false ->
  exists e' dn', inv e' dn' noX s' /\ dn' b = Some (l0 ++ l) /\ (forall c, c <> b -> dn' c = dn c) /\
    l_seal s' = l_seal s /\ l_fill s' = l_fill s.
Proof.
  induction l as [|pi l IH]; intros l0 e dn s s' I B D F H Er; cbn [ofold] in H.
  - injection H as <-. exists e, dn. rewrite app_nil_r. auto.
  - apply bind_ok in H as (s1 & H1 & H).
    destruct (lift_insn_ok bs Hpred n e dn noX b pb l0 pi s s1 I B D F H1) as ((e1 & I1) & S1 & F1).
    { eapply err_back; [|exact Er]. eapply insns_err; exact H. }
    destruct (IH (l0 ++ [pi]) e1 (dset dn b (l0 ++ [pi])) s1 s' I1 B) as (e' & dn' & I' & D' & O' & S' & F'); try assumption.
    + apply dset_same.
    + now rewrite F1.
    + exists e', dn'. split; [exact I'|]. split; [rewrite D', <- app_assoc; reflexivity|].
      split; [intros c N; rewrite O' by assumption; now apply dset_other|]. split; congruence.
Qed.

Lemma seal_block_err n s b s' : seal_block n s b = Ok s' -> l_err s = true -> l_err s' = true.
Proof.
  unfold seal_block. intros H E. apply bind_ok in H as (s1 & H1 & H). injection H as <-. cbn [l_err].
  eapply seal_err; [exact H1 | exact E].
Qed.

Definition tstep (m n : nat) (s : lst) (q : nat) : outcome lst :=
  do t <- transform m n bs s (S q); if l_err t then Err else Ok t.

Lemma transform_S m n s b : transform (S m) n bs s b =
    if l_seal s b then Ok s
    else
      match nth_error bs (pred b) with
      | None => UB
      | Some pb =>
        do s1 <- (if forallb (fun p => l_fill s (S p)) (pb_preds pb) then seal_block n s b
                  else Ok s);
        if l_fill s1 b then Ok s1
        else
          do s2 <- ofold (lift_insn n bs b) s1 (pb_insns pb);
          ofold (tstep m n) (set_fill s2 b) (pb_succs pb)
      end.
Proof. reflexivity. Qed.

Lemma tstep_false m n l : forall s s', ofold (tstep m n) s l = Ok s' -> l <> [] -> l_err s' = false.
Proof.
  induction l as [|q l IH]; intros s s'; cbn [ofold]; [congruence|]. intros H _.
  apply bind_ok in H as (s1 & H1 & H). unfold tstep in H1. apply bind_ok in H1 as (t & H1 & H2).
  destruct (l_err t) eqn:E; [discriminate|]. injection H2 as <-.
  destruct l as [|q' l]; [injection H as <-; exact E|]. apply (IH _ _ H). discriminate.
Qed.

Lemma transform_err m n : forall s b s', transform m n bs s b = Ok s' -> l_err s = true -> l_err s' = true.
Proof.
  induction m as [|m IH]; intros s b s' H E; [discriminate|]. rewrite transform_S in H.
  destruct (l_seal s b); [injection H as <-; exact E|]. destruct (nth_error bs (pred b)) as [pb|]; [|discriminate].
  apply bind_ok in H as (s1 & H1 & H). assert (E1 : l_err s1 = true).
  { destruct (forallb _ _); [eapply seal_block_err; eassumption | injection H1 as <-; exact E]. }
  destruct (l_fill s1 b); [injection H as <-; exact E1|]. apply bind_ok in H as (s2 & H2 & H).
  pose proof (insns_err _ _ _ _ _ H2 E1) as E2. destruct (pb_succs pb) as [|q l]; [injection H as <-; exact E2|].
  cbn [ofold] in H. apply bind_ok in H as (s3 & H3 & _). unfold tstep in H3. apply bind_ok in H3 as (t & H3 & H4).
  rewrite (IH _ _ _ H3) in H4; [discriminate|]. exact E2.
Qed.

(** edges still to be followed *)
Record gst (R : nat -> nat -> Prop) (s : lst) : Prop := {
  g_inv : exists e dn, inv e dn noX s /\ forall b, dn b <> None -> l_fill s b = true;
  g_succ : forall p pp q, blk p = Some pp -> l_fill s p = true -> In q (pb_succs pp) -> l_fill s (S q) = true \/ R p (S q);
  g_seal : forall q pq, blk q = Some pq -> l_fill s q = true -> l_seal s q = false ->
             exists p, In p (pb_preds pq) /\ (l_fill s (S p) = false \/ R (S p) q);
  g_fill : forall b, l_seal s b = true -> l_fill s b = true
}.

Lemma gst_mono (R R' : nat -> nat -> Prop) s : (forall p q, R p q -> R' p q) -> gst R s -> gst R' s.
Proof.
  intros H [G1 G2 G3 G4]. constructor; try assumption.
  - intros p pp q A B C. destruct (G2 _ _ _ A B C); auto.
  - intros q pq A B C. destruct (G3 _ _ A B C) as (p & Hp & [K|K]); exists p; auto.
Qed.

Definition minus (R : nat -> nat -> Prop) (p q : nat) : nat -> nat -> Prop := fun a b => R a b /\ ~ (a = p /\ b = q).

Lemma transform_ok n m : forall R p0 s b s', gst R s -> blk b <> None ->
  (b = 1 \/ exists q pp, b = S q /\ blk p0 = Some pp /\ In q (pb_succs pp) /\ l_fill s p0 = true) ->
  transform m n bs s b = Ok s' -> l_err s' = false ->
  gst (minus R p0 b) s' /\ l_fill s' b = true /\ (forall c, l_fill s c = true -> l_fill s' c = true).
Proof.
  induction m as [|m IH]; intros R p0 s b s' G Hb Hc H Er; [discriminate|]. rewrite transform_S in H.
  destruct (l_seal s b) eqn:Se.
  { injection H as <-. pose proof (g_fill _ _ G _ Se) as Fb. split; [|split; [exact Fb | auto]].
    destruct G as [G1 G2 G3 G4]. constructor; try assumption.
    - intros p pp q A B C. destruct (G2 _ _ _ A B C) as [K|K]; [now left|].
      destruct (Nat.eq_dec (S q) b) as [Eq|]; [left; congruence|right; split; [exact K | tauto]].
    - intros q pq A B C. destruct (G3 _ _ A B C) as (p & Hp & [K|K]); exists p; split; auto.
      right; split; [exact K|]. intros [_ ->]; congruence. }
  destruct (blk b) as [pb|] eqn:Eb; [|congruence].
  assert (Enth : nth_error bs (pred b) = Some pb).
  { destruct b as [|b']; [discriminate|]. exact Eb. }
  rewrite Enth in H. apply bind_ok in H as (s1 & H1 & H).
  assert (Er1 : l_err s1 = false).
  { destruct (l_fill s1 b); [injection H as <-; exact Er|]. apply bind_ok in H as (s2 & H2 & H).
    eapply err_back; [intros Q; eapply insns_err; [exact H2 | exact Q]|].
    destruct (pb_succs pb) as [|q l]; [injection H as <-; exact Er|]. cbn [ofold] in H. apply bind_ok in H as (s3 & H3 & _).
    unfold tstep in H3. apply bind_ok in H3 as (t & H3 & H4). destruct (l_err t) eqn:Et; [discriminate|].
    eapply err_back with (s' := t); [|exact Et]. intros Q. eapply transform_err; [exact H3 | exact Q]. }
  (* the state after sealing *)
  assert (M : (exists e dn, inv e dn noX s1 /\ forall c, dn c <> None -> l_fill s c = true) /\ l_fill s1 = l_fill s /\
     (forall c, c <> b -> l_seal s1 c = l_seal s c) /\
     (l_seal s1 b = true \/ l_seal s1 b = false /\ exists p, In p (pb_preds pb) /\ l_fill s (S p) = false)).
  { destruct (g_inv _ _ G) as (e & dn & I & Hd). destruct (forallb (fun p => l_fill s (S p)) (pb_preds pb)) eqn:Ea.
    - rewrite forallb_forall in Ea. destruct (seal_ok bs Hpred n e dn s b pb s1 I Eb Se) as (e' & I' & S' & F'); try assumption.
      split; [exists e', dn; auto|]. split; [exact F'|]. split.
      + intros c N. rewrite S'. apply Nat.eqb_neq in N. now rewrite N.
      + left. rewrite S', Nat.eqb_refl. reflexivity.
    - injection H1 as <-. split; [exists e, dn; auto|]. split; [reflexivity|]. split; [reflexivity|]. right. split; [exact Se|].
      clear - Ea. induction (pb_preds pb) as [|p l IHl]; [discriminate|]. cbn [forallb] in Ea.
      destruct (l_fill s (S p)) eqn:E; [|exists p; split; [now left | exact E]].
      destruct (IHl Ea) as (q & Hq & Fq). exists q; split; [now right | exact Fq]. }
  destruct M as ((e & dn & I & Hd) & Fs & Ss & Sb).
  destruct (l_fill s1 b) eqn:Fb.
  { injection H as <-. split; [|split; [exact Fb | intros c; now rewrite Fs]].
    constructor.
    - exists e, dn. split; [exact I|]. intros c; rewrite Fs; auto.
    - intros p pp q A B C. rewrite Fs in B. rewrite Fs. destruct (g_succ _ _ G _ _ _ A B C) as [K|K]; [now left|].
      destruct (Nat.eq_dec (S q) b) as [Eq|]; [left; congruence|right; split; [exact K | tauto]].
    - intros q pq A B C. rewrite Fs in *. destruct (Nat.eq_dec q b) as [->|N].
      + rewrite Eb in A; injection A as <-. destruct Sb as [Sb|[_ (p & Hp & Fp)]]; [congruence|]. exists p; auto.
      + rewrite Ss in C by assumption. destruct (g_seal _ _ G _ _ A B C) as (p & Hp & [K|K]); exists p; split; auto.
        right; split; [exact K | tauto].
    - intros c Sc. rewrite Fs. destruct (Nat.eq_dec c b) as [->|N]; [now rewrite <- Fs|].
      rewrite Ss in Sc by assumption. now apply (g_fill _ _ G). }
  apply bind_ok in H as (s2 & H2 & H).
  assert (Er2 : l_err s2 = false).
  { destruct (pb_succs pb) as [|q l]; [injection H as <-; exact Er|]. cbn [ofold] in H. apply bind_ok in H as (s3 & H3 & _).
    unfold tstep in H3. apply bind_ok in H3 as (t & H3 & H4). destruct (l_err t) eqn:Et; [discriminate|].
    eapply err_back with (s' := t); [|exact Et]. intros Q. eapply transform_err; [exact H3 | exact Q]. }
  assert (Db : dn b = None).
  { destruct (dn b) eqn:Q; [|reflexivity]. rewrite Fs in Fb. rewrite (Hd b) in Fb; [discriminate | congruence]. }
  assert (S1 : single pb <> None -> l_seal s1 b = true).
  { intros Hs. destruct Sb as [Sb|[_ (p & Hp & Fp)]]; [exact Sb|exfalso].
    unfold single in Hs. destruct (pb_preds pb) as [|a [|a' ar]] eqn:Epr; try congruence. destruct Hp as [<-|[]].
    destruct Hc as [->|(q & pp & -> & Bp & Hq & Fp0)]; [rewrite (Hentry _ Eb) in Epr; discriminate|].
    destruct p0 as [|p0]; [discriminate|]. apply (Hmir _ _ _ _ Bp Eb) in Hq. rewrite Epr in Hq. destruct Hq as [<-|[]]. congruence. }
  pose proof (inv_start _ _ _ _ _ I Eb Db Fb S1) as I0.
  destruct (insns_ok n b pb (pb_insns pb) [] e (dset dn b []) s1 s2 I0 Eb) as (e2 & dn2 & I2 & D2 & O2 & S2 & F2);
    [apply dset_same | exact Fb | exact H2 | exact Er2 |]. cbn [app] in D2.
  pose proof (inv_set_fill _ _ _ _ _ I2 Eb D2) as I3. set (s3 := set_fill s2 b) in *.
  assert (F3 : forall c, l_fill s3 c = if c =? b then true else l_fill s c) by (intros c; cbn [s3 set_fill l_fill]; rewrite F2, Fs; reflexivity).
  assert (S3 : l_seal s3 = l_seal s1) by exact S2.
  assert (Fbs : l_fill s b = false) by (rewrite <- Fs; exact Fb).
  assert (F3m : forall c, l_fill s c = true -> l_fill s3 c = true) by (intros c Hcf; rewrite F3; destruct (c =? b); auto).
  set (R3 := fun ss a c => minus R p0 b a c \/ a = b /\ exists q, In q ss /\ c = S q).
  assert (G3 : gst (R3 (pb_succs pb)) s3).
  { constructor.
    - exists e2, dn2. split; [exact I3|]. intros c Hcd. rewrite F3. destruct (Nat.eqb_spec c b) as [|N]; [reflexivity|].
      rewrite O2, dset_other in Hcd by assumption. auto.
    - intros p pp q A B C. destruct (Nat.eq_dec p b) as [->|N].
      + right. right. rewrite Eb in A; injection A as <-. split; [reflexivity | eauto].
      + rewrite F3 in B. apply Nat.eqb_neq in N. rewrite N in B.
        destruct (g_succ _ _ G _ _ _ A B C) as [K|K]; [left; now apply F3m|].
        destruct (Nat.eq_dec (S q) b) as [Eq|Nq]; [left; rewrite F3, Eq, Nat.eqb_refl; reflexivity|].
        right; left; split; [exact K | tauto].
    - intros q pq A B C. rewrite S3 in C.
      assert (W : forall p, In p (pb_preds pq) -> l_fill s (S p) = false \/ minus R p0 b (S p) q ->
                  l_fill s3 (S p) = false \/ R3 (pb_succs pb) (S p) q).
      { intros p Hp [K|K]; [|right; now left]. rewrite F3. destruct (Nat.eqb_spec (S p) b) as [Eq|]; [|now left].
        right; right. split; [exact Eq|]. destruct q as [|q]; [discriminate|]. exists q. split; [|reflexivity].
        apply (Hmir p q pb pq); try assumption. congruence. }
      destruct (Nat.eq_dec q b) as [->|N].
      + rewrite Eb in A; injection A as <-. destruct Sb as [Sb|[_ (p & Hp & Fp)]]; [congruence|].
        exists p. split; [exact Hp|]. apply W; auto.
      + rewrite Ss in C by assumption. rewrite F3 in B. assert (N' := N). apply Nat.eqb_neq in N'. rewrite N' in B.
        destruct (g_seal _ _ G _ _ A B C) as (p & Hp & K). exists p; split; [exact Hp|]. apply W; [exact Hp|].
        destruct K as [K|K]; [now left|right; split; [exact K | tauto]].
    - intros c Sc. rewrite F3. destruct (Nat.eqb_spec c b) as [|N]; [reflexivity|].
      rewrite S3, Ss in Sc by assumption. now apply (g_fill _ _ G). }
  assert (F3b : l_fill s3 b = true) by (rewrite F3, Nat.eqb_refl; reflexivity).
  (* the successors *)
  assert (Loop : forall ss t t', incl ss (pb_succs pb) -> gst (R3 ss) t -> l_fill t b = true -> ofold (tstep m n) t ss = Ok t' ->
     gst (R3 []) t' /\ (forall c, l_fill t c = true -> l_fill t' c = true)).
  { induction ss as [|q ss IHs]; intros t t' Hin Gt Ft Ht; cbn [ofold] in Ht.
    - injection Ht as <-. auto.
    - apply bind_ok in Ht as (t1 & Ht1 & Ht). unfold tstep in Ht1. apply bind_ok in Ht1 as (t2 & Ht1 & Ht2).
      destruct (l_err t2) eqn:Et; [discriminate|]. injection Ht2 as <-.
      assert (Hq : In q (pb_succs pb)) by (apply Hin; now left).
      destruct (IH (R3 (q :: ss)) b t (S q) t2 Gt) as (Ga & Fa & Fm); try assumption.
      + eapply Hsucc; eassumption.
      + right. exists q, pb. auto.
      + destruct (IHs t2 t') as (Gb & Fb'); try assumption.
        * intros z Hz; apply Hin; now right.
        * apply gst_mono with (minus (R3 (q :: ss)) b (S q)); [|exact Ga].
          intros a c ([K|[-> (z & [<-|Hz] & ->)]] & Nk); [now left | exfalso; auto | right; eauto].
        * now apply Fm.
        * split; [exact Gb | auto]. }
  destruct (Loop (pb_succs pb) s3 s' (fun z Hz => Hz) G3 F3b H) as (G' & Fm').
  split; [|split; [now apply Fm' | auto]].
  apply gst_mono with (R3 []); [|exact G']. intros a c [K|[_ (z & [] & _)]]. exact K.
Qed.

(** ** The start *)

Lemma inv_init : inv (fun b r => if (b =? 1) && (1 <=? r)%Z && (r <=? 5)%Z then Some (val_insn (arg_id r)) else None)
  (fun _ => None) noX (init_lst bs).
Proof.
  assert (E0 : forall b r, b <> 1 -> (if (b =? 1) && (1 <=? r)%Z && (r <=? 5)%Z then Some (val_insn (arg_id r)) else None) = None).
  { intros b r N. apply Nat.eqb_neq in N. now rewrite N. }
  constructor.
  - reflexivity.
  - intros b pb B. exists [], [], (fun r => if (b =? 1) && (1 <=? r)%Z && (r <=? 5)%Z then Some (val_insn (arg_id r)) else None).
    constructor; try (now intros ? []).
    + destruct b as [|k]; [discriminate|]. cbn [init_lst l_f f_block]. cbn [L_LiftRead.blk] in B. rewrite B. reflexivity.
    + reflexivity.
    + constructor.
    + unfold done. constructor. reflexivity.
    + intros _ N r. now apply E0.
  - intros i x. cbn [init_lst l_f f_insn f_ni]. unfold init_insns.
    destruct (i =? 0); [discriminate|]. destruct (Nat.eqb_spec i sp_id) as [->|]; [unfold sp_id; lia|].
    destruct (Nat.ltb_spec i 7); [lia | discriminate].
  - cbn. lia.
  - intros b pb r v B N. rewrite E0 by assumption. discriminate.
  - intros b pb p _ H; discriminate.
  - intros b pb _ H; discriminate.
  - intros b pb _ H; congruence.
  - intros b r i H; discriminate.
  - intros b pb r r' i B N. rewrite E0 by assumption. discriminate.
Qed.

Lemma lift_blocks_ok m n s : bs <> [] -> lift_blocks m n bs = Ok s ->
  (exists e dn, inv e dn noX s /\ forall b, dn b <> None -> l_fill s b = true) /\ l_fill s 1 = true /\
  (forall p pp q, blk p = Some pp -> l_fill s p = true -> In q (pb_succs pp) -> l_fill s (S q) = true) /\
  (forall q pq, blk q = Some pq -> l_fill s q = true -> (forall p, In p (pb_preds pq) -> l_fill s (S p) = true) -> l_seal s q = true).
Proof.
  intros Hne H. unfold lift_blocks in H. apply bind_ok in H as (t & H & Ht). destruct (l_err t) eqn:E; [discriminate|]. injection Ht as <-.
  assert (G0 : gst (fun _ _ => False) (init_lst bs)).
  { constructor; try discriminate. exists (fun b r => if (b =? 1) && (1 <=? r)%Z && (r <=? 5)%Z then Some (val_insn (arg_id r)) else None), (fun _ => None).
    split; [exact inv_init | congruence]. }
  destruct (transform_ok n m (fun _ _ => False) 0 (init_lst bs) 1 t G0) as (G & F & _); try assumption; [|now left|].
  { cbn. destruct bs; [congruence | discriminate]. }
  split; [exact (g_inv _ _ G)|]. split; [exact F|]. split.
  - intros p pp q A B C. destruct (g_succ _ _ G _ _ _ A B C) as [K|[[] _]]. exact K.
  - intros q pq A B C. destruct (l_seal t q) eqn:Q; [reflexivity|]. destruct (g_seal _ _ G _ _ A B Q) as (p & Hp & [K|[[] _]]).
    rewrite (C _ Hp) in K. discriminate.
Qed.
End Dfs.
