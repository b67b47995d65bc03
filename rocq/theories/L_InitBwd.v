(** The lifter reports every read of an unset register. *)
From Coq Require Import ZArith List Bool Arith Lia.
From Verif Require Import M_Base M_Ir M_Edit SpecWord SpecIsa M_GenBB SpecCfg M_Lift SpecSsa SpecLift SpecIr SpecEdit
  L_Edit L_GenBB L_Lift L_LiftRead L_LiftRun L_LiftDfs L_LiftMain L_LiftSafe L_LiftTerm L_LiftAcc L_LiftProp SpecInit L_InitFwd L_InitProg.
Import ListNotations.
Open Scope nat_scope.

Notation hd := (holds False).
Lemma hd_and {A} (o : outcome A) (P Q : A -> Prop) : hd o P -> hd o Q -> hd o (fun a => P a /\ Q a).
Proof. destruct o; cbn; auto. Qed.

Lemma hd_seen {S A} (f : S -> A -> outcome S) (J : S -> Prop) (R : S -> S -> Prop) (D : A -> S -> Prop) :
  (forall s, R s s) -> (forall a b c, R a b -> R b c -> R a c) -> (forall a s s', R s s' -> D a s -> D a s') ->
  forall l s, J s -> (forall s a, In a l -> J s -> hd (f s a) (fun s' => J s' /\ R s s' /\ D a s')) ->
  hd (ofold f s l) (fun s' => J s' /\ R s s' /\ forall a, In a l -> D a s').
Proof.
  intros Rr Rt Dm. induction l as [|a l IH]; intros s H K; cbn [ofold].
  - cbn. split; [exact H|]. split; [apply Rr | intros a []].
  - eapply holds_bind; [apply K; [now left | exact H]|]. intros s1 (H1 & R1 & D1).
    eapply holds_imp; [apply IH; [exact H1 | intros; apply K; [now right | assumption]]|].
    intros s2 (H2 & R2 & D2). split; [exact H2|]. split; [eapply Rt; eauto|]. intros a' [<-|Ia]; [eapply Dm; eauto | auto].
Qed.

Section Blocks.
Variable bs : list pblock.
Hypothesis Hpred : forall b pb p, blk bs b = Some pb -> In p (pb_preds pb) -> blk bs (S p) <> None.

(** the register has a value at the end of the block, and at its start *)
Definition dfd (s : lst) (r : Z) (b : nat) : Prop :=
  l_err s = true \/ r = 10%Z \/ (b = 1 /\ (1 <= r <= 5)%Z) \/ l_def s r b <> None.
Definition pre_dfd (s : lst) (r : Z) (b : nat) : Prop := forall pb p, blk bs b = Some pb -> In p (pb_preds pb) -> dfd s r (S p).
Definition dem (s : lst) (r : Z) (b : nat) : Prop :=
  l_err s = true \/ r = 10%Z \/ (b = 1 /\ (1 <= r <= 5)%Z) \/
  (b <> 1 /\ ((l_seal s b = false /\ l_inc s b r <> None) \/ pre_dfd s r b)).

Record ext (s s' : lst) : Prop := {
  ex_err : l_err s = true -> l_err s' = true;
  ex_seal : l_seal s' = l_seal s;
  ex_fill : l_fill s' = l_fill s;
  ex_def : forall r b, l_def s r b <> None -> l_def s' r b <> None;
  ex_inc : forall b r, l_inc s b r <> None -> l_inc s' b r <> None }.
Lemma ext_refl s : ext s s. Proof. constructor; auto. Qed.
Lemma ext_trans s1 s2 s3 : ext s1 s2 -> ext s2 s3 -> ext s1 s3.
Proof. intros [A B C D E] [A' B' C' D' E']. constructor; auto; congruence. Qed.
Lemma dfd_ext s s' r b : ext s s' -> dfd s r b -> dfd s' r b.
Proof. intros [A B C D E] [H|[H|[H|H]]]; unfold dfd; auto. Qed.
Lemma dem_ext s s' r b : ext s s' -> dem s r b -> dem s' r b.
Proof.
  intros X [H|[H|[H|(N & [[H1 H2]|H])]]]; unfold dem; [left; now apply (ex_err _ _ X) | auto | auto | |]; right; right; right; (split; [exact N|]).
  - left. split; [rewrite (ex_seal _ _ X); exact H1 | now apply (ex_inc _ _ X)].
  - right. intros pb p B Ip. eapply dfd_ext; eauto.
Qed.

(** a value without a write comes from the start of the block; [Y] lists the exceptions *)
Definition org (Y : nat -> Z -> Prop) (s : lst) : Prop := forall b r, l_def s r b <> None -> Y b r \/ dem s r b.
Definition inc_rng (s : lst) : Prop := forall b r, l_inc s b r <> None -> rng r.
Record kv (Y : nat -> Z -> Prop) (s : lst) : Prop := { kv_s : sinv bs s; kv_o : org Y s; kv_i : inc_rng s }.
Definition only (r : Z) (s s' : lst) : Prop := forall b r', r' <> r -> l_inc s' b r' = l_inc s b r'.
Lemma only_refl r s : only r s s. Proof. intros b r' _. reflexivity. Qed.
Lemma only_trans r s1 s2 s3 : only r s1 s2 -> only r s2 s3 -> only r s1 s3.
Proof. intros A B b r' N. rewrite B, A; auto. Qed.
Lemma org_ext Y s s' : org Y s -> ext s s' -> (forall b r, l_def s' r b <> None -> l_def s r b <> None \/ Y b r \/ dem s' r b) -> org Y s'.
Proof. intros O X K b r D. destruct (K b r D) as [D0|Q]; [|exact Q]. destruct (O b r D0) as [Q|Q]; [now left | right; eapply dem_ext; eauto]. Qed.
Lemma org_more (Y Y' : nat -> Z -> Prop) s : org Y s -> (forall b r, Y b r -> Y' b r \/ dem s r b) -> org Y' s.
Proof. intros O K b r D. destruct (O b r D) as [Q|Q]; auto. Qed.

Definition plus (Y : nat -> Z -> Prop) (b : nat) (l : list Z) : nat -> Z -> Prop := fun c r => Y c r \/ (c = b /\ In r l).
Lemma write_k Y s r b v : kv Y s -> valid (l_f s) v -> hd (write_var s r b v) (fun s' => kv (plus Y b [r]) s' /\ ext s s' /\ only r s s' /\ le s s' /\ l_def s' r b <> None /\ rng r).
Proof.
  intros H V. pose proof (write_safe bs False s r b v (kv_s _ s H) V ltac:(intros [])) as K. unfold write_var in *.
  destruct (_ && _) eqn:E; [|cbn; tauto]. cbn in *. destruct K as [K L]. set (s' := mkL _ _ _ _ _ _) in *.
  assert (X : ext s s').
  { constructor; auto. intros r' b'. cbn. destruct ((r' =? r)%Z && (b' =? b)); [discriminate | auto]. }
  split; [|split; [exact X | split; [intros b' r' _; reflexivity | split; [exact L | split]]]].
  - constructor; [exact K | | exact (kv_i _ s H)]. eapply (org_ext _ s); [|exact X|].
    + eapply org_more; [exact (kv_o _ s H)|]. intros c r' Q. left. now left.
    + intros c r' D. cbn in D. destruct ((r' =? r)%Z && (c =? b)) eqn:E2; [|now left]. right. left. right.
      apply andb_prop in E2 as [E3 E4]. apply Z.eqb_eq in E3. apply Nat.eqb_eq in E4. subst. split; [reflexivity | now left].
  - rewrite Z.eqb_refl, Nat.eqb_refl. discriminate.
  - apply andb_prop in E as [E1 E2]. apply Z.leb_le in E1, E2. unfold rng. lia.
Qed.
Lemma new_phi_k Y s b : kv Y s -> blk bs b <> None -> hd (new_phi s b) (fun r => kv Y (fst r) /\ ext s (fst r) /\ le s (fst r) /\ isphi (fst r) b (snd r) /\
  l_def (fst r) = l_def s /\ l_inc (fst r) = l_inc s).
Proof.
  intros H B. pose proof (new_phi_safe bs False s b (kv_s _ s H) B) as K. unfold new_phi, get_block in *.
  destruct (f_block (l_f s) b); cbn in *; [|tauto]. destruct K as (K & L & P).
  match goal with |- kv _ ?z /\ _ => assert (X : ext s z) by (constructor; auto) end.
  split; [|split; [exact X | auto]]. constructor; [exact K | | exact (kv_i _ s H)].
  eapply org_ext; [exact (kv_o _ s H) | exact X | auto].
Qed.

Definition rdk (rdv : lst -> Z -> nat -> outcome (lst * value)) : Prop := forall Y s reg b, kv Y s -> blk bs b <> None ->
  hd (rdv s reg b) (fun q => kv Y (fst q) /\ ext s (fst q) /\ only reg s (fst q) /\ dfd (fst q) reg b /\ (Y b reg \/ dem (fst q) reg b)).

Lemma phi_ops_k Y n reg i c pb s : rdk (read_var n) -> blk bs c = Some pb -> kv Y s -> isphi s c i ->
  hd (add_phi_operands (read_var n) reg i s) (fun s' => kv Y s' /\ ext s s' /\ only reg s s' /\ pre_dfd s' reg c).
Proof.
  intros Rd Bc H Ph. destruct Ph as (H7 & x & Ex & O & P).
  assert (Ph0 : isphi s c i) by (split; eauto).
  unfold add_phi_operands, get_insn. rewrite Ex. cbn [bind]. rewrite O. change (negb (iop_eqb PHI PHI)) with false. cbv iota.
  destruct (blk_some bs s c pb (kv_s _ s H) Bc) as [l Q]. rewrite P. unfold get_block. rewrite Q. cbn [bind b_preds].
  unfold phi_ops.
  eapply holds_imp.
  - apply (hd_seen _ (fun s' => kv Y s' /\ isphi s' c i) (fun a b => ext a b /\ only reg a b) (fun p s' => dfd s' reg p)).
    + auto using ext_refl, only_refl.
    + intros a b d [A1 A2] [B1 B2]. eauto using ext_trans, only_trans.
    + intros p a b [X _]. now apply dfd_ext.
    + split; [exact H | exact Ph0].
    + intros s1 p Ip (H1 & Ph1). apply in_map_iff in Ip as (q & <- & Iq).
      assert (Bq : blk bs (S q) <> None) by eauto.
      eapply holds_bind.
      { apply hd_and; [apply (Rd Y s1 reg (S q) H1 Bq) | apply (read_safe bs False Hpred n); [apply (kv_s _ _ H1) | exact Bq | intros []]]. }
      intros [s2 v] ((H2 & X2 & O2 & D2 & _) & S2 & L2 & V2). cbn [fst snd] in *.
      pose proof (phi_push_safe bs False s2 i v (S q) c S2 (le_phi _ _ L2 _ _ Ph1) V2) as K.
      destruct (use_val (l_f s2) i v) as [g1| | | |]; cbn [bind] in *; try exact K.
      destruct (push_phi g1 i v (S q)) as [g2| | | |]; cbn [bind] in *; try exact K. cbn [holds] in *. destruct K as [K1 K2].
      assert (X3 : ext s2 (with_f g2 s2)) by (constructor; auto).
      split; [|split; [|eapply dfd_ext; eauto]].
      * split; [|apply (le_phi _ _ K2), (le_phi _ _ L2), Ph1].
        constructor; [exact K1 | | exact (kv_i _ _ H2)]. eapply org_ext; [exact (kv_o _ _ H2) | exact X3 | auto].
      * split; [eauto using ext_trans|]. eapply only_trans; [exact O2|]. intros b r' _. reflexivity.
  - cbn beta. intros s' ((A1 & _) & (A2 & A3) & A4). split; [exact A1|]. split; [exact A2|]. split; [exact A3|].
    intros pb' p E Ip. assert (pb' = pb) by congruence. subst. apply A4. now apply in_map.
Qed.

Lemma kv_drop Y s b r : kv (plus Y b [r]) s -> dem s r b -> kv Y s.
Proof.
  intros [A B C] D. constructor; auto. eapply org_more; [exact B|]. intros c r' [Q|[-> [<-|[]]]]; auto.
Qed.
Lemma dem_dfd s r b : l_def s r b <> None -> dfd s r b. Proof. unfold dfd; auto. Qed.

Lemma read_k n : rdk (read_var n).
Proof.
  induction n as [|n IH]; intros Y s reg b H B; [exact I|]. cbn [read_var].
  destruct (Z.eqb_spec reg 10) as [E10|N10].
  { cbn. split; [exact H|]. split; [apply ext_refl|]. split; [apply only_refl|]. unfold dfd, dem. auto. }
  destruct (negb _) eqn:Rg; [cbn; tauto|].
  apply negb_false_iff, andb_prop in Rg as [R1 R2]. apply Z.leb_le in R1, R2.
  destruct (l_def s reg b) as [v|] eqn:D.
  { cbn. split; [exact H|]. split; [apply ext_refl|]. split; [apply only_refl|]. split; [apply dem_dfd; congruence|].
    apply (kv_o _ s H). congruence. }
  destruct (Nat.eqb_spec b 1) as [->|N1].
  { destruct (_ && _) eqn:E; cbn.
    - apply andb_prop in E as [E1 E2]. apply Z.ltb_lt in E1. apply Z.leb_le in E2.
      split; [exact H|]. split; [apply ext_refl|]. split; [apply only_refl|]. split; [unfold dfd | right; unfold dem]; right; right; left; lia.
    - assert (X : ext s (set_err s)) by (constructor; auto).
      split; [|split; [exact X | split; [intros c r' _; reflexivity | split; [now left | right; now left]]]].
      destruct H as [[F D' I'] O Ii]. constructor; [constructor; auto | | exact Ii]. eapply org_ext; [exact O | exact X | auto]. }
  destruct (l_seal s b) eqn:Sl; cbn [negb].
  2:{ eapply holds_bind; [apply new_phi_k; eauto|]. intros [s1 i] (H1 & X1 & L1 & Ph & Ed & Ei). cbn [fst snd] in *.
    assert (V : valid (l_f s1) (val_insn i)).
    { destruct Ph as (H7 & x & Ex & _). unfold valid. cbn. apply (fi_live _ _ (si_f _ s1 (kv_s _ _ H1))). congruence. }
    assert (X2 : ext s1 (set_inc s1 b reg i)).
    { constructor; auto. intros b' r' D'. cbn. destruct ((b' =? b) && (r' =? reg)%Z); [discriminate | exact D']. }
    assert (H2 : kv Y (set_inc s1 b reg i)).
    { destruct H1 as [A1 A2 A3]. constructor.
      - destruct A1 as [F D' I']. constructor; auto. intros r' b' i'. cbn. destruct ((b' =? b) && (r' =? reg)%Z) eqn:E; [|apply I'].
        intros [= <-]. apply andb_prop in E as [E _]. apply Nat.eqb_eq in E. subst b'. exact Ph.
      - eapply org_ext; [exact A2 | exact X2 | auto].
      - intros b' r'. cbn. destruct ((b' =? b) && (r' =? reg)%Z) eqn:E; [|apply A3]. intros _. apply andb_prop in E as [_ E].
        apply Z.eqb_eq in E. subst. unfold rng. lia. }
    eapply holds_bind; [apply write_k; [exact H2 | exact V]|]. intros s2 (H3 & X3 & O3 & _ & D3 & _). cbn.
    assert (Dm : dem s2 reg b).
    { right; right; right. split; [exact N1|]. left. split; [rewrite (ex_seal _ _ X3); cbn; rewrite (ex_seal _ _ X1); exact Sl|].
      apply (ex_inc _ _ X3). cbn. rewrite Nat.eqb_refl, Z.eqb_refl. discriminate. }
    split; [eapply kv_drop; eauto|]. split; [eauto using ext_trans|]. split; [|split; [now apply dem_dfd | now right]].
    intros c r' Nr. rewrite O3 by exact Nr. cbn. rewrite Ei. destruct (Z.eqb_spec r' reg); [congruence|]. now rewrite andb_false_r. }
  destruct (blk bs b) as [pb|] eqn:Eb; [|congruence]. destruct (blk_some bs s b pb (kv_s _ s H) Eb) as [l Q].
  unfold get_block. rewrite Q. cbn [bind b_preds].
  assert (Many : hd
     (do r <- new_phi s b; (let '(s1, i) := r in do s2 <- write_var s1 reg b (val_insn i);
       do s3 <- add_phi_operands (read_var n) reg i s2; do s4 <- write_var s3 reg b (val_insn i); Ok (s4, val_insn i)))
     (fun q => kv Y (fst q) /\ ext s (fst q) /\ only reg s (fst q) /\ dfd (fst q) reg b /\ (Y b reg \/ dem (fst q) reg b))).
  { eapply holds_bind; [apply new_phi_k; [exact H | congruence]|]. intros [s1 i] (H1 & X1 & L1 & Ph & Ed & Ei). cbn [fst snd] in *.
    assert (V : valid (l_f s1) (val_insn i)).
    { destruct Ph as (H7 & x & Ex & _). unfold valid. cbn. apply (fi_live _ _ (si_f _ s1 (kv_s _ _ H1))). congruence. }
    eapply holds_bind; [apply write_k; [exact H1 | exact V]|]. intros s2 (H2 & X2 & O2 & L2 & _).
    eapply holds_bind.
    { apply hd_and.
      - eapply (phi_ops_k (plus Y b [reg]) n reg i b pb s2 IH Eb); [exact H2 | exact (le_phi _ _ L2 _ _ Ph)].
      - apply (add_phi_safe bs False Hpred (read_var n) reg i b s2 (read_safe bs False Hpred n)); [intros [] | apply (kv_s _ _ H2) | exact (le_phi _ _ L2 _ _ Ph)]. }
    intros s3 ((H3 & X3 & O3 & P3) & _ & L3).
    eapply holds_bind; [apply write_k; [exact H3 | eapply valid_le; [exact L3|]; eapply valid_le; eauto]|].
    intros s4 (H4 & X4 & O4 & _ & D4 & _). cbn.
    assert (Dm : dem s4 reg b).
    { right; right; right. split; [exact N1|]. right. intros pb' p E Ip. eapply dfd_ext; [exact X4|]. eapply P3; eauto. }
    split; [eapply kv_drop; [eapply kv_drop; eauto | exact Dm]|]. split; [eauto using ext_trans|].
    split; [|split; [now apply dem_dfd | now right]].
    eapply only_trans; [|eapply only_trans; [exact O2|]; eapply only_trans; eauto]. intros c r' _. now rewrite Ei. }
  destruct (pb_preds pb) as [|p [|p2 ps]] eqn:Ep; cbn [map]; [exact Many| |exact Many].
  assert (Bp : blk bs (S p) <> None) by (eapply Hpred; [exact Eb | rewrite Ep; now left]).
  eapply holds_bind.
  { apply hd_and; [apply (IH Y s reg (S p) H Bp) | apply (read_safe bs False Hpred n); [apply (kv_s _ _ H) | exact Bp | intros []]]. }
  intros [s1 v] ((H1 & X1 & O1 & D1 & _) & _ & L1 & V1). cbn [fst snd] in *.
  eapply holds_bind; [apply write_k; [exact H1 | exact V1]|].
  intros s2 (H2 & X2 & O2 & _ & D2 & _). cbn.
  assert (Dm : dem s2 reg b).
  { right; right; right. split; [exact N1|]. right. intros pb' p' E Ip. assert (pb' = pb) by congruence. subst. rewrite Ep in Ip.
    destruct Ip as [<-|[]]. eapply dfd_ext; eauto. }
  split; [eapply kv_drop; eauto|]. split; [eauto using ext_trans|]. split; [eauto using only_trans|]. split; [now apply dem_dfd | now right].
Qed.

(** ** Instructions *)
Variable n : nat.
Variable b : nat.
Hypothesis Bb : blk bs b <> None.
(** what an instruction does: its reads are recorded, its writes excused *)
Definition seen (Y : nat -> Z -> Prop) (s : lst) (r : Z) : Prop := Y b r \/ dem s r b.
Lemma seen_ext Y s s' r : ext s s' -> seen Y s r -> seen Y s' r.
Proof. intros X [H|H]; [now left | right; eapply dem_ext; eauto]. Qed.
Lemma read_k' Y s r : org Y s /\ sinv bs s /\ inc_rng s -> hd (read_var n s r b) (fun q => kv Y (fst q) /\ ext s (fst q) /\ seen Y (fst q) r).
Proof. intros (A & C & D). eapply holds_imp; [apply (read_k n Y s r b); [constructor; auto | exact Bb]|]. cbn. unfold seen. tauto. Qed.
Record kw (Y : nat -> Z -> Prop) (s : lst) : Prop := { kw_o : org Y s; kw_i : inc_rng s }.
Lemma kv_kw Y s : kv Y s -> kw Y s. Proof. intros [A B C]. constructor; auto. Qed.
Lemma rd_k Y s r : kv Y s -> hd (read_var n s r b) (fun q => kv Y (fst q) /\ ext s (fst q) /\ seen Y (fst q) r).
Proof. intros H. eapply holds_imp; [apply (read_k n Y s r b H Bb)|]. cbn. unfold seen. tauto. Qed.
Lemma src_k Y s x : kv Y s -> hd (get_src n s b x) (fun q => kv Y (fst q) /\ ext s (fst q) /\ (src_x (pi_code x) = true -> seen Y (fst q) (pi_src x))).
Proof.
  intros H. unfold get_src. destruct (src_x _); [|cbn; auto using ext_refl; split; [exact H|]; split; [apply ext_refl | discriminate]].
  eapply holds_imp; [apply rd_k, H|]. cbn. tauto.
Qed.
Lemma write_kw Y s r v : kw Y s -> hd (write_var s r b v) (fun s' => kw (plus Y b [r]) s' /\ ext s s').
Proof.
  intros H. unfold write_var. destruct (_ && _) eqn:E; [|cbn; tauto]. cbn. set (s' := mkL _ _ _ _ _ _).
  assert (X : ext s s').
  { constructor; auto. intros r' b'. cbn. destruct ((r' =? r)%Z && (b' =? b)); [discriminate | auto]. }
  split; [|exact X]. constructor; [|exact (kw_i _ s H)]. eapply (org_ext _ s); [|exact X|].
  - eapply org_more; [exact (kw_o _ s H)|]. intros c r' Q. left. now left.
  - intros c r' D. cbn in D. destruct ((r' =? r)%Z && (c =? b)) eqn:E2; [|now left]. right. left. right.
    apply andb_prop in E2 as [E3 E4]. apply Z.eqb_eq in E3. apply Nat.eqb_eq in E4. subst. split; [reflexivity | now left].
Qed.
Lemma emit_kw Y s x us : kw Y s -> hd (emit s b x us) (fun q => kw Y (fst q) /\ ext s (fst q)).
Proof.
  intros H. unfold emit, get_block. destruct (f_block (l_f s) b); cbn [bind]; [|cbn; tauto].
  destruct (ofold _ _ us) as [g| | | |]; cbn; try tauto. assert (X : ext s (with_f g s)) by (constructor; auto).
  split; [|exact X]. constructor; [|exact (kw_i _ s H)]. eapply org_ext; [exact (kw_o _ s H) | exact X | auto].
Qed.
Lemma emit_write_k Y s x us r : kw Y s -> hd (do q <- emit s b x us; write_var (fst q) r b (val_insn (snd q))) (fun s' => kw (plus Y b [r]) s' /\ ext s s').
Proof.
  intros H. eapply holds_bind; [apply (emit_kw Y), H|]. intros q [H1 X1]. eapply holds_imp; [apply write_kw, H1|].
  intros s2 (H2 & X2). eauto using ext_trans.
Qed.
Lemma emit_ok_k Y s x us : kw Y s -> hd (do q <- emit s b x us; Ok (fst q)) (fun s' => kw Y s' /\ ext s s').
Proof. intros H. eapply holds_bind; [apply (emit_kw Y), H|]. intros q Q. exact Q. Qed.
Lemma args_k Y k : forall j s, kv Y s -> hd (read_args n s b j k) (fun q => kv Y (fst q) /\ ext s (fst q)).
Proof.
  induction k as [|k IH]; intros j s H; cbn [read_args]; [cbn; auto using ext_refl|].
  eapply holds_bind; [apply rd_k, H|]. intros q (H1 & X1 & _). destruct (j <? 5); [|cbn; tauto].
  eapply holds_bind; [apply IH, H1|]. intros t [H2 X2]. cbn. eauto using ext_trans.
Qed.
Lemma call_k Y s k o u : kv Y s ->
  hd (do r1 <- read_args n s b 0 k; do r <- emit (fst r1) b (set_u u (set_vals (snd r1) (set_op o (insn0 b)))) (snd r1);
        write_var (fst r) 0 b (val_insn (snd r))) (fun s' => kw (plus Y b [0%Z]) s' /\ ext s s').
Proof.
  intros H. eapply holds_bind; [apply (args_k Y), H|]. intros q [H1 X1].
  eapply holds_imp; [apply emit_write_k, kv_kw, H1|]. intros s2 (H2 & X2). eauto using ext_trans.
Qed.
Lemma bb_at_hd l : forall k pos, hd (bb_at l k pos) (fun _ => True).
Proof. induction l as [|x l IH]; intros k pos; cbn [bb_at]; [cbn; tauto|]. destruct (_ =? _)%Z; [exact I | apply IH]. Qed.

Definition eff (Y : nat -> Z -> Prop) (s : lst) (rs ws : list Z) (s' : lst) : Prop :=
  kw (plus Y b ws) s' /\ ext s s' /\ forall r, In r rs -> seen Y s' r.
Lemma eff_nil Y s rs s' : kw Y s' -> ext s s' -> (forall r, In r rs -> seen Y s' r) -> eff Y s rs [] s'.
Proof.
  intros [A C] X D. split; [|auto]. constructor; [|exact C]. eapply org_more; [exact A|]. intros c r Q. left. now left.
Qed.
Lemma insn_kw Y s x : kv Y s -> hd (lift_insn n bs b s x) (eff Y s (rd x) (wr x)).
Proof.
  intros H. unfold lift_insn, rd, wr.
  destruct ((cls (pi_code x) =? 4)%Z || (cls (pi_code x) =? 7)%Z) eqn:Ca.
  { cbn [orb]. unfold lift_alu. set (rs := _ ++ _).
    eapply (holds_bind False _ _ (eff Y s rs [pi_dst x])); [|intros s1 Q; destruct (pi_off x =? 0)%Z; [exact Q | exact I]].
    assert (Un : forall o a u, (opn (pi_code x) <> 11)%Z -> (opn (pi_code x) = 13%Z \/ src_x (pi_code x) = false) -> hd (alu_write_un n s b x o a u) (eff Y s rs [pi_dst x])).
    { intros o a u N11 Ns. unfold alu_write_un. eapply holds_bind; [apply rd_k, H|]. intros q (H1 & X1 & D1).
      eapply holds_imp; [apply emit_write_k, kv_kw, H1|]. intros s2 (H2 & X2). split; [exact H2|]. split; [eauto using ext_trans|].
      intros r Ir. unfold rs in Ir. destruct (Z.eqb_spec (opn (pi_code x)) 11); [congruence|]. cbn [app] in Ir.
      destruct Ir as [<-|Ir]; [eapply seen_ext; eauto|]. exfalso.
      destruct Ns as [Ns|Ns]; rewrite Ns in Ir; [|destruct Ir]. change (13 =? 13)%Z with true in Ir. cbn [negb] in Ir. rewrite andb_false_r in Ir. destruct Ir. }
    destruct (bin_of (opn (pi_code x))) eqn:B.
    { unfold alu_write_bin. eapply holds_bind; [apply rd_k, H|]. intros q (H1 & X1 & D1).
      eapply holds_bind; [apply src_k, H1|]. intros q2 (H2 & X2 & D2). eapply holds_imp; [apply emit_write_k, kv_kw, H2|].
      intros s3 (H3 & X3). split; [exact H3|]. split; [eauto using ext_trans|]. intros r Ir. unfold rs in Ir. apply in_app_or in Ir as [Ir|Ir].
      - destruct (opn (pi_code x) =? 11)%Z; [destruct Ir|]. destruct Ir as [<-|[]]. eapply seen_ext; [exact X3|]. eapply seen_ext; eauto.
      - destruct (src_x (pi_code x)); [|destruct Ir]. destruct (negb _); [|destruct Ir]; destruct Ir as [<-|[]]. eapply seen_ext; eauto. }
    destruct (Z.eqb_spec (opn (pi_code x)) 11) as [E11|N11].
    { eapply holds_bind; [apply src_k, H|]. intros q (H1 & X1 & D1). eapply holds_imp; [apply write_kw, kv_kw, H1|].
      intros s2 (H2 & X2). split; [exact H2|]. split; [eauto using ext_trans|]. intros r Ir. unfold rs in Ir. cbn [app] in Ir.
      destruct (src_x (pi_code x)); [|destruct Ir]. destruct (negb _); [|destruct Ir]; destruct Ir as [<-|[]]. eapply seen_ext; eauto. }
    destruct (Z.eqb_spec (opn (pi_code x)) 13) as [E13|N13].
    { destruct (cls (pi_code x) =? 4)%Z; [apply Un; auto | exact I]. }
    destruct (Z.eqb_spec (opn (pi_code x)) 8) as [E8|N8]; [|exact I].
    destruct (src_x (pi_code x)) eqn:X; [exact I | apply Un; auto]. }
  cbn [orb]. apply orb_false_iff in Ca as [Ca4 Ca7].
  assert (Cm : forall k, (cls (pi_code x) =? k)%Z = true -> cls (pi_code x) = k) by (intros k; apply Z.eqb_eq).
  destruct ((cls (pi_code x) =? 0)%Z && (mode (pi_code x) =? 0)%Z && (szf (pi_code x) =? 3)%Z) eqn:C0.
  { apply andb_prop in C0 as [C0 _]. apply andb_prop in C0 as [C0 _]. apply Cm in C0. unfold jmp_cls. rewrite C0. cbn [Z.eqb orb].
    unfold lift_imm64. destruct (Z.leb_spec (pi_src x) 6); [|exact I].
    eapply holds_imp; [apply emit_write_k, kv_kw, H|]. intros s1 (H1 & X1). split; [exact H1|]. split; [exact X1|]. intros r []. }
  destruct ((cls (pi_code x) =? 1)%Z && ((mode (pi_code x) =? 4)%Z || (mode (pi_code x) =? 3)%Z)) eqn:C1.
  { apply andb_prop in C1 as [C1 _]. rewrite C1 in *. rewrite orb_true_r.
    unfold lift_ldx. eapply holds_bind; [apply rd_k, H|]. intros q (H1 & X1 & D1). eapply holds_imp; [apply emit_write_k, kv_kw, H1|].
    intros s2 (H2 & X2). split; [exact H2|]. split; [eauto using ext_trans|]. intros r [<-|[]]. eapply seen_ext; eauto. }
  assert (St : forall y, hd (lift_st n s b x y) (fun s' => kw Y s' /\ ext s s' /\ seen Y s' (pi_dst x) /\ (y = true -> seen Y s' (pi_src x)))).
  { intros y. unfold lift_st. eapply holds_bind; [apply rd_k, H|]. intros q (H1 & X1 & D1).
    eapply (holds_bind False _ _ (fun r => kv Y (fst r) /\ ext (fst q) (fst r) /\ (y = true -> seen Y (fst r) (pi_src x)))).
    - destruct y; [eapply holds_imp; [apply rd_k, H1 | cbn; tauto]|]. cbn. split; [exact H1|]. split; [apply ext_refl | discriminate].
    - intros q2 (H2 & X2 & D2). eapply holds_imp; [apply emit_ok_k, kv_kw, H2|]. intros s3 (H3 & X3).
      split; [exact H3|]. split; [eauto using ext_trans|]. split; [eapply seen_ext; [exact X3|]; eapply seen_ext; eauto | intros E; eapply seen_ext; eauto]. }
  destruct ((cls (pi_code x) =? 2)%Z && (mode (pi_code x) =? 3)%Z) eqn:C2.
  { apply andb_prop in C2 as [C2 _]. apply Cm in C2. unfold jmp_cls in *. rewrite C2 in *. cbn [Z.eqb orb andb] in *.
    eapply holds_imp; [apply St|]. intros s1 (H1 & X1 & D1 & _). apply eff_nil; auto. intros r [<-|[]]. exact D1. }
  destruct ((cls (pi_code x) =? 3)%Z && (mode (pi_code x) =? 3)%Z) eqn:C3.
  { apply andb_prop in C3 as [C3 _]. apply Cm in C3. unfold jmp_cls in *. rewrite C3 in *. cbn [Z.eqb orb andb] in *.
    eapply holds_imp; [apply St|]. intros s1 (H1 & X1 & D1 & D2). apply eff_nil; auto. intros r [<-|[<-|[]]]; auto. }
  destruct (jmp_cls (pi_code x)) eqn:J; [|exact I].
  assert (Nc : (cls (pi_code x) =? 0)%Z = false /\ (cls (pi_code x) =? 1)%Z = false /\ (cls (pi_code x) =? 2)%Z = false /\ (cls (pi_code x) =? 3)%Z = false).
  { unfold jmp_cls in J. apply orb_prop in J as [J|J]; apply Cm in J; rewrite J; auto. }
  destruct Nc as (N0 & N1 & N2 & N3). rewrite N0, N1, N2, N3 in *. cbn [orb andb] in *.
  unfold lift_jmp.
  destruct (Z.eqb_spec (opn (pi_code x)) 0) as [E0|NE0].
  { rewrite E0. change (0 =? 8)%Z with false. cbv iota.
    eapply holds_bind; [apply bb_at_hd|]. intros t _. eapply holds_imp; [apply emit_ok_k, kv_kw, H|]. intros s1 (H1 & X1). apply eff_nil; auto. intros r []. }
  destruct (Z.eqb_spec (opn (pi_code x)) 9) as [E9|NE9].
  { rewrite E9. change (9 =? 8)%Z with false. cbv iota. eapply holds_bind; [apply rd_k, H|]. intros q (H1 & X1 & D1). eapply holds_imp; [apply emit_ok_k, kv_kw, H1|].
    intros s2 (H2 & X2). apply eff_nil; [exact H2 | eauto using ext_trans|]. intros r [<-|[]]. eapply seen_ext; eauto. }
  destruct (cond_of (opn (pi_code x))) eqn:B.
  { assert (N8 : opn (pi_code x) <> 8%Z) by (intros E; rewrite E in B; discriminate). destruct (Z.eqb_spec (opn (pi_code x)) 8) as [|_]; [congruence|].
    unfold lift_cond. eapply holds_bind; [apply rd_k, H|]. intros q (H1 & X1 & D1).
    eapply holds_bind; [apply src_k, H1|]. intros q2 (H2 & X2 & D2).
    eapply holds_bind; [apply bb_at_hd|]. intros t1 _. eapply holds_bind; [apply bb_at_hd|]. intros t2 _.
    eapply holds_imp; [apply emit_ok_k, kv_kw, H2|]. intros s3 (H3 & X3). apply eff_nil; [exact H3 | eauto using ext_trans|].
    intros r [<-|Ir]; [eapply seen_ext; [exact X3|]; eapply seen_ext; eauto|].
    destruct (src_x (pi_code x)); [|destruct Ir]. destruct Ir as [<-|[]]. eapply seen_ext; eauto. }
  destruct (Z.eqb_spec (opn (pi_code x)) 8) as [E8|N8]; [|exact I].
  unfold lift_call. destruct (_ || _); [exact I|]. destruct (pi_imm x <? 0)%Z; [exact I|].
  assert (Ca : forall s', kw (plus Y b [0%Z]) s' /\ ext s s' -> eff Y s [] [0%Z] s').
  { intros s' [H1 X1]. split; [exact H1|]. split; [exact X1|]. intros r []. }
  destruct (pi_src x =? 6)%Z. { eapply holds_imp; [apply call_k, H | exact Ca]. }
  destruct (nth_error helper_args (Z.to_nat (pi_imm x))) as [a|]; [|exact I].
  eapply (holds_bind False _ _ (fun _ => True)). { destruct (a <? 0)%Z; [destruct (pi_imm x =? 6)%Z|]; exact I. }
  intros k _. destruct (5 <? k); [exact I|]. eapply holds_imp; [apply call_k, H | exact Ca].
Qed.
Lemma insn_k Y s x : kv Y s -> hd (lift_insn n bs b s x) (fun s' => kv (plus Y b (wr x)) s' /\ ext s s' /\ forall r, In r (rd x) -> seen Y s' r).
Proof.
  intros H. eapply holds_imp; [apply hd_and; [apply (insn_kw Y), H | apply (insn_safe bs False Hpred n s b x (kv_s _ s H) Bb); intros []]|].
  intros s' (([A C] & X & D) & S1 & _). split; [constructor; auto | auto].
Qed.
End Blocks.

Section Whole.
Variable bs : list pblock.
Hypothesis Hpred : forall b pb p, blk bs b = Some pb -> In p (pb_preds pb) -> blk bs (S p) <> None.
Hypothesis Hsucc : forall b pb q, blk bs b = Some pb -> In q (pb_succs pb) -> blk bs (S q) <> None.
Variable n : nat.

Definition wrote (l : list pre_insn) (r : Z) : Prop := exists x, In x l /\ In r (wr x).
Definition yf (s : lst) : nat -> Z -> Prop := fun c r => l_fill s c = true /\ exists pb, blk bs c = Some pb /\ wrote (pb_insns pb) r.
(** the reads of a list of instructions of block [b] *)
Definition evl (s : lst) (b : nat) (l : list pre_insn) : Prop :=
  forall l1 x l2 r, l = l1 ++ x :: l2 -> nowr l1 r -> In r (rd x) -> dem bs s r b.
Definition ev (s : lst) : Prop := forall c pb, l_fill s c = true -> blk bs c = Some pb -> evl s c (pb_insns pb).
Definition tv (s : lst) : Prop := kv bs (yf s) s /\ ev s.

Lemma evl_ext s s' b l : ext s s' -> evl s b l -> evl s' b l.
Proof. intros X E l1 x l2 r El N I. eapply dem_ext; [exact X | eapply E; eauto]. Qed.
Lemma tv_ext s s' : ext s s' -> kv bs (yf s) s' -> ev s -> tv s'.
Proof.
  intros X K E. split.
  - destruct K as [A B C]. constructor; auto. eapply org_more; [exact B|]. intros c r [F Q]. left. split; [now rewrite (ex_fill _ _ X) | exact Q].
  - intros c pb F Bc. rewrite (ex_fill _ _ X) in F. eapply evl_ext; [exact X | now apply E].
Qed.

Definition sealed (s : lst) (b : nat) : lst :=
  mkL (l_f s) (l_def s) (l_inc s) (fun x => if x =? b then true else l_seal s x) (l_fill s) (l_err s).
Lemma dem_seal s b r c : (forall q, l_inc s b q <> None -> pre_dfd bs s q b) -> dem bs s r c -> dem bs (sealed s b) r c.
Proof.
  intros P [H|[H|[H|(N & [[H1 H2]|H])]]]; unfold dem; auto; right; right; right; (split; [exact N|]).
  - cbn. destruct (Nat.eqb_spec c b) as [->|]; [right; exact (P r H2) | left; auto].
  - right. exact H.
Qed.
Lemma seal_k s b pb : tv s -> blk bs b = Some pb -> hd (seal_block n s b) (fun s' => tv s' /\ l_fill s' = l_fill s).
Proof.
  intros [H E] B. unfold seal_block.
  eapply holds_bind.
  - apply (hd_seen _ (kv bs (yf s)) (fun a c => ext a c /\ forall r, l_inc c b r <> None -> l_inc a b r <> None)
      (fun r s' => l_inc s' b r <> None -> pre_dfd bs s' r b)).
    + intros a. auto using ext_refl.
    + intros a c d [A1 A2] [B1 B2]. split; [eauto using ext_trans | auto].
    + intros r a c [X I] D Ic pb' p Eb Ip. eapply dfd_ext; [exact X|]. eapply D; eauto.
    + exact H.
    + intros s1 r Ir H1. destruct (l_inc s1 b r) as [i|] eqn:Ei.
      * eapply holds_imp; [eapply (phi_ops_k bs Hpred (yf s) n r i b pb s1 (read_k bs Hpred n) B H1)|].
        -- apply (si_inc _ s1 (kv_s bs _ s1 H1) r b i Ei).
        -- intros s2 (H2 & X2 & O2 & P2). split; [exact H2|]. split; [|auto]. split; [exact X2|]. intros r'.
           destruct (Z.eq_dec r' r) as [->|Nr]; [congruence | now rewrite (O2 b r' Nr)].
      * cbn. split; [exact H1|]. split; [auto using ext_refl|]. congruence.
  - intros s1 (H1 & (X1 & _) & P1). cbn. change (mkL _ _ _ _ _ _) with (sealed s1 b). split; [|exact (ex_fill _ _ X1)].
    assert (P : forall q, l_inc s1 b q <> None -> pre_dfd bs s1 q b).
    { intros q Iq. apply P1; [|exact Iq]. pose proof (kv_i bs _ s1 H1 b q Iq) as R. unfold rng in R. unfold all_regs. cbn. lia. }
    destruct (tv_ext s s1 X1 H1 E) as [[A1 A2 A3] E1]. split.
    + constructor; [destruct A1 as [F D' I']; constructor; auto | | exact A3]. intros c r D. destruct (A2 c r D) as [Q|Q]; [left; exact Q | right; now apply dem_seal].
    + intros c pc F Bc l1 x l2 r El N I. apply dem_seal; [exact P|]. eapply E1; eauto.
Qed.

Lemma transform_k : forall m s b, tv s -> blk bs b <> None -> hd (transform m n bs s b) tv.
Proof.
  induction m as [|m IH]; intros s b H B; [exact I|]. cbn [transform]. destruct (l_seal s b); [exact H|].
  destruct b as [|b']; [now destruct B|]. destruct (blk bs (S b')) as [pb|] eqn:Eb; [|congruence].
  cbn [pred]. assert (Nb : nth_error bs b' = Some pb) by exact Eb. rewrite Nb.
  eapply (holds_bind False _ _ tv).
  { destruct (forallb _ _); [|exact H]. eapply holds_imp; [eapply seal_k; eauto|]. cbn. tauto. }
  intros s1 H1. destruct (l_fill s1 (S b')) eqn:Fb; [exact H1|]. destruct H1 as [K1 E1].
  set (yp := fun l c r => yf s1 c r \/ (c = S b' /\ wrote l r)).
  assert (Fold : forall l2 l1 s2, pb_insns pb = l1 ++ l2 -> kv bs (yp l1) s2 -> ext s1 s2 -> evl s2 (S b') l1 ->
    hd (ofold (lift_insn n bs (S b')) s2 l2) (fun s' => kv bs (yp (pb_insns pb)) s' /\ ext s1 s' /\ evl s' (S b') (pb_insns pb))).
  { induction l2 as [|x l2 IHl]; intros l1 s2 El H2 X2 V2; cbn [ofold].
    - cbn. rewrite app_nil_r in El. rewrite El. auto.
    - eapply holds_bind; [apply (insn_k bs Hpred n (S b') ltac:(congruence) (yp l1) s2 x H2)|].
      intros s3 (H3 & X3 & D3). apply (IHl (l1 ++ [x])); [now rewrite <- app_assoc | | eauto using ext_trans |].
      + destruct H3 as [A1 A2 A3]. constructor; auto. eapply org_more; [exact A2|]. intros c r [[Q|[-> (y & Iy & Wy)]]|[-> Q]]; left.
        * now left.
        * right. split; [reflexivity|]. exists y. split; [apply in_or_app; auto | exact Wy].
        * right. split; [reflexivity|]. exists x. split; [apply in_or_app; right; now left | exact Q].
      + intros a y c r Ea N I. destruct c as [|z c] using rev_ind.
        * apply app_inj_tail in Ea as [<- <-]. destruct (D3 r I) as [[[F _]|[_ (z & Iz & Wz)]]|Q]; [congruence | exfalso; exact (N z Iz Wz) | exact Q].
        * clear IHc. rewrite app_comm_cons, app_assoc in Ea. apply app_inj_tail in Ea as [Ea _].
          eapply dem_ext; [exact X3|]. eapply V2; eauto. }
  eapply holds_bind; [apply (Fold (pb_insns pb) [] s1 eq_refl); [|apply ext_refl|]|].
  - destruct K1 as [A1 A2 A3]. constructor; auto. eapply org_more; [exact A2|]. intros c r Q. left. now left.
  - intros l1 x l2 r El. destruct l1; discriminate.
  - intros s2 (K2 & X2 & V2).
    set (s3 := mkL (l_f s2) (l_def s2) (l_inc s2) (l_seal s2) (fun x => if x =? S b' then true else l_fill s2 x) (l_err s2)).
    assert (H3 : tv s3).
    { split.
      - destruct K2 as [[F D' I'] A2 A3]. constructor; [constructor; auto | | exact A3]. intros c r D. destruct (A2 c r D) as [[[Fc Q]|[-> Q]]|Q]; [left|left|right; exact Q].
        + split; [cbn; rewrite (ex_fill _ _ X2), Fc; now destruct (c =? S b') | exact Q].
        + split; [cbn; now rewrite Nat.eqb_refl | eauto].
      - intros c pc Fc Bc. cbn in Fc. destruct (Nat.eqb_spec c (S b')) as [->|].
        + assert (pc = pb) by congruence. subst pc. exact V2.
        + rewrite (ex_fill _ _ X2) in Fc. exact (evl_ext s1 s2 c _ X2 (E1 c pc Fc Bc)). }
    eapply (holds_ofold False _ tv); [exact H3|].
    intros s4 q Iq H4. eapply holds_bind; [apply (IH s4 (S q) H4); eapply (Hsucc (S b')); [exact Eb | exact Iq]|].
    intros t Ht. destruct (l_err t); [exact I | exact Ht].
Qed.
Lemma lift_blocks_k m s : bs <> [] -> lift_blocks m n bs = Ok s -> tv s /\ l_err s = false.
Proof.
  intros Ne H. unfold lift_blocks in H. bo H t E.
  pose proof (transform_k m (init_lst bs) 1) as K. rewrite E in K. cbn [holds] in K.
  destruct (l_err t) eqn:Er; [discriminate|]. injection H as <-. split; [|exact Er]. apply K.
  - split; [|intros c pb F; discriminate]. constructor; [apply init_sinv | intros c r D; now destruct D | intros c r D; now destruct D].
  - cbn. destruct bs; [congruence | discriminate].
Qed.

(** in the end *)
Variable s : lst.
Hypothesis Tv : tv s.
Hypothesis Er : l_err s = false.
Hypothesis Hfill : forall b pb, blk bs b = Some pb -> l_fill s b = true.
Hypothesis Hseal : forall b pb, blk bs b = Some pb -> l_seal s b = true.
Hypothesis Hentry : forall pb, blk bs 1 = Some pb -> pb_preds pb = [].

Lemma dem_cases r b pb : bad r -> dem bs s r b -> blk bs b = Some pb -> b <> 1 /\ pre_dfd bs s r b.
Proof.
  intros Bd [H|[H|[[_ H]|(N & [[H _]|H])]]] B; [congruence | | | rewrite (Hseal b pb B) in H; discriminate | auto]; exfalso; unfold bad in Bd; cbn in Bd; lia.
Qed.
Lemma uo_undef r b : uo bs r b -> ~ dfd s r b.
Proof.
  induction 1 as [r pb Bd B N | r a b pb U IH B Ia N]; intros D.
  - destruct D as [D|[D|[[_ D]|D]]]; [congruence | | |]; try (unfold bad in Bd; cbn in Bd; lia).
    destruct (kv_o bs _ s (proj1 Tv) 1 r D) as [(_ & pb' & B' & x & Ix & Wx)|Q].
    + assert (pb' = pb) by congruence. subst. exact (N x Ix Wx).
    + destruct (dem_cases r 1 pb Bd Q B) as [K _]. now apply K.
  - pose proof (uo_bad bs r (S a) U) as Bd. destruct D as [D|[D|[[E1 D]|D]]]; [congruence | | |]; try (unfold bad in Bd; cbn in Bd; lia).
    destruct (kv_o bs _ s (proj1 Tv) b r D) as [(_ & pb' & B' & x & Ix & Wx)|Q].
    + assert (pb' = pb) by congruence. subst. exact (N x Ix Wx).
    + destruct (dem_cases r b pb Bd Q B) as [_ K]. apply IH. exact (K pb a B Ia).
Qed.
Lemma no_unset b pb l1 x l2 r : blk bs b = Some pb -> pb_insns pb = l1 ++ x :: l2 -> In r (rd x) -> nowr l1 r -> ~ ui bs r b.
Proof.
  intros B El I N U. pose proof (ui_bad bs r b U) as Bd.
  pose proof (proj2 Tv b pb (Hfill b pb B) B l1 x l2 r El N I) as Q. destruct (dem_cases r b pb Bd Q B) as [N1 K].
  destruct U as [[-> _]|(pb' & a & B' & Ia & U)]; [now apply N1|]. exact (uo_undef r (S a) U (K pb' a B' Ia)).
Qed.
End Whole.

Theorem lift_sets p m n f : liftable p -> lift m n p = Ok f -> initialised p.
Proof.
  intros [W Len No0 Ra] H pc i r U F Ir.
  destruct (gen_bb_ok p W Len No0) as (bs & Hg & Hbo & Heo). unfold lift in H. rewrite Hg in H. cbn [bind] in H.
  destruct (lift_blocks m n bs) as [s| | | |] eqn:Lb; try discriminate.
  destruct (lift_blocks_ok bs (main_pred p bs Heo) (main_succ p bs Heo) (main_mir p bs Heo) (main_entry p No0 bs Hbo Heo) m n s (bs_ne p bs Hbo Heo) Lb)
    as (_ & F1 & Fs & Sl).
  destruct (lift_blocks_k bs (main_pred p bs Heo) (main_succ p bs Heo) n m s (bs_ne p bs Hbo Heo) Lb) as [Tv Er].
  assert (Hf : forall b pb, blk bs b = Some pb -> l_fill s b = true).
  { intros b pb B. destruct (main_reach p W bs Hbo Heo Ra b pb B) as [k P]. clear - P F1 Fs. induction P; [exact F1 | eapply Fs; eauto]. }
  assert (Hs : forall b pb, blk bs b = Some pb -> l_seal s b = true).
  { intros b pb B. apply (Sl b pb B (Hf b pb B)). intros a Ia. pose proof (main_pred p bs Heo _ _ _ B Ia) as K.
    destruct (blk bs (S a)) as [A|] eqn:Ea; [|congruence]. exact (Hf _ _ Ea). }
  destruct (unset_ui p W bs Hbo Heo r pc U) as (b & pb & l1 & x & l2 & i' & B & El & -> & N & Ui & A & Fr).
  assert (i' = i) by (pose proof (fetch_at _ _ _ A) as Q; congruence). subst i'.
  eapply (no_unset bs (main_pred p bs Heo) (main_succ p bs Heo) n s Tv Er Hf Hs (main_entry p No0 bs Hbo Heo) b pb l1 x l2 r B El); eauto.
  destruct (blk_in _ _ _ B) as (Ib & _). rewrite (from_rd i x (jd p W _ _ A) Fr); [exact Ir|].
  unfold ofix. apply (bo_off _ _ Hbo pb x Ib). rewrite El. apply in_or_app. right. now left.
Qed.

Theorem lift_knows p m n f j i : liftable p -> (forall j i, at_pos p j i -> in_limits i) -> lift m n p = Ok f -> at_pos p j i -> b_code i <> 0%Z -> translatable i.
Proof.
  intros [W Len No0 Ra] Lim H A Nz.
  destruct (gen_bb_ok p W Len No0) as (bs & Hg & Hbo & Heo). unfold lift in H. rewrite Hg in H. cbn [bind] in H.
  destruct (lift_blocks m n bs) as [s| | | |] eqn:Lb; try discriminate.
  destruct (lift_blocks_ok bs (main_pred p bs Heo) (main_succ p bs Heo) (main_mir p bs Heo) (main_entry p No0 bs Hbo Heo) m n s (bs_ne p bs Hbo Heo) Lb)
    as (_ & F1 & Fs & _).
  destruct (reach_path p W bs Hbo Heo _ (Ra _ _ A Nz)) as (k & b & pb & q & i' & P & B & Eq & L & A' & Nz').
  assert (q = j) by lia. subst q. assert (i' = i) by (unfold at_pos in *; congruence). subst i'.
  assert (Fb : l_fill s b = true) by (clear - P F1 Fs; induction P; [exact F1 | eapply Fs; eauto]).
  destruct (blk_in _ _ _ B) as (Ib & _). destruct (bo_code _ _ Hbo pb Ib) as [Co _].
  destruct (code_of_pre _ _ _ _ Co j i L A Nz) as (x & Ix & Ex & Q).
  pose proof (lift_acc bs m n s Lb b pb x B Fb Ix) as Ac.
  apply (acc_exact i x (jd p W _ _ A) (Lim _ _ A)); [|exact (bo_off _ _ Hbo pb x Ib Ix) | exact Ac].
  unfold from. rewrite Ex. exact Q.
Qed.

Theorem lift_exact p m n : liftable p -> (forall j i, at_pos p j i -> in_limits i) -> length p + 1 <= m -> (length p + 2) * (length p + 2) <= n ->
  (exists f, lift m n p = Ok f) <-> (forall j i, at_pos p j i -> b_code i <> 0%Z -> translatable i) /\ initialised p.
Proof.
  intros L Lim Lm Ln. split.
  - intros [f H]. split; [intros j i A Nz; eapply lift_knows; eauto | eapply lift_sets; eauto].
  - intros [Tr Ini]. destruct L as [W Len No0 Ra]. apply lift_succeeds; auto.
    intros j i R A. destruct (Z.eq_dec (b_code i) 0) as [E|Nz]; [|eauto]. exfalso.
    assert (K : forall t, reach p t -> exists k i', t = Z.of_nat k /\ at_pos p k i' /\ b_code i' <> 0%Z).
    { induction 1 as [|pc i0 t Rp IH F Ht].
      - destruct (gen_bb_ok p W Len No0) as (bs & Hg & Hbo & Heo). destruct (reach_path p W bs Hbo Heo _ (re_0 p)) as (k & b & pb & q & i' & P & B & Eq & Lq & A' & Nz'). eauto.
      - destruct IH as (k & i1 & -> & A1 & N1). pose proof (fetch_at _ _ _ A1) as Q. assert (i1 = i0) by congruence. subst. exact (wf_next _ W k i0 t A1 N1 Ht). }
    destruct (K _ R) as (k & i' & Ek & A' & N'). assert (k = j) by lia. subst. unfold at_pos in *. congruence.
Qed.
