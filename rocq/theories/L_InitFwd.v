(** Programs whose instructions the lifter knows and that read no unset register are lifted. *)
From Coq Require Import ZArith List Bool Arith Lia.
From Verif Require Import M_Base M_Ir M_Edit SpecWord SpecIsa M_GenBB M_Lift SpecIr L_Edit L_Lift L_LiftRead L_LiftRun L_LiftSafe L_LiftTerm L_LiftAcc.
Import ListNotations.
Open Scope nat_scope.

(** no error is reported *)
Definition fine {A} (o : outcome A) (Q : A -> Prop) : Prop :=
  match o with Ok a => Q a | Err => False | _ => True end.
Lemma fine_bind {A B} (o : outcome A) (f : A -> outcome B) (P : A -> Prop) Q :
  fine o P -> (forall a, P a -> fine (f a) Q) -> fine (bind o f) Q.
Proof. destruct o; cbn; auto. Qed.
Lemma fine_imp {A} (o : outcome A) (P Q : A -> Prop) : fine o P -> (forall a, P a -> Q a) -> fine o Q.
Proof. destruct o; cbn; auto. Qed.
Lemma fine_and {A} (o : outcome A) (P Q : A -> Prop) : fine o P -> holds False o Q -> fine o (fun a => P a /\ Q a).
Proof. destruct o; cbn; auto. Qed.
Lemma fine_ofold {S A} (f : S -> A -> outcome S) (J : S -> Prop) l : forall s, J s ->
  (forall s a, In a l -> J s -> fine (f s a) J) -> fine (ofold f s l) J.
Proof.
  induction l as [|a l IH]; intros s H K; cbn [ofold]; [exact H|].
  eapply fine_bind; [apply K; [now left | exact H]|]. intros s1 H1. apply IH; [exact H1|]. intros; apply K; [now right | assumption].
Qed.

(** registers an instruction of a block reads (arguments of calls aside) and writes *)
Definition rd (x : pre_insn) : list Z :=
  let c := pi_code x in
  if ((cls c =? 4) || (cls c =? 7))%Z then
    (if opn c =? 11 then [] else [pi_dst x])%Z ++ (if src_x c && negb (opn c =? 13)%Z then [pi_src x] else [])
  else if (cls c =? 1)%Z then [pi_src x]
  else if (cls c =? 2)%Z then [pi_dst x]
  else if (cls c =? 3)%Z then [pi_dst x; pi_src x]
  else if jmp_cls c then
    if (opn c =? 0)%Z then [] else if (opn c =? 9)%Z then [0%Z] else if (opn c =? 8)%Z then []
    else pi_dst x :: (if src_x c then [pi_src x] else [])
  else [].
Definition wr (x : pre_insn) : list Z :=
  let c := pi_code x in
  if ((cls c =? 4) || (cls c =? 7) || (cls c =? 0) || (cls c =? 1))%Z then [pi_dst x]
  else if jmp_cls c && (opn c =? 8)%Z then [0%Z] else [].
Definition nowr (l : list pre_insn) (r : Z) : Prop := forall x, In x l -> ~ In r (wr x).
Definition bad (r : Z) : Prop := In r [0; 6; 7; 8; 9]%Z.

Section Blocks.
Variable bs : list pblock.
(** the register may be unset at the end and at the start of a block *)
Inductive uo : Z -> nat -> Prop :=
| uo_1 r pb : bad r -> blk bs 1 = Some pb -> nowr (pb_insns pb) r -> uo r 1
| uo_s r p b pb : uo r (S p) -> blk bs b = Some pb -> In p (pb_preds pb) -> nowr (pb_insns pb) r -> uo r b.
Definition ui (r : Z) (b : nat) : Prop :=
  (b = 1 /\ bad r) \/ exists pb p, blk bs b = Some pb /\ In p (pb_preds pb) /\ uo r (S p).
Lemma uo_bad r b : uo r b -> bad r.
Proof. induction 1; assumption. Qed.
Lemma ui_bad r b : ui r b -> bad r.
Proof. intros [[_ H]|(pb & p & _ & _ & H)]; [exact H | eapply uo_bad; eauto]. Qed.
Lemma ui_uo r b pb : ui r b -> blk bs b = Some pb -> nowr (pb_insns pb) r -> uo r b.
Proof. intros [[-> H]|(pb' & p & B & Ip & U)] E N; [eapply uo_1; eauto|]. assert (pb' = pb) by congruence. subst. eapply uo_s; eauto. Qed.
Lemma arg_set r b : (1 <= r <= 5)%Z -> ~ ui r b.
Proof. intros R U. apply ui_bad in U. unfold bad in U. cbn in U. lia. Qed.

Hypothesis Hpred : forall b pb p, blk bs b = Some pb -> In p (pb_preds pb) -> blk bs (S p) <> None.

Record iv (s : lst) : Prop := {
  iv_s : sinv bs s;
  iv_err : l_err s = false;
  iv_seal : forall b pb p, blk bs b = Some pb -> l_seal s b = true -> In p (pb_preds pb) -> l_fill s (S p) = true;
  iv_def : forall b pb r, blk bs b = Some pb -> l_fill s b = true -> l_def s r b = None -> nowr (pb_insns pb) r;
  iv_inc : forall b r i, l_inc s b r = Some i -> ~ ui r b }.

(** steps that touch only the function and the definitions *)
Record step (s s' : lst) : Prop := {
  st_seal : l_seal s' = l_seal s;
  st_fill : l_fill s' = l_fill s;
  st_def : forall r b, l_def s r b <> None -> l_def s' r b <> None }.
Lemma step_refl s : step s s. Proof. constructor; auto. Qed.
Lemma step_trans s1 s2 s3 : step s1 s2 -> step s2 s3 -> step s1 s3.
Proof. intros [A B C] [A' B' C']. constructor; [congruence | congruence | auto]. Qed.
Lemma st_none s s' r b : step s s' -> l_def s' r b = None -> l_def s r b = None.
Proof. intros St E. destruct (l_def s r b) eqn:D; [|reflexivity]. exfalso. apply (st_def _ _ St r b); [congruence | exact E]. Qed.
Lemma iv_step s s' : iv s -> step s s' -> sinv bs s' -> l_err s' = false -> (forall b r i, l_inc s' b r = Some i -> l_inc s b r = Some i) -> iv s'.
Proof.
  intros [A B C D E] St H Er Hi. constructor; auto.
  - intros b pb p Bb. rewrite (st_seal _ _ St), (st_fill _ _ St). eauto.
  - intros b pb r Bb. rewrite (st_fill _ _ St). intros F Dn. eapply D; eauto. eapply st_none; eauto.
  - intros b r i Hb. eapply E; eauto.
Qed.

Lemma write_f s r b v : iv s -> valid (l_f s) v -> fine (write_var s r b v) (fun s' => iv s' /\ step s s' /\ le s s' /\ l_def s' r b <> None).
Proof.
  intros H V. pose proof (write_safe bs False s r b v (iv_s s H) V ltac:(intros [])) as K. unfold write_var in *.
  destruct (_ && _); [|exact I]. cbn in *. destruct K as [K L].
  assert (St : step s (mkL (l_f s) (fun r0 b' => if (r0 =? r)%Z && (b' =? b) then Some v else l_def s r0 b') (l_inc s) (l_seal s) (l_fill s) (l_err s))).
  { constructor; auto. intros r' b'. cbn. destruct ((r' =? r)%Z && (b' =? b)); [discriminate | auto]. }
  split; [|split; [exact St | split; [exact L|]]].
  - eapply iv_step; eauto. cbn. apply (iv_err s H).
  - rewrite Z.eqb_refl, Nat.eqb_refl. discriminate.
Qed.
Lemma new_phi_f s b : iv s -> blk bs b <> None -> fine (new_phi s b) (fun r => iv (fst r) /\ step s (fst r) /\ le s (fst r) /\ isphi (fst r) b (snd r)).
Proof.
  intros H B. pose proof (new_phi_safe bs False s b (iv_s s H) B) as K. unfold new_phi, get_block in *.
  destruct (f_block (l_f s) b); cbn in *; [|exact I]. destruct K as (K & L & P). 
  match goal with |- iv ?z /\ _ => assert (St : step s z) by (constructor; auto) end.
  split; [|split; [exact St | auto]]. eapply iv_step; eauto. cbn. apply (iv_err s H).
Qed.
Lemma emit_keep s b x us r : emit s b x us = Ok r -> l_seal (fst r) = l_seal s /\ l_fill (fst r) = l_fill s /\ l_def (fst r) = l_def s /\ l_inc (fst r) = l_inc s /\ l_err (fst r) = l_err s.
Proof. unfold emit. intros H. bo H k E. bo H g G. injection H as <-. cbn. auto. Qed.
Lemma use_fine i us : forall g, fine (ofold (fun g v => use_val g i v) g us) (fun _ => True).
Proof. intros g. apply fine_ofold; [exact I|]. intros g' v _ _. unfold use_val, get_insn. destruct (v_data v); cbn; auto. destruct (f_insn g' i0); exact I. Qed.

Definition rd_f (rdv : lst -> Z -> nat -> outcome (lst * value)) : Prop := forall s reg b,
  iv s -> blk bs b <> None -> (l_def s reg b = None -> ~ ui reg b) ->
  fine (rdv s reg b) (fun r => iv (fst r) /\ step s (fst r)).

Lemma phi_ops_f n reg i c pb s : rd_f (read_var n) ->
  blk bs c = Some pb -> (forall p, In p (pb_preds pb) -> l_fill s (S p) = true) -> ~ ui reg c ->
  iv s -> isphi s c i -> fine (add_phi_operands (read_var n) reg i s) (fun s' => iv s' /\ step s s').
Proof.
  intros Rd Bc Fp Nu H Ph. destruct Ph as (H7 & x & Ex & O & P).
  assert (Ph0 : isphi s c i) by (split; eauto).
  unfold add_phi_operands, get_insn. rewrite Ex. cbn [bind]. rewrite O. change (negb (iop_eqb PHI PHI)) with false. cbv iota.
  destruct (blk_some bs s c pb (iv_s s H) Bc) as [l Q]. rewrite P. unfold get_block. rewrite Q. cbn [bind b_preds].
  unfold phi_ops.
  eapply fine_imp; [apply (fine_ofold _ (fun s' => iv s' /\ step s s' /\ isphi s' c i)); [auto using step_refl|] | cbn; tauto].
  intros s1 p Ip (H1 & G1 & Ph1). apply in_map_iff in Ip as (q & <- & Iq).
  assert (Bq : blk bs (S q) <> None) by eauto.
  destruct (blk bs (S q)) as [pq|] eqn:Eq; [|congruence].
  eapply fine_bind.
  { apply fine_and; [apply (Rd s1 reg (S q)); auto; [congruence|] | apply (read_safe bs False Hpred n); [apply (iv_s _ H1) | congruence | intros []]].
    intros D U. apply Nu. right. exists pb, q. split; [exact Bc|]. split; [exact Iq|]. eapply ui_uo; eauto.
    apply (iv_def s1 H1 (S q)); auto. rewrite (st_fill _ _ G1). auto. }
  intros [s2 v] ((H2 & G2) & S2 & L2 & V2). cbn [fst snd] in *.
  pose proof (phi_push_safe bs False s2 i v (S q) c S2 (le_phi _ _ L2 _ _ Ph1) V2) as K.
  destruct (use_val (l_f s2) i v) as [g1| | | |] eqn:E1; cbn [bind holds fine] in *; auto.
  2:{ unfold use_val, get_insn in E1. destruct (v_data v); try discriminate. destruct (f_insn (l_f s2) i0); discriminate. }
  destruct (push_phi g1 i v (S q)) as [g2| | | |] eqn:E2; cbn [bind holds fine] in *; auto.
  2:{ unfold push_phi, get_insn in E2. destruct (f_insn g1 i); discriminate. }
  destruct K as [K1 K2]. assert (St : step s2 (with_f g2 s2)) by (constructor; auto).
  split; [|split; [eauto using step_trans | apply (le_phi _ _ K2), (le_phi _ _ L2), Ph1]].
  eapply iv_step; eauto. cbn. apply (iv_err s2 H2).
Qed.

Lemma read_f n : rd_f (read_var n).
Proof.
  induction n as [|n IH]; intros s reg b H B Nu; [exact I|]. cbn [read_var].
  destruct (Z.eqb_spec reg 10) as [|N10]; [cbn; auto using step_refl|]. destruct (negb _) eqn:Rg; [exact I|].
  apply negb_false_iff, andb_prop in Rg as [R1 R2]. apply Z.leb_le in R1, R2.
  destruct (l_def s reg b) as [v|] eqn:D; [cbn; auto using step_refl|]. specialize (Nu eq_refl).
  destruct (Nat.eqb_spec b 1) as [->|N1].
  { destruct (_ && _) eqn:E; cbn; [auto using step_refl|]. exfalso. apply Nu. left. split; [reflexivity|]. unfold bad. cbn.
    apply andb_false_iff in E as [E|E]; [apply Z.ltb_ge in E | apply Z.leb_gt in E]; lia. }
  destruct (l_seal s b) eqn:Sl; cbn [negb].
  2:{ eapply fine_bind; [apply new_phi_f; auto|]. intros [s1 i] (H1 & G1 & L1 & Ph). cbn [fst snd] in *.
    assert (V : valid (l_f s1) (val_insn i)).
    { destruct Ph as (H7 & x & Ex & _). unfold valid. cbn. apply (fi_live _ _ (si_f _ s1 (iv_s _ H1))). congruence. }
    assert (H2 : iv (set_inc s1 b reg i)).
    { destruct H1 as [A1 A2 A3 A4 A5]. constructor; auto.
      - destruct A1 as [F D' I']. constructor; auto. intros r' b' i'. cbn. destruct ((b' =? b) && (r' =? reg)%Z) eqn:E; [|apply I'].
        intros [= <-]. apply andb_prop in E as [E _]. apply Nat.eqb_eq in E. subst b'. exact Ph.
      - intros b' r' i'. cbn. destruct ((b' =? b) && (r' =? reg)%Z) eqn:E; [|apply A5]. intros _. apply andb_prop in E as [E E'].
        apply Nat.eqb_eq in E. apply Z.eqb_eq in E'. now subst. }
    eapply fine_bind; [apply write_f; [exact H2 | exact V]|]. intros s2 (H3 & G2 & _). cbn. split; [exact H3|].
    eapply step_trans; [exact G1|]. destruct G2 as [A1 A2 A3]. constructor; auto. }
  destruct (blk bs b) as [pb|] eqn:Eb; [|congruence]. destruct (blk_some bs s b pb (iv_s s H) Eb) as [l Q].
  unfold get_block. rewrite Q. cbn [bind b_preds].
  assert (Fp : forall p, In p (pb_preds pb) -> l_fill s (S p) = true) by (intros p Ip; eapply (iv_seal s H); eauto).
  assert (Many : fine
     (do r <- new_phi s b; (let '(s1, i) := r in do s2 <- write_var s1 reg b (val_insn i);
       do s3 <- add_phi_operands (read_var n) reg i s2; do s4 <- write_var s3 reg b (val_insn i); Ok (s4, val_insn i)))
     (fun r => iv (fst r) /\ step s (fst r))).
  { eapply fine_bind; [apply new_phi_f; [exact H | congruence]|]. intros [s1 i] (H1 & G1 & L1 & Ph). cbn [fst snd] in *.
    assert (V : valid (l_f s1) (val_insn i)).
    { destruct Ph as (H7 & x & Ex & _). unfold valid. cbn. apply (fi_live _ _ (si_f _ s1 (iv_s _ H1))). congruence. }
    eapply fine_bind; [apply write_f; [exact H1 | exact V]|]. intros s2 (H2 & G2 & L2 & _).
    eapply fine_bind.
    { apply fine_and.
      - eapply (phi_ops_f n reg i b pb s2 IH Eb); auto; [|exact (le_phi _ _ L2 _ _ Ph)].
        intros p Ip. rewrite (st_fill _ _ G2), (st_fill _ _ G1). auto.
      - apply (add_phi_safe bs False Hpred (read_var n) reg i b s2 (read_safe bs False Hpred n)); [intros [] | apply (iv_s _ H2) | exact (le_phi _ _ L2 _ _ Ph)]. }
    intros s3 ((H3 & G3) & _ & L3).
    eapply fine_bind; [apply write_f; [exact H3 | eapply valid_le; [exact L3|]; eapply valid_le; eauto]|].
    intros s4 (H4 & G4 & _). cbn. split; [exact H4 | eauto using step_trans]. }
  destruct (pb_preds pb) as [|p [|p2 ps]] eqn:Ep; cbn [map]; [exact Many| |exact Many].
  assert (Bp : blk bs (S p) <> None) by (eapply Hpred; [exact Eb | rewrite Ep; now left]).
  destruct (blk bs (S p)) as [pp|] eqn:Epp; [|congruence].
  eapply fine_bind.
  { apply fine_and; [apply IH; [exact H | congruence|] | apply (read_safe bs False Hpred n); [apply (iv_s _ H) | congruence | intros []]].
    intros Dp U. apply Nu. right. exists pb, p. split; [exact Eb|]. split; [rewrite Ep; now left|]. eapply ui_uo; eauto.
    apply (iv_def s H (S p)); auto. apply Fp. now left. }
  intros [s1 v] ((H1 & G1) & _ & L1 & V1). cbn [fst snd] in *. eapply fine_bind; [apply write_f; [exact H1 | exact V1]|].
  intros s2 (H2 & G2 & _). cbn. split; [exact H2 | eauto using step_trans].
Qed.

(** ** Instructions *)
Variable n : nat.
Variable b : nat.
Hypothesis Bb : blk bs b <> None.
Definition clear (s : lst) (r : Z) : Prop := l_def s r b = None -> ~ ui r b.
Lemma clear_step s s' r : step s s' -> clear s r -> clear s' r.
Proof. intros St C D. apply C. eapply st_none; eauto. Qed.

(** everything but safety, which is known *)
Record iw (s : lst) : Prop := {
  iw_err : l_err s = false;
  iw_seal : forall b pb p, blk bs b = Some pb -> l_seal s b = true -> In p (pb_preds pb) -> l_fill s (S p) = true;
  iw_def : forall b pb r, blk bs b = Some pb -> l_fill s b = true -> l_def s r b = None -> nowr (pb_insns pb) r;
  iw_inc : forall b r i, l_inc s b r = Some i -> ~ ui r b }.
Lemma iv_iw s : iv s -> iw s. Proof. intros [A B C D E]. constructor; auto. Qed.
Lemma iw_iv s : iw s -> sinv bs s -> iv s. Proof. intros [A B C D] H. constructor; auto. Qed.
Lemma iw_step s s' : iw s -> step s s' -> l_err s' = false -> (forall b r i, l_inc s' b r = Some i -> l_inc s b r = Some i) -> iw s'.
Proof.
  intros [B C D E] St Er Hi. constructor; auto.
  - intros c pb p Bc. rewrite (st_seal _ _ St), (st_fill _ _ St). eauto.
  - intros c pb r Bc. rewrite (st_fill _ _ St). intros F Dn. eapply D; eauto. eapply st_none; eauto.
  - intros c r i Hb. eapply E; eauto.
Qed.
Lemma write_w s r v : iw s -> fine (write_var s r b v) (fun s' => iw s' /\ step s s' /\ l_def s' r b <> None).
Proof.
  intros H. unfold write_var. destruct (_ && _); [|exact I]. cbn.
  match goal with |- iw ?z /\ _ => assert (St : step s z) end.
  { constructor; auto. intros r' b'. cbn. destruct ((r' =? r)%Z && (b' =? b)); [discriminate | auto]. }
  split; [eapply iw_step; eauto; apply (iw_err s H)|]. split; [exact St|]. rewrite Z.eqb_refl, Nat.eqb_refl. discriminate.
Qed.
Lemma emit_w' s x us : iw s -> fine (emit s b x us) (fun q => iw (fst q) /\ step s (fst q)).
Proof.
  intros H. unfold emit, get_block. destruct (f_block (l_f s) b); cbn [bind]; [|exact I].
  eapply fine_bind; [apply use_fine|]. intros g _. cbn. assert (St : step s (with_f g s)) by (constructor; auto).
  split; [eapply iw_step; eauto; apply (iw_err s H) | exact St].
Qed.
Lemma emit_write_f s x us r : iw s -> fine (do q <- emit s b x us; write_var (fst q) r b (val_insn (snd q))) (fun s' => iw s' /\ step s s' /\ l_def s' r b <> None).
Proof.
  intros H. eapply fine_bind; [now apply emit_w'|]. intros q [H1 G1]. eapply fine_imp; [now apply write_w|].
  intros s2 (H2 & G2 & D). eauto using step_trans.
Qed.
Lemma emit_ok_f s x us : iw s -> fine (do q <- emit s b x us; Ok (fst q)) (fun s' => iw s' /\ step s s').
Proof. intros H. eapply fine_bind; [now apply emit_w'|]. intros q Q. exact Q. Qed.

Lemma read_b s r : iv s -> clear s r -> fine (read_var n s r b) (fun q => iv (fst q) /\ step s (fst q)).
Proof. intros H C. apply read_f; auto. Qed.
Lemma src_b s i : iv s -> (src_x (pi_code i) = true -> clear s (pi_src i)) -> fine (get_src n s b i) (fun q => iv (fst q) /\ step s (fst q)).
Proof. intros H C. unfold get_src. destruct (src_x _); [apply read_b; auto|]. cbn. auto using step_refl. Qed.
Lemma args_b k : forall j s, j + k <= 5 -> iv s -> fine (read_args n s b j k) (fun q => iv (fst q) /\ step s (fst q)).
Proof.
  induction k as [|k IH]; intros j s L H; cbn [read_args]; [cbn; auto using step_refl|].
  eapply fine_bind; [apply read_b; [exact H|]; intros _; apply arg_set; lia|]. intros q [H1 G1].
  destruct (Nat.ltb_spec j 5); [|lia].
  eapply fine_bind; [apply IH; [lia | exact H1]|]. intros t [H2 G2]. cbn. eauto using step_trans.
Qed.
Lemma call_b s k o u : k <= 5 -> iv s ->
  fine (do r1 <- read_args n s b 0 k; do r <- emit (fst r1) b (set_u u (set_vals (snd r1) (set_op o (insn0 b)))) (snd r1);
        write_var (fst r) 0 b (val_insn (snd r))) (fun s' => iw s' /\ step s s' /\ l_def s' 0%Z b <> None).
Proof.
  intros L H. eapply fine_bind; [apply args_b; [exact L | exact H]|]. intros q [H1 G1].
  eapply fine_imp; [apply emit_write_f, iv_iw, H1|]. intros s2 (H2 & G2 & D). eauto using step_trans.
Qed.
Lemma bb_at_fine l : forall k pos, fine (bb_at l k pos) (fun _ => True).
Proof. induction l as [|x l IH]; intros k pos; cbn [bb_at]; [exact I|]. destruct (_ =? _)%Z; [exact I | apply IH]. Qed.
Lemma helper_small k a : nth_error helper_args k = Some a -> ((a < 0)%Z -> k = 6) /\ (a <= 5)%Z.
Proof.
  intros H.
  assert (K : forallb (fun q => ((if snd q <? 0 then Nat.eqb (fst q) 6%nat else true) && (snd q <=? 5))%Z) (combine (seq 0 (length helper_args)) helper_args) = true) by (vm_compute; reflexivity).
  rewrite forallb_forall in K.
  assert (Ik : In (k, a) (combine (seq 0 (length helper_args)) helper_args)).
  { assert (Lk : k < length helper_args) by (apply nth_error_Some; congruence). clear K.
    enough (G : forall (l : list Z) o k a, nth_error l k = Some a -> In (o + k, a) (combine (seq o (length l)) l)) by exact (G _ 0 k a H).
    clear. induction l as [|y l IH]; intros o k a H; [destruct k; discriminate|]. destruct k as [|k]; cbn in *.
    - injection H as ->. left. now rewrite Nat.add_0_r.
    - right. rewrite Nat.add_succ_r. apply (IH (S o) k a H). }
  specialize (K _ Ik). cbn [fst snd] in K. apply andb_prop in K as [K1 K2]. apply Z.leb_le in K2. split; [|exact K2].
  intros L. destruct (Z.ltb_spec a 0); [|lia]. apply Nat.eqb_eq in K1. exact K1.
Qed.

Definition done (s : lst) (x : pre_insn) (s' : lst) : Prop := iw s' /\ step s s' /\ forall r, In r (wr x) -> l_def s' r b <> None.
Lemma insn_w s x : iv s -> acc x -> (jmp_cls (pi_code x) = true -> opn (pi_code x) = 8%Z -> pi_src x = 6%Z -> (pi_dst x <= 5)%Z) ->
  (forall r, In r (rd x) -> clear s r) -> fine (lift_insn n bs b s x) (done s x).
Proof.
  intros H A Pe C. unfold lift_insn. unfold acc in A. unfold done, wr. unfold rd in C.
  destruct ((cls (pi_code x) =? 4)%Z || (cls (pi_code x) =? 7)%Z) eqn:Ca.
  { cbn [orb]. destruct A as (O & _ & A). unfold lift_alu. rewrite O. change (0 =? 0)%Z with true. cbv iota.
    eapply (fine_bind _ _ (fun s' => iw s' /\ step s s' /\ l_def s' (pi_dst x) b <> None)).
    2:{ intros s1 (H1 & G1 & D1). cbn. split; [exact H1|]. split; [exact G1|]. intros r [<-|[]]. exact D1. }
    assert (Un : forall o a u, (opn (pi_code x) <> 11)%Z -> fine (alu_write_un n s b x o a u) (fun s' => iw s' /\ step s s' /\ l_def s' (pi_dst x) b <> None)).
    { intros o a u N11. unfold alu_write_un. eapply fine_bind; [apply read_b; [exact H | apply C]|].
      - apply in_or_app. left. destruct (Z.eqb_spec (opn (pi_code x)) 11); [congruence | now left].
      - intros q [H1 G1]. eapply fine_imp; [apply emit_write_f, iv_iw, H1|]. intros s2 (H2 & G2 & D). eauto using step_trans. }
    destruct (bin_of (opn (pi_code x))) eqn:B.
    { assert (N : (opn (pi_code x) <> 11 /\ opn (pi_code x) <> 13)%Z) by (split; intros E; rewrite E in B; discriminate). destruct N as [N11 N13].
      unfold alu_write_bin. eapply fine_bind; [apply read_b; [exact H | apply C]|].
      - apply in_or_app. left. destruct (Z.eqb_spec (opn (pi_code x)) 11); [congruence | now left].
      - intros q [H1 G1]. eapply fine_bind; [apply src_b; [exact H1|]|].
        + intros X. eapply clear_step; [exact G1|]. apply C. apply in_or_app. right. rewrite X.
          destruct (Z.eqb_spec (opn (pi_code x)) 13); [congruence | now left].
        + intros q2 [H2 G2]. eapply fine_imp; [apply emit_write_f, iv_iw, H2|]. intros s3 (H3 & G3 & D). eauto 6 using step_trans. }
    destruct (Z.eqb_spec (opn (pi_code x)) 11) as [E11|N11].
    { eapply fine_bind; [apply src_b; [exact H|]|].
      - intros X. apply C. rewrite X. cbn. destruct (Z.eqb_spec (opn (pi_code x)) 13); [congruence | now left].
      - intros q [H1 G1]. eapply fine_imp; [apply write_w, iv_iw, H1|]. intros s2 (H2 & G2 & D). eauto using step_trans. }
    destruct (Z.eqb_spec (opn (pi_code x)) 13) as [E13|N13].
    { destruct (Z.eqb_spec (cls (pi_code x)) 4) as [|N4]; [now apply Un|]. exfalso.
      destruct A as [[A _]|[[A _]|[[_ A]|[A _]]]]; congruence. }
    destruct (Z.eqb_spec (opn (pi_code x)) 8) as [E8|N8].
    { destruct (src_x (pi_code x)) eqn:X; [|now apply Un]. exfalso. destruct A as [[A _]|[[A _]|[[A _]|[_ A]]]]; congruence. }
    exfalso. destruct A as [[A _]|[[A _]|[[A _]|[A _]]]]; congruence. }
  cbn [orb]. apply orb_false_iff in Ca as [Ca4 Ca7].
  destruct ((cls (pi_code x) =? 0)%Z && (mode (pi_code x) =? 0)%Z && (szf (pi_code x) =? 3)%Z) eqn:C0.
  { apply andb_prop in C0 as [C0 _]. apply andb_prop in C0 as [C0 _]. rewrite C0. cbn [orb].
    unfold lift_imm64. destruct A as [A _]. destruct (Z.leb_spec (pi_src x) 6); [|lia].
    eapply fine_imp; [apply emit_write_f, iv_iw, H|]. intros s1 (H1 & G1 & D1). split; [exact H1|]. split; [exact G1|]. intros r [<-|[]]. exact D1. }
  destruct ((cls (pi_code x) =? 1)%Z && ((mode (pi_code x) =? 4)%Z || (mode (pi_code x) =? 3)%Z)) eqn:C1.
  { apply andb_prop in C1 as [C1 _]. rewrite C1 in *. rewrite orb_true_r.
    unfold lift_ldx. eapply fine_bind; [apply read_b; [exact H | apply C; now left]|].
    intros q [H1 G1]. eapply fine_imp; [apply emit_write_f, iv_iw, H1|]. intros s2 (H2 & G2 & D).
    split; [exact H2|]. split; [eauto using step_trans|]. intros r [<-|[]]. exact D. }
  assert (St : forall y, clear s (pi_dst x) -> (y = true -> clear s (pi_src x)) -> fine (lift_st n s b x y) (fun s' => iw s' /\ step s s')).
  { intros y Cd Cs. unfold lift_st. eapply fine_bind; [apply read_b; [exact H | exact Cd]|]. intros q [H1 G1].
    eapply (fine_bind _ _ (fun r => iv (fst r) /\ step s (fst r))).
    - destruct y; [|cbn; auto]. eapply fine_imp; [apply read_b; [exact H1 | eapply clear_step; eauto]|]. intros q2 [H2 G2]. eauto using step_trans.
    - intros q2 [H2 G2]. eapply fine_imp; [apply emit_ok_f, iv_iw, H2|]. intros s3 [H3 G3]. eauto using step_trans. }
  assert (Cm : forall k, (cls (pi_code x) =? k)%Z = true -> cls (pi_code x) = k) by (intros k; apply Z.eqb_eq).
  destruct ((cls (pi_code x) =? 2)%Z && (mode (pi_code x) =? 3)%Z) eqn:C2.
  { apply andb_prop in C2 as [C2 _]. apply Cm in C2. unfold jmp_cls in *. rewrite C2 in *. cbn [Z.eqb orb andb] in *.
    eapply fine_imp; [apply St; [apply C; now left | discriminate]|]. intros s1 [H1 G1]. split; [exact H1|]. split; [exact G1|]. intros r []. }
  destruct ((cls (pi_code x) =? 3)%Z && (mode (pi_code x) =? 3)%Z) eqn:C3.
  { apply andb_prop in C3 as [C3 _]. apply Cm in C3. unfold jmp_cls in *. rewrite C3 in *. cbn [Z.eqb orb andb] in *.
    eapply fine_imp; [apply St; [apply C; now left | intros _; apply C; right; now left]|]. intros s1 [H1 G1]. split; [exact H1|]. split; [exact G1|]. intros r []. }
  destruct (jmp_cls (pi_code x)) eqn:J; [|destruct A].
  assert (Nc : (cls (pi_code x) =? 0)%Z = false /\ (cls (pi_code x) =? 1)%Z = false /\ (cls (pi_code x) =? 2)%Z = false /\ (cls (pi_code x) =? 3)%Z = false).
  { unfold jmp_cls in J. apply orb_prop in J as [J|J]; apply Cm in J; rewrite J; auto. }
  destruct Nc as (N0 & N1 & N2 & N3). rewrite N0, N1, N2, N3 in *. cbn [orb andb] in *.
  unfold lift_jmp.
  assert (Nil : forall s', opn (pi_code x) <> 8%Z -> iw s' /\ step s s' -> iw s' /\ step s s' /\ forall r, In r (if (opn (pi_code x) =? 8)%Z then [0%Z] else []) -> l_def s' r b <> None).
  { intros s' N8 [H1 G1]. split; [exact H1|]. split; [exact G1|]. destruct (Z.eqb_spec (opn (pi_code x)) 8); [congruence|]. intros r []. }
  destruct (Z.eqb_spec (opn (pi_code x)) 0) as [E0|NE0].
  { eapply fine_bind; [apply bb_at_fine|]. intros t _. eapply fine_imp; [apply emit_ok_f, iv_iw, H|]. intros s1 Q. apply Nil in Q; [exact Q|]. rewrite E0. discriminate. }
  destruct (Z.eqb_spec (opn (pi_code x)) 9) as [E9|NE9].
  { eapply fine_bind; [apply read_b; [exact H | apply C; now left]|]. intros q [H1 G1]. eapply fine_imp; [apply emit_ok_f, iv_iw, H1|].
    intros s2 [H2 G2]. apply Nil; [rewrite E9; discriminate | eauto using step_trans]. }
  destruct (cond_of (opn (pi_code x))) eqn:B.
  { assert (N8 : opn (pi_code x) <> 8%Z) by (intros E; rewrite E in B; discriminate). destruct (Z.eqb_spec (opn (pi_code x)) 8) as [|_]; [congruence|].
    unfold lift_cond. eapply fine_bind; [apply read_b; [exact H | apply C; now left]|]. intros q [H1 G1].
    eapply fine_bind; [apply src_b; [exact H1|]|].
    - intros X. eapply clear_step; [exact G1|]. apply C. rewrite X. right. now left.
    - intros q2 [H2 G2]. eapply fine_bind; [apply bb_at_fine|]. intros t1 _. eapply fine_bind; [apply bb_at_fine|]. intros t2 _.
      eapply fine_imp; [apply emit_ok_f, iv_iw, H2|]. intros s3 [H3 G3]. apply Nil; eauto using step_trans. }
  destruct A as [A|[A|[[A _]|(E8 & S1 & S2 & Im & A)]]]; try congruence. rewrite E8 in *. cbn [Z.eqb] in *. change (8 =? 8)%Z with true in *. cbv iota in *.
  unfold lift_call. destruct (Z.eqb_spec (pi_src x) 1); [congruence|]. destruct (Z.eqb_spec (pi_src x) 2); [congruence|]. cbn [orb].
  destruct (Z.ltb_spec (pi_imm x) 0); [lia|].
  assert (Ca : forall s', iw s' /\ step s s' /\ l_def s' 0%Z b <> None -> iw s' /\ step s s' /\ (forall r, In r [0%Z] -> l_def s' r b <> None)).
  { intros s' (H1 & G1 & D1). split; [exact H1|]. split; [exact G1|]. intros r [<-|[]]. exact D1. }
  destruct (Z.eqb_spec (pi_src x) 6) as [E6|N6].
  { eapply fine_imp; [apply call_b; [|exact H] | exact Ca]. specialize (Pe eq_refl eq_refl E6). lia. }
  destruct A as [A|A]; [congruence|]. destruct (nth_error helper_args (Z.to_nat (pi_imm x))) as [a|] eqn:Ea; [|congruence].
  destruct (helper_small _ _ Ea) as [Hs Hl].
  eapply (fine_bind _ _ (fun k => k <= 5)).
  - destruct (Z.ltb_spec a 0) as [La|La].
    + destruct (Z.eqb_spec (pi_imm x) 6); [|specialize (Hs La); lia]. cbn. unfold printk_args.
      destruct (l_def s 3%Z b); [|lia]. destruct (l_def s 4%Z b); [|lia]. destruct (l_def s 5%Z b); lia.
    + cbn. lia.
  - intros k Lk. destruct (Nat.ltb_spec 5 k); [lia|]. eapply fine_imp; [apply call_b; [exact Lk | exact H] | exact Ca].
Qed.
Lemma insn_f s x : iv s -> acc x -> (jmp_cls (pi_code x) = true -> opn (pi_code x) = 8%Z -> pi_src x = 6%Z -> (pi_dst x <= 5)%Z) ->
  (forall r, In r (rd x) -> clear s r) -> fine (lift_insn n bs b s x) (fun s' => iv s' /\ step s s' /\ forall r, In r (wr x) -> l_def s' r b <> None).
Proof.
  intros H A Pe C. eapply fine_imp; [apply fine_and; [apply insn_w; eauto | apply (insn_safe bs False Hpred); [apply (iv_s s H) | exact Bb | intros []]]|].
  intros s1 ((H1 & G1 & D1) & S1 & _). split; [now apply iw_iv|]. auto.
Qed.
End Blocks.

Section Whole.
Variable bs : list pblock.
Hypothesis Hpred : forall b pb p, blk bs b = Some pb -> In p (pb_preds pb) -> blk bs (S p) <> None.
Hypothesis Hsucc : forall b pb q, blk bs b = Some pb -> In q (pb_succs pb) -> blk bs (S q) <> None.
Variable n : nat.
(** every block that is reached: instructions of a known form, no read of an unset register *)
Hypothesis Hacc : forall k b pb x, path bs k b -> blk bs b = Some pb -> In x (pb_insns pb) -> acc x /\
  (jmp_cls (pi_code x) = true -> opn (pi_code x) = 8%Z -> pi_src x = 6%Z -> (pi_dst x <= 5)%Z).
Hypothesis Hset : forall k b pb l1 x l2 r, path bs k b -> blk bs b = Some pb -> pb_insns pb = l1 ++ x :: l2 -> In r (rd x) -> nowr l1 r -> ~ ui bs r b.

Lemma seal_f s b pb : iv bs s -> blk bs b = Some pb -> (forall p, In p (pb_preds pb) -> l_fill s (S p) = true) ->
  fine (seal_block n s b) (fun s' => iv bs s' /\ l_fill s' = l_fill s).
Proof.
  intros H B Fp. unfold seal_block.
  eapply (fine_bind _ _ (fun s' => iv bs s' /\ step s s')).
  - eapply (fine_ofold _ (fun s' => iv bs s' /\ step s s')); [auto using step_refl|].
    intros s1 r Ir (H1 & G1). destruct (l_inc s1 b r) as [i|] eqn:E; [|cbn; auto].
    eapply fine_imp; [eapply (phi_ops_f bs Hpred n r i b pb s1 (read_f bs Hpred n) B); auto|].
    + intros p Ip. rewrite (st_fill _ _ G1). auto.
    + eapply (iv_inc bs s1 H1); eauto.
    + apply (si_inc _ s1 (iv_s bs s1 H1) r b i E).
    + intros s2 [H2 G2]. eauto using step_trans.
  - intros s1 (H1 & G1). cbn. split; [|exact (st_fill _ _ G1)]. destruct H1 as [A1 A2 A3 A4 A5]. constructor; auto.
    + destruct A1 as [F D' I']. constructor; auto.
    + intros b' pb' p Hb'. cbn. destruct (Nat.eqb_spec b' b) as [->|]; [|eauto]. intros _ Ip.
      rewrite (st_fill _ _ G1). apply Fp. congruence.
Qed.

Lemma transform_f : forall m k s b, iv bs s -> path bs k b -> blk bs b <> None -> fine (transform m n bs s b) (fun s' => iv bs s').
Proof.
  induction m as [|m IH]; intros k s b H P B; [exact I|]. cbn [transform]. destruct (l_seal s b); [exact H|].
  destruct b as [|b']; [now destruct B|]. destruct (blk bs (S b')) as [pb|] eqn:Eb; [|congruence].
  cbn [pred]. assert (Nb : nth_error bs b' = Some pb) by exact Eb. rewrite Nb.
  eapply (fine_bind _ _ (fun s' => iv bs s' /\ l_fill s' = l_fill s)).
  { destruct (forallb _ _) eqn:Fa; [|cbn; auto]. eapply seal_f; eauto. intros p Ip. rewrite forallb_forall in Fa. now apply Fa. }
  intros s1 (H1 & F1). destruct (l_fill s1 (S b')) eqn:Fb; [exact H1|].
  assert (Fold : forall l2 l1 s, pb_insns pb = l1 ++ l2 -> iv bs s -> l_fill s = l_fill s1 -> (forall r x, In x l1 -> In r (wr x) -> l_def s r (S b') <> None) ->
    fine (ofold (lift_insn n bs (S b')) s l2) (fun s' => iv bs s' /\ l_fill s' = l_fill s1 /\ forall r x, In x (pb_insns pb) -> In r (wr x) -> l_def s' r (S b') <> None)).
  { induction l2 as [|x l2 IHl]; intros l1 s2 El H2 F2 D2; cbn [ofold].
    - cbn. split; [exact H2|]. split; [exact F2|]. rewrite El, app_nil_r. exact D2.
    - assert (Ix : In x (pb_insns pb)) by (rewrite El; apply in_or_app; right; now left).
      destruct (Hacc k (S b') pb x P Eb Ix) as [Ax Px].
      eapply fine_bind; [apply (insn_f bs Hpred n (S b')); [congruence | exact H2 | exact Ax | exact Px|]|].
      + intros r Ir Dn. eapply (Hset k (S b') pb l1 x l2 r P Eb El Ir). intros y Iy Wy. exact (D2 r y Iy Wy Dn).
      + intros s3 (H3 & G3 & D3). apply (IHl (l1 ++ [x])); [now rewrite <- app_assoc | exact H3 | rewrite (st_fill _ _ G3); exact F2|].
        intros r y Iy Wy. apply in_app_or in Iy as [Iy|[<-|[]]]; [apply (st_def _ _ G3), (D2 r y Iy Wy) | exact (D3 r Wy)]. }
  eapply fine_bind; [apply (Fold (pb_insns pb) [] s1); auto; intros r x []|].
  intros s2 (H2 & F2 & D2).
  set (s3 := mkL (l_f s2) (l_def s2) (l_inc s2) (l_seal s2) (fun x => if x =? S b' then true else l_fill s2 x) (l_err s2)).
  assert (H3 : iv bs s3).
  { destruct H2 as [A1 A2 A3 A4 A5]. constructor; auto.
    - destruct A1 as [F D' I']. constructor; auto.
    - intros c pc p Bc Sc Ip. cbn. destruct (p =? b'); [reflexivity|]. exact (A3 c pc p Bc Sc Ip).
    - intros c pc r Bc Fc Dc. cbn in Fc, Dc. destruct (Nat.eqb_spec c (S b')) as [->|]; [|eapply A4; eauto].
      assert (pc = pb) by congruence. subst pc. intros x Ix Wx. exact (D2 r x Ix Wx Dc). }
  eapply (fine_ofold _ (fun s' => iv bs s')); [exact H3|].
  intros s4 q Iq H4. eapply fine_bind.
  - eapply (IH (S k) s4 (S q) H4); [econstructor; eauto | eapply (Hsucc (S b')); [exact Eb | exact Iq]].
  - intros t Ht. rewrite (iv_err bs t Ht). exact Ht.
Qed.

Lemma lift_blocks_f m : bs <> [] -> lift_blocks m n bs <> Err.
Proof.
  intros Ne. unfold lift_blocks.
  assert (T : fine (transform m n bs (init_lst bs) 1) (fun s' => iv bs s')).
  { eapply (transform_f m 0).
    - constructor; [apply init_sinv | reflexivity | discriminate | discriminate | discriminate].
    - constructor.
    - cbn. destruct bs; [congruence | discriminate]. }
  destruct (transform m n bs (init_lst bs) 1) as [s| | | |]; cbn in *; try discriminate; [rewrite (iv_err bs s T); discriminate | destruct T].
Qed.
End Whole.
