(** The lifter terminates: a bound on the recursion depth in terms of the number of blocks. *)
From Coq Require Import ZArith List Bool Arith Lia.
From Verif Require Import M_Base M_Ir M_Edit SpecWord SpecIsa M_GenBB M_Lift SpecIr L_Edit L_Lift L_LiftRead L_LiftRun L_LiftSafe.
Import ListNotations.
Open Scope nat_scope.

Definition term {A} (o : outcome A) (Q : A -> Prop) : Prop :=
  match o with Ok a => Q a | NoFuel => False | _ => True end.
Lemma term_bind {A B} (o : outcome A) (f : A -> outcome B) (P : A -> Prop) Q :
  term o P -> (forall a, P a -> term (f a) Q) -> term (bind o f) Q.
Proof. destruct o; cbn; auto. Qed.
Lemma term_imp {A} (o : outcome A) (P Q : A -> Prop) : term o P -> (forall a, P a -> Q a) -> term o Q.
Proof. destruct o; cbn; auto. Qed.
Lemma term_and {A} (o : outcome A) (P Q : A -> Prop) : term o P -> holds False o Q -> term o (fun a => P a /\ Q a).
Proof. destruct o; cbn; auto. Qed.
Lemma term_ofold {S A} (f : S -> A -> outcome S) (J : S -> Prop) l : forall s, J s ->
  (forall s a, In a l -> J s -> term (f s a) J) -> term (ofold f s l) J.
Proof.
  induction l as [|a l IH]; intros s H K; cbn [ofold]; [exact H|].
  eapply term_bind; [apply K; [now left | exact H]|]. intros s1 H1. apply IH; [exact H1|]. intros; apply K; [now right | assumption].
Qed.

Definition cnt (P : nat -> bool) (N : nat) : nat := length (filter P (seq 1 N)).
Lemma cnt_le P Q N : (forall b, P b = true -> Q b = true) -> cnt P N <= cnt Q N.
Proof.
  intros H. unfold cnt. induction (seq 1 N) as [|x l IH]; cbn; [lia|].
  destruct (P x) eqn:E; [rewrite (H x E); cbn; lia|]. destruct (Q x); cbn; lia.
Qed.
Lemma cnt_lt P Q N b : (forall b, P b = true -> Q b = true) -> 1 <= b <= N -> P b = false -> Q b = true -> cnt P N < cnt Q N.
Proof.
  intros H Hb Pb Qb. unfold cnt. assert (I : In b (seq 1 N)) by (apply in_seq; lia).
  induction (seq 1 N) as [|x l IH]; cbn; [destruct I|]. destruct I as [->|I].
  - rewrite Pb, Qb. cbn. pose proof (cnt_le P Q) as L. unfold cnt in L.
    assert (length (filter P l) <= length (filter Q l)).
    { clear -H. induction l as [|y l IH]; cbn; [lia|]. destruct (P y) eqn:E; [rewrite (H y E); cbn; lia|]. destruct (Q y); cbn; lia. }
    lia.
  - specialize (IH I). destruct (P x) eqn:E; [rewrite (H x E); cbn; lia|]. destruct (Q x); cbn; lia.
Qed.
Lemma cnt_max P N : cnt P N <= N.
Proof.
  unfold cnt. rewrite <- (seq_length N 1) at 2. induction (seq 1 N) as [|x l IH]; cbn; [lia|]. destruct (P x); cbn; lia.
Qed.

Section Term.
Variable bs : list pblock.
Hypothesis Hpred : forall b pb p, blk bs b = Some pb -> In p (pb_preds pb) -> blk bs (S p) <> None.
Hypothesis Hsucc : forall b pb q, blk bs b = Some pb -> In q (pb_succs pb) -> blk bs (S q) <> None.
Hypothesis Hmir : forall p q pp pq, blk bs (S p) = Some pp -> blk bs (S q) = Some pq -> (In q (pb_succs pp) <-> In p (pb_preds pq)).
Let N := length bs.

Lemma blk_range b : blk bs b <> None -> 1 <= b <= N.
Proof. destruct b as [|k]; [intros H; now destruct H|]. cbn. intros H. apply nth_error_Some in H. unfold N. lia. Qed.

Lemma path_single k b pb p : path bs k b -> b <> 1 -> blk bs b = Some pb -> pb_preds pb = [p] -> exists k', k = S k' /\ path bs k' (S p).
Proof.
  intros P Nb B E. destruct P as [|k b0 pb0 c P B0 Hc]; [congruence|]. exists k. split; [reflexivity|].
  destruct b0 as [|a]; [discriminate|]. apply (Hmir a c pb0 pb B0 B) in Hc. rewrite E in Hc. destruct Hc as [->|[]]. exact P.
Qed.

Record jinv (s : lst) : Prop := {
  ji_seal : forall b pb p, blk bs b = Some pb -> l_seal s b = true -> In p (pb_preds pb) -> l_fill s (S p) = true;
  ji_fill : forall b, l_fill s b = true -> exists k, k <= N /\ path bs k b }.
Record grow (s s' : lst) : Prop := {
  gr_seal : forall b, l_seal s' b = l_seal s b;
  gr_fill : forall b, l_fill s' b = l_fill s b;
  gr_def : forall r b, l_def s r b <> None -> l_def s' r b <> None }.
Lemma grow_refl s : grow s s. Proof. constructor; auto. Qed.
Lemma grow_trans s1 s2 s3 : grow s1 s2 -> grow s2 s3 -> grow s1 s3.
Proof. intros [A B C] [A' B' C']. constructor; intros; [rewrite A'; apply A | rewrite B'; apply B | auto]. Qed.
Lemma jinv_grow s s' : grow s s' -> jinv s -> jinv s'.
Proof.
  intros [A B C] [H K]. constructor.
  - intros b pb p Hb. rewrite A, B. apply H, Hb.
  - intros b. rewrite B. apply K.
Qed.

(** how many blocks can still get an entry for register [r] *)
Definition undef (s : lst) (r : Z) : nat := cnt (fun b => match l_def s r b with None => true | Some _ => false end) N.
Lemma undef_grow s s' r : grow s s' -> undef s' r <= undef s r.
Proof.
  intros G. apply cnt_le. intros b. pose proof (gr_def _ _ G r b) as K.
  destruct (l_def s r b); [|reflexivity]. destruct (l_def s' r b); [discriminate|]. exfalso. apply K; [discriminate | reflexivity].
Qed.

Lemma write_term s r b v : term (write_var s r b v) (fun s' => grow s s' /\ (l_def s r b = None -> 1 <= b <= N -> undef s' r < undef s r)).
Proof.
  unfold write_var. destruct (_ && _); [|exact I]. cbn. split.
  - constructor; auto. intros r' b'. cbn. destruct ((r' =? r)%Z && (b' =? b)); [discriminate | auto].
  - intros D R. apply cnt_lt with (b := b); auto.
    + intros b'. cbn. rewrite Z.eqb_refl. cbn. destruct (b' =? b); [discriminate | auto].
    + cbn. now rewrite Z.eqb_refl, Nat.eqb_refl.
    + now rewrite D.
Qed.
Lemma grow_with f s : grow s (with_f f s). Proof. constructor; auto. Qed.
Lemma new_phi_term s b : term (new_phi s b) (fun r => grow s (fst r) /\ forall r' b', l_def (fst r) r' b' = l_def s r' b').
Proof. unfold new_phi, get_block. destruct (f_block (l_f s) b); cbn; [|exact I]. split; [apply grow_with | reflexivity]. Qed.
Lemma use_term i us : forall g, term (ofold (fun g v => use_val g i v) g us) (fun _ => True).
Proof. intros g. apply term_ofold; [exact I|]. intros g' v _ _. unfold use_val, get_insn. destruct (v_data v); cbn; auto. destruct (f_insn g' i0); exact I. Qed.
Lemma emit_term s b x us : term (emit s b x us) (fun r => grow s (fst r)).
Proof.
  unfold emit, get_block. destruct (f_block (l_f s) b); cbn [bind]; [|exact I].
  eapply term_bind; [apply use_term|]. intros g _. apply grow_with.
Qed.

Definition rd_term (rd : lst -> Z -> nat -> outcome (lst * value)) (u kk : nat) : Prop := forall s reg b k,
  sinv bs s -> jinv s -> path bs k b -> k <= kk -> blk bs b <> None -> undef s reg <= u ->
  term (rd s reg b) (fun r => grow s (fst r)).

Lemma phi_ops_term n u reg i c pb s : rd_term (read_var n) u N ->
  blk bs c = Some pb -> l_seal s c = true \/ (forall p, In p (pb_preds pb) -> l_fill s (S p) = true) ->
  sinv bs s -> jinv s -> isphi s c i -> undef s reg <= u ->
  term (add_phi_operands (read_var n) reg i s) (fun s' => grow s s').
Proof.
  intros Rd Bc Sl H J Ph U. destruct Ph as (H7 & x & Ex & O & P).
  assert (Ph0 : isphi s c i) by (split; eauto).
  unfold add_phi_operands, get_insn. rewrite Ex. cbn [bind]. rewrite O. change (negb (iop_eqb PHI PHI)) with false. cbv iota.
  destruct (blk_some bs s c pb H Bc) as [l Q]. rewrite P. unfold get_block. rewrite Q. cbn [bind b_preds].
  unfold phi_ops.
  eapply term_imp; [apply (term_ofold _ (fun s' => sinv bs s' /\ grow s s' /\ isphi s' c i)); [auto using grow_refl|] | cbn; tauto].
  intros s1 p Ip (H1 & G1 & Ph1). apply in_map_iff in Ip as (q & <- & Iq).
  assert (Bq : blk bs (S q) <> None) by eauto.
  assert (Fq : l_fill s (S q) = true) by (destruct Sl as [Sl|Sl]; [eapply (ji_seal s J); eauto | auto]).
  destruct (ji_fill s J _ Fq) as (k & Lk & Pk).
  eapply term_bind.
  { apply term_and; [eapply (Rd s1 reg (S q) k); eauto using jinv_grow | apply (read_safe bs False Hpred n); auto; intros []].
    pose proof (undef_grow s s1 reg G1). lia. }
  intros [s2 v] (G2 & H2 & L2 & V2). cbn [fst snd] in *.
  pose proof (phi_push_safe bs False s2 i v (S q) c H2 (le_phi _ _ L2 _ _ Ph1) V2) as K.
  destruct (use_val (l_f s2) i v) as [g1| | | |] eqn:E1; cbn [bind holds term] in *; auto.
  2:{ unfold use_val, get_insn in E1. destruct (v_data v); try discriminate. destruct (f_insn (l_f s2) i0); discriminate. }
  destruct (push_phi g1 i v (S q)) as [g2| | | |] eqn:E2; cbn [bind holds term] in *; auto.
  2:{ unfold push_phi, get_insn in E2. destruct (f_insn g1 i); discriminate. }
  destruct K as [K1 K2]. split; [exact K1|]. split; [eauto using grow_trans, grow_with|].
  apply (le_phi _ _ K2), (le_phi _ _ L2), Ph1.
Qed.

Lemma read_term n : forall u k s reg b, sinv bs s -> jinv s -> path bs k b -> k <= N -> blk bs b <> None ->
  undef s reg <= u -> u * (N + 2) + k + 1 <= n -> term (read_var n s reg b) (fun r => grow s (fst r)).
Proof.
  induction n as [|n IH]; intros u k s reg b H J P Lk B U F; [lia|]. cbn [read_var].
  destruct (reg =? 10)%Z; [apply grow_refl|]. destruct (negb _); [exact I|].
  destruct (l_def s reg b) as [v|] eqn:D; [apply grow_refl|].
  destruct (Nat.eqb_spec b 1) as [->|N1].
  { destruct (_ && _); cbn; [apply grow_refl | constructor; auto]. }
  pose proof (blk_range b B) as Rb.
  destruct (l_seal s b) eqn:Sl; cbn [negb].
  2:{ eapply term_bind; [apply new_phi_term|]. intros [s1 i] [G1 D1]. cbn [fst] in *.
    eapply term_bind; [apply write_term|]. intros s2 [G2 _]. cbn. eapply grow_trans; [exact G1|].
    destruct G2 as [A C E]. constructor; auto. }
  destruct (blk bs b) as [pb|] eqn:Eb; [|congruence]. destruct (blk_some bs s b pb H Eb) as [l Q].
  unfold get_block. rewrite Q. cbn [bind b_preds].
  assert (Many : term
     (do r <- new_phi s b; (let '(s1, i) := r in do s2 <- write_var s1 reg b (val_insn i);
       do s3 <- add_phi_operands (read_var n) reg i s2; do s4 <- write_var s3 reg b (val_insn i); Ok (s4, val_insn i)))
     (fun r => grow s (fst r))).
  { assert (U1 : 1 <= undef s reg).
    { pose proof (cnt_lt (fun _ => false) (fun b => match l_def s reg b with None => true | Some _ => false end) N b) as K.
      unfold undef. enough (cnt (fun _ => false) N < cnt (fun b => match l_def s reg b with None => true | Some _ => false end) N) by lia.
      apply K; auto; [discriminate | now rewrite D]. }
    destruct u as [|u]; [lia|].
    eapply term_bind; [apply term_and; [apply new_phi_term | apply (new_phi_safe bs False); [exact H | congruence]]|].
    intros [s1 i] ((G1 & D1) & H1 & L1 & Ph). cbn [fst snd] in *.
    assert (V : valid (l_f s1) (val_insn i)).
    { destruct Ph as (H7 & x & Ex & _). unfold valid. cbn. apply (fi_live _ _ (si_f _ s1 H1)). congruence. }
    eapply term_bind; [apply term_and; [apply write_term | apply (write_safe bs False); [exact H1 | exact V | intros []]]|].
    intros s2 ((G2 & U2) & H2 & L2). specialize (U2 ltac:(now rewrite D1) Rb).
    eapply term_bind.
    { eapply (phi_ops_term n u reg i b pb s2).
      - intros s' reg' b' k' H' J' P' L' B' U'. eapply (IH u k'); eauto. nia.
      - exact Eb.
      - left. now rewrite (gr_seal _ _ G2), (gr_seal _ _ G1).
      - exact H2.
      - eauto using jinv_grow.
      - exact (le_phi _ _ L2 _ _ Ph).
      - pose proof (undef_grow s s1 reg G1). lia. }
    intros s3 G3. eapply term_bind; [apply write_term|]. intros s4 [G4 _]. cbn. eauto using grow_trans. }
  destruct (pb_preds pb) as [|p [|p2 ps]] eqn:Ep; cbn [map]; [exact Many| |exact Many].
  destruct (path_single k b pb p P N1 Eb Ep) as (k' & -> & P').
  eapply term_bind; [eapply (IH u k'); eauto; [lia | eapply Hpred; [exact Eb | rewrite Ep; now left] | lia]|].
  intros [s1 v] G1. cbn [fst snd] in *. eapply term_bind; [apply write_term|]. intros s2 [G2 _]. cbn. eauto using grow_trans.
Qed.

(** ** Instructions *)
Variable n : nat.
Hypothesis Hn : (N + 2) * (N + 2) <= n.
Definition ok (b : nat) (s0 s : lst) : Prop := sinv bs s /\ jinv s /\ grow s0 s.
Variable b : nat.
Hypothesis Hb : exists k, k <= N /\ path bs k b.
Hypothesis Bb : blk bs b <> None.

Lemma read_t s reg : sinv bs s -> jinv s -> term (read_var n s reg b) (fun r => ok b s (fst r) /\ valid (l_f (fst r)) (snd r)).
Proof.
  intros H J. destruct Hb as (k & Lk & P). eapply term_imp.
  - apply term_and; [eapply (read_term n N k s reg b); eauto; [apply cnt_max | nia] | apply (read_safe bs False Hpred n); auto; intros []].
  - intros [s1 v] (G & H1 & _ & V). cbn [fst snd] in *. split; [|exact V]. split; [exact H1|]. split; [eauto using jinv_grow | exact G].
Qed.
Lemma src_t s i : sinv bs s -> jinv s -> term (get_src n s b i) (fun r => ok b s (fst r) /\ valid (l_f (fst r)) (snd r)).
Proof.
  intros H J. unfold get_src. destruct (src_x (pi_code i)); [now apply read_t|]. cbn. split; [|exact I].
  split; [exact H|]. split; [exact J | apply grow_refl].
Qed.
Lemma ok_trans s0 s1 s2 : ok b s0 s1 -> ok b s1 s2 -> ok b s0 s2.
Proof. intros (A & B & C) (A' & B' & C'). split; [exact A'|]. split; [exact B' | eauto using grow_trans]. Qed.
Lemma ok_refl s : sinv bs s -> jinv s -> ok b s s.
Proof. intros; split; [assumption|]; split; [assumption | apply grow_refl]. Qed.

(** emitting and writing never runs out of fuel *)
Lemma emit_w s x us r : term (do q <- emit s b x us; write_var (fst q) r b (val_insn (snd q))) (fun s' => grow s s').
Proof.
  eapply term_bind; [apply emit_term|]. intros [s1 i] G1. cbn [fst snd] in *.
  eapply term_imp; [apply write_term|]. cbn. intros s2 [G2 _]. eauto using grow_trans.
Qed.
Lemma emit_o s x us : term (do q <- emit s b x us; Ok (fst q)) (fun s' => grow s s').
Proof. eapply term_bind; [apply emit_term|]. intros [s1 i] G1. exact G1. Qed.

Lemma args_t k : forall j s, sinv bs s -> jinv s -> term (read_args n s b j k) (fun r => ok b s (fst r)).
Proof.
  induction k as [|k IH]; intros j s H J; cbn [read_args]; [now apply ok_refl|].
  eapply term_bind; [apply read_t; auto|]. intros [s1 v1] [O1 V1]. cbn [fst snd] in *.
  destruct (j <? 5); [|exact I]. destruct O1 as (H1 & J1 & G1). eapply term_bind; [apply IH; auto|].
  intros [s2 l] O2. cbn in *. eapply ok_trans; [|exact O2]. split; auto.
Qed.
Lemma call_t s k o u : sinv bs s -> jinv s ->
  term (do r1 <- read_args n s b 0 k; do r <- emit (fst r1) b (set_u u (set_vals (snd r1) (set_op o (insn0 b)))) (snd r1);
        write_var (fst r) 0 b (val_insn (snd r))) (fun s' => grow s s').
Proof.
  intros H J. eapply term_bind; [apply args_t; auto|]. intros [s1 l] (H1 & J1 & G1). cbn [fst snd] in *.
  eapply term_imp; [apply emit_w|]. cbn. eauto using grow_trans.
Qed.
Lemma bb_at_t l : forall k pos, term (bb_at l k pos) (fun _ => True).
Proof. induction l as [|x l IH]; intros k pos; cbn [bb_at]; [exact I|]. destruct (_ =? _)%Z; [exact I | apply IH]. Qed.

Lemma insn_grow s i : sinv bs s -> jinv s -> term (lift_insn n bs b s i) (fun s' => grow s s').
Proof.
  intros H J. unfold lift_insn. destruct (_ || _).
  { unfold lift_alu. eapply (term_bind _ _ (fun s' => grow s s')).
    2:{ intros s1 H1. destruct (pi_off i =? 0)%Z; [exact H1 | exact I]. }
    assert (Un : forall o a u, term (alu_write_un n s b i o a u) (fun s' => grow s s')).
    { intros o a u. unfold alu_write_un. eapply term_bind; [apply read_t; auto|]. intros [s1 v1] [(H1 & J1 & G1) V1]. cbn [fst snd] in *.
      eapply term_imp; [apply emit_w|]. cbn. eauto using grow_trans. }
    destruct (bin_of (opn (pi_code i))).
    { unfold alu_write_bin. eapply term_bind; [apply read_t; auto|]. intros [s1 v1] [(H1 & J1 & G1) V1]. cbn [fst snd] in *.
      eapply term_bind; [apply src_t; auto|]. intros [s2 v2] [(H2 & J2 & G2) V2]. cbn [fst snd] in *.
      eapply term_imp; [apply emit_w|]. cbn. eauto using grow_trans. }
    destruct (opn (pi_code i) =? 11)%Z.
    { eapply term_bind; [apply src_t; auto|]. intros [s2 v2] [(H2 & J2 & G2) V2]. cbn [fst snd] in *.
      eapply term_imp; [apply write_term|]. cbn. intros s3 [G3 _]. eauto using grow_trans. }
    destruct (opn (pi_code i) =? 13)%Z; [destruct (cls (pi_code i) =? 4)%Z; [apply Un | exact I]|].
    destruct (opn (pi_code i) =? 8)%Z; [|exact I]. destruct (src_x (pi_code i)); [exact I | apply Un]. }
  destruct ((cls (pi_code i) =? 0)%Z && _ && _).
  { unfold lift_imm64. destruct (pi_src i <=? 6)%Z; [|exact I]. apply emit_w. }
  destruct ((cls (pi_code i) =? 1)%Z && _).
  { unfold lift_ldx. eapply term_bind; [apply read_t; auto|]. intros [s1 v1] [(H1 & J1 & G1) V1]. cbn [fst snd] in *.
    eapply term_imp; [apply emit_w|]. cbn. eauto using grow_trans. }
  assert (St : forall x, term (lift_st n s b i x) (fun s' => grow s s')).
  { intros x. unfold lift_st. eapply term_bind; [apply read_t; auto|]. intros [s1 v1] [(H1 & J1 & G1) V1]. cbn [fst snd] in *.
    eapply (term_bind _ _ (fun r => ok b s1 (fst r))).
    { destruct x; [eapply term_imp; [apply read_t; auto | cbn; tauto] | now apply ok_refl]. }
    intros [s2 v2] (H2 & J2 & G2). cbn [fst snd] in *. eapply term_imp; [apply emit_o|]. cbn. eauto using grow_trans. }
  destruct ((cls (pi_code i) =? 2)%Z && _); [apply St|]. destruct ((cls (pi_code i) =? 3)%Z && _); [apply St|].
  destruct (jmp_cls (pi_code i)); [|exact I]. unfold lift_jmp. destruct (opn (pi_code i) =? 0)%Z.
  { eapply term_bind; [apply bb_at_t|]. intros t _. apply emit_o. }
  destruct (opn (pi_code i) =? 9)%Z.
  { eapply term_bind; [apply read_t; auto|]. intros [s1 v1] [(H1 & J1 & G1) V1]. cbn [fst snd] in *.
    eapply term_imp; [apply emit_o|]. cbn. eauto using grow_trans. }
  destruct (cond_of (opn (pi_code i))).
  { unfold lift_cond. eapply term_bind; [apply read_t; auto|]. intros [s1 v1] [(H1 & J1 & G1) V1]. cbn [fst snd] in *.
    eapply term_bind; [apply src_t; auto|]. intros [s2 v2] [(H2 & J2 & G2) V2]. cbn [fst snd] in *.
    eapply term_bind; [apply bb_at_t|]. intros t1 _. eapply term_bind; [apply bb_at_t|]. intros t2 _.
    eapply term_imp; [apply emit_o|]. cbn. eauto using grow_trans. }
  destruct (opn (pi_code i) =? 8)%Z; [|exact I]. unfold lift_call. destruct (_ || _); [exact I|].
  destruct (pi_imm i <? 0)%Z; [exact I|]. destruct (pi_src i =? 6)%Z; [now apply call_t|].
  destruct (nth_error helper_args (Z.to_nat (pi_imm i))) as [a|]; [|exact I].
  eapply (term_bind _ _ (fun _ => True)).
  { destruct (a <? 0)%Z; [destruct (pi_imm i =? 6)%Z|]; exact I. }
  intros k _. destruct (5 <? k); [exact I | now apply call_t].
Qed.
Lemma insn_t s i : sinv bs s -> jinv s -> term (lift_insn n bs b s i) (fun s' => ok b s s').
Proof.
  intros H J. eapply term_imp.
  - apply term_and; [now apply insn_grow | apply (insn_safe bs False Hpred); auto; intros []].
  - cbn. intros s1 (G & H1 & _). split; [exact H1|]. split; [eauto using jinv_grow | exact G].
Qed.

Lemma seal_t s pb : sinv bs s -> jinv s -> blk bs b = Some pb ->
  (forall p, In p (pb_preds pb) -> l_fill s (S p) = true) ->
  term (seal_block n s b) (fun s' => sinv bs s' /\ jinv s' /\ forall c, l_fill s' c = l_fill s c).
Proof.
  intros H J B Fp. unfold seal_block.
  eapply (term_bind _ _ (fun s' => ok b s s')).
  - eapply (term_ofold _ (fun s' => ok b s s')); [now apply ok_refl|].
    intros s1 r Ir (H1 & J1 & G1). destruct (l_inc s1 b r) as [i|] eqn:E; [|cbn; split; auto].
    eapply term_imp.
    + apply term_and; [eapply (phi_ops_term n N r i b pb s1); eauto | apply (add_phi_safe bs False Hpred (read_var n) r i b s1 (read_safe bs False Hpred n))].
      * intros s' reg' b' k' H' J' P' L' B' U'. eapply (read_term n N k'); eauto. nia.
      * right. intros p Ip. rewrite (gr_fill _ _ G1). auto.
      * apply (si_inc _ s1 H1 r b i E).
      * apply cnt_max.
      * intros [].
      * exact H1.
      * apply (si_inc _ s1 H1 r b i E).
    + cbn. intros s2 (G2 & H2 & _). split; [exact H2|]. split; [eauto using jinv_grow | eauto using grow_trans].
  - cbn. intros s1 (H1 & J1 & G1). split; [|split; [|apply (gr_fill _ _ G1)]].
    + destruct H1 as [F D' I']. constructor; auto.
    + destruct J1 as [Js Jf]. constructor; cbn; [|exact Jf].
      intros b' pb' p Hb'. destruct (Nat.eqb_spec b' b) as [->|]; [|now apply Js].
      intros _ Ip. rewrite (gr_fill _ _ G1). apply Fp. congruence.
Qed.
End Term.

Section Dfs.
Variable bs : list pblock.
Hypothesis Hpred : forall b pb p, blk bs b = Some pb -> In p (pb_preds pb) -> blk bs (S p) <> None.
Hypothesis Hsucc : forall b pb q, blk bs b = Some pb -> In q (pb_succs pb) -> blk bs (S q) <> None.
Hypothesis Hmir : forall p q pp pq, blk bs (S p) = Some pp -> blk bs (S q) = Some pq -> (In q (pb_succs pp) <-> In p (pb_preds pq)).
Let N := length bs.
Variable n : nat.
Hypothesis Hn : (N + 2) * (N + 2) <= n.

Definition unfilled (s : lst) : nat := cnt (fun b => negb (l_fill s b)) N.
Lemma unfilled_le s s' : (forall b, l_fill s b = true -> l_fill s' b = true) -> unfilled s' <= unfilled s.
Proof. intros H. apply cnt_le. intros b K. apply negb_true_iff in K. apply negb_true_iff. destruct (l_fill s b) eqn:E; [rewrite (H b E) in K; discriminate | reflexivity]. Qed.

Lemma transform_t : forall m k s b, sinv bs s -> jinv bs s -> path bs k b -> blk bs b <> None -> k + unfilled s <= N ->
  unfilled s + 1 <= m ->
  term (transform m n bs s b) (fun s' => sinv bs s' /\ jinv bs s' /\ forall c, l_fill s c = true -> l_fill s' c = true).
Proof.
  induction m as [|m IH]; intros k s b H J P B Lk Lm; [lia|]. cbn [transform]. destruct (l_seal s b); [cbn; auto|].
  destruct b as [|b']; [now destruct B|]. destruct (blk bs (S b')) as [pb|] eqn:Eb; [|congruence].
  cbn [pred]. cbn [blk] in Eb. rewrite Eb.
  assert (Bk : blk bs (S b') <> None) by (cbn [blk]; rewrite Eb; discriminate).
  assert (Hb : exists k, k <= length bs /\ path bs k (S b')) by (exists k; split; [unfold N in *; lia | exact P]).
  eapply (term_bind _ _ (fun s' => sinv bs s' /\ jinv bs s' /\ forall c, l_fill s' c = l_fill s c)).
  { destruct (forallb _ _) eqn:Fa; [|cbn; auto]. eapply seal_t; eauto.
    intros p Ip. rewrite forallb_forall in Fa. now apply Fa. }
  intros s1 (H1 & J1 & F1). destruct (l_fill s1 (S b')) eqn:Fb; [cbn; split; [exact H1|]; split; [exact J1|]; intros c; now rewrite F1|].
  eapply (term_bind _ _ (fun s' => sinv bs s' /\ jinv bs s' /\ forall c, l_fill s' c = l_fill s c)).
  { eapply (term_ofold _ (fun s' => sinv bs s' /\ jinv bs s' /\ forall c, l_fill s' c = l_fill s c)); [auto|].
    intros s2 i Ii (H2 & J2 & F2). eapply term_imp; [eapply insn_t; eauto|].
    cbn. intros s3 (H3 & J3 & G3). split; [exact H3|]. split; [exact J3|]. intros c. now rewrite (gr_fill _ _ G3). }
  intros s2 (H2 & J2 & F2).
  set (s3 := mkL (l_f s2) (l_def s2) (l_inc s2) (l_seal s2) (fun x => if x =? S b' then true else l_fill s2 x) (l_err s2)).
  assert (H3 : sinv bs s3) by (destruct H2 as [F D' I']; constructor; auto).
  assert (Fs : forall c, l_fill s2 c = true -> l_fill s3 c = true) by (intros c Hc; cbn; destruct (c =? S b'); auto).
  assert (J3 : jinv bs s3).
  { destruct J2 as [Js Jf]. constructor; cbn.
    - intros c pc p Hc Sc Ip. destruct (p =? b'); [reflexivity | exact (Js c pc p Hc Sc Ip)].
    - intros c. destruct (Nat.eqb_spec c (S b')) as [->|]; [intros _; exact Hb | apply Jf]. }
  assert (U3 : unfilled s3 < unfilled s).
  { apply cnt_lt with (b := S b').
    - intros c. cbn. destruct (c =? S b'); [discriminate|]. now rewrite F2.
    - apply (blk_range bs); auto.
    - cbn. now rewrite Nat.eqb_refl.
    - rewrite <- F1, Fb. reflexivity. }
  eapply term_imp.
  - eapply (term_ofold _ (fun s' => sinv bs s' /\ jinv bs s' /\ forall c, l_fill s3 c = true -> l_fill s' c = true)); [auto|].
    intros s4 q Iq (H4 & J4 & F4). pose proof (unfilled_le s3 s4 F4) as U4.
    eapply term_bind.
    + eapply (IH (S k) s4 (S q) H4 J4); [econstructor; eauto | eapply (Hsucc (S b')); [exact Eb | exact Iq] | lia | lia].
    + intros t (Ht & Jt & Ft). destruct (l_err t); [exact I|]. cbn. split; [exact Ht|]. split; [exact Jt|]. auto.
  - cbn beta. intros s5 (H5 & J5 & F5). split; [exact H5|]. split; [exact J5|]. intros c Hc. apply F5, Fs. now rewrite F2.
Qed.

Lemma lift_blocks_t m : bs <> [] -> N + 1 <= m -> lift_blocks m n bs <> NoFuel.
Proof.
  intros Ne Lm. unfold lift_blocks.
  assert (T : term (transform m n bs (init_lst bs) 1) (fun _ => True)).
  { eapply term_imp; [eapply (transform_t m 0 (init_lst bs) 1)|auto].
    - apply init_sinv.
    - constructor; discriminate.
    - constructor.
    - cbn. destruct bs; [congruence | discriminate].
    - apply cnt_max.
    - pose proof (cnt_max (fun b => negb (l_fill (init_lst bs) b)) N). unfold unfilled. lia. }
  destruct (transform m n bs (init_lst bs) 1) as [s| | | |]; cbn in *; try discriminate; [destruct (l_err s); discriminate | destruct T].
Qed.
End Dfs.
