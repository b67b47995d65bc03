(** The whole remove_trivial_phi pass. *)
From Coq Require Import Lia.
From Verif Require Import SpecWord SpecIsa SpecFlat SpecSsa SpecIr SpecEdit SpecPass SpecStrict.
From Verif Require Import M_Base M_Ir M_Edit M_Ra M_Pass L_Word L_Edit L_Uses L_Sim L_PassDce L_PassCompact L_PassPhi L_PhiRun.
Open Scope nat_scope.

Lemma preserves_run_refl f : preserves_run f f.
Proof. intros R w bi n s o _ E. exists o. split; [exact E|]. destruct o; constructor; apply same_world_refl. Qed.
Lemma preserves_run_trans f g h : preserves_run f g -> preserves_run g h -> preserves_run f h.
Proof.
  intros A B R w bi n s o W E. destruct (A _ _ _ _ _ _ W E) as (o1 & E1 & S1). destruct (B _ _ _ _ _ _ W E1) as (o2 & E2 & S2).
  exists o2. split; [exact E2|]. eapply same_effect_trans; eassumption.
Qed.
Lemma map_ops_id x : map_ops (fun v => v) x = x.
Proof.
  assert (M : map (fun q : value * nat => (fst q, snd q)) (i_phi x) = i_phi x).
  { transitivity (map (fun q : value * nat => q) (i_phi x)); [apply map_ext; now intros []|apply map_id]. }
  unfold map_ops. rewrite map_id, M. clear M. destruct x. destruct i_addr. cbn. destruct i_op; reflexivity.
Qed.
Lemma map_ops_twice h1 h2 l x : map_ops h2 (set_users l (map_ops h1 x)) = set_users l (map_ops (fun v => h2 (h1 v)) x).
Proof. unfold map_ops. destruct x; destruct i_op; cbn; rewrite ?map_map; reflexivity. Qed.
Lemma put_for_map p e x : put_for_insn p e x = map_ops (put_for p e) x.
Proof. reflexivity. Qed.
Lemma set_users_twice l k x : set_users l (set_users k x) = set_users l x.
Proof. reflexivity. Qed.
Lemma set_users_self x : exists l, x = set_users l x.
Proof. exists (i_users x). now destruct x. Qed.
Lemma filter_true {A} (l : list A) : filter (fun _ => true) l = l.
Proof. induction l; cbn; congruence. Qed.

Lemma gone_refl f : phis_gone [] (fun v => v) f f.
Proof.
  constructor; try reflexivity.
  - intros j [].
  - intros j _. destruct (f_insn f j) as [x|]; [|now exists []]. destruct (set_users_self x) as (l & E). exists l. cbn. rewrite map_ops_id. congruence.
  - intros b. cbn. now rewrite filter_true.
  - repeat split.
  - intros j [].
  - intros v. now left.
Qed.
Lemma gone_step rm h f g p e k : phis_gone rm h f g -> is_phi g p -> (exists b, In p (insns_of g b)) -> (forall x, f_insn g p = Some x -> In e (map fst (i_phi x))) -> phi_gone p e g k ->
  phis_gone (p :: rm) (fun v => put_for p e (h v)) f k.
Proof.
  intros G (x & Hx & O) (b0 & Hb) HE P.
  assert (NP : ~ In p rm). { intros I. destruct (gn_rm _ _ _ _ G p I) as [_ K]. congruence. }
  constructor.
  - intros j [<-|I].
    + split; [|apply (pg_gone _ _ _ _ P)]. destruct (gn_keep _ _ _ _ G p NP) as (l & K). rewrite Hx in K. destruct (f_insn f p) as [y|] eqn:Hy; [|discriminate K].
      exists y. split; [exact Hy|]. cbn in K. injection K as ->. unfold map_ops in O. destruct (i_op y) eqn:Q; cbn in O; congruence.
    + destruct (gn_rm _ _ _ _ G j I) as [A B]. split; [exact A|]. assert (N : j <> p) by congruence. destruct (pg_keep _ _ _ _ P j N) as (l & K). now rewrite B in K.
  - intros j J. assert (N : j <> p) by (intros ->; apply J; now left). assert (NR : ~ In j rm) by (intros I; apply J; now right).
    destruct (pg_keep _ _ _ _ P j N) as (l & K). destruct (gn_keep _ _ _ _ G j NR) as (l' & K'). exists l. rewrite K, K'. destruct (f_insn f j) as [y|]; [|reflexivity]. cbn.
    rewrite put_for_map, map_ops_twice. reflexivity.
  - intros v V. rewrite (gn_ops _ _ _ _ G v) by (intros d D I; exact (V d D (or_intror I))). unfold put_for, is_use_of. destruct (v_data v) as [| | |d| |] eqn:D; try reflexivity.
    destruct (d =? p) eqn:Q; [|reflexivity]. apply Nat.eqb_eq in Q. subst d. destruct (V p eq_refl). now left.
  - intros b. rewrite (pg_insns _ _ _ _ P), (gn_insns _ _ _ _ G). generalize (insns_of f b). intros l. induction l as [|a l IH]; [reflexivity|]. cbn. destruct (a =? p) eqn:Q; cbn.
    + destruct (existsb (Nat.eqb a) rm); cbn; rewrite ?Q; cbn; exact IH.
    + destruct (existsb (Nat.eqb a) rm); cbn; rewrite ?Q; cbn; [exact IH|f_equal; exact IH].
  - intros b. now rewrite (pg_succs _ _ _ _ P), (gn_succs _ _ _ _ G).
  - intros b. now rewrite (pg_preds _ _ _ _ P), (gn_preds _ _ _ _ G).
  - intros b. rewrite (pg_blocks _ _ _ _ P). apply (gn_blocks _ _ _ _ G).
  - rewrite (pg_entry _ _ _ _ P). apply (gn_entry _ _ _ _ G).
  - destruct (gn_count _ _ _ _ G) as (<- & <- & <-). apply (pg_count _ _ _ _ P).
  - intros j [<-|J]; [|apply (gn_placed _ _ _ _ G), J]. exists b0. rewrite (gn_insns _ _ _ _ G) in Hb. now apply filter_In in Hb.
  - assert (EF : exists y, In e (map fst (i_phi y)) /\ exists j, In j (p :: rm) /\ f_insn f j = Some y).
    { specialize (HE x Hx). destruct (gn_keep _ _ _ _ G p NP) as (l & K). rewrite Hx in K. destruct (f_insn f p) as [y|] eqn:Hy; [|discriminate K]. cbn in K. injection K as ->.
      assert (Oy : i_op y = PHI) by (unfold map_ops in O; destruct (i_op y) eqn:Q; cbn in O; congruence).
      unfold map_ops in HE. rewrite Oy in HE. cbn in HE. rewrite map_map in HE. apply in_map_iff in HE as ((v & q) & Ev & I). cbn in Ev.
      destruct (gn_from _ _ _ _ G v) as [Q|(j & z & J & Z & Q)].
      - exists y. split; [rewrite <- Ev, Q; apply in_map_iff; now exists (v, q)|]. exists p. split; [now left|exact Hy].
      - exists z. split; [now rewrite <- Ev|]. exists j. split; [now right|exact Z]. }
    intros v. unfold put_for, is_use_of. destruct (gn_from _ _ _ _ G v) as [Q|(j & z & J & Z & Q)].
    + rewrite Q. destruct (v_data v) as [| | |d| |]; try (now left). destruct (d =? p); [|now left]. right. destruct EF as (y & I & j & J & Y). eauto.
    + right. assert (K : h v = h v -> exists (j : nat) (x : insn), In j (p :: rm) /\ f_insn f j = Some x /\ In (h v) (map fst (i_phi x))) by (intros _; exists j, z; split; [now right|auto]).
      destruct (v_data (h v)) as [| | |d| |]; try (now apply K). destruct (d =? p); [|now apply K]. destruct EF as (y & I & j' & J' & Y). eauto.
Qed.

(** what holds between the start and any later point of the pass *)
Record phid (f : func) (rm : list nat) (g : func) : Prop := {
  ph_gone : exists h, phis_gone rm h f g;
  ph_tidy : tidy g;
  ph_strict : strict g;
  ph_reach : forall b, reachable f b -> reachable g b;
  ph_run : preserves_run f g }.
Lemma phid_refl f : tidy f -> strict f -> phid f [] f.
Proof. intros T S. constructor; auto using preserves_run_refl. exists (fun v => v). apply gone_refl. Qed.
Lemma phid_step f rm g p x b e k : phid f rm g -> f_insn g p = Some x -> i_op x = PHI -> In p (insns_of g b) -> only_value p x e -> phi_gone p e g k -> tidy k ->
  phid f (p :: rm) k.
Proof.
  intros [(h & G) T S R P] Hx O I OV PG TK. constructor.
  - exists (fun v => put_for p e (h v)). eapply gone_step; eauto; [exists x; auto|]. intros x' Hx'. assert (x' = x) by congruence. subst x'. destruct OV as ((q & Q) & _). apply in_map_iff. now exists (e, q).
  - exact TK.
  - eapply phi_strict; eassumption.
  - intros c C. apply R in C as (l & RP). exists l. clear - PG RP Hx O. remember (c :: l) as l0. clear Heql0. induction RP as [|a l' c' RP IH GO].
    + rewrite <- (pg_entry _ _ _ _ PG). constructor.
    + constructor; [exact IH|]. eapply goes_g; eassumption.
  - eapply preserves_run_trans; [exact P|]. eapply phi_preserves; eassumption.
Qed.

Lemma not_all_self f p x b : strict f -> f_insn f p = Some x -> i_op x = PHI -> In p (insns_of f b) -> reachable f b ->
  ~ forall v q, In (v, q) (i_phi x) -> v_data v = VInsn p.
Proof.
  intros S Hx O I (l & RP) ALL. induction l as [l IH] using (well_founded_induction (Wf_nat.well_founded_ltof _ (@length nat))).
  destruct l as [|q l].
  { inversion RP. subst b. apply (st_entry _ S p I). exists x. auto. }
  destruct (rpath_tail _ _ _ _ RP) as [RQ G]. destruct (st_cover _ S b p x q l I Hx O RQ G) as (v & V).
  pose proof (st_phi _ S b p x v q p b I Hx O V (ALL v q V) I l RQ) as J. apply in_split in J as (l1 & l2 & E).
  assert (RB : rpath f (b :: l2)).
  { rewrite E in RQ. clear - RQ. revert RQ. induction l1 as [|a l1 IH]; [auto|]. cbn [app]. intros H. apply IH. destruct (l1 ++ b :: l2) eqn:Q; [destruct l1; discriminate Q|]. now apply rpath_tail in H. }
  apply (IH l2); [|exact RB]. unfold Wf_nat.ltof. rewrite E, app_length. cbn. lia.
Qed.

Definition phi_visit (s : func * bool) (i : nat) : outcome (func * bool) :=
  do x <- get_insn (fst s) i;
  if iop_eqb (i_op x) PHI then do r <- try_phi (fst s) i; Ok (fst r, snd s || snd r) else Ok s.
Lemma phi_round_visit reach f : phi_round reach f = ofold (fun s b => do k <- get_block (fst s) b; ofold phi_visit s (b_insns k)) (f, false) reach.
Proof. reflexivity. Qed.

Definition settled (f : func) (i : nat) : Prop := forall x, f_insn f i = Some x -> i_op x = PHI -> two_values i x.
Lemma filter_length_le {A} (h : A -> bool) l : length (filter h l) <= length l.
Proof. induction l as [|a l IH]; [reflexivity|]. cbn. destruct (h a); cbn; lia. Qed.
Lemma gone_size p e f g : phi_gone p e f g -> forall r, size_of g r <= size_of f r.
Proof.
  intros P. induction r as [|b r IH]; [reflexivity|]. rewrite !size_cons, (pg_insns _ _ _ _ P).
  pose proof (filter_length_le (fun j => negb (j =? p)) (insns_of f b)). lia.
Qed.
Lemma gone_size_lt p e f g b : phi_gone p e f g -> In p (insns_of f b) -> forall r, In b r -> size_of g r < size_of f r.
Proof.
  intros P I. induction r as [|c r IH]; intros B; [destruct B|]. rewrite !size_cons, (pg_insns _ _ _ _ P).
  pose proof (filter_length_le (fun j => negb (j =? p)) (insns_of f c)) as L. destruct B as [->|B].
  - pose proof (gone_size p e f g P r). apply in_split in I as (l1 & l2 & E). rewrite E, filter_app, !app_length. cbn. rewrite Nat.eqb_refl. cbn.
    pose proof (filter_length_le (fun j => negb (j =? p)) l1). pose proof (filter_length_le (fun j => negb (j =? p)) l2). lia.
  - specialize (IH B). lia.
Qed.

Section Pass.
Variables (f0 : func) (reach : list nat).
Lemma phi_visit_step f rm c b i : phid f0 rm f -> In b reach -> reachable f0 b -> In i (insns_of f b) ->
  exists g c' rm', phi_visit (f, c) i = Ok (g, c') /\ phid f0 rm' g /\
    (forall z l, ~ In i l -> incl l (insns_of f z) -> incl l (insns_of g z)) /\
    (forall z, f_block g z = None <-> f_block f z = None) /\
    (c' = false -> c = false /\ g = f /\ settled f i) /\
    (c' = true -> c = true \/ size_of g reach < size_of f reach) /\ size_of g reach <= size_of f reach.
Proof.
  intros P B R I. destruct (td_linked _ (ph_tidy _ _ _ P) b i I) as (x & Hx & PA).
  unfold phi_visit. cbn [fst snd]. rewrite (proj2 (get_insn_ok _ _ _) Hx). cbn [bind]. unfold iop_eqb at 1. destruct (iop_eq_dec (i_op x) PHI) as [O|O].
  2:{ exists f, c, rm. split; [reflexivity|]. split; [exact P|]. split; [auto|]. split; [tauto|]. split; [|split; [auto|lia]]. intros ->. repeat split. intros y Hy Oy. congruence. }
  rewrite <- PA in I. destruct (try_phi_cases f i x (ph_tidy _ _ _ P) Hx O I) as [[E A]|[[E A]|(e & g & E & OV & TG & PG)]].
  - exfalso. eapply (not_all_self f i x (i_parent x) (ph_strict _ _ _ P) Hx O I); [|exact A]. rewrite PA. apply (ph_reach _ _ _ P), R.
  - rewrite E. cbn [bind fst snd]. rewrite orb_false_r. exists f, c, rm. split; [reflexivity|]. split; [exact P|]. split; [auto|]. split; [tauto|]. split; [|split; [auto|lia]].
    intros ->. repeat split. intros y Hy Oy. assert (y = x) by congruence. now subst.
  - rewrite E. cbn [bind fst snd]. rewrite orb_true_r. exists g, true, (i :: rm). split; [reflexivity|]. split; [eapply phid_step; eassumption|].
    split. { intros z l N K j J. rewrite (pg_insns _ _ _ _ PG). apply filter_In. split; [apply K, J|]. destruct (j =? i) eqn:Q; [|reflexivity]. apply Nat.eqb_eq in Q. subst. contradiction. }
    split; [intros z; apply (pg_blocks _ _ _ _ PG)|]. split; [discriminate|]. rewrite PA in I. split; [intros _; right; eapply gone_size_lt; eassumption|eapply gone_size; eassumption].
Qed.
Lemma phi_insns b : In b reach -> reachable f0 b -> forall l f rm c, phid f0 rm f -> NoDup l -> incl l (insns_of f b) ->
  exists g c' rm', ofold phi_visit (f, c) l = Ok (g, c') /\ phid f0 rm' g /\
    (forall z, f_block g z = None <-> f_block f z = None) /\
    (c' = false -> c = false /\ g = f /\ forall i, In i l -> settled f i) /\
    (c' = true -> c = true \/ size_of g reach < size_of f reach) /\ size_of g reach <= size_of f reach.
Proof.
  intros B R. induction l as [|i l IH]; intros f rm c P N K.
  - exists f, c, rm. split; [reflexivity|]. split; [exact P|]. split; [tauto|]. split; [|split; [auto|lia]]. intros ->. repeat split. intros i [].
  - destruct (phi_visit_step f rm c b i P B R (K i (or_introl eq_refl))) as (g & c1 & r1 & E1 & P1 & K1 & B1 & F1 & T1 & S1).
    cbn [ofold]. rewrite E1. cbn [bind]. inversion N as [|? ? NI NL]; subst.
    destruct (IH g r1 c1 P1 NL (K1 b l NI (fun z h => K z (or_intror h)))) as (h & c2 & r2 & E2 & P2 & B2 & F2 & T2 & S2).
    exists h, c2, r2. split; [exact E2|]. split; [exact P2|]. split; [intros z; now rewrite B2|]. split; [|split; [|lia]].
    + intros Q. destruct (F2 Q) as (Q1 & -> & R2). destruct (F1 Q1) as (Q0 & -> & R1). repeat split; [exact Q0|]. intros j [<-|J]; [exact R1|now apply R2].
    + intros Q. destruct (T2 Q) as [Q1|L]; [destruct (T1 Q1) as [Q0|L]|]; [left; exact Q0|right; lia|right; lia].
Qed.
Lemma phi_blocks l : forall f rm c, phid f0 rm f -> incl l reach -> (forall b, In b l -> f_block f b <> None /\ reachable f0 b) ->
  exists g c' rm', ofold (fun s b => do k <- get_block (fst s) b; ofold phi_visit s (b_insns k)) (f, c) l = Ok (g, c') /\ phid f0 rm' g /\
    (forall z, f_block g z = None <-> f_block f z = None) /\
    (c' = false -> c = false /\ g = f /\ forall b i, In b l -> In i (insns_of f b) -> settled f i) /\
    (c' = true -> c = true \/ size_of g reach < size_of f reach) /\ size_of g reach <= size_of f reach.
Proof.
  induction l as [|b l IH]; intros f rm c P K X.
  - exists f, c, rm. split; [reflexivity|]. split; [exact P|]. split; [tauto|]. split; [|split; [auto|lia]]. intros ->. repeat split. intros b i [].
  - cbn [ofold fst]. destruct (X b (or_introl eq_refl)) as [XB XR]. destruct (f_block f b) as [k|] eqn:Hb; [|congruence].
    unfold get_block at 1. rewrite Hb. cbn [bind].
    assert (IB : b_insns k = insns_of f b) by (unfold insns_of; now rewrite Hb). rewrite IB.
    destruct (phi_insns b (K b (or_introl eq_refl)) XR (insns_of f b) f rm c P (td_once _ (ph_tidy _ _ _ P) b) (fun z h => h))
      as (g & c1 & r1 & E1 & P1 & B1 & F1 & T1 & S1).
    rewrite E1. cbn [bind].
    destruct (IH g r1 c1 P1 (fun z h => K z (or_intror h))) as (h & c2 & r2 & E2 & P2 & B2 & F2 & T2 & S2).
    { intros z Z. destruct (X z (or_intror Z)) as [A C]. split; [now rewrite B1|exact C]. }
    exists h, c2, r2. split; [exact E2|]. split; [exact P2|]. split; [intros z; now rewrite B2|]. split; [|split; [|lia]].
    + intros Q. destruct (F2 Q) as (Q1 & -> & R2). destruct (F1 Q1) as (Q0 & -> & R1). repeat split; [exact Q0|].
      intros z j [<-|J] Hj; [now apply R1|now apply (R2 z)].
    + intros Q. destruct (T2 Q) as [Q1|L]; [destruct (T1 Q1) as [Q0|L]|]; [left; exact Q0|right; lia|right; lia].
Qed.
Lemma phi_loop fuel : forall f rm, phid f0 rm f -> (forall b, In b reach -> f_block f b <> None /\ reachable f0 b) -> size_of f reach < fuel ->
  exists g rm', remove_trivial_phi fuel reach f = Ok g /\ phid f0 rm' g /\ forall b i, In b reach -> In i (insns_of g b) -> settled g i.
Proof.
  induction fuel as [|n IH]; intros f rm P X L; [lia|]. cbn [remove_trivial_phi]. rewrite phi_round_visit.
  destruct (phi_blocks reach f rm false P (fun z h => h) X) as (g & c & r1 & E & P1 & B1 & F & C & S).
  rewrite E. cbn [bind fst snd]. destruct c.
  - destruct (C eq_refl) as [Q|Q]; [discriminate Q|]. apply (IH g r1 P1); [|lia]. intros z Z. destruct (X z Z) as [A D]. split; [now rewrite B1|exact D].
  - destruct (F eq_refl) as (_ & -> & R). exists f, rm. split; [reflexivity|]. split; [exact P|exact R].
Qed.
End Pass.

Lemma phi_pass_ok fuel reach f : tidy f -> strict f -> (forall b, In b reach -> f_block f b <> None /\ reachable f b) -> size_of f reach < fuel ->
  exists g rm h, remove_trivial_phi fuel reach f = Ok g /\ tidy g /\ strict g /\ preserves_run f g /\ phis_gone rm h f g /\
    forall b p x, In b reach -> In p (insns_of g b) -> f_insn g p = Some x -> i_op x = PHI -> two_values p x.
Proof.
  intros T S X L. destruct (phi_loop f reach fuel f [] (phid_refl f T S) X L) as (g & rm & E & P & SE).
  destruct (ph_gone _ _ _ P) as (h & G). exists g, rm, h. split; [exact E|]. split; [apply (ph_tidy _ _ _ P)|]. split; [apply (ph_strict _ _ _ P)|].
  split; [apply (ph_run _ _ _ P)|]. split; [exact G|]. intros b p x B I Hx O. exact (SE b p B I x Hx O).
Qed.
