(** Inserting instructions and checks into consistent functions. *)
From Coq Require Import ZArith List Bool Arith Lia.
From Verif Require Import M_Base M_Ir M_Edit SpecWord SpecFlat SpecSsa SpecIr SpecEdit SpecPass SpecStrict SpecInstr
  L_Edit L_Uses L_Hist L_Ctor.
Import ListNotations.
Open Scope nat_scope.

(** * Creating an instruction *)
Record grown (f g : func) (i bb : nat) (k : ctor) (l : list nat) : Prop := {
  gr_id : i = f_ni f;
  gr_ni : f_ni g = S i; gr_nb : f_nb g = f_nb f; gr_entry : f_entry g = f_entry f;
  gr_dom : forall c, f_block g c = None <-> f_block f c = None;
  gr_new : exists u, f_insn g i = Some (set_users u (build bb k));
  gr_old : forall j, j <> i -> exists u, f_insn g j = option_map (set_users u) (f_insn f j);
  gr_succs : forall c, succs_of g c = succs_of f c;
  gr_preds : forall c, preds_of g c = preds_of f c;
  gr_insns : forall c, insns_of g c = if c =? bb then l else insns_of f c }.

Lemma create_raw f bb k f' i : create_insn f bb k = Ok (f', i) ->
  i = f_ni f /\ f_ni f' = S i /\ f_nb f' = f_nb f /\ f_all f' = f_all f /\ f_entry f' = f_entry f /\
  (forall b, f_block f' b = f_block f b) /\
  (exists l, f_insn f' i = Some (set_users l (build bb k))) /\
  (forall j, j <> i -> exists l, f_insn f' j = option_map (set_users l) (f_insn f j)).
Proof.
  intros E. unfold create_insn in E. set (f1 := mkFunc _ _ _ _ _ _) in E.
  apply bind_ok in E as (f2 & E & E'). injection E' as <- <-.
  apply fold_add_spec in E as (UE & UC).
  split; [reflexivity|]. split; [rewrite (ue_ni _ _ UE); reflexivity|].
  split; [rewrite (ue_nb _ _ UE); reflexivity|]. split; [rewrite (ue_all _ _ UE); reflexivity|].
  split; [rewrite (ue_entry _ _ UE); reflexivity|].
  split; [intros; rewrite (ue_block _ _ UE); reflexivity|]. split.
  - destruct (ue_rec _ _ UE (f_ni f)) as [l E]. exists l. rewrite E. unfold f1; simpl. now rewrite upd_eq.
  - intros j Hj. destruct (ue_rec _ _ UE j) as [l E]. exists l. rewrite E. unfold f1; simpl. now rewrite upd_ne.
Qed.

Lemma op_users f f1 i j : f_ni f = i -> fresh_ok f -> (forall j, j <> i -> exists l, f_insn f1 j = option_map (set_users l) (f_insn f j)) ->
  f_insn f j <> None -> (is_phi f1 j <-> is_phi f j).
Proof.
  intros <- F H L. assert (N : j <> f_ni f). { intros ->. apply L. apply F. lia. }
  destruct (H j N) as (l & E). unfold is_phi. rewrite E. destruct (f_insn f j) as [x|]; cbn; [|congruence].
  split; intros (y & Y & P); injection Y as <-; eauto.
Qed.

Lemma grown_bb f bb k p g i : f_block f bb <> None -> create_at_bb f bb k p = Ok (g, i) -> p = P_BACK \/ p = P_FRONT ->
  grown f g i bb k (match p with P_FRONT => i :: insns_of f bb | _ => insns_of f bb ++ [i] end).
Proof.
  intros B E PP. unfold create_at_bb in E. apply bind_ok in E as ((f1 & i') & C & E). cbn [fst snd] in E.
  apply bind_ok in E as (f2 & I & E). injection E as <- <-.
  apply create_raw in C as (C1 & C2 & C3 & C4 & C5 & C6 & C7 & C8).
  destruct (f_block f1 bb) as [b|] eqn:Eb; [|rewrite C6 in Eb; congruence].
  destruct (insert_at_bb_places f1 i' bb p b Eb) as (g & x & y & I' & (PL & PQ) & L & O1 & O2 & O3 & O4).
  rewrite I in I'. injection I' as <-.
  assert (IB : insns_of f1 bb = insns_of f bb) by (unfold insns_of; now rewrite C6).
  unfold insert_at_bb, get_block in I. rewrite Eb in I. cbn [bind] in I.
  assert (X : f_ni f2 = f_ni f1 /\ f_nb f2 = f_nb f1 /\ f_entry f2 = f_entry f1 /\ forall c, f_block f2 c = None <-> f_block f1 c = None).
  { injection I as <-. cbn. split; [reflexivity|]. split; [reflexivity|]. split; [reflexivity|]. intros c. unfold upd.
    destruct (Nat.eqb_spec c bb) as [->|]; [rewrite Eb; split; discriminate|tauto]. }
  destruct X as (X1 & X2 & X3 & X4).
  constructor; try congruence.
  - intros c. now rewrite X4, C6.
  - destruct C7 as (u & C7). exists u. now rewrite O4.
  - intros j N. rewrite O4. auto.
  - intros c. rewrite O2. unfold succs_of. now rewrite C6.
  - intros c. rewrite O3. unfold preds_of. now rewrite C6.
  - intros c. destruct (Nat.eqb_spec c bb) as [->|N].
    + rewrite L. rewrite IB in PL. destruct PP as [-> | ->].
      * subst y. rewrite app_nil_r in PL. now rewrite PL.
      * subst x. cbn in PL. now rewrite PL.
    + unfold insns_of. now rewrite (O1 c N), C6.
Qed.

Lemma grown_at f a x k p g i l1 l2 : fresh_ok f -> f_insn f a = Some x -> f_block f (i_parent x) <> None ->
  insns_of f (i_parent x) = l1 ++ a :: l2 -> ~ In a l1 ->
  p = P_FRONT \/ p = P_BACK -> i_op (build 0 k) <> PHI ->
  (i_op x = PHI -> l2 = [] /\ p = P_BACK /\ forall j, In j l1 -> is_phi f j) ->
  create_at f a k p = Ok (g, i) ->
  grown f g i (i_parent x) k (match p with P_FRONT => l1 ++ i :: a :: l2 | _ => l1 ++ a :: i :: l2 end).
Proof.
  intros F X B L NI PP KP HP E. unfold create_at in E. rewrite (proj2 (get_insn_ok _ _ _) X) in E. cbn [bind] in E.
  apply bind_ok in E as ((f1 & i') & C & E). cbn [fst snd] in E. apply bind_ok in E as (f2 & I & E). injection E as <- <-.
  apply create_raw in C as (C1 & C2 & C3 & C4 & C5 & C6 & C7 & C8).
  assert (NA : a <> i'). { intros ->. rewrite (proj1 F) in X; [discriminate|lia]. }
  destruct (C8 a NA) as (ua & XA). rewrite X in XA. cbn in XA.
  destruct C7 as (un & XN).
  assert (IB : forall c, insns_of f1 c = insns_of f c) by (intros; unfold insns_of; now rewrite C6).
  assert (KP' : i_op (set_users un (build (i_parent x) k)) <> PHI) by (destruct k; cbn in *; congruence).
  assert (G : exists b, f_block f1 (i_parent x) = Some b /\ exists l, f2 = put_block f1 (i_parent x) (set_insns l b)).
  { unfold insert_at, get_insn in I. rewrite XA, XN in I. cbn [bind i_op set_users i_parent] in I.
    destruct (f_block f1 (i_parent x)) as [b|] eqn:Eb; [|rewrite C6 in Eb; congruence]. exists b. split; auto.
    assert (GB : get_block f1 (i_parent x) = Ok b) by now apply get_block_ok.
    revert I. unfold insert_at_bb. cbn. rewrite GB. cbn [bind].
    destruct (_ && _); [intros J; injection J as <-; eauto|].
    destruct PP as [-> | ->]; intros J; apply bind_ok in J as (l & _ & J); injection J as <-; eauto. }
  destruct G as (b & Eb & l & G).
  assert (R : insns_of f2 (i_parent x) = (match p with P_FRONT => l1 ++ i' :: a :: l2 | _ => l1 ++ a :: i' :: l2 end)).
  { destruct (iop_eq_dec (i_op x) PHI) as [P|P].
    - destruct (HP P) as (-> & -> & Q).
      assert (XA' : f_insn f1 a = Some (set_users ua x)) by exact XA.
      rewrite (insert_at_phi f1 i' a (set_users ua x) (set_users un (build (i_parent x) k)) P_BACK b XA' XN P KP' Eb) in I.
      destruct (insert_at_bb_places f1 i' (i_parent x) P_FRONT_AFTER_PHI b Eb) as (g & y & z & I' & (PL & PQ & PR) & L' & _).
      cbn in I, I'. rewrite I in I'. injection I' as <-. rewrite L'. rewrite IB, L in PL.
      assert (z = []).
      { destruct z as [|z0 zr]; auto. exfalso. apply (PR z0 zr eq_refl).
        assert (In z0 (l1 ++ [a])). { rewrite PL. apply in_or_app. right. now left. }
        assert (PZ : is_phi f z0).
        { apply in_app_or in H as [H|[<-|[]]]; auto. exists x. auto. }
        apply (op_users f f1 i' z0); auto. destruct PZ as (w & W & _). congruence. }
      subst z. rewrite app_nil_r in PL. rewrite <- PL. now rewrite <- app_assoc.
    - assert (L1 : insns_of f1 (i_parent (set_users ua x)) = l1 ++ a :: l2) by (cbn; now rewrite IB).
      destruct (insert_at_places f1 i' a (set_users ua x) (set_users un (build (i_parent x) k)) l1 l2 p XA XN L1 NI PP) as (g & I' & L' & _).
      { intros Q. cbn in Q. contradiction. }
      rewrite I in I'. injection I' as <-. cbn in L'. rewrite L'. destruct PP as [-> | ->]; reflexivity. }
  subst f2. constructor; cbn; try congruence.
  - intros c. unfold upd. destruct (Nat.eqb_spec c (i_parent x)) as [->|]; [rewrite <- C6, Eb; split; discriminate|]. now rewrite C6.
  - exists un. exact XN.
  - exact C8.
  - intros c. unfold succs_of. rewrite f_block_put. destruct (Nat.eqb_spec c (i_parent x)) as [->|]; [rewrite <- C6, Eb; reflexivity|now rewrite C6].
  - intros c. unfold preds_of. rewrite f_block_put. destruct (Nat.eqb_spec c (i_parent x)) as [->|]; [rewrite <- C6, Eb; reflexivity|now rewrite C6].
  - intros c. destruct (Nat.eqb_spec c (i_parent x)) as [->|N]; [exact R|].
    unfold insns_of. rewrite f_block_put. destruct (Nat.eqb_spec c (i_parent x)); [contradiction|]. now rewrite C6.
Qed.

(** * Keeping the function consistent *)
Definition opt_like (f g : func) (j : nat) : Prop := exists u q, f_insn g j = option_map (fun x => set_users u (set_parent q x)) (f_insn f j).
Lemma like_users f g j : (exists u, f_insn g j = option_map (set_users u) (f_insn f j)) -> opt_like f g j.
Proof.
  intros (u & E). unfold opt_like. rewrite E. destruct (f_insn f j) as [x|]; [|exists u, 0; reflexivity].
  exists u, (i_parent x). cbn. destruct x; reflexivity.
Qed.
Lemma like_trans f g h j : opt_like f g j -> opt_like g h j -> opt_like f h j.
Proof.
  intros (u & q & E) (u' & q' & E'). exists u', q'. rewrite E', E. destruct (f_insn f j); reflexivity.
Qed.
Lemma like_some f g j x : opt_like f g j -> f_insn f j = Some x -> exists u q, f_insn g j = Some (set_users u (set_parent q x)).
Proof. intros (u & q & E) X. exists u, q. now rewrite E, X. Qed.
Lemma like_back f g j y : opt_like f g j -> f_insn g j = Some y -> exists x u q, f_insn f j = Some x /\ y = set_users u (set_parent q x).
Proof. intros (u & q & E) Y. rewrite Y in E. destruct (f_insn f j) as [x|]; [|discriminate]. injection E as ->. eauto. Qed.
Lemma like_phi f g j : opt_like f g j -> (is_phi g j <-> is_phi f j).
Proof.
  intros L. split; intros (x & X & P).
  - destruct (like_back _ _ _ _ L X) as (y & u & q & Y & ->). exists y. auto.
  - destruct (like_some _ _ _ _ L X) as (u & q & Y). eexists. split; [exact Y|]. exact P.
Qed.
Lemma like_term f g j : opt_like f g j -> (is_terminator g j <-> is_terminator f j).
Proof.
  intros L. split; intros (x & X & P).
  - destruct (like_back _ _ _ _ L X) as (y & u & q & Y & ->). exists y. auto.
  - destruct (like_some _ _ _ _ L X) as (u & q & Y). eexists. split; [exact Y|]. exact P.
Qed.
(** same instructions in the block, same first successor: same ways out *)
Lemma goes_like f g b b' : (forall i, In i (insns_of g b') -> In i (insns_of f b) /\ opt_like f g i) ->
  (forall c l, succs_of g b' = c :: l -> exists l', succs_of f b = c :: l') -> forall c, goes g b' c -> goes f b c.
Proof.
  intros H S c G. inversion G; subst.
  - destruct (H i H0) as (I & L). destruct (like_back _ _ _ _ L H1) as (y & u & q & Y & ->). cbn. eapply go_ja; eauto.
  - destruct (H i H0) as (I & L). destruct (like_back _ _ _ _ L H1) as (y & u & q & Y & ->). cbn. eapply go_c1; eauto.
  - destruct (H i H0) as (I & L). destruct (like_back _ _ _ _ L H1) as (y & u & q & Y & ->). cbn. eapply go_c2; eauto.
  - destruct (S _ _ H0) as (l' & E). eapply go_next; eauto.
Qed.
(** a block whose instructions other than a final one [j] do not end blocks *)
Lemma goes_last f b l j c : insns_of f b = l ++ [j] -> (forall i, In i l -> ~ is_terminator f i) -> goes f b c ->
  (exists x, f_insn f j = Some x /\ ((i_op x = JA /\ c = i_bb1 x) \/ (cmp_op_of (i_op x) <> None /\ (c = i_bb1 x \/ c = i_bb2 x)))) \/
  (exists l', succs_of f b = c :: l').
Proof.
  intros L T G. 
  assert (K : forall i x, In i (insns_of f b) -> f_insn f i = Some x -> (i_op x = JA \/ cmp_op_of (i_op x) <> None) -> i = j).
  { intros i x I X O. rewrite L in I. apply in_app_or in I as [I|[<-|[]]]; auto. exfalso. apply (T i I). exists x. split; auto.
    destruct (i_op x); cbn in O |- *; tauto || (destruct O; [discriminate|congruence]) || auto 20. }
  inversion G; subst.
  - assert (i = j) by (eapply K; eauto). subst i. left. exists x. auto.
  - assert (i = j). { eapply K; eauto. right. congruence. } subst i. left. exists x. split; auto. right. split; [congruence|auto].
  - assert (i = j). { eapply K; eauto. right. congruence. } subst i. left. exists x. split; auto. right. split; [congruence|auto].
  - right. eauto.
Qed.
Definition quiet_op (o : iop) : Prop := o <> PHI /\ ~ In o [RET; THROW; JA; JEQ; JGT; JGE; JLT; JLE; JNE; JSGE; JSLE; JSGT; JSLT].

Lemma grown_like f g i bb k l : grown f g i bb k l -> forall j, j <> i -> opt_like f g j.
Proof. intros G j N. apply like_users. apply (gr_old _ _ _ _ _ _ G j N). Qed.
Lemma fresh_not_in f b : linked_ok f -> fresh_ok f -> ~ In (f_ni f) (insns_of f b).
Proof. intros L F I. destruct (L _ _ I) as (x & X & _). rewrite (proj1 F) in X; [discriminate|lia]. Qed.
Lemma in_block f b i : In i (insns_of f b) -> f_block f b <> None.
Proof. unfold insns_of. destruct (f_block f b); [discriminate|intros []]. Qed.

(** a plain instruction inserted before the end of a block *)
Lemma grown_cfg f g i bb k l1 l2 : cfg_ok f -> f_block f bb <> None -> insns_of f bb = l1 ++ l2 -> grown f g i bb k (l1 ++ i :: l2) ->
  quiet_op (i_op (build 0 k)) -> (l2 = [] -> forall j, In j l1 -> ~ is_terminator f j) -> cfg_ok g.
Proof.
  intros C B L G Q T. assert (FI := fresh_not_in f bb (cf_linked _ C) (cf_fresh _ C)).
  assert (EI := gr_id _ _ _ _ _ _ G). rewrite <- EI in FI.
  assert (OB : i_op (build bb k) = i_op (build 0 k)) by (destruct k; reflexivity).
  assert (LK : forall j, j <> i -> opt_like f g j) by apply (grown_like _ _ _ _ _ _ G).
  assert (NI : forall b, ~ In i (insns_of f b)). { intros b. rewrite EI. apply fresh_not_in; apply C. }
  assert (TI : ~ is_terminator g i).
  { intros (x & X & P). destruct (gr_new _ _ _ _ _ _ G) as (u & E). rewrite E in X. injection X as <-. apply (proj2 Q). rewrite <- OB. exact P. }
  constructor.
  - destruct (cf_mirror _ C) as (A & A1 & A2). split; [|split]; intros; rewrite ?(gr_succs _ _ _ _ _ _ G), ?(gr_preds _ _ _ _ _ _ G); auto.
  - split.
    + intros j J. rewrite (gr_ni _ _ _ _ _ _ G) in J. destruct (gr_old _ _ _ _ _ _ G j) as (u & E); [lia|]. rewrite E.
      rewrite (proj1 (cf_fresh _ C)); [reflexivity|lia].
    + intros b J. apply (gr_dom _ _ _ _ _ _ G). apply (cf_fresh _ C). rewrite (gr_nb _ _ _ _ _ _ G) in J. exact J.
  - intros b j J. rewrite (gr_insns _ _ _ _ _ _ G) in J.
    destruct (Nat.eq_dec j i) as [->|N].
    + destruct (Nat.eqb_spec b bb) as [Q1|Q1]; [subst b|exfalso; eapply NI; eauto].
      destruct (gr_new _ _ _ _ _ _ G) as (u & E). eexists. split; [exact E|]. destruct k; reflexivity.
    + assert (J' : In j (insns_of f b)).
      { destruct (Nat.eqb_spec b bb) as [->|]; auto. rewrite L. apply in_app_or in J as [J|[J|J]]; [|congruence|]; apply in_or_app; auto. }
      destruct (cf_linked _ C b j J') as (x & X & P). destruct (gr_old _ _ _ _ _ _ G j N) as (u & E). rewrite X in E. cbn in E.
      eexists. split; [exact E|]. exact P.
  - intros b. rewrite (gr_insns _ _ _ _ _ _ G). destruct (Nat.eqb_spec b bb) as [->|]; [|apply C].
    assert (ND := cf_once _ C bb). rewrite L in ND, FI.
    apply NoDup_Add with (a := i) (l := l1 ++ l2); [apply Add_app|]. auto.
  - intros b c Gc. rewrite (gr_succs _ _ _ _ _ _ G). apply (cf_goes _ C).
    clear EI. inversion Gc as [j x I X O|j x o I X O|j x o I X O|c1 l S]; subst.
    4:{ rewrite (gr_succs _ _ _ _ _ _ G) in S. eapply go_next; eauto. }
    all: assert (N : j <> i) by (intros ->; destruct (gr_new _ _ _ _ _ _ G) as (u & E); rewrite E in X; injection X as <-; cbn in O; rewrite OB in O;
      destruct Q as (_ & Q); apply Q; destruct (i_op (build 0 k)); cbn in O |- *; try discriminate; auto 20).
    all: assert (J' : In j (insns_of f b)) by
     (rewrite (gr_insns _ _ _ _ _ _ G) in I; destruct (Nat.eqb_spec b bb) as [->|]; auto; rewrite L; apply in_app_or in I as [I|[I|I]]; [|congruence|]; apply in_or_app; auto).
    all: destruct (like_back _ _ _ _ (LK j N) X) as (y & u & q & Y & ->); cbn.
    + eapply go_ja; eauto.
    + eapply go_c1; eauto.
    + eapply go_c2; eauto.
  - intros b k1 j k2 E TJ. rewrite (gr_insns _ _ _ _ _ _ G) in E.
    assert (N : j <> i) by (intros ->; contradiction).
    destruct (Nat.eqb_spec b bb) as [->|].
    + assert (TF : is_terminator f j) by (apply (like_term f g j); auto).
      destruct l2 as [|z l2].
      * exfalso. assert (In j l1). { assert (I : In j (l1 ++ [i])) by (rewrite E; apply in_or_app; right; now left). apply in_app_or in I as [I|[I|[]]]; auto. congruence. }
        eapply T; eauto.
      * (* j is the last of l1 ++ z :: l2 *)
        destruct k2 as [|k0 k2']; auto. exfalso.
        assert (I : In j (l1 ++ i :: z :: l2)) by (rewrite E; apply in_or_app; right; now left).
        assert (LL : exists m, l1 ++ z :: l2 = m ++ [j]).
        { assert (J' : In j (l1 ++ z :: l2)). { apply in_app_or in I as [I|[I|I]]; [|congruence|]; apply in_or_app; auto. }
          apply in_split in J' as (m1 & m2 & J'). assert (Z : m2 = []) by (apply (cf_ends _ C bb m1 j m2); [now rewrite L|exact TF]). subst. eauto. }
        destruct LL as (m & LL).
        assert (last (l1 ++ i :: z :: l2) 0 = j).
        { replace (last (l1 ++ i :: z :: l2) 0) with (last (l1 ++ z :: l2) 0).
          - rewrite LL. apply last_last.
          - destruct (exists_last (l := z :: l2)) as (y & w & W); [discriminate|]. rewrite W. rewrite app_comm_cons, !app_assoc, !last_last. reflexivity. }
        assert (ND : NoDup (l1 ++ i :: z :: l2)).
        { apply NoDup_Add with (a := i) (l := l1 ++ z :: l2); [apply Add_app|]. rewrite <- L. split; [apply C|]. auto. }
        rewrite E in H, ND. destruct (exists_last (l := k0 :: k2')) as (y & w & W); [discriminate|]. rewrite W in H, ND.
        rewrite app_comm_cons, app_assoc, last_last in H. subst w. apply NoDup_remove_2 in ND. apply ND. apply in_or_app. right. apply in_or_app. right. now left.
    + eapply (cf_ends _ C b); eauto. apply (like_term f g j); auto.
  - rewrite (gr_entry _ _ _ _ _ _ G). intros Z. apply (gr_dom _ _ _ _ _ _ G) in Z. apply (cf_entry _ C Z).
Qed.

(** * Cutting a block in two, with a way out to a throw *)
Record cut (f g : func) (bb : nat) (keep moved : list nat) (nb eb t j : nat) (k : ctor) : Prop := {
  ct_nb : nb = f_nb f; ct_eb : eb = S nb; ct_t : t = f_ni f; ct_j : j = S t;
  ct_ni : f_ni g = S j; ct_fnb : f_nb g = S eb; ct_entry : f_entry g = f_entry f;
  ct_dom : forall c, f_block g c <> None <-> (f_block f c <> None \/ c = nb \/ c = eb);
  ct_insns : forall c, insns_of g c = if c =? bb then keep ++ [j] else if c =? nb then moved else if c =? eb then [t] else insns_of f c;
  ct_succs : forall c, succs_of g c = if c =? bb then [nb; eb] else if c =? nb then succs_of f bb else if c =? eb then [] else succs_of f c;
  ct_preds : forall c, preds_of g c = if c =? nb then [bb] else if c =? eb then [bb] else
    if existsb (Nat.eqb c) (succs_of f bb) then erase_first bb (preds_of f c) ++ [nb] else preds_of f c;
  ct_old : forall i, i <> t -> i <> j -> exists u, f_insn g i =
    option_map (fun x => set_users u (if existsb (Nat.eqb i) moved then set_parent nb x else x)) (f_insn f i);
  ct_throw : exists u, f_insn g t = Some (set_users u (build eb K_throw));
  ct_jmp : exists u, f_insn g j = Some (set_users u (build bb k)) }.

Section CUT.
Variables (f : func) (p : nat) (x : insn) (l1 l2 : list nat) (k : ctor).
Hypotheses (C : cfg_ok f) (X : f_insn f p = Some x) (L : insns_of f (i_parent x) = l1 ++ p :: l2) (N : l2 <> [])
  (KP : i_op (build 0 k) <> PHI) (PH : i_op x = PHI -> forall j, In j l1 -> is_phi f j).
Let bb := i_parent x.
Let nb := f_nb f.

Lemma cut_split f1 r : split_bb f p P_BACK = Ok (f1, r) -> r = Some nb /\
  split_cfg f f1 bb nb /\ insns_of f1 bb = l1 ++ [p] /\ insns_of f1 nb = l2 /\
  (forall c, c <> bb -> c <> nb -> insns_of f1 c = insns_of f c) /\
  (forall j, f_insn f1 j = if existsb (Nat.eqb j) l2 then option_map (set_parent nb) (f_insn f j) else f_insn f j).
Proof.
  intros E. assert (ND := cf_once _ C (i_parent x)). rewrite L in ND.
  destruct (split_spec f p P_BACK x l1 l2) as (g & E' & S & R); auto; try apply C.
  { apply (in_block f _ p). rewrite L. apply in_or_app. right. now left. }
  { intros j J. destruct (cf_linked _ C (i_parent x) j) as (y & Y & _); [|congruence]. rewrite L. apply in_or_app. auto. }
  rewrite E in E'. injection E' as <- ->. unfold cut_at in R |- *. destruct l2; [congruence|]. intuition.
Qed.

Lemma cut_pre f1 f2 eb f3 t : split_bb f p P_BACK = Ok (f1, Some nb) -> create_bb f1 = (f2, eb) ->
  create_at_bb f2 eb K_throw P_BACK = Ok (f3, t) ->
  eb = S nb /\ t = f_ni f /\ f_ni f3 = S t /\ f_nb f3 = S eb /\ f_entry f3 = f_entry f /\ bb <> nb /\ bb <> eb /\
  (forall c, f_block f3 c <> None <-> (f_block f c <> None \/ c = nb \/ c = eb)) /\
  (forall c, insns_of f3 c = if c =? bb then l1 ++ [p] else if c =? nb then l2 else if c =? eb then [t] else insns_of f c) /\
  (forall c, succs_of f3 c = if c =? bb then [nb] else if c =? nb then succs_of f bb else if c =? eb then [] else succs_of f c) /\
  (forall c, preds_of f3 c = if c =? nb then [bb] else if c =? eb then [] else
    if existsb (Nat.eqb c) (succs_of f bb) then erase_first bb (preds_of f c) ++ [nb] else preds_of f c) /\
  (forall i, i <> t -> exists u, f_insn f3 i =
    option_map (fun x => set_users u (if existsb (Nat.eqb i) l2 then set_parent nb x else x)) (f_insn f i)) /\
  (exists u, f_insn f3 t = Some (set_users u (build eb K_throw))) /\ fresh_ok f3.
Proof.
  intros E1 E2 E3. destruct (cut_split _ _ E1) as (_ & S & I1 & I2 & I3 & I4).
  destruct S as (Snb & Sb & S1 & S2 & S3 & P1 & P2 & Q1 & Q2 & Q3 & Q4 & DOM).
  assert (BX : f_block f bb <> None). { apply (in_block f _ p). unfold bb. rewrite L. apply in_or_app. right. now left. }
  assert (NBB : bb <> nb) by (intros Z; rewrite Z in BX; contradiction).
  assert (F1 : fresh_ok f1).
  { split.
    - intros i Hi. rewrite I4, Q1 in *. rewrite (proj1 (cf_fresh _ C) i Hi). destruct (existsb _ _); reflexivity.
    - intros b Hb. rewrite Q2 in Hb. destruct (f_block f1 b) eqn:Z; auto. exfalso. assert (Y : f_block f1 b <> None) by congruence.
      apply DOM in Y as [Y| ->]; [|lia]. apply Y. apply (cf_fresh _ C). lia. }
  destruct (create_bb_spec _ _ _ E2 F1) as (B1 & B2 & B3 & B4 & B5 & B6 & B7 & B8 & B9 & B10 & B11 & B12 & F2).
  assert (EB : eb = S nb) by congruence.
  assert (X2 : f_block f2 eb <> None) by exact B3.
  assert (G := grown_bb _ _ _ _ _ _ X2 E3 (or_introl eq_refl)). cbn in G.
  assert (IE : insns_of f2 eb = []). { rewrite B7. unfold insns_of. now rewrite B2. }
  rewrite IE in G. cbn in G.
  assert (NBE : bb <> eb). { intros Z. apply BX. rewrite Z. apply (cf_fresh _ C). fold nb. lia. }
  assert (FEB : f_block f eb = None). { apply (cf_fresh _ C). fold nb. lia. }
  split; [exact EB|]. split; [rewrite (gr_id _ _ _ _ _ _ G), B9; exact Q1|]. split; [apply G|].
  split; [rewrite (gr_nb _ _ _ _ _ _ G); exact B10|]. split; [rewrite (gr_entry _ _ _ _ _ _ G), B12; exact Q4|].
  split; [exact NBB|]. split; [exact NBE|].
  split.
  { intros c. assert (Z := gr_dom _ _ _ _ _ _ G c). assert (f_block f3 c <> None <-> f_block f2 c <> None) by tauto. rewrite H, B4.
    destruct (Nat.eqb_spec c eb) as [->|Nc]; [split; [tauto|discriminate]|]. rewrite DOM. tauto. }
  split.
  { intros c. rewrite (gr_insns _ _ _ _ _ _ G). destruct (Nat.eqb_spec c eb) as [->|Nc].
    - destruct (Nat.eqb_spec eb bb); [congruence|]. destruct (Nat.eqb_spec eb nb); [lia|]. reflexivity.
    - rewrite B7. destruct (Nat.eqb_spec c bb) as [->|]; auto. destruct (Nat.eqb_spec c nb) as [->|]; auto. }
  split.
  { intros c. rewrite (gr_succs _ _ _ _ _ _ G), B5. destruct (Nat.eqb_spec c bb) as [->|]; auto. destruct (Nat.eqb_spec c nb) as [->|]; auto.
    destruct (Nat.eqb_spec c eb) as [->|]; auto. unfold succs_of. now rewrite B2. }
  split.
  { intros c. rewrite (gr_preds _ _ _ _ _ _ G), B6. destruct (Nat.eqb_spec c nb) as [->|]; auto.
    destruct (Nat.eqb_spec c eb) as [->|]; auto. unfold preds_of. now rewrite B2. }
  split.
  { intros i Hi. destruct (gr_old _ _ _ _ _ _ G i Hi) as (u & E). rewrite B8, I4 in E. exists u. rewrite E.
    destruct (existsb _ _); destruct (f_insn f i); reflexivity. }
  split; [apply G|]. split.
  - intros i Hi. rewrite (gr_ni _ _ _ _ _ _ G) in Hi. destruct (gr_old _ _ _ _ _ _ G i) as (u & E); [lia|].
    rewrite E. rewrite (proj1 F2); [reflexivity|]. rewrite (gr_id _ _ _ _ _ _ G) in Hi. lia.
  - intros b Hb. apply (gr_dom _ _ _ _ _ _ G). apply F2. rewrite (gr_nb _ _ _ _ _ _ G) in Hb. exact Hb.
Qed.

Lemma cut_pin f1 f2 eb f3 t : split_bb f p P_BACK = Ok (f1, Some nb) -> create_bb f1 = (f2, eb) ->
  create_at_bb f2 eb K_throw P_BACK = Ok (f3, t) ->
  exists u, f_insn f3 p = Some (set_users u x) /\ ~ In p l1 /\ (i_op x = PHI -> forall j, In j l1 -> is_phi f3 j).
Proof.
  intros E1 E2 E3. destruct (cut_pre _ _ _ _ _ E1 E2 E3) as (_ & ET & _ & _ & _ & _ & _ & _ & _ & _ & _ & O & _ & _).
  assert (ND := cf_once _ C (i_parent x)). rewrite L in ND.
  destruct (O p) as (u & E). { intros Z. rewrite ET in Z. rewrite Z in X. rewrite (proj1 (cf_fresh _ C)) in X; [discriminate|lia]. }
  exists u. split.
  - rewrite E, X. cbn. assert (existsb (Nat.eqb p) l2 = false); [|now rewrite H].
    apply not_true_is_false. intros Z. apply existsb_exists in Z as (y & Y & Q). apply Nat.eqb_eq in Q. subst y.
    apply NoDup_remove_2 in ND. apply ND. apply in_or_app. auto.
  - split; [intros Z; apply NoDup_remove_2 in ND; apply ND; apply in_or_app; auto|].
    intros P j J. destruct (PH P j J) as (y & Y & PY). destruct (O j) as (u' & E').
    { intros Z. rewrite ET in Z. rewrite Z in Y. rewrite (proj1 (cf_fresh _ C)) in Y; [discriminate|lia]. }
    rewrite Y in E'. cbn in E'. eexists. split; [exact E'|]. destruct (existsb (Nat.eqb j) l2); exact PY.
Qed.

Lemma cut_div f1 f2 eb f3 t f4 j g : split_bb f p P_BACK = Ok (f1, Some nb) -> create_bb f1 = (f2, eb) ->
  create_at_bb f2 eb K_throw P_BACK = Ok (f3, t) -> create_at f3 p k P_BACK = Ok (f4, j) -> connect_bb f4 bb eb = Ok g ->
  cut f g bb (l1 ++ [p]) l2 nb eb t j k.
Proof.
  intros E1 E2 E3 E4 E5. destruct (cut_pre _ _ _ _ _ E1 E2 E3) as (A1 & A2 & A3 & A4 & A5 & A6 & A7 & A8 & A9 & A10 & A11 & A12 & A13 & A14).
  destruct (cut_pin _ _ _ _ _ E1 E2 E3) as (u & XP & NI & PH').
  assert (BX : f_block f bb <> None). { apply (in_block f _ p). unfold bb. rewrite L. apply in_or_app. right. now left. }
  assert (LB : insns_of f3 (i_parent (set_users u x)) = l1 ++ p :: []) by (cbn; rewrite A9; fold bb; now rewrite Nat.eqb_refl).
  assert (BX3 : f_block f3 (i_parent (set_users u x)) <> None) by (apply A8; left; exact BX).
  assert (G := grown_at f3 p (set_users u x) k P_BACK f4 j l1 [] A14 XP BX3 LB NI (or_intror eq_refl) KP (fun P => conj eq_refl (conj eq_refl (PH' P))) E4).
  cbn in G. fold bb in G.
  destruct (connect_spec _ _ _ _ E5) as (SS & _ & _ & SU & PR).
  assert (EJ : j = S t) by (rewrite (gr_id _ _ _ _ _ _ G); auto).
  constructor; auto.
  - rewrite (ss_ni _ _ SS). apply G.
  - rewrite (ss_nb _ _ SS), (gr_nb _ _ _ _ _ _ G). exact A4.
  - rewrite (ss_entry _ _ SS), (gr_entry _ _ _ _ _ _ G). exact A5.
  - intros c. rewrite <- A8. assert (Z := ss_dom _ _ SS c). assert (Z' := gr_dom _ _ _ _ _ _ G c). tauto.
  - intros c. rewrite (ss_insns _ _ SS), (gr_insns _ _ _ _ _ _ G). destruct (Nat.eqb_spec c bb) as [->|Nc]; [now rewrite <- app_assoc|].
    rewrite A9. destruct (Nat.eqb_spec c bb); [contradiction|reflexivity].
  - intros c. rewrite SU, (gr_succs _ _ _ _ _ _ G), A10. destruct (Nat.eqb_spec c bb) as [->|Nc]; [|reflexivity].
    rewrite push_unique_notin; [reflexivity|]. intros [Z|[]]. lia.
  - intros c. rewrite PR, (gr_preds _ _ _ _ _ _ G), A11. destruct (Nat.eqb_spec c eb) as [->|Nc].
    + destruct (Nat.eqb_spec eb nb); [lia|]. reflexivity.
    + reflexivity.
  - intros i Ht Hj. rewrite (ss_insn _ _ SS). destruct (gr_old _ _ _ _ _ _ G i Hj) as (v & E). destruct (A12 i Ht) as (v' & E').
    exists v. rewrite E, E'. destruct (f_insn f i); reflexivity.
  - rewrite (ss_insn _ _ SS). destruct (gr_old _ _ _ _ _ _ G t) as (v & E); [lia|]. destruct A13 as (v' & E'). exists v. rewrite E, E'. reflexivity.
  - rewrite (ss_insn _ _ SS). apply G.
Qed.

Lemma cut_err f1 eb nb' j g : create_error_block f p P_BACK = Ok (f1, Some (eb, nb')) -> create_at f1 p k P_BACK = Ok (g, j) ->
  nb' = nb /\ exists t, cut f g bb (l1 ++ [p]) l2 nb eb t j k.
Proof.
  intros E E4. unfold create_error_block in E. rewrite (proj2 (get_insn_ok _ _ _) X) in E. cbn [bind] in E.
  apply bind_ok in E as ((f0 & r) & E1 & E). destruct r as [nb0|]; [|discriminate].
  destruct (cut_split _ _ E1) as (Z & _). injection Z as ->.
  destruct (create_bb f0) as [f2 eb0] eqn:E2. apply bind_ok in E as ((f3 & t) & E3 & E). cbn [fst] in E.
  apply bind_ok in E as (f4 & E5 & E). injection E as -> -> <-. fold bb in E5.
  split; auto. exists t.
  destruct (cut_pre _ _ _ _ _ E1 E2 E3) as (A1 & A2 & A3 & A4 & A5 & A6 & A7 & A8 & A9 & A10 & A11 & A12 & A13 & A14).
  destruct (cut_pin _ _ _ _ _ E1 E2 E3) as (u & XP & NI & PH').
  assert (BX : f_block f bb <> None). { apply (in_block f _ p). unfold bb. rewrite L. apply in_or_app. right. now left. }
  destruct (connect_spec _ _ _ _ E5) as (SS & _ & _ & SU & PR).
  assert (LB : insns_of f1 (i_parent (set_users u x)) = l1 ++ p :: []) by (cbn; rewrite (ss_insns _ _ SS), A9; fold bb; now rewrite Nat.eqb_refl).
  assert (BX3 : f_block f1 (i_parent (set_users u x)) <> None). { intros Q. apply (ss_dom _ _ SS) in Q. revert Q. apply A8. left. exact BX. }
  assert (FR : fresh_ok f1).
  { split; [intros i Hi; rewrite (ss_insn _ _ SS); apply A14; rewrite (ss_ni _ _ SS) in Hi; exact Hi|].
    intros b Hb. apply (ss_dom _ _ SS). apply A14. rewrite (ss_nb _ _ SS) in Hb. exact Hb. }
  assert (XP1 : f_insn f1 p = Some (set_users u x)) by now rewrite (ss_insn _ _ SS).
  assert (PH1 : i_op (set_users u x) = PHI -> @nil nat = [] /\ P_BACK = P_BACK /\ forall j, In j l1 -> is_phi f1 j).
  { intros P. split; auto. split; auto. intros i Hi. destruct (PH' P i Hi) as (y & Y & PY). exists y. rewrite (ss_insn _ _ SS). auto. }
  assert (G := grown_at f1 p (set_users u x) k P_BACK g j l1 [] FR XP1 BX3 LB NI (or_intror eq_refl) KP PH1 E4).
  cbn in G. fold bb in G.
  assert (EJ : j = S t) by (rewrite (gr_id _ _ _ _ _ _ G), (ss_ni _ _ SS); auto).
  constructor; auto.
  - apply G.
  - rewrite (gr_nb _ _ _ _ _ _ G), (ss_nb _ _ SS). exact A4.
  - rewrite (gr_entry _ _ _ _ _ _ G), (ss_entry _ _ SS). exact A5.
  - intros c. rewrite <- A8. assert (Z := ss_dom _ _ SS c). assert (Z' := gr_dom _ _ _ _ _ _ G c). tauto.
  - intros c. rewrite (gr_insns _ _ _ _ _ _ G), (ss_insns _ _ SS). destruct (Nat.eqb_spec c bb) as [->|Nc]; [now rewrite <- app_assoc|].
    rewrite A9. destruct (Nat.eqb_spec c bb); [contradiction|reflexivity].
  - intros c. rewrite (gr_succs _ _ _ _ _ _ G), SU, A10. destruct (Nat.eqb_spec c bb) as [->|Nc]; [|reflexivity].
    rewrite push_unique_notin; [reflexivity|]. intros [Z|[]]. lia.
  - intros c. rewrite (gr_preds _ _ _ _ _ _ G), PR, A11. destruct (Nat.eqb_spec c eb) as [->|Nc].
    + destruct (Nat.eqb_spec eb nb); [lia|]. reflexivity.
    + reflexivity.
  - intros i Ht Hj. destruct (gr_old _ _ _ _ _ _ G i Hj) as (v & E). rewrite (ss_insn _ _ SS) in E. destruct (A12 i Ht) as (v' & E').
    exists v. rewrite E, E'. destruct (f_insn f i); reflexivity.
  - destruct (gr_old _ _ _ _ _ _ G t) as (v & E); [lia|]. rewrite (ss_insn _ _ SS) in E. destruct A13 as (v' & E'). exists v. rewrite E, E'. reflexivity.
  - apply G.
Qed.
End CUT.

Section CUTCFG.
Variables (f g : func) (bb : nat) (keep moved : list nat) (nb eb t j : nat) (v1 v2 : value) (o : iop) (al : alut).
Hypotheses (C : cfg_ok f) (L : insns_of f bb = keep ++ moved) (N : moved <> []) (CO : cmp_op_of o <> None)
  (G : cut f g bb keep moved nb eb t j (K_jbin v1 v2 nb eb o al)).

Lemma cut_bb : f_block f bb <> None.
Proof. unfold insns_of in L. destruct (f_block f bb); [discriminate|]. destruct keep, moved; cbn in L; discriminate || congruence. Qed.
Lemma cut_ne : bb <> nb /\ bb <> eb /\ nb <> eb /\ f_block f nb = None /\ f_block f eb = None.
Proof.
  assert (B := cut_bb). assert (N1 := ct_nb _ _ _ _ _ _ _ _ _ _ G). assert (N2 := ct_eb _ _ _ _ _ _ _ _ _ _ G).
  assert (A1 : f_block f nb = None) by (apply (cf_fresh _ C); lia). assert (A2 : f_block f eb = None) by (apply (cf_fresh _ C); lia).
  repeat split; auto; try lia; intros Z; rewrite Z in B; contradiction.
Qed.
Lemma cut_fresh : f_insn f t = None /\ f_insn f j = None.
Proof.
  assert (T1 := ct_t _ _ _ _ _ _ _ _ _ _ G). assert (T2 := ct_j _ _ _ _ _ _ _ _ _ _ G).
  split; apply (cf_fresh _ C); lia.
Qed.
Lemma cut_notin i b : In i (insns_of f b) -> i <> t /\ i <> j.
Proof. intros I. destruct (cf_linked _ C b i I) as (x & X & _). destruct cut_fresh as (A & B). split; intros ->; congruence. Qed.
Lemma cut_like i : i <> t -> i <> j -> opt_like f g i.
Proof.
  intros A B. destruct (ct_old _ _ _ _ _ _ _ _ _ _ G i A B) as (u & E). unfold opt_like. rewrite E. destruct (f_insn f i) as [x|]; [|exists u, 0; reflexivity].
  cbn. destruct (existsb _ _); [exists u, nb; reflexivity|]. exists u, (i_parent x). destruct x; reflexivity.
Qed.
Lemma cut_keep i : In i keep -> ~ is_terminator f i.
Proof.
  intros I T. apply in_split in I as (k1 & k2 & E). assert (Z : k2 ++ moved = []).
  { apply (cf_ends _ C bb k1 i (k2 ++ moved)); auto. rewrite L, E. now rewrite <- app_assoc. }
  apply app_eq_nil in Z as (_ & Z). contradiction.
Qed.
Lemma cut_goes c e : goes g c e ->
  (c = bb /\ (e = nb \/ e = eb)) \/ (c = nb /\ goes f bb e) \/ (c <> bb /\ c <> nb /\ c <> eb /\ goes f c e).
Proof.
  intros W. destruct cut_ne as (N1 & N2 & N3 & _). destruct (ct_jmp _ _ _ _ _ _ _ _ _ _ G) as (u & XJ). destruct (ct_throw _ _ _ _ _ _ _ _ _ _ G) as (u' & XT).
  assert (IG := ct_insns _ _ _ _ _ _ _ _ _ _ G c). assert (SG := ct_succs _ _ _ _ _ _ _ _ _ _ G c).
  destruct (Nat.eqb_spec c bb) as [->|Nb].
  { left. split; auto. apply (goes_last g bb keep j) in W; auto.
    - destruct W as [(x & X & [(Y & _)|(_ & Y)])|(l' & Y)].
      + rewrite XJ in X. injection X as <-. cbn in Y. subst o. exfalso. apply CO. reflexivity.
      + rewrite XJ in X. injection X as <-. cbn in Y. auto.
      + rewrite SG in Y. injection Y as -> _. auto.
    - intros i I Z. assert (I' : In i (insns_of f bb)) by (rewrite L; apply in_or_app; auto).
      apply (cut_keep i I). destruct (cut_notin i bb I') as (T1 & T2). apply (like_term f g i); auto. apply cut_like; auto. }
  destruct (Nat.eqb_spec c nb) as [->|Nn].
  { right. left. split; auto. eapply goes_like; [| |exact W].
    - intros i I. rewrite IG in I. assert (I' : In i (insns_of f bb)) by (rewrite L; apply in_or_app; auto).
      split; auto. destruct (cut_notin i bb I'). apply cut_like; auto.
    - intros c l Y. rewrite SG in Y. eauto. }
  destruct (Nat.eqb_spec c eb) as [->|Ne].
  { exfalso. apply (goes_last g eb [] t) in W; auto.
    - destruct W as [(x & X & Y)|(l' & Y)]; [|rewrite SG in Y; discriminate].
      rewrite XT in X. injection X as <-. cbn in Y. destruct Y as [(Y & _)|(Y & _)]; [discriminate|]. apply Y. reflexivity.
  }
  right. right. repeat split; auto. eapply goes_like; [| |exact W].
  - intros i I. rewrite IG in I. split; auto. destruct (cut_notin i c I). apply cut_like; auto.
  - intros c' l Y. rewrite SG in Y. eauto.
Qed.

Lemma cut_mirror : mirrored g.
Proof.
  destruct (cf_mirror _ C) as (A & A1 & A2). destruct cut_ne as (N1 & N2 & N3 & N4 & N5).
  assert (SP : forall c, In c (succs_of f bb) -> c <> nb /\ c <> eb).
  { intros c I. assert (P : In bb (preds_of f c)) by (apply A; auto). split; intros ->; unfold preds_of in P; rewrite ?N4, ?N5 in P; destruct P. }
  assert (PS : forall c d, In c (preds_of f d) -> c <> nb /\ c <> eb).
  { intros c d I. assert (P : In d (succs_of f c)) by (apply A; auto). split; intros ->; unfold succs_of in P; rewrite ?N4, ?N5 in P; destruct P. }
  assert (EX : forall c, existsb (Nat.eqb c) (succs_of f bb) = true <-> In c (succs_of f bb)).
  { intros c. rewrite existsb_exists. split; [intros (y & Y & Q); apply Nat.eqb_eq in Q; congruence|]. intros I. exists c. split; auto. apply Nat.eqb_refl. }
  split; [|split].
  - intros a b. rewrite (ct_succs _ _ _ _ _ _ _ _ _ _ G), (ct_preds _ _ _ _ _ _ _ _ _ _ G).
    destruct (Nat.eqb_spec b nb) as [->|B1].
    { destruct (Nat.eqb_spec a bb) as [->|]; [cbn; tauto|]. cbn. split; [|intros [Z|[]]; congruence].
      destruct (Nat.eqb_spec a nb); [intros I; apply SP in I; tauto|]. destruct (Nat.eqb_spec a eb); [intros []|].
      intros I. apply A in I. unfold preds_of in I. rewrite N4 in I. destruct I. }
    destruct (Nat.eqb_spec b eb) as [->|B2].
    { destruct (Nat.eqb_spec a bb) as [->|]; [cbn; tauto|]. cbn. split; [|intros [Z|[]]; congruence].
      destruct (Nat.eqb_spec a nb); [intros I; apply SP in I; tauto|]. destruct (Nat.eqb_spec a eb); [intros []|].
      intros I. apply A in I. unfold preds_of in I. rewrite N5 in I. destruct I. }
    destruct (Nat.eqb_spec a bb) as [->|B3].
    { cbn. split; [intros [Z|[Z|[]]]; congruence|]. intros I. exfalso.
      destruct (existsb (Nat.eqb b) (succs_of f bb)) eqn:E.
      - apply in_app_or in I as [I|[I|[]]]; [|congruence]. apply erase_first_in in I; auto. tauto.
      - assert (E' : ~ In b (succs_of f bb)) by (rewrite <- EX; congruence). apply E'. apply A. exact I. }
    destruct (Nat.eqb_spec a nb) as [->|B4].
    { destruct (existsb (Nat.eqb b) (succs_of f bb)) eqn:E.
      - apply EX in E. split; auto. intros _. apply in_or_app. right. now left.
      - assert (E' : ~ In b (succs_of f bb)) by (rewrite <- EX; congruence). split; [contradiction|]. intros I. apply PS in I. tauto. }
    destruct (Nat.eqb_spec a eb) as [->|B5].
    { split; [intros []|]. intros I. destruct (existsb _ _); [apply in_app_or in I as [I|[I|[]]]; [|congruence]; apply erase_first_in in I as (I & _); auto|];
      apply PS in I; tauto. }
    destruct (existsb (Nat.eqb b) (succs_of f bb)) eqn:E; [|apply A].
    rewrite in_app_iff, erase_first_in by auto. rewrite A. cbn. split; [tauto|]. intros [Z|[Z|[]]]; [tauto|congruence].
  - intros a. rewrite (ct_succs _ _ _ _ _ _ _ _ _ _ G). destruct (a =? bb); [repeat constructor; cbn; intuition|].
    destruct (a =? nb); [apply A1|]. destruct (a =? eb); [constructor|apply A1].
  - intros a. rewrite (ct_preds _ _ _ _ _ _ _ _ _ _ G). destruct (a =? nb); [repeat constructor; cbn; tauto|]. destruct (a =? eb); [repeat constructor; cbn; tauto|].
    destruct (existsb _ _); [|apply A2].
    assert (ND : NoDup (erase_first bb (preds_of f a))) by (apply erase_first_nodup; apply A2).
    apply NoDup_Add with (a := nb) (l := erase_first bb (preds_of f a) ++ []); [apply Add_app|]. rewrite app_nil_r. split; auto.
    intros I. apply erase_first_in in I as (I & _); auto. apply PS in I. tauto.
Qed.

Lemma cut_cfg : cfg_ok g.
Proof.
  destruct cut_ne as (N1 & N2 & N3 & N4 & N5). destruct cut_fresh as (F1 & F2).
  assert (ET := ct_t _ _ _ _ _ _ _ _ _ _ G). assert (EJ := ct_j _ _ _ _ _ _ _ _ _ _ G).
  destruct (ct_jmp _ _ _ _ _ _ _ _ _ _ G) as (u & XJ). destruct (ct_throw _ _ _ _ _ _ _ _ _ _ G) as (u' & XT).
  constructor.
  - apply cut_mirror.
  - split.
    + intros i Hi. rewrite (ct_ni _ _ _ _ _ _ _ _ _ _ G) in Hi. destruct (ct_old _ _ _ _ _ _ _ _ _ _ G i) as (w & E); try lia.
      rewrite E, (proj1 (cf_fresh _ C)); [reflexivity|lia].
    + intros b Hb. destruct (f_block g b) eqn:E; auto. exfalso. assert (Z : f_block g b <> None) by congruence.
      apply (ct_dom _ _ _ _ _ _ _ _ _ _ G) in Z. rewrite (ct_fnb _ _ _ _ _ _ _ _ _ _ G) in Hb.
      assert (E1 := ct_nb _ _ _ _ _ _ _ _ _ _ G). assert (E2 := ct_eb _ _ _ _ _ _ _ _ _ _ G).
      destruct Z as [Z|[Z|Z]]; try lia. apply Z. apply (cf_fresh _ C). lia.
  - intros b i I. rewrite (ct_insns _ _ _ _ _ _ _ _ _ _ G) in I.
    assert (K : forall b', In i (insns_of f b') -> exists x, f_insn f i = Some x /\ i_parent x = b' /\ exists w, f_insn g i = Some (set_users w (if existsb (Nat.eqb i) moved then set_parent nb x else x))).
    { intros b' I'. destruct (cf_linked _ C b' i I') as (x & X & P). destruct (cut_notin i b' I') as (T1 & T2).
      destruct (ct_old _ _ _ _ _ _ _ _ _ _ G i T1 T2) as (w & E). rewrite X in E. exists x. split; auto. split; auto. exists w. exact E. }
    assert (M : existsb (Nat.eqb i) moved = true <-> In i moved).
    { rewrite existsb_exists. split; [intros (y & Y & Q); apply Nat.eqb_eq in Q; congruence|]. intros Y. exists i. split; auto. apply Nat.eqb_refl. }
    assert (ND := cf_once _ C bb). rewrite L in ND.
    destruct (Nat.eqb_spec b bb) as [Q|B1].
    { apply in_app_or in I as [I|[<-|[]]].
      - destruct (K bb) as (x & X & P & w & E); [rewrite L; apply in_or_app; auto|]. eexists. split; [exact E|].
        assert (Z : ~ In i moved). { clear -ND I. apply in_split in I as (k1 & k2 & ->). rewrite <- app_assoc in ND. apply NoDup_remove_2 in ND. intros Z. apply ND. apply in_or_app. right. apply in_or_app. auto. }
        destruct (existsb (Nat.eqb i) moved); [tauto|]. cbn. congruence.
      - eexists. split; [exact XJ|]. cbn. auto. }
    destruct (Nat.eqb_spec b nb) as [Q|B2].
    { destruct (K bb) as (x & X & P & w & E); [rewrite L; apply in_or_app; auto|]. eexists. split; [exact E|]. rewrite (proj2 M I). cbn. auto. }
    destruct (Nat.eqb_spec b eb) as [Q|B3].
    { destruct I as [<-|[]]. eexists. split; [exact XT|]. cbn. auto. }
    destruct (K b I) as (x & X & P & w & E). eexists. split; [exact E|].
    assert (Z : ~ In i moved). { intros Z. destruct (cf_linked _ C bb i) as (x' & X' & P'); [rewrite L; apply in_or_app; auto|]. congruence. }
    destruct (existsb (Nat.eqb i) moved); [tauto|]. exact P.
  - intros b. rewrite (ct_insns _ _ _ _ _ _ _ _ _ _ G). assert (ND := cf_once _ C bb). rewrite L in ND.
    destruct (b =? bb).
    { apply NoDup_Add with (a := j) (l := keep ++ []); [apply Add_app|]. rewrite app_nil_r. split.
      - clear -ND. induction keep as [|a l IH]; [constructor|]. inversion ND; subst. constructor; auto. intros I. apply H1. apply in_or_app. auto.
      - intros I. assert (I' : In j (insns_of f bb)) by (rewrite L; apply in_or_app; auto). apply cut_notin in I'. tauto. }
    destruct (b =? nb).
    { clear -ND. induction keep as [|a l IH]; auto. inversion ND; subst. auto. }
    destruct (b =? eb); [repeat constructor; cbn; tauto|]. apply C.
  - intros b c W. rewrite (ct_succs _ _ _ _ _ _ _ _ _ _ G). apply cut_goes in W as [(-> & W)|[(-> & W)|(A1 & A2 & A3 & W)]].
    + rewrite Nat.eqb_refl. cbn. destruct W; auto.
    + destruct (Nat.eqb_spec nb bb); [congruence|]. rewrite Nat.eqb_refl. apply (cf_goes _ C). exact W.
    + destruct (Nat.eqb_spec b bb); [contradiction|]. destruct (Nat.eqb_spec b nb); [contradiction|]. destruct (Nat.eqb_spec b eb); [contradiction|].
      apply (cf_goes _ C). exact W.
  - intros b k1 i k2 E T. rewrite (ct_insns _ _ _ _ _ _ _ _ _ _ G) in E.
    assert (K : forall b', In i (insns_of f b') -> is_terminator f i).
    { intros b' I. destruct (cut_notin i b' I). apply (like_term f g i); auto. apply cut_like; auto. }
    destruct (Nat.eqb_spec b bb) as [Q|B1].
    { destruct k2 as [|z k2]; auto. exfalso. destruct (exists_last (l := z :: k2)) as (y & w & W); [discriminate|]. rewrite W in E.
      rewrite app_comm_cons, app_assoc in E. apply app_inj_tail in E as (E & _).
      assert (I : In i keep) by (rewrite E; apply in_or_app; right; now left).
      apply (cut_keep i I). apply (K bb). rewrite L. apply in_or_app; auto. }
    destruct (Nat.eqb_spec b nb) as [Q|B2].
    { apply (cf_ends _ C bb (keep ++ k1) i k2); [rewrite L, E; now rewrite <- app_assoc|]. apply (K bb). rewrite L, E. apply in_or_app. right. apply in_or_app. right. now left. }
    destruct (Nat.eqb_spec b eb) as [Q|B3].
    { destruct k1 as [|z [|z' k1]]; [|discriminate|discriminate]. cbn in E. now injection E. }
    apply (cf_ends _ C b k1 i k2 E). apply (K b). rewrite E. apply in_or_app. right. now left.
  - rewrite (ct_entry _ _ _ _ _ _ _ _ _ _ G). apply (ct_dom _ _ _ _ _ _ _ _ _ _ G). left. apply (cf_entry _ C).
Qed.

Lemma cut_phis_first : phis_first f -> phis_first g.
Proof.
  intros P b k1 i k2 E PI k KI. rewrite (ct_insns _ _ _ _ _ _ _ _ _ _ G) in E.
  destruct (ct_jmp _ _ _ _ _ _ _ _ _ _ G) as (u & XJ). destruct (ct_throw _ _ _ _ _ _ _ _ _ _ G) as (u' & XT).
  assert (NP : forall i, is_phi g i -> i <> t /\ i <> j).
  { intros i' (x & X & Q). split; intros ->; [rewrite XT in X|rewrite XJ in X]; injection X as <-; cbn in Q; [discriminate|]. subst o. apply CO. reflexivity. }
  destruct (NP i PI) as (T1 & T2). assert (PF : is_phi f i) by (apply (like_phi f g i); auto; apply cut_like; auto).
  assert (K : forall b' m1 m2, insns_of f b' = m1 ++ i :: m2 -> In k m1 -> is_phi g k).
  { intros b' m1 m2 E' I. assert (Z := P b' m1 i m2 E' PF k I). assert (I' : In k (insns_of f b')) by (rewrite E'; apply in_or_app; auto).
    destruct (cut_notin k b' I'). apply (like_phi f g k); auto. apply cut_like; auto. }
  destruct (Nat.eqb_spec b bb) as [Q|B1].
  { destruct k2 as [|z k2].
    - apply app_inj_tail in E as (-> & ->). congruence.
    - destruct (exists_last (l := z :: k2)) as (y & w & W); [discriminate|]. rewrite W in E.
      rewrite app_comm_cons, app_assoc in E. apply app_inj_tail in E as (E & _).
      apply (K bb k1 (y ++ moved)); auto. rewrite L, E. now rewrite <- app_assoc. }
  destruct (Nat.eqb_spec b nb) as [Q|B2].
  { apply (K bb (keep ++ k1) k2); [rewrite L, E; now rewrite <- app_assoc|]. apply in_or_app; auto. }
  destruct (Nat.eqb_spec b eb) as [Q|B3].
  { destruct k1 as [|z [|z' k1]]; [|discriminate|discriminate]. destruct KI. }
  apply (K b k1 k2); auto.
Qed.
End CUTCFG.
