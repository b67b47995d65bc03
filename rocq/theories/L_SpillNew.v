(** Creating any instruction anywhere: the function afterwards and its users lists. *)
From Coq Require Import ZArith List Bool Arith Lia.
From Verif Require Import M_Base M_Ir M_Edit SpecWord SpecFlat SpecSsa SpecIr SpecEdit SpecPass SpecStrict SpecInstr
  L_Edit L_Uses L_Hist L_Ctor L_Ins L_PassPhi.
Import ListNotations.
Open Scope nat_scope.
Ltac bo H r E := apply bind_ok in H as (r & E & H).
Ltac oks H := injection H as H; subst.

Lemma new_counts f bb k f' n : create_insn f bb k = Ok (f', n) -> fresh_ok f ->
  forall c u, cnt (users_of f' c) u = cnt (users_of f c) u + (if n =? u then nref c (operands (build bb k)) else 0).
Proof.
  intros E Fr c u. unfold create_insn in E. set (f1 := mkFunc _ _ _ _ _ _) in E. bo E f2 E2. injection E as <- <-.
  apply fold_add_spec in E2 as (UE & UC). rewrite UC. f_equal.
  unfold users_of, f1; cbn. unfold upd. destruct (Nat.eqb_spec c (f_ni f)) as [->|]; [|reflexivity]. rewrite (proj1 Fr _ (Nat.le_refl _)). now rewrite operands_fresh_users.
Qed.
Definition counts (f g : func) (i : nat) (l : list value) : Prop :=
  forall c u, cnt (users_of g c) u = cnt (users_of f c) u + (if i =? u then nref c l else 0).

Lemma users_insn f g c : (forall j, f_insn g j = f_insn f j) -> users_of g c = users_of f c.
Proof. intros H. unfold users_of. now rewrite H. Qed.

(** kinds of instructions are kept by the creation of another *)
Lemma raw_kinds f f1 i j : i = f_ni f -> fresh_ok f -> (forall j, j <> i -> exists l, f_insn f1 j = option_map (set_users l) (f_insn f j)) ->
  f_insn f j <> None -> (is_phi f j <-> is_phi f1 j) /\ (is_terminator f j <-> is_terminator f1 j).
Proof.
  intros -> F H L. assert (N : j <> f_ni f). { intros ->. apply L. apply F. lia. }
  destruct (H j N) as (l & E). unfold is_phi, is_terminator. rewrite E. destruct (f_insn f j) as [x|]; cbn; [|congruence].
  split; split; intros (y & Y & P); injection Y as <-; eauto.
Qed.

Lemma inserted f f1 i bb k p g : fresh_ok f -> (forall j, In j (insns_of f bb) -> f_insn f j <> None) -> f_block f bb <> None ->
  create_insn f bb k = Ok (f1, i) -> insert_at_bb f1 i bb p = Ok g ->
  (exists l1 l2, placed f p (insns_of f bb) l1 l2 /\ grown f g i bb k (l1 ++ i :: l2)) /\ counts f g i (operands (build bb k)).
Proof.
  intros Fr Li B C I. pose proof (new_counts _ _ _ _ _ C Fr) as NC.
  apply create_raw in C as (C1 & C2 & C3 & C4 & C5 & C6 & C7 & C8).
  destruct (f_block f1 bb) as [b|] eqn:Eb; [|rewrite C6 in Eb; congruence].
  destruct (insert_at_bb_places f1 i bb p b Eb) as (g' & x & y & I' & PL & L & O1 & O2 & O3 & O4).
  rewrite I in I'. injection I' as <-.
  assert (IB : insns_of f1 bb = insns_of f bb) by (unfold insns_of; now rewrite C6).
  split.
  - exists x, y. split.
    + rewrite IB in PL. apply (placed_ext f1 f) in PL; [exact PL|]. intros j Hj. destruct (raw_kinds f f1 i j C1 Fr C8 (Li j Hj)) as (A1 & A2). split; [rewrite A1|rewrite A2]; reflexivity.
    + unfold insert_at_bb, get_block in I. rewrite Eb in I. cbn [bind] in I.
      assert (X : f_ni g = f_ni f1 /\ f_nb g = f_nb f1 /\ f_entry g = f_entry f1 /\ forall c, f_block g c = None <-> f_block f1 c = None).
      { injection I as <-. cbn. split; [reflexivity|]. split; [reflexivity|]. split; [reflexivity|]. intros c. unfold upd.
        destruct (Nat.eqb_spec c bb) as [->|]; [rewrite Eb; split; discriminate|tauto]. }
      destruct X as (X1 & X2 & X3 & X4).
      constructor; try congruence.
      * intros c. now rewrite X4, C6.
      * destruct C7 as (u & C7). exists u. now rewrite O4.
      * intros j N. rewrite O4. auto.
      * intros c. rewrite O2. unfold succs_of. now rewrite C6.
      * intros c. rewrite O3. unfold preds_of. now rewrite C6.
      * intros c. destruct (Nat.eqb_spec c bb) as [->|N]; [exact L|]. unfold insns_of. now rewrite (O1 c N), C6.
  - intros c u. rewrite (users_insn _ _ _ O4). apply NC.
Qed.
Lemma new_at_bb f bb k p g i : fresh_ok f -> (forall j, In j (insns_of f bb) -> f_insn f j <> None) -> f_block f bb <> None ->
  create_at_bb f bb k p = Ok (g, i) ->
  (exists l1 l2, placed f p (insns_of f bb) l1 l2 /\ grown f g i bb k (l1 ++ i :: l2)) /\ counts f g i (operands (build bb k)).
Proof.
  intros Fr Li B E. unfold create_at_bb in E. bo E r C. destruct r as [f1 i']. cbn [fst snd] in E. bo E f2 I2. injection E as <- <-. rename I2 into I. exact (inserted _ _ _ _ _ _ _ Fr Li B C I).
Qed.
Lemma new_at_phi f a x k p g i : fresh_ok f -> f_insn f a = Some x -> i_op x = PHI -> i_op (build (i_parent x) k) <> PHI ->
  (forall j, In j (insns_of f (i_parent x)) -> f_insn f j <> None) -> f_block f (i_parent x) <> None ->
  create_at f a k p = Ok (g, i) ->
  (exists l1 l2, placed f P_FRONT_AFTER_PHI (insns_of f (i_parent x)) l1 l2 /\ grown f g i (i_parent x) k (l1 ++ i :: l2)) /\
  counts f g i (operands (build (i_parent x) k)).
Proof.
  intros Fr X O NP Li B E. unfold create_at in E. rewrite (proj2 (get_insn_ok _ _ _) X) in E. cbn [bind] in E. bo E r C. destruct r as [f1 i']. cbn [fst snd] in E. bo E f2 I2. rename I2 into I. injection E as <- <-.
  pose proof C as C'. apply create_raw in C' as (C1 & C2 & C3 & C4 & C5 & C6 & (un & C7) & C8).
  assert (NA : a <> i'). { intros ->. rewrite (proj1 Fr) in X; [discriminate|lia]. }
  destruct (C8 a NA) as (ua & XA). rewrite X in XA. cbn in XA.
  destruct (f_block f1 (i_parent x)) as [b|] eqn:Eb; [|rewrite C6 in Eb; congruence].
  rewrite (insert_at_phi f1 i' a (set_users ua x) (set_users un (build (i_parent x) k)) p b XA C7 O) in I; [|destruct k; exact NP|exact Eb].
  exact (inserted _ _ _ _ _ _ _ Fr Li B C I).
Qed.
Lemma new_at f a x k p g i l1 l2 : fresh_ok f -> f_insn f a = Some x -> i_op x <> PHI -> i_op (build 0 k) <> PHI -> f_block f (i_parent x) <> None ->
  insns_of f (i_parent x) = l1 ++ a :: l2 -> ~ In a l1 -> p = P_FRONT \/ p = P_BACK -> create_at f a k p = Ok (g, i) ->
  grown f g i (i_parent x) k (match p with P_FRONT => l1 ++ i :: a :: l2 | _ => l1 ++ a :: i :: l2 end) /\ counts f g i (operands (build (i_parent x) k)).
Proof.
  intros Fr X NX NP B L NI PP E. split; [exact (grown_at f a x k p g i l1 l2 Fr X B L NI PP NP (fun P => match NX P with end) E)|].
  unfold create_at in E. rewrite (proj2 (get_insn_ok _ _ _) X) in E. cbn [bind] in E. bo E r C. destruct r as [f1 i']. cbn [fst snd] in E. bo E f2 I2. rename I2 into I. injection E as <- <-.
  assert (S : forall j, f_insn f2 j = f_insn f1 j).
  { unfold insert_at in I. bo I x1 X1. bo I x2 X2. destruct (_ && _).
    - unfold insert_at_bb in I. bo I b Eb. oks I. intros j. reflexivity.
    - bo I b Eb. destruct PP as [-> | ->]; bo I lb El; oks I; intros j; reflexivity. }
  intros c u. rewrite (users_insn _ _ _ S). now apply (new_counts _ _ _ _ _ C Fr).
Qed.

(** ** What creation keeps *)
Lemma grown_fresh f g i bb k l : fresh_ok f -> grown f g i bb k l -> fresh_ok g.
Proof.
  intros (F1 & F2) G. pose proof (gr_id _ _ _ _ _ _ G) as Hi. split.
  - intros j L. rewrite (gr_ni _ _ _ _ _ _ G) in L. destruct (gr_old _ _ _ _ _ _ G j ltac:(lia)) as (u & ->). rewrite F1 by lia. reflexivity.
  - intros b L. rewrite (gr_nb _ _ _ _ _ _ G) in L. apply (gr_dom _ _ _ _ _ _ G). auto.
Qed.
Lemma grown_ops f g i bb k l u : fresh_ok f -> grown f g i bb k l -> ops_of g u = if u =? i then operands (build bb k) else ops_of f u.
Proof.
  intros Fr G. unfold ops_of. destruct (Nat.eqb_spec u i) as [->|N].
  - destruct (gr_new _ _ _ _ _ _ G) as (un & ->). apply operands_users.
  - destruct (gr_old _ _ _ _ _ _ G u N) as (w & ->). destruct (f_insn f u); [|reflexivity]. cbn [option_map]. apply operands_users.
Qed.
Lemma grown_counted f g i bb k l c u : fresh_ok f -> grown f g i bb k l -> counts f g i (operands (build bb k)) -> counted f c u -> counted g c u.
Proof.
  intros Fr G C (A & B). unfold counted in *. rewrite (grown_ops _ _ _ _ _ _ u Fr G). rewrite count_in in *. rewrite C. rewrite (Nat.eqb_sym i u).
  destruct (Nat.eqb_spec u i) as [->|N]; [|rewrite Nat.add_0_r; split; auto].
  assert (Z : ops_of f i = []). { unfold ops_of. rewrite (proj1 Fr i); [reflexivity|]. rewrite (gr_id _ _ _ _ _ _ G). lia. } rewrite Z in A, B. unfold nref in A at 1; unfold nref in B at 1. cbn in A, B. lia.
Qed.
Lemma grown_users f g i bb k l : fresh_ok f -> grown f g i bb k l -> counts f g i (operands (build bb k)) -> users_ok f -> users_ok g.
Proof. intros Fr G C U. apply users_counted. intros c u. apply (grown_counted _ _ _ _ _ _ _ _ Fr G C). now apply users_counted. Qed.
