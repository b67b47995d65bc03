(** Spilling: a function stays one in which values can be moved to the stack. *)
From Coq Require Import ZArith List Bool Arith Lia.
From Verif Require Import M_Base M_Ir M_Norm M_Edit M_Ra SpecWord SpecFlat SpecProg SpecSsa SpecIr SpecEdit SpecPass SpecShift SpecInstr SpecFrame SpecRa SpecVirt SpecSpill
  L_Word L_Edit L_Uses L_Hist L_Ins L_PrepInv L_Frame L_SpillNew L_SpillStr.
From Verif Require Import SpecIr SpecRa SpecVirt.
Import ListNotations.
Open Scope nat_scope.

Lemma F2_in {A B} (R : A -> B -> Prop) l l' b : Forall2 R l l' -> In b l' -> exists a, In a l /\ R a b.
Proof. intros F. induction F as [|x y l l' H F IH]; intros I; [destruct I|]. destruct I as [<-|I]; [exists x; split; [now left|exact H]|]. destruct (IH I) as (z & Iz & Q). exists z. split; [now right|exact Q]. Qed.

Section Keep.
Context (s : cgs) (v : nat) (xv : insn).
Hypothesis Sb : spillable s.
Hypothesis Tv : tracked s v.
Hypothesis Xv : f_insn (c_f s) v = Some xv.
Context (t : cgs) (pre tail : nat -> list nat).
Let n := f_ni (c_f s).
Let a := n.
Let st := S n.
Hypothesis W : spilt s t v a st pre tail.

Lemma kp_lt j x : f_insn (c_f s) j = Some x -> j < n. Proof. exact (str_lt s Sb j x). Qed.
Lemma kp_inlt b j : In j (insns_of (c_f s) b) -> j < n. Proof. exact (str_in_lt s Sb b j). Qed.
(** the instructions of the new function *)
Lemma kp_cases j y : f_insn (c_f t) j = Some y ->
  (exists x, f_insn (c_f s) j = Some x /\ j < n /\ edited v (fun l => In l (pre j)) (ends s pre tail) x y) \/
  (j = a /\ exists u, y = set_users u (build (f_entry (c_f s)) (K_alloc VR_64))) \/
  (j = st /\ exists u b, y = set_users u (build b (K_store a (val_insn v)))) \/
  (st < j < f_ni (c_f t) /\ exists u b, y = set_users u (load_insn b a j)).
Proof.
  intros Y. destruct (Nat.lt_ge_cases j n) as [L|L].
  - left. destruct (f_insn (c_f s) j) as [x|] eqn:X; [|rewrite (w_none _ _ _ _ _ _ _ W j L X) in Y; discriminate Y]. exists x. split; [reflexivity|]. split; [exact L|].
    destruct (w_old _ _ _ _ _ _ _ W j x X) as (y' & Y' & Ed). rewrite Y in Y'. injection Y' as <-. exact Ed.
  - right. destruct (Nat.eq_dec j a) as [->|Na]; [left; split; [reflexivity|]; destruct (w_a _ _ _ _ _ _ _ W) as ((u & A) & _); exists u; congruence|right].
    destruct (Nat.eq_dec j st) as [->|Ns]; [left; split; [reflexivity|]; destruct (w_st _ _ _ _ _ _ _ W) as ((u & b & A) & _); exists u, b; congruence|right].
    assert (G : st < j < f_ni (c_f t)). { split; [unfold a, st in *; lia|]. destruct (Nat.lt_ge_cases j (f_ni (c_f t))) as [G|G]; [exact G|]. rewrite (proj1 (w_fresh _ _ _ _ _ _ _ W) j G) in Y. discriminate Y. }
    split; [exact G|]. destruct (w_ld _ _ _ _ _ _ _ W j G) as ((u & b & A) & _). exists u, b. congruence.
Qed.
Lemma kp_in b j : In j (insns_of (c_f s) b) -> In j (insns_of (c_f t) b).
Proof.
  intros I. destruct (w_list _ _ _ _ _ _ _ W b) as (P & M & L1 & _ & _ & ->). rewrite L1 in I. rewrite !in_app_iff in *. destruct I as [I|I]; [now left|]. right. right. left. apply in_flat_map. exists j. split; [exact I|]. unfold group. apply in_or_app. right. now left.
Qed.
Lemma kp_back b j : In j (insns_of (c_f t) b) ->
  (j < n /\ In j (insns_of (c_f s) b)) \/ (j = a /\ b = f_entry (c_f s)) \/ (j = st /\ b = i_parent xv) \/ (st < j < f_ni (c_f t) /\ In b (c_reach s)).
Proof.
  intros I. destruct (w_list _ _ _ _ _ _ _ W b) as (P & M & L1 & HP & HM & L2). rewrite L2, !in_app_iff in I.
  assert (OLD : In j (insns_of (c_f s) b) -> j < n /\ In j (insns_of (c_f s) b)) by (intros K; split; [exact (kp_inlt _ _ K)|exact K]).
  assert (PV : In v (insns_of (c_f s) b) -> b = i_parent xv). { intros K. destruct (str_live s Sb _ _ K) as (x & X & <-). congruence. }
  destruct I as [I|[I|[I|I]]].
  - left. apply OLD. rewrite L1. apply in_or_app. now left.
  - unfold atop in I. apply in_app_iff in I as [I|I].
    + destruct (Nat.eqb_spec b (f_entry (c_f s))); [|destruct I]. destruct I as [<-|[]]. right. left. auto.
    + rewrite Xv in I. destruct (_ && _) eqn:Q; [|destruct I]. destruct I as [<-|[]]. right. right. left. split; [reflexivity|]. apply andb_true_iff in Q as (_ & Q). now apply Nat.eqb_eq in Q.
  - apply in_flat_map in I as (m & Im & I). assert (Ims : In m (insns_of (c_f s) b)) by (rewrite L1; apply in_or_app; now right).
    unfold group, behind in I. apply in_app_iff in I as [I|[<-|I]].
    + right. right. right. split; [exact (w_pre _ _ _ _ _ _ _ W _ _ I)|]. exact (sb_all _ Sb _ _ Ims).
    + left. auto.
    + destruct (Nat.eqb_spec m v) as [->|]; [|destruct I]. destruct I as [<-|[]]. right. right. left. auto.
  - right. right. right. destruct (w_tail _ _ _ _ _ _ _ W _ _ I) as (A & B & _). auto.
Qed.
Lemma kp_old b j : j < n -> In j (insns_of (c_f t) b) -> In j (insns_of (c_f s) b).
Proof. intros L I. apply kp_back in I as [(_ & I)|[(-> & _)|[(-> & _)|(G & _)]]]; [exact I|unfold a in L; lia|unfold st in L; lia|unfold st in G; lia]. Qed.
Lemma kp_reach b j : In j (insns_of (c_f t) b) -> In b (c_reach t).
Proof.
  intros I. rewrite (proj1 (w_rest _ _ _ _ _ _ _ W)). apply kp_back in I as [(_ & I)|[(_ & ->)|[(_ & ->)|(_ & I)]]]; [exact (sb_all _ Sb _ _ I)|exact (proj1 (sb_entry _ Sb))|exact (proj2 (v_place _ _ _ Sb Tv Xv))|exact I].
Qed.
Lemma kp_linked j : j < n -> (linked t j <-> linked s j).
Proof.
  intros L. unfold linked. rewrite (proj1 (w_rest _ _ _ _ _ _ _ W)). split; intros (b & B & I); exists b; split; auto; [exact (kp_old _ _ L I)|exact (kp_in _ _ I)].
Qed.
Lemma kp_where j y : f_insn (c_f t) j = Some y -> n <= j -> In j (insns_of (c_f t) (i_parent y)).
Proof.
  intros Y L. assert (K : exists b, In j (insns_of (c_f t) b)).
  { destruct (kp_cases j y Y) as [(x & _ & G & _)|[(-> & _)|[(-> & _)|(G & _)]]]; [lia| | |].
    - exists (f_entry (c_f s)). destruct (w_list _ _ _ _ _ _ _ W (f_entry (c_f s))) as (P & M & _ & _ & _ & ->). rewrite !in_app_iff. right. left. unfold atop. rewrite Nat.eqb_refl. now left.
    - exists (i_parent xv). destruct (v_place _ _ _ Sb Tv Xv) as (Iv & _). destruct (w_list _ _ _ _ _ _ _ W (i_parent xv)) as (P & M & L1 & HP & HM & ->). rewrite !in_app_iff. right. rewrite L1 in Iv. apply in_app_iff in Iv as [I|I].
      + left. unfold atop. apply in_or_app. right. rewrite Xv, Nat.eqb_refl, andb_true_r. destruct (HP v I) as (x & X & O). rewrite Xv in X. injection X as <-. rewrite O. now left.
      + right. left. apply in_flat_map. exists v. split; [exact I|]. unfold group, behind. rewrite Nat.eqb_refl. apply in_or_app. right. right. now left.
    - destruct (w_ld _ _ _ _ _ _ _ W j G) as (_ & _ & K). exact K. }
  destruct K as (b & I). destruct (w_linked _ _ _ _ _ _ _ W b j I) as (y' & Y' & P). rewrite Y in Y'. injection Y' as <-. now rewrite P.
Qed.
Lemma kp_new j : n <= j < f_ni (c_f t) -> linked t j.
Proof.
  intros L. assert (K : exists y, f_insn (c_f t) j = Some y).
  { destruct (Nat.eq_dec j a) as [->|Na]; [destruct (w_a _ _ _ _ _ _ _ W) as ((u & A) & _); eauto|]. destruct (Nat.eq_dec j st) as [->|Ns]; [destruct (w_st _ _ _ _ _ _ _ W) as ((u & b & A) & _); eauto|].
    destruct (w_ld _ _ _ _ _ _ _ W j) as ((u & b & A) & _); [unfold a, st in *; lia|eauto]. }
  destruct K as (y & Y). pose proof (kp_where j y Y (proj1 L)) as I. exists (i_parent y). split; [exact (kp_reach _ _ I)|exact I].
Qed.
Lemma kp_ids : S st <= f_ni (c_f t). Proof. exact (proj2 (proj2 (w_ids _ _ _ _ _ _ _ W))). Qed.
Lemma kp_exlt j e : c_ex s j = Some e -> j < n.
Proof. intros E. apply (sh_ids _ (sb_shape _ Sb)). right. congruence. Qed.
Lemma kp_ex j e : c_ex s j = Some e -> c_ex t j = Some e.
Proof. intros E. rewrite (w_ex _ _ _ _ _ _ _ W); [exact E|exact (kp_exlt _ _ E)]. Qed.
Lemma kp_tracked j : tracked s j -> tracked t j.
Proof.
  intros (L & e & E & F & D). split; [|exists e; split; [exact (kp_ex _ _ E)|auto]]. apply kp_linked; [exact (kp_exlt _ _ E)|exact L].
Qed.
Lemma kp_load l : st < l < f_ni (c_f t) -> tracked t l.
Proof. intros L. split; [apply kp_new; unfold st in L; lia|]. destruct (w_ld _ _ _ _ _ _ _ W l L) as (_ & E & _). exists (ex0 l LOAD). auto. Qed.
Lemma kp_ends b l : ends s pre tail b l -> st < l < f_ni (c_f t).
Proof. intros [I|(j & _ & _ & I)]; [exact (proj1 (w_tail _ _ _ _ _ _ _ W _ _ I))|exact (w_pre _ _ _ _ _ _ _ W _ _ I)]. Qed.
Lemma kp_readable P d d' : vrel v P d d' -> (forall l, P l -> st < l < f_ni (c_f t)) -> readable s (v_data d) -> readable t (v_data d').
Proof.
  intros [->|(_ & l & -> & Pl)] HP R; [|cbn; left; apply kp_load; auto]. unfold readable in *. destruct (v_data d); auto. destruct R as [R|(e & E & R)]; [left; exact (kp_tracked _ R)|right]. exists e. split; [exact (kp_ex _ _ E)|exact R].
Qed.
Lemma kp_operand j x y w' : edited v (fun l => In l (pre j)) (ends s pre tail) x y -> In w' (operand_values y) -> exists w, In w (operand_values x) /\ vrel v (fun l => st < l < f_ni (c_f t)) w w'.
Proof.
  intros Ed I. assert (Op : i_op y = i_op x) by apply (ed_rest _ _ _ _ _ Ed). unfold operand_values in *. apply in_app_iff in I as [I|I].
  - destruct (F2_in _ _ _ _ (ed_vals _ _ _ _ _ Ed) I) as (w & Iw & V). exists w. split; [apply in_or_app; now left|]. refine (vrel_mono _ _ _ _ _ _ V). intros l Il. exact (w_pre _ _ _ _ _ _ _ W _ _ Il).
  - rewrite Op in I. destruct (i_op x) eqn:O; try (exfalso; exact I).
    + destruct I as [<-|[]]. exists (a_val (i_addr x)). split; [apply in_or_app; right; now left|]. refine (vrel_mono _ _ _ _ _ _ (proj1 (ed_addr _ _ _ _ _ Ed))). intros l Il. exact (w_pre _ _ _ _ _ _ _ W _ _ Il).
    + destruct I as [<-|[]]. exists (a_val (i_addr x)). split; [apply in_or_app; right; now left|]. refine (vrel_mono _ _ _ _ _ _ (proj1 (ed_addr _ _ _ _ _ Ed))). intros l Il. exact (w_pre _ _ _ _ _ _ _ W _ _ Il).
    + apply in_map_iff in I as ((w1 & b1) & <- & I). destruct (F2_in _ _ _ _ (ed_phi _ _ _ _ _ Ed) I) as ((w0 & b0) & Iw & _ & V). exists w0. split; [apply in_or_app; right; apply in_map_iff; exists (w0, b0); auto|].
      refine (vrel_mono _ _ _ _ _ _ V). intros l Il. exact (kp_ends _ _ Il).
Qed.

Hypothesis Ut : users_ok (c_f t).
Hypothesis OFF : (c_off t = c_off s - 8)%Z.
Lemma kp_neg : (c_off t < 0)%Z. Proof. destruct (sb_frame _ Sb) as (_ & A & _). lia. Qed.
Lemma kp_uses j d : 0 < uses (c_f t) j d -> exists y, f_insn (c_f t) j = Some y /\ In j (insns_of (c_f t) (i_parent y)).
Proof.
  intros U. unfold uses in U. destruct (f_insn (c_f t) j) as [y|] eqn:Y; [|lia]. exists y. split; [reflexivity|]. destruct (Nat.lt_ge_cases j n) as [L|L]; [|exact (kp_where j y Y L)].
  destruct (kp_cases j y Y) as [(x & X & _ & Ed)|[(-> & _)|[(-> & _)|(G & _)]]]; [|unfold a in L; lia|unfold st in L; lia|unfold st in G; lia].
  destruct (filter (is_use_of d) (operand_values y)) as [|w' r] eqn:Q; [cbn in U; lia|]. assert (I : In w' (filter (is_use_of d) (operand_values y))) by (rewrite Q; now left). apply filter_In in I as (I & Hu).
  destruct (kp_operand j x y w' Ed I) as (w & Iw & V). assert (D : exists d', 0 < uses (c_f s) j d').
  { assert (K : exists d', is_use_of d' w = true). { destruct V as [->|(D & _)]; [eauto|]. exists v. unfold is_use_of. rewrite D. apply Nat.eqb_refl. }
    destruct K as (d' & K). exists d'. unfold uses. rewrite X. assert (I' : In w (filter (is_use_of d') (operand_values x))) by (apply filter_In; auto). destruct (filter (is_use_of d') (operand_values x)) as [|z r']; [destruct I'|cbn; lia]. }
  destruct D as (d' & D). destruct (td_placed _ (sb_tidy _ Sb) j d' D) as (x' & X' & Ix). rewrite X in X'. injection X' as <-. assert (P : i_parent y = i_parent x) by apply (ed_rest _ _ _ _ _ Ed). rewrite P. exact (kp_in _ _ Ix).
Qed.
Lemma kp_tidy : SpecPass.tidy (c_f t).
Proof. constructor; [exact Ut|exact (w_linked _ _ _ _ _ _ _ W)|exact (w_once _ _ _ _ _ _ _ W)|exact kp_uses]. Qed.
Lemma kp_reg r : In r (c_regs s) -> r < n.
Proof. intros I. apply In_nth_error in I as (k & K). destruct (rd_reg _ (sb_ready _ Sb) k r K) as (e & E & _). exact (kp_exlt _ _ E). Qed.
Lemma kp_ready : ready t.
Proof.
  pose proof (sb_ready _ Sb) as Rd. destruct (w_rest _ _ _ _ _ _ _ W) as (W1 & W2 & W3 & W4 & _). destruct (w_cfg _ _ _ _ _ _ _ W) as (C1 & C2 & C3 & C4). constructor.
  - rewrite W2. exact (rd_regs _ Rd).
  - rewrite W2. exact (rd_distinct _ Rd).
  - intros k r. rewrite W2. intros K. destruct (rd_reg _ Rd k r K) as (e & E & H). exists e. split; [exact (kp_ex _ _ E)|exact H].
  - intros r. rewrite W2. intros I L. apply (rd_apart _ Rd r I). apply kp_linked; [exact (kp_reg r I)|exact L].
  - rewrite W2, W3. destruct (rd_sp _ Rd) as (A & B). split; [exact A|]. intros L. apply B. apply kp_linked; [exact (sb_sp _ Sb)|exact L].
  - rewrite W1. destruct (rd_reach _ Rd) as (A & B). split; [exact A|]. intros b I. destruct (B b I) as (k & K). destruct (f_block (c_f t) b) as [k'|] eqn:Q; [eauto|]. apply C2 in Q. congruence.
  - intros b q. rewrite W1, C4. exact (rd_pred _ Rd b q).
  - intros b _. exact (w_once _ _ _ _ _ _ _ W b).
  - intros b j _ I. destruct (w_linked _ _ _ _ _ _ _ W b j I) as (y & Y & P). destruct (kp_cases j y Y) as [(x & X & L & Ed)|[(Q & _)|[(Q & _)|(G & _)]]].
    + destruct (rd_insn _ Rd b j (sb_all _ Sb _ _ (kp_old _ _ L I)) (kp_old _ _ L I)) as (x' & e & X' & P' & E & H). exists y, e. split; [exact Y|]. split; [exact P|]. split; [exact (kp_ex _ _ E)|exact H].
    + rewrite Q in *. destruct (w_a _ _ _ _ _ _ _ W) as (_ & E). eexists y, _. split; [exact Y|]. split; [exact P|]. split; [exact E|]. split; [right; reflexivity|]. split; [reflexivity|]. split; [reflexivity|]. intros _. left. cbn. pose proof kp_neg. lia.
    + rewrite Q in *. destruct (w_st _ _ _ _ _ _ _ W) as (_ & E). eexists y, _. split; [exact Y|]. split; [exact P|]. split; [exact E|]. split; [left; reflexivity|]. split; [reflexivity|]. split; [reflexivity|]. discriminate.
    + destruct (w_ld _ _ _ _ _ _ _ W j G) as (_ & E & _). eexists y, _. split; [exact Y|]. split; [exact P|]. split; [exact E|]. split; [right; reflexivity|]. split; [reflexivity|]. split; [reflexivity|]. discriminate.
  - intros d u _. split.
    + intros I. assert (U : 0 < uses (c_f t) u d). { destruct (Ut u d) as (_ & Le). apply (count_occ_In Nat.eq_dec) in I. lia. }
      split; [|exact U]. destruct (kp_uses u d U) as (y & Y & Iy). exists (i_parent y). split; [exact (kp_reach _ _ Iy)|exact Iy].
    + intros (_ & U). apply (Ut u d). exact U.
  - intros j y e L Y E J. destruct (kp_cases j y Y) as [(x & X & Lj & Ed)|[(-> & u & ->)|[(-> & u & b & ->)|(G & u & b & ->)]]]; try discriminate J.
    rewrite (w_ex _ _ _ _ _ _ _ W j Lj) in E. apply (rd_jump _ Rd j x e); auto; [apply kp_linked; auto|]. assert (O : i_op y = i_op x) by apply (ed_rest _ _ _ _ _ Ed). now rewrite <- O.
  - intros j y L Y O. destruct (kp_cases j y Y) as [(x & X & Lj & Ed)|[(-> & u & ->)|[(-> & u & b & ->)|(G & u & b & ->)]]]; try discriminate O.
    assert (Op : i_op y = i_op x) by apply (ed_rest _ _ _ _ _ Ed). rewrite Op in O. destruct (rd_phi _ Rd j x (proj1 (kp_linked j Lj) L) X O) as (A & (e & E & D) & B). split; [pose proof (ed_vals _ _ _ _ _ Ed) as V; rewrite A in V; inversion V; reflexivity|].
    split; [exists e; split; [exact (kp_ex _ _ E)|exact D]|]. intros w b I. rewrite W1. destruct (F2_in _ _ _ _ (ed_phi _ _ _ _ _ Ed) I) as ((w0 & b0) & I0 & Q & _). cbn in Q. rewrite Q. exact (B w0 b0 I0).
Qed.
Lemma kp_phi j : is_phi (c_f t) j -> is_phi (c_f s) j.
Proof.
  intros (y & Y & O). destruct (kp_cases j y Y) as [(x & X & Lj & Ed)|[(-> & u & ->)|[(-> & u & b & ->)|(G & u & b & ->)]]]; try discriminate O. exists x. split; [exact X|]. assert (Op : i_op y = i_op x) by apply (ed_rest _ _ _ _ _ Ed). congruence.
Qed.
(** phis stand on top, the rest follows *)
Lemma kp_split b : exists P N, insns_of (c_f t) b = P ++ N /\ (forall i, In i P -> is_phi (c_f t) i /\ In i (insns_of (c_f s) b)) /\ (forall i, In i N -> ~ is_phi (c_f t) i).
Proof.
  destruct (w_list _ _ _ _ _ _ _ W b) as (P & M & L1 & HP & HM & L2). exists P, (atop s v a st b ++ flat_map (group v st pre) M ++ tail b). split; [exact L2|]. split.
  - intros i I. assert (Is : In i (insns_of (c_f s) b)) by (rewrite L1; apply in_or_app; now left). split; [|exact Is]. apply (w_phi _ _ _ _ _ W i (kp_inlt _ _ Is)). exact (HP i I).
  - intros i I Ph. apply kp_phi in Ph. destruct Ph as (x & X & O). pose proof (kp_lt _ _ X) as Li. unfold atop in I. rewrite !in_app_iff in I. destruct I as [[I|I]|[I|I]].
    + destruct (b =? _); [|destruct I]. destruct I as [<-|[]]. unfold a in Li. lia.
    + rewrite Xv in I. destruct (_ && _); [|destruct I]. destruct I as [<-|[]]. unfold st in Li. lia.
    + apply in_flat_map in I as (m & Im & I). unfold group, behind in I. apply in_app_iff in I as [I|[<-|I]]; [apply (w_pre _ _ _ _ _ _ _ W) in I; unfold st in I; lia|apply (HM m Im); exists x; auto|]. destruct (m =? v); [|destruct I]. destruct I as [<-|[]]. unfold st in Li. lia.
    + apply (w_tail _ _ _ _ _ _ _ W) in I as (I & _). unfold st in I. lia.
Qed.
Lemma kp_first : phis_first (c_f t).
Proof.
  intros b l1 i l2 L Ph k Ik. destruct (kp_split b) as (P & N & LT & HP & HN). rewrite L in LT. revert P N LT HP HN. induction l1 as [|c l1 IH]; intros P N LT HP HN; [destruct Ik|].
  destruct P as [|p P]; [cbn [app] in LT; exfalso; apply (HN i); [rewrite <- LT; right; apply in_or_app; right; now left|exact Ph]|].
  cbn [app] in LT. injection LT as -> LT. destruct Ik as [->|Ik]; [apply HP; now left|]. assert (G : forall l1 P, l1 ++ i :: l2 = P ++ N -> (forall j, In j P -> is_phi (c_f t) j) -> forall j, In j l1 -> is_phi (c_f t) j).
  { clear - HN Ph. induction l1 as [|c l1 IH]; intros P LT HP j Ij; [destruct Ij|]. destruct P as [|p P]; cbn [app] in LT.
    - exfalso. apply (HN i); [rewrite <- LT; right; apply in_or_app; right; now left|exact Ph].
    - injection LT as -> LT. destruct Ij as [->|Ij]; [apply HP; now left|]. exact (IH P LT (fun j I => HP j (or_intror I)) j Ij). }
  exact (G l1 P LT (fun j I => proj1 (HP j (or_intror I))) k Ik).
Qed.
Lemma kp_entry : In (f_entry (c_f t)) (c_reach t) /\ phi_free t (f_entry (c_f t)).
Proof.
  destruct (w_cfg _ _ _ _ _ _ _ W) as (-> & _). rewrite (proj1 (w_rest _ _ _ _ _ _ _ W)). destruct (sb_entry _ Sb) as (A & B). split; [exact A|]. intros i l L Ph.
  destruct (kp_split (f_entry (c_f s))) as (P & N & LT & HP & HN). destruct P as [|p P]; [apply (HN i); [cbn [app] in LT; rewrite <- LT, L; now left|exact Ph]|].
  destruct (HP p (or_introl eq_refl)) as (Pp & Ip). apply kp_phi in Pp. destruct (insns_of (c_f s) (f_entry (c_f s))) as [|h r] eqn:Q; [destruct Ip|]. apply (B h r Q). destruct Ip as [->|Ip]; [exact Pp|]. apply in_split in Ip as (r1 & r2 & ->). apply (sb_phis _ Sb (f_entry (c_f s)) (h :: r1) p r2 Q Pp). now left.
Qed.
Lemma kp_shape : shape t.
Proof.
  pose proof (sb_shape _ Sb) as Sh. destruct (w_rest _ _ _ _ _ _ _ W) as (W1 & W2 & W3 & W4 & _). destruct (w_cfg _ _ _ _ _ _ _ W) as (C1 & C2 & C3 & C4). constructor.
  - intros b k i y B At Y J. assert (Tm : is_terminator (c_f t) i) by (apply (term_jmp _ _ _ Y); exact J). assert (Li : i < n). { destruct (Nat.lt_ge_cases i n) as [L|L]; [exact L|]. destruct (w_new_term _ _ _ _ _ W i L Tm). }
    apply (w_term _ _ _ _ _ W i Li) in Tm. unfold insn_at in At. pose proof (nth_error_In _ _ At) as It. pose proof (kp_old _ _ Li It) as Is.
    destruct (old_place _ _ Sb _ _ _ W i b Is (term_not_phi _ _ Tm)) as (P & M1 & M2 & L1 & _ & _ & _ & _ & Lt). rewrite app_assoc in L1. pose proof (jump_last _ Sb _ _ _ _ L1 Tm) as ->. rewrite (tail_none _ _ _ _ _ W b i Is Tm) in Lt.
    assert (Ni : i <> v) by (intros ->; exact (v_not_jump _ _ _ Sb Tv Xv Tm)). unfold behind in Lt. apply Nat.eqb_neq in Ni. rewrite Ni in Lt. cbn [app flat_map] in Lt.
    pose proof (w_once _ _ _ _ _ _ _ W b) as ND. unfold ends_at. rewrite Lt in *. set (Q := P ++ _) in *. rewrite app_length. cbn [length]. rewrite Nat.add_1_r. f_equal.
    rewrite NoDup_nth_error in ND. apply ND; [apply nth_error_Some; congruence|]. rewrite At. rewrite nth_error_app2 by lia. now rewrite Nat.sub_diag.
  - intros b c. rewrite W1, C4. intros B [(i & y & I & Y & H)|H]; [|apply (sh_leads _ Sh b c B); right; now rewrite <- C3].
    apply (sh_leads _ Sh b c B). left. destruct (kp_cases i y Y) as [(x & X & Lj & Ed)|[(-> & u & ->)|[(-> & u & b' & ->)|(G & u & b' & ->)]]]; try (destruct H as [(H & _)|(H & _)]; discriminate H).
    exists i, x. split; [exact (kp_old _ _ Lj I)|]. split; [exact X|]. destruct (ed_rest _ _ _ _ _ Ed) as (O & _ & _ & B1 & B2 & _). now rewrite O, B1, B2 in H.
  - intros i y L Y O. destruct (kp_cases i y Y) as [(x & X & Lj & Ed)|[(-> & u & ->)|[(-> & u & b & ->)|(G & u & b & ->)]]]; try discriminate O.
    assert (Op : i_op y = i_op x) by apply (ed_rest _ _ _ _ _ Ed). rewrite Op in O. destruct (sh_phi _ Sh i x (proj1 (kp_linked i Lj) L) X O) as (A & B & C). split; [exact (kp_tracked _ A)|]. split.
    + replace (map snd (i_phi y)) with (map snd (i_phi x)); [exact B|]. pose proof (ed_phi _ _ _ _ _ Ed) as F. clear - F. induction F as [|p q l l' (Q & _) F IH]; [reflexivity|]. cbn [map]. now rewrite IH, Q.
    + intros w b I. destruct (F2_in _ _ _ _ (ed_phi _ _ _ _ _ Ed) I) as ((w0 & b0) & I0 & _ & V). apply (kp_readable _ w0 w V); [|exact (C w0 b0 I0)]. intros l. apply kp_ends.
  - intros i [H|H].
    + destruct (Nat.lt_ge_cases i (f_ni (c_f t))) as [L|L]; [exact L|]. destruct H. exact (proj1 (w_fresh _ _ _ _ _ _ _ W) i L).
    + destruct (Nat.lt_ge_cases i (f_ni (c_f t))) as [L|L]; [exact L|]. destruct H. exact (w_exn _ _ _ _ _ _ _ W i L).
  - intros i y w' d Y I D. pose proof kp_ids as Ki. destruct (kp_cases i y Y) as [(x & X & Lj & Ed)|[(-> & u & ->)|[(-> & u & b & ->)|(G & u & b & ->)]]].
    + destruct (kp_operand i x y w' Ed I) as (w & Iw & [->|(_ & l & -> & Ll)]); [|cbn in D; injection D as <-; lia]. pose proof (sh_refs _ Sh i x w d X Iw D) as K. fold n in K. unfold st in Ki. lia.
    + destruct I.
    + pose proof (str_v _ _ _ Sb Xv) as Lv. cbn in I. destruct I as [<-|[<-|[]]]; cbn in D; injection D as <-; unfold a, st in *; [lia|fold n in Lv; lia].
    + cbn in I. destruct I as [<-|[]]. cbn in D. injection D as <-. unfold a, st in *. lia.
  - intros i y e L Y E O. destruct (kp_cases i y Y) as [(x & X & Lj & Ed)|[(-> & u & ->)|[(-> & u & b & ->)|(G & u & b & ->)]]].
    + assert (Op : i_op y = i_op x) by apply (ed_rest _ _ _ _ _ Ed). rewrite Op in O. rewrite (w_ex _ _ _ _ _ _ _ W i Lj) in E. exact (sh_dst _ Sh i x e (proj1 (kp_linked i Lj) L) X E O).
    + cbn in O. intuition discriminate.
    + destruct (w_st _ _ _ _ _ _ _ W) as (_ & E'). rewrite E in E'. injection E' as ->. reflexivity.
    + cbn in O. intuition discriminate.
  - intros i y w' L Y O Hw. destruct (kp_cases i y Y) as [(x & X & Lj & Ed)|[(-> & u & ->)|[(-> & u & b & ->)|(G & u & b & ->)]]]; try discriminate O.
    + assert (Op : i_op y = i_op x) by apply (ed_rest _ _ _ _ _ Ed). rewrite Op in O. pose proof (ed_vals _ _ _ _ _ Ed) as F. inversion F as [Qx Qy|w w1 l l' V F' Qx Qy]; [rewrite <- Qy in Hw; discriminate Hw|]. rewrite <- Qy in Hw. cbn in Hw. injection Hw as ->.
      apply (kp_readable _ w w' V); [intros k Ik; exact (w_pre _ _ _ _ _ _ _ W _ _ Ik)|]. apply (sh_store _ Sh i x w (proj1 (kp_linked i Lj) L) X O). now rewrite <- Qx.
    + cbn in Hw. injection Hw as <-. cbn. right. destruct (w_a _ _ _ _ _ _ _ W) as (_ & E). eexists. split; [exact E|]. split; [reflexivity|]. split; [reflexivity|]. left. cbn. pose proof kp_neg. lia.
  - intros i y e Y O E F. destruct (kp_cases i y Y) as [(x & X & Lj & Ed)|[(-> & u & ->)|[(-> & u & b & ->)|(G & u & b & ->)]]].
    + assert (Op : i_op y = i_op x) by apply (ed_rest _ _ _ _ _ Ed). rewrite Op in O. rewrite (w_ex _ _ _ _ _ _ _ W i Lj) in E. exact (sh_var _ Sh i x e X O E F).
    + destruct (w_a _ _ _ _ _ _ _ W) as (_ & E'). rewrite E in E'. injection E' as ->. split; [reflexivity|]. cbn. pose proof kp_neg. lia.
    + cbn in O. intuition discriminate.
    + cbn in O. intuition discriminate.
Qed.
End Keep.
