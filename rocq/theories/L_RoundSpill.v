(** Rounds of register allocation: spilling keeps what the next round needs. *)
From Coq Require Import ZArith List Bool Arith Lia.
From Verif Require Import M_Base M_Ir M_Norm M_Edit M_Ra SpecWord SpecFlat SpecProg SpecSsa SpecIr SpecEdit SpecPass SpecShift SpecInstr SpecFrame SpecRa SpecVirt SpecStrict SpecPrep SpecSpill
  L_Word L_Edit L_Uses L_Hist L_Ins L_PrepInv L_PrepFlow L_Frame L_SpillNew L_SpillStr L_SpillKeep L_SpillAll.
From Verif Require Import SpecIr SpecRa SpecVirt.
Import ListNotations.
Open Scope nat_scope.

(** an operand that is read from a register *)
Definition val_ok (s : cgs) (v : value) : Prop := forall d, v_data v = VInsn d -> d = c_sp s \/ In d (c_regs s) \/ tracked s d.
(** [i] is an instruction of the function *)
Definition insn_of (s : cgs) (i : nat) (x : insn) : Prop := linked s i /\ f_insn (c_f s) i = Some x.

(** What a function needs for a round. *)
Record allocable (d : nat) (s : cgs) : Prop := {
  al_spill : spillable s;
  al_tidy : SpecRa.tidy s;
  al_second : operands_ok s;
  al_empty : empties_below s d;
  al_comp : computed s;
  al_paths : forall b, In b (c_reach s) -> exists l, ppath s (b :: l);
  al_copies : copies_ok s;
  al_merge : forall i a b, linked s i -> copies s i a b -> has_place s a /\ has_place s b /\
    (on_stack s a \/ on_stack s b \/ (~ (fixed s a /\ fixed s b) /\ (fixed s a \/ fixed s b)));
  al_kinds : forall i x, insn_of s i x -> i_op x <> ALLOCARRAY /\ i_op x <> GETELEMPTR /\ i_op x <> THROW;
  al_var : forall i x, insn_of s i x -> i_op x = ALLOC -> i_vrt x = VR_64 /\
    exists e, c_ex s i = Some e /\ x_fin e = true /\ x_dst e = Some i /\ vp_alloc (x_pos e) = true /\ (c_off s <= vp_spilled (x_pos e) < 0)%Z;
  al_mem : forall i x, insn_of s i x -> i_op x = LOAD \/ i_op x = STORE -> i_alu x <> A_32 /\ a_ot (i_addr x) = O_CONST;
  al_named : forall i x, insn_of s i x -> i_op x = LOAD \/ i_op x = STORE -> exists t r z, i_vals x = t :: r /\ v_data t = VInsn z /\ linked s z;
  al_load : forall i x, insn_of s i x -> i_op x = LOAD -> exists t, i_vals x = [t];
  al_store : forall i x, insn_of s i x -> i_op x = STORE -> exists t w, i_vals x = [t; w] /\ val_ok s w;
  al_oper : forall i x v, insn_of s i x -> i_op x <> LOAD -> i_op x <> STORE -> In v (operand_values x) -> val_ok s v;
  al_plain : forall i x v, insn_of s i x -> In v (operand_values x) -> plain_data (v_data v);
  al_enc : forall i x, insn_of s i x -> encodable x;
  al_sp : exists e, c_ex s (c_sp s) = Some e /\ x_fin e = true /\ vp_alloc (x_pos e) = true /\ vp_spilled (x_pos e) = 0%Z /\ x_dst e = Some (c_sp s);
  al_fix : forall i x e, insn_of s i x -> c_ex s i = Some e -> x_fin e = true -> i_op x <> ALLOC -> vp_spilled (x_pos e) = 0%Z;
  al_dst : forall i x e, insn_of s i x -> c_ex s i = Some e -> is_void_op (i_op x) = false -> i_op x <> CALL -> x_dst e = Some i;
  al_cond : forall b i x, In i (insns_of (c_f s) b) -> f_insn (c_f s) i = Some x -> is_cond_jmp_op (i_op x) = true -> follows (c_reach s) b (i_bb1 x);
  al_open : forall b c, In b (c_reach s) -> (forall i x, In i (insns_of (c_f s) b) -> f_insn (c_f s) i = Some x -> is_jmp_op (i_op x) = false) -> next_of s b = Some c -> follows (c_reach s) b c;
  al_start : preds_of (c_f s) (f_entry (c_f s)) = [] /\ hd_error (c_reach s) = Some (f_entry (c_f s)) }.

Lemma F2_nth {A B} (R : A -> B -> Prop) l l' k w : Forall2 R l l' -> nth_error l k = Some w -> exists w', nth_error l' k = Some w' /\ R w w'.
Proof. intros F. revert k. induction F as [|p q l l' H F IH]; intros [|k] N; try discriminate N; cbn in *; [injection N as <-; exists q; auto|now apply IH]. Qed.
Lemma var_fixed d s v x : allocable d s -> tracked s v -> f_insn (c_f s) v = Some x -> i_op x <> ALLOC.
Proof. intros A (L & e & E & F & _) X O. destruct (al_var _ _ A v x (conj L X) O) as (_ & e' & E' & F' & _). congruence. Qed.
Lemma alloc_movable d s v : allocable d s -> tracked s v -> movable s v.
Proof. intros A T. split; [exact T|]. intros x X O. destruct (var_fixed d s v x A T X O). Qed.

Section Keep.
Context (d0 : nat) (s : cgs) (v : nat) (xv : insn).
Hypothesis Al : allocable d0 s.
Hypothesis Tv : tracked s v.
Hypothesis Xv : f_insn (c_f s) v = Some xv.
Context (t : cgs) (pre tail : nat -> list nat).
Let n := f_ni (c_f s).
Let a := n.
Let st := S n.
Hypothesis W : spilt s t v a st pre tail.
Hypothesis Ut : users_ok (c_f t).
Hypothesis OFF : (c_off t = c_off s - 8)%Z.
Let Sb := al_spill _ _ Al.

Lemma rk_rest : c_reach t = c_reach s /\ c_regs t = c_regs s /\ c_sp t = c_sp s /\ f_entry (c_f t) = f_entry (c_f s) /\
  (forall b, succs_of (c_f t) b = succs_of (c_f s) b) /\ (forall b, preds_of (c_f t) b = preds_of (c_f s) b).
Proof. destruct (w_rest _ _ _ _ _ _ _ W) as (A & B & C & _). destruct (w_cfg _ _ _ _ _ _ _ W) as (D & _ & E & F). auto 8. Qed.
Lemma rk_op x y P E : edited v P E x y -> i_op y = i_op x. Proof. intros Ed. apply (ed_rest _ _ _ _ _ Ed). Qed.
Lemma rk_off : (c_off s <= 0)%Z. Proof. apply (sb_frame _ Sb). Qed.
Lemma rk_fixed j : j < n -> (fixed t j <-> fixed s j).
Proof. intros L. unfold fixed. now rewrite (w_ex _ _ _ _ _ _ _ W j L). Qed.
Lemma rk_stack j : on_stack s j -> on_stack t j.
Proof. intros (e & E & H). exists e. split; [exact (kp_ex _ _ Sb _ _ _ W _ _ E)|exact H]. Qed.
Lemma rk_place j : has_place s j -> has_place t j.
Proof.
  destruct rk_rest as (_ & B & _). unfold has_place. rewrite B. intros [I|(L & (e & E & D))]; [now left|right]. split; [apply (kp_linked _ _ _ Sb Xv _ _ _ W); [exact (kp_exlt _ Sb _ _ E)|exact L]|].
  exists e. split; [exact (kp_ex _ _ Sb _ _ _ W _ _ E)|exact D].
Qed.
Lemma rk_load l : st < l < f_ni (c_f t) -> tracked t l. Proof. exact (kp_load _ _ _ Sb Tv Xv _ _ _ W l). Qed.
Lemma rk_tracked j : tracked s j -> tracked t j. Proof. exact (kp_tracked _ _ _ Sb Xv _ _ _ W j). Qed.
Lemma tracked_place s' j : tracked s' j -> has_place s' j.
Proof. intros (L & e & E & _ & D). right. split; [exact L|]. exists e. auto. Qed.
Lemma rk_val w w' : vrel v (fun l => st < l < f_ni (c_f t)) w w' -> val_ok s w -> val_ok t w'.
Proof.
  destruct rk_rest as (_ & B & C & _). intros [->|(_ & l & -> & Hl)] H d D.
  - rewrite B, C. destruct (H d D) as [H1|[H1|H1]]; auto. right. right. now apply rk_tracked.
  - cbn in D. injection D as <-. right. right. now apply rk_load.
Qed.
Lemma rk_var_place : has_place t a /\ on_stack t a.
Proof.
  destruct (w_a _ _ _ _ _ _ _ W) as (_ & E). pose proof (kp_neg _ Sb _ OFF) as N. split.
  - right. split; [apply (kp_new _ _ _ Sb Tv Xv _ _ _ W); pose proof (kp_ids _ _ _ _ _ W); unfold a, n; lia|]. eexists. split; [exact E|reflexivity].
  - eexists. split; [exact E|]. split; [reflexivity|]. cbn. lia.
Qed.
(** an old instruction of the new function *)
Lemma rk_old j y : insn_of t j y -> j < n -> exists x, insn_of s j x /\ edited v (fun l => In l (pre j)) (ends s pre tail) x y.
Proof.
  intros (L & Y) Lj. destruct (kp_cases _ _ _ _ _ W j y Y) as [(x & X & _ & Ed)|[(-> & _)|[(-> & _)|(G & _)]]]; [|unfold n in Lj; lia|unfold n in Lj; lia|unfold n in Lj; lia].
  exists x. split; [|exact Ed]. split; [|exact X]. now apply (kp_linked _ _ _ Sb Xv _ _ _ W).
Qed.
Lemma rk_cases j y : insn_of t j y ->
  (exists x, insn_of s j x /\ j < n /\ edited v (fun l => In l (pre j)) (ends s pre tail) x y) \/
  (j = a /\ exists u, y = set_users u (build (f_entry (c_f s)) (K_alloc VR_64))) \/
  (j = st /\ exists u b, y = set_users u (build b (K_store a (val_insn v)))) \/
  (st < j < f_ni (c_f t) /\ exists u b, y = set_users u (load_insn b a j)).
Proof.
  intros (L & Y). destruct (kp_cases _ _ _ _ _ W j y Y) as [(x & X & Lj & Ed)|[H|[H|H]]]; [left|right; left; exact H|right; right; left; exact H|right; right; right; exact H].
  exists x. split; [|auto]. split; [|exact X]. now apply (kp_linked _ _ _ Sb Xv _ _ _ W).
Qed.
(** the first operand of a load or store names a variable and is kept *)
Lemma rk_keepvar w w' x z P : vrel v P w w' -> v_data w = VInsn z -> f_insn (c_f s) z = Some x -> i_op x = ALLOC -> w' = w.
Proof. intros [->|(D & _)] Dz X O; [reflexivity|]. exfalso. assert (z = v) as -> by congruence. exact (var_fixed d0 s v x Al Tv X O). Qed.
Lemma rk_alloc z x : f_insn (c_f s) z = Some x -> i_op x = ALLOC -> exists y, f_insn (c_f t) z = Some y /\ i_op y = ALLOC.
Proof. intros X O. destruct (w_old _ _ _ _ _ _ _ W z x X) as (y & Y & Ed). exists y. split; [exact Y|]. rewrite (rk_op _ _ _ _ Ed). exact O. Qed.
Lemma rk_newvar : exists y, f_insn (c_f t) a = Some y /\ i_op y = ALLOC.
Proof. destruct (w_a _ _ _ _ _ _ _ W) as ((u & A) & _). eexists. split; [exact A|]. reflexivity. Qed.

Lemma rk_tidy : SpecRa.tidy t.
Proof.
  destruct rk_rest as (_ & B & C & _). destruct (al_tidy _ _ Al) as (T1 & T2). split.
  - intros j e E. rewrite B, C. destruct (Nat.lt_ge_cases j n) as [L|L].
    + rewrite (w_ex _ _ _ _ _ _ _ W j L) in E. destruct (T1 j e E) as [H|[H|H]]; auto. right. left. now apply (kp_linked _ _ _ Sb Xv _ _ _ W).
    + right. left. apply (kp_new _ _ _ Sb Tv Xv _ _ _ W). split; [exact L|]. destruct (Nat.lt_ge_cases j (f_ni (c_f t))) as [G|G]; [exact G|]. rewrite (w_exn _ _ _ _ _ _ _ W j G) in E. discriminate E.
  - intros j e E F. destruct (Nat.lt_ge_cases j n) as [L|L]; [rewrite (w_ex _ _ _ _ _ _ _ W j L) in E; exact (T2 j e E F)|].
    destruct (Nat.eq_dec j a) as [->|Na]; [destruct (w_a _ _ _ _ _ _ _ W) as (_ & E'); rewrite E in E'; injection E' as ->; discriminate F|].
    destruct (Nat.eq_dec j st) as [->|Ns]; [destruct (w_st _ _ _ _ _ _ _ W) as (_ & E'); rewrite E in E'; injection E' as ->; reflexivity|].
    destruct (Nat.lt_ge_cases j (f_ni (c_f t))) as [G|G]; [|rewrite (w_exn _ _ _ _ _ _ _ W j G) in E; discriminate E].
    destruct (w_ld _ _ _ _ _ _ _ W j) as (_ & E' & _); [unfold a, st in *; lia|]. rewrite E in E'. injection E' as ->. reflexivity.
Qed.
Lemma rk_second : operands_ok t.
Proof.
  intros i y L Y B. destruct (rk_cases i y (conj L Y)) as [(x & (Ls & X) & Li & Ed)|[(_ & u & ->)|[(_ & u & b & ->)|(_ & u & b & ->)]]]; try discriminate B.
  rewrite (rk_op _ _ _ _ Ed) in B. destruct (al_second _ _ Al i x Ls X B) as (Ti & w & N & H). split; [now apply rk_tracked|].
  assert (G : exists w', nth_error (i_vals y) 1 = Some w' /\ vrel v (fun l => In l (pre i)) w w').
  { exact (F2_nth _ _ _ _ _ (ed_vals _ _ _ _ _ Ed) N). }
  destruct G as (w' & N' & Vr). exists w'. split; [exact N'|]. intros d D. destruct Vr as [->|(_ & l & -> & Il)].
  - destruct (H d D) as (Ld & (e & E & De) & Nd). split; [apply (kp_linked _ _ _ Sb Xv _ _ _ W); [exact (kp_exlt _ Sb _ _ E)|exact Ld]|]. split; [|exact Nd]. exists e. split; [exact (kp_ex _ _ Sb _ _ _ W _ _ E)|exact De].
  - cbn in D. injection D as <-. pose proof (w_pre _ _ _ _ _ _ _ W _ _ Il) as G. destruct (rk_load l G) as (Ll & e & E & _ & De). split; [exact Ll|]. split; [exists e; auto|]. unfold st, n in *. lia.
Qed.
Lemma rk_shallow b k : shallow s b k -> shallow t b k.
Proof.
  intros F. induction F as [b k F|b k _ IH].
  - apply sh_full. intros E. destruct (insns_of (c_f s) b) as [|j r] eqn:Ef; [contradiction|]. assert (Ij : In j (insns_of (c_f t) b)) by (apply (kp_in _ _ _ _ _ W); rewrite Ef; now left). rewrite E in Ij. destruct Ij.
  - apply sh_empty. intros q Iq. destruct rk_rest as (_ & _ & _ & _ & _ & P). rewrite P in Iq. now apply IH.
Qed.
Lemma rk_empty : empties_below t d0.
Proof.
  intros i y w m L Y O I. destruct (rk_cases i y (conj L Y)) as [(x & (Ls & X) & Li & Ed)|[(_ & u & ->)|[(_ & u & b & ->)|(_ & u & b & ->)]]]; try discriminate O.
  rewrite (rk_op _ _ _ _ Ed) in O. destruct (L_SpillKeep.F2_in _ _ _ _ (ed_phi _ _ _ _ _ Ed) I) as ((w0 & b0) & I0 & Q & _). cbn in Q. subst m. apply rk_shallow. exact (al_empty _ _ Al i x w0 b0 Ls X O I0).
Qed.
Lemma rk_path l : ppath t l -> ppath s l.
Proof. destruct rk_rest as (A & _ & _ & D & _ & F). induction 1 as [|b l c _ IH C P]; [rewrite D; constructor|]. rewrite A in C. rewrite F in P. now constructor. Qed.
Lemma rk_path' l : ppath s l -> ppath t l.
Proof. destruct rk_rest as (A & _ & _ & D & _ & F). induction 1 as [|b l c _ IH C P]; [rewrite <- D; constructor|]. rewrite <- A in C. rewrite <- F in P. now constructor. Qed.
Lemma rk_order d u b : precedes d u (insns_of (c_f s) b) -> precedes d u (insns_of (c_f t) b).
Proof.
  intros H. destruct (w_list _ _ _ _ _ _ _ W b) as (P & M & L1 & _ & _ & ->). rewrite L1 in H. apply precedes_ins. rewrite app_assoc. pose proof (precedes_sub d u [] (P ++ flat_map (group v st pre) M) (tail b)) as G. apply G. clear G L1.
  assert (GM : precedes d u M -> precedes d u (flat_map (group v st pre) M)).
  { clear H. induction M as [|m M IH]; intros K; [destruct K as ([|? ?] & ? & ? & K); discriminate K|]. cbn [flat_map]. destruct K as (k1 & k2 & k3 & K). destruct k1 as [|k k1]; cbn [app] in K; injection K as -> K.
    - apply precedes_pair; [unfold group; apply in_or_app; right; now left|]. rewrite K. rewrite flat_map_app. apply in_or_app. right. cbn [flat_map]. apply in_or_app. left. unfold group. apply in_or_app. right. now left.
    - pose proof (precedes_sub d u (group v st pre k) (flat_map (group v st pre) M) []) as G. rewrite app_nil_r in G. apply G, IH. exists k1, k2, k3. exact K. }
  assert (IM : forall j, In j M -> In j (flat_map (group v st pre) M)). { intros j J. apply in_flat_map. exists j. split; [exact J|]. unfold group. apply in_or_app. right. now left. }
  apply precedes_cut in H as [H|[H|(H1 & H2)]].
  - pose proof (precedes_sub d u [] P (flat_map (group v st pre) M) H) as G. exact G.
  - pose proof (precedes_sub d u P (flat_map (group v st pre) M) [] (GM H)) as G. rewrite app_nil_r in G. exact G.
  - apply precedes_pair; auto.
Qed.
Lemma rk_unique j b c : In j (insns_of (c_f t) b) -> In j (insns_of (c_f t) c) -> b = c.
Proof. intros B C. destruct (w_linked _ _ _ _ _ _ _ W b j B) as (y & Y & <-). destruct (w_linked _ _ _ _ _ _ _ W c j C) as (y' & Y' & <-). congruence. Qed.
(** the variable is allocated first *)
Lemma rk_first j b c : n < j -> In j (insns_of (c_f t) b) -> In a (insns_of (c_f t) c) -> (c = b /\ precedes a j (insns_of (c_f t) b)) \/ forall l, ppath t (b :: l) -> In c l.
Proof.
  intros Lj Ij Ia. assert (Ec : c = f_entry (c_f s)). { destruct (kp_back _ _ _ Sb Xv _ _ _ W c a Ia) as [(L & _)|[(_ & Q)|[(Q & _)|(Q & _)]]]; [unfold a, n in L; lia|exact Q|unfold a, n in Q; lia|unfold a, n in Q; lia]. }
  destruct (Nat.eq_dec b (f_entry (c_f s))) as [Eb|Nb].
  - left. split; [congruence|]. subst b. destruct (w_list _ _ _ _ _ _ _ W (f_entry (c_f s))) as (P & M & L1 & HP & _ & L2). rewrite L2 in *. unfold atop in *. rewrite Nat.eqb_refl in *. cbn [app] in *.
    apply in_app_or in Ij as [Ij|Ij]; [exfalso; assert (I : In j (insns_of (c_f s) (f_entry (c_f s)))) by (rewrite L1; apply in_or_app; now left); pose proof (kp_inlt _ Sb _ _ I); unfold n in Lj; lia|].
    cbn in Ij. destruct Ij as [Q|Ij]; [exfalso; unfold a in Q; lia|]. apply in_split in Ij as (r1 & r2 & ->). exists P, r1, r2. reflexivity.
  - right. intros l Pl. pose proof (ppath_entry _ _ Pl) as Q. destruct rk_rest as (_ & _ & _ & D & _). rewrite D in Q. rewrite Ec. destruct Q as [Q|Q]; [congruence|exact Q].
Qed.
Lemma rk_load_before l u b c : In u (insns_of (c_f s) b) -> ~ is_phi (c_f s) u -> In l (pre u) -> In l (insns_of (c_f t) c) -> c = b /\ precedes l u (insns_of (c_f t) b).
Proof.
  intros Iu NP Il Ic. destruct (old_place _ _ Sb _ _ _ W u b Iu NP) as (P & M1 & M2 & _ & _ & _ & _ & _ & Lt).
  assert (In l (insns_of (c_f t) b)) by (rewrite Lt; apply in_or_app; left; rewrite !in_app_iff; auto). split; [exact (rk_unique l c b Ic H)|].
  rewrite Lt. apply precedes_pair; [rewrite !in_app_iff; auto|now left].
Qed.
Lemma rk_comp : computed t.
Proof.
  constructor.
  - intros b u y w d c Iu Y NP Iw D Ic. destruct (kp_cases _ _ _ _ _ W u y Y) as [(x & X & Lu & Ed)|[(-> & k & ->)|[(-> & k & b' & ->)|(G & k & b' & ->)]]].
    + pose proof (rk_op _ _ _ _ Ed) as Op. pose proof (kp_old _ _ _ Sb Xv _ _ _ W _ _ Lu Iu) as Is.
      assert (NPs : ~ is_phi (c_f s) u) by (intros (x' & X' & O'); congruence).
      assert (K : exists w0, In w0 (operand_values x) /\ vrel v (fun l => In l (pre u)) w0 w).
      { unfold operand_values in *. apply in_app_iff in Iw as [Iw|Iw].
        - destruct (L_SpillKeep.F2_in _ _ _ _ (ed_vals _ _ _ _ _ Ed) Iw) as (w0 & I0 & Vr). exists w0. split; [apply in_or_app; now left|exact Vr].
        - rewrite Op in Iw, NP. destruct (i_op x) eqn:O; try (exfalso; exact Iw); try (exfalso; apply NP; reflexivity).
          + destruct Iw as [<-|[]]. exists (a_val (i_addr x)). split; [apply in_or_app; right; now left|exact (proj1 (ed_addr _ _ _ _ _ Ed))].
          + destruct Iw as [<-|[]]. exists (a_val (i_addr x)). split; [apply in_or_app; right; now left|exact (proj1 (ed_addr _ _ _ _ _ Ed))]. }
      destruct K as (w0 & I0 & [->|(_ & l & -> & Il)]).
      * assert (Ld : d < n) by exact (sh_refs _ (sb_shape _ Sb) u x w0 d X I0 D). pose proof (kp_old _ _ _ Sb Xv _ _ _ W _ _ Ld Ic) as Ics. rewrite Op in NP.
        destruct (cm_use _ (al_comp _ _ Al) b u x w0 d c Is X NP I0 D Ics) as [(Q & H)|H]; [left; split; [exact Q|now apply rk_order]|right; intros l Pl; apply H; now apply rk_path].
      * cbn in D. injection D as <-. left. exact (rk_load_before l u b c Is NPs Il Ic).
    + destruct Iw.
    + cbn in Iw. destruct Iw as [<-|[<-|[]]]; cbn in D; injection D as <-.
      * apply (rk_first st b c); auto.
      * left. assert (Lv : v < n) by exact (str_v _ _ _ Sb Xv). pose proof (kp_old _ _ _ Sb Xv _ _ _ W _ _ Lv Ic) as Ivs. destruct (str_live s Sb _ _ Ivs) as (x & X & Px). assert (x = xv) as -> by congruence.
        destruct (kp_back _ _ _ Sb Xv _ _ _ W b st Iu) as [(L & _)|[(Q & _)|[(_ & Q)|(Q & _)]]]; [unfold st, n in L; lia|unfold st, n in Q; lia| |lia]. split; [congruence|]. assert (Eb : b = c) by congruence. clear Q. subst b.
        destruct (w_list _ _ _ _ _ _ _ W c) as (P & M & L1 & HP & HM & L2). rewrite L1 in Ivs. apply in_app_or in Ivs as [J|J].
        -- rewrite L2. apply precedes_pair; [exact J|]. apply in_or_app. left. unfold atop. apply in_or_app. right. rewrite Xv, Px, Nat.eqb_refl, andb_true_r. destruct (HP v J) as (x & X' & O). assert (x = xv) as -> by congruence. rewrite O. now left.
        -- rewrite L2. apply in_split in J as (M1 & M2 & ->). rewrite flat_map_app. cbn [flat_map]. unfold group at 2, behind. rewrite Nat.eqb_refl.
           exists (P ++ atop s v a st c ++ flat_map (group v st pre) M1 ++ pre v), [], (flat_map (group v st pre) M2 ++ tail c). repeat (rewrite <- ?app_assoc; cbn [app]). reflexivity.
    + cbn in Iw. destruct Iw as [<-|[]]. cbn in D. injection D as <-. apply (rk_first u b c); auto. unfold st, n in *. lia.
  - intros b u y w q d c Iu Y O Iw D Ic l Pl. destruct (kp_cases _ _ _ _ _ W u y Y) as [(x & X & Lu & Ed)|[(-> & k & ->)|[(-> & k & b' & ->)|(G & k & b' & ->)]]]; try discriminate O.
    rewrite (rk_op _ _ _ _ Ed) in O. pose proof (kp_old _ _ _ Sb Xv _ _ _ W _ _ Lu Iu) as Is. destruct (L_SpillKeep.F2_in _ _ _ _ (ed_phi _ _ _ _ _ Ed) Iw) as ((w0 & b0) & I0 & Q & Vr). cbn in Q, Vr. subst b0. destruct Vr as [->|(_ & k & -> & E)].
    + assert (Io : In w0 (operand_values x)) by (unfold operand_values; rewrite O; apply in_or_app; right; change w0 with (fst (w0, q)); now apply in_map).
      assert (Ld : d < n) by exact (sh_refs _ (sb_shape _ Sb) u x w0 d X Io D). pose proof (kp_old _ _ _ Sb Xv _ _ _ W _ _ Ld Ic) as Ics. exact (cm_phi _ (al_comp _ _ Al) b u x w0 q d c Is X O I0 D Ics l (rk_path _ Pl)).
    + cbn in D. injection D as <-. assert (Iq : In k (insns_of (c_f t) q)).
      { destruct E as [E|(j & Ij & Tj & E)]; [destruct (w_list _ _ _ _ _ _ _ W q) as (P & M & _ & _ & _ & ->); rewrite !in_app_iff; auto|].
        destruct (old_place _ _ Sb _ _ _ W j q Ij (term_not_phi _ _ Tj)) as (P & M1 & M2 & _ & _ & _ & _ & _ & ->). apply in_or_app. left. rewrite !in_app_iff. auto. }
      left. exact (rk_unique k q c Iq Ic).
Qed.
Lemma rk_copies : copies_ok t.
Proof.
  intros i y L Y. destruct (rk_cases i y (conj L Y)) as [(x & (Ls & X) & Li & Ed)|[(_ & u & ->)|[(_ & u & b & ->)|(_ & u & b & ->)]]].
  - destruct (al_copies _ _ Al i x Ls X) as (A & B & C). pose proof (ed_vals _ _ _ _ _ Ed) as F. rewrite (rk_op _ _ _ _ Ed). split; [|split].
    + intros O Q. apply (A O). rewrite Q in F. inversion F. reflexivity.
    + intros O. destruct (B O) as (v1 & w & r & d & z & Ev & Dv & Z & Oz). rewrite Ev in F. inversion F as [|? q1 ? l1 H1 F1 Q1 Q2]; subst. inversion F1 as [|? q2 ? l2 H2 F2 Q3 Q4]; subst.
      destruct (rk_alloc d z Z Oz) as (z' & Z' & Oz'). exists q1, q2, l2, d, z'. split; [reflexivity|]. rewrite (rk_keepvar _ _ _ _ _ H1 Dv Z Oz). auto.
    + intros O. destruct (C O) as (v1 & r & d & z & Ev & Dv & Z & Oz). rewrite Ev in F. inversion F as [|? q1 ? l1 H1 F1 Q1 Q2]; subst.
      destruct (rk_alloc d z Z Oz) as (z' & Z' & Oz'). exists q1, l1, d, z'. split; [reflexivity|]. rewrite (rk_keepvar _ _ _ _ _ H1 Dv Z Oz). auto.
  - split; [|split]; discriminate.
  - destruct rk_newvar as (z & Z & Oz). split; [discriminate|]. split; [|discriminate]. intros _. exists (val_insn a), (val_insn v), [], a, z. auto.
  - destruct rk_newvar as (z & Z & Oz). split; [discriminate|]. split; [discriminate|]. intros _. exists (val_insn a), [], a, z. auto.
Qed.
Lemma rk_merge i p q : linked t i -> copies t i p q -> has_place t p /\ has_place t q /\
  (on_stack t p \/ on_stack t q \/ (~ (fixed t p /\ fixed t q) /\ (fixed t p \/ fixed t q))).
Proof.
  intros L (y & Y & H). destruct rk_var_place as (PA & SA). destruct (rk_cases i y (conj L Y)) as [(x & (Ls & X) & Li & Ed)|[(Ei & u & ->)|[(Ei & u & b & ->)|(G & u & b & ->)]]].
  - pose proof (ed_vals _ _ _ _ _ Ed) as F. rewrite (rk_op _ _ _ _ Ed) in H.
    assert (LT : forall j, has_place s j -> j < n). { intros j [I|(_ & e & E & _)]; [exact (kp_reg _ Sb _ I)|exact (kp_exlt _ Sb _ _ E)]. }
    assert (UP : forall j, fixed s j -> fixed t j). { intros j (e & E & Fe). exists e. split; [exact (kp_ex _ _ Sb _ _ _ W _ _ E)|exact Fe]. }
    assert (OLD : copies s i p q -> has_place t p /\ has_place t q /\ (on_stack t p \/ on_stack t q \/ (~ (fixed t p /\ fixed t q) /\ (fixed t p \/ fixed t q)))).
    { intros C. destruct (al_merge _ _ Al i p q Ls C) as (Pp & Pq & M). split; [now apply rk_place|]. split; [now apply rk_place|]. destruct M as [M|[M|(M1 & M2)]]; [left; now apply rk_stack|right; left; now apply rk_stack|right; right].
      rewrite !rk_fixed by (apply LT; assumption). auto. }
    destruct H as [(O & -> & w' & r & Ev & D)|[(O & w1 & w' & r & Ev & D1 & D2)|(O & -> & w' & r & Ev & D)]].
    + rewrite Ev in F. inversion F as [|w ? l1 ? H1 F1 Q1 Q2]; subst. destruct H1 as [->|(Dv & l & -> & Il)].
      * apply OLD. exists x. split; [exact X|]. left. split; [exact O|]. split; [reflexivity|]. exists w, l1. auto.
      * cbn in D. injection D as <-. assert (C : copies s i i v). { exists x. split; [exact X|]. left. split; [exact O|]. split; [reflexivity|]. exists w, l1. auto. }
        destruct (al_merge _ _ Al i i v Ls C) as (Pp & Pq & M). pose proof (rk_load l (w_pre _ _ _ _ _ _ _ W _ _ Il)) as Tl. split; [now apply rk_place|]. split; [exact (tracked_place _ _ Tl)|].
        assert (Nf : ~ fixed t l). { intros (e & E & Fe). destruct Tl as (_ & e' & E' & Fe' & _). congruence. } assert (Nv : ~ fixed s v). { intros (e & E & Fe). destruct Tv as (_ & e' & E' & Fe' & _). congruence. }
        destruct M as [M|[M|(M1 & M2)]]; [left; now apply rk_stack| |right; right; split; [tauto|left; apply UP; tauto]].
        exfalso. destruct M as (e & E & _ & Z). destruct Tv as (_ & e' & E' & Fe' & _). assert (e' = e) as -> by congruence. apply Z. exact (proj2 (al_tidy _ _ Al) v e E Fe').
    + rewrite Ev in F. inversion F as [|w ? l1 ? H1 F1 Q1 Q2]; subst. inversion F1 as [|wb ? l2 ? H2 F2 Q3 Q4]; subst. destruct (proj1 (proj2 (al_copies _ _ Al i x Ls X)) O) as (v1 & w2 & r2 & dd & z & Ev' & Dv & Z & Oz). rewrite <- Q1 in Ev'. injection Ev' as <- <- <-.
      rewrite (rk_keepvar _ _ _ _ _ H1 Dv Z Oz) in D1. destruct H2 as [->|(Dw & l & -> & Il)].
      * apply OLD. exists x. split; [exact X|]. right. left. split; [exact O|]. exists w, wb, l2. auto.
      * cbn in D2. injection D2 as <-. assert (C : copies s i p v). { exists x. split; [exact X|]. right. left. split; [exact O|]. exists w, wb, l2. auto. }
        destruct (al_merge _ _ Al i p v Ls C) as (Pp & Pq & M). pose proof (rk_load l (w_pre _ _ _ _ _ _ _ W _ _ Il)) as Tl. split; [now apply rk_place|]. split; [exact (tracked_place _ _ Tl)|].
        left. apply rk_stack. assert (dd = p) by congruence. subst dd. assert (Lp : linked s p). { destruct Pp as [I|(Lp & _)]; [|exact Lp]. exfalso. apply In_nth_error in I as (kk & K). destruct (rd_reg _ (sb_ready _ Sb) kk p K) as (e & E & Fe & _ & _ & Ze & _). destruct (sh_var _ (sb_shape _ Sb) p z e Z (or_introl Oz) E Fe). contradiction. }
        destruct (al_var _ _ Al p z (conj Lp Z) Oz) as (_ & e & E & _ & _ & Ae & Ze). exists e. split; [exact E|]. split; [exact Ae|lia].
    + rewrite Ev in F. inversion F as [|w ? l1 ? H1 F1 Q1 Q2]; subst. destruct (proj2 (proj2 (al_copies _ _ Al i x Ls X)) O) as (v1 & r2 & dd & z & Ev' & Dv & Z & Oz). rewrite <- Q1 in Ev'. injection Ev' as <- <-.
      rewrite (rk_keepvar _ _ _ _ _ H1 Dv Z Oz) in D. apply OLD. exists x. split; [exact X|]. right. right. split; [exact O|]. split; [reflexivity|]. exists w, l1. auto.
  - cbn in H. destruct H as [(O & _)|[(O & _)|(O & _)]]; discriminate O.
  - cbn in H. destruct H as [(O & _)|[(_ & w1 & w2 & r & Ev & D1 & D2)|(O & _)]]; [discriminate O| |discriminate O]. injection Ev as <- <- <-. cbn in D1, D2. injection D1 as <-. injection D2 as <-.
    split; [exact PA|]. split; [exact (tracked_place _ _ (rk_tracked _ Tv))|]. now left.
  - cbn in H. destruct H as [(O & _)|[(O & _)|(_ & -> & w1 & r & Ev & D1)]]; [discriminate O|discriminate O|]. injection Ev as <- <-. cbn in D1. injection D1 as <-.
    split; [exact (tracked_place _ _ (rk_load _ G))|]. split; [exact PA|]. right. now left.
Qed.

Lemma rk_var i y : insn_of t i y -> i_op y = ALLOC -> i_vrt y = VR_64 /\
  exists e, c_ex t i = Some e /\ x_fin e = true /\ x_dst e = Some i /\ vp_alloc (x_pos e) = true /\ (c_off t <= vp_spilled (x_pos e) < 0)%Z.
Proof.
  intros I O. destruct (rk_cases i y I) as [(x & (Ls & X) & Li & Ed)|[(-> & u & ->)|[(_ & u & b & ->)|(_ & u & b & ->)]]]; try discriminate O.
  - rewrite (rk_op _ _ _ _ Ed) in O. destruct (al_var _ _ Al i x (conj Ls X) O) as (V & e & E & F & D & A & Z). split; [transitivity (i_vrt x); [apply (ed_rest _ _ _ _ _ Ed)|exact V]|].
    exists e. split; [exact (kp_ex _ _ Sb _ _ _ W _ _ E)|]. repeat split; auto; lia.
  - split; [reflexivity|]. destruct (w_a _ _ _ _ _ _ _ W) as (_ & E). eexists. split; [exact E|]. pose proof (kp_neg _ Sb _ OFF). cbn. repeat split; auto; lia.
Qed.
Lemma rk_mem i y : insn_of t i y -> i_op y = LOAD \/ i_op y = STORE -> i_alu y <> A_32 /\ a_ot (i_addr y) = O_CONST.
Proof.
  intros I O. destruct (rk_cases i y I) as [(x & X & Li & Ed)|[(-> & u & ->)|[(_ & u & b & ->)|(_ & u & b & ->)]]].
  - rewrite (rk_op _ _ _ _ Ed) in O. destruct (al_mem _ _ Al i x X O) as (A & B). destruct (ed_addr _ _ _ _ _ Ed) as (_ & _ & ->). split; [|exact B]. replace (i_alu y) with (i_alu x); [exact A|]. symmetry. apply (ed_rest _ _ _ _ _ Ed).
  - destruct O; discriminate.
  - split; [discriminate|reflexivity].
  - split; [discriminate|reflexivity].
Qed.
Lemma rk_named i y : insn_of t i y -> i_op y = LOAD \/ i_op y = STORE -> exists p r z, i_vals y = p :: r /\ v_data p = VInsn z /\ linked t z.
Proof.
  assert (La : linked t a) by (apply (kp_new _ _ _ Sb Tv Xv _ _ _ W); pose proof (kp_ids _ _ _ _ _ W); unfold a, n; lia).
  intros I O. destruct (rk_cases i y I) as [(x & Ix & Li & Ed)|[(-> & u & ->)|[(_ & u & b & ->)|(_ & u & b & ->)]]].
  - rewrite (rk_op _ _ _ _ Ed) in O. destruct (al_named _ _ Al i x Ix O) as (p & r & z & Ev & D & Lz). pose proof (ed_vals _ _ _ _ _ Ed) as F. rewrite Ev in F. inversion F as [|? q ? l H F' Q1 Q2].
    assert (Z : exists yz, f_insn (c_f s) z = Some yz /\ i_op yz = ALLOC).
    { destruct (al_copies _ _ Al i x (proj1 Ix) (proj2 Ix)) as (_ & K2 & K1). destruct O as [O|O].
      - destruct (K1 O) as (v0 & r0 & d & yz & E0 & D0 & Yz & Oz). rewrite Ev in E0. injection E0 as <- <-. assert (d = z) as -> by congruence. eauto.
      - destruct (K2 O) as (v0 & w0 & r0 & d & yz & E0 & D0 & Yz & Oz). rewrite Ev in E0. injection E0 as <- _. assert (d = z) as -> by congruence. eauto. }
    destruct Z as (yz & Yz & Oz). rewrite (rk_keepvar _ _ _ _ _ H D Yz Oz). exists p, l, z. split; [reflexivity|]. split; [exact D|].
    apply (kp_linked _ _ _ Sb Xv _ _ _ W); [|exact Lz]. apply (sh_ids _ (sb_shape _ Sb)). left. congruence.
  - destruct O; discriminate.
  - eexists _, _, a. split; [reflexivity|]. split; [reflexivity|exact La].
  - eexists _, _, a. split; [reflexivity|]. split; [reflexivity|exact La].
Qed.
Lemma rk_ld i y : insn_of t i y -> i_op y = LOAD -> exists w, i_vals y = [w].
Proof.
  intros I O. destruct (rk_cases i y I) as [(x & Ix & Li & Ed)|[(-> & u & ->)|[(_ & u & b & ->)|(_ & u & b & ->)]]]; try discriminate O; [|eexists; reflexivity].
  rewrite (rk_op _ _ _ _ Ed) in O. destruct (al_load _ _ Al i x Ix O) as (w & Ev). pose proof (ed_vals _ _ _ _ _ Ed) as F. rewrite Ev in F. inversion F as [|? q ? l H F' Q1 Q2]. inversion F'. eexists. reflexivity.
Qed.
Lemma vrel_sub (P Q : nat -> Prop) w w' : (forall l, P l -> Q l) -> vrel v P w w' -> vrel v Q w w'.
Proof. intros S [->|(D & l & -> & Pl)]; [now left|right]. split; [exact D|]. exists l. auto. Qed.
Lemma rk_store i y : insn_of t i y -> i_op y = STORE -> exists p w, i_vals y = [p; w] /\ val_ok t w.
Proof.
  intros I O. destruct (rk_cases i y I) as [(x & Ix & Li & Ed)|[(-> & u & ->)|[(_ & u & b & ->)|(_ & u & b & ->)]]]; try discriminate O.
  - rewrite (rk_op _ _ _ _ Ed) in O. destruct (al_store _ _ Al i x Ix O) as (p & w & Ev & V). pose proof (ed_vals _ _ _ _ _ Ed) as F. rewrite Ev in F. inversion F as [|? q ? l H F' Q1 Q2]. inversion F' as [|? q' ? l' H' F'' Q1' Q2']. inversion F''. exists q, q'. split; [reflexivity|].
    apply (rk_val w q'); [|exact V]. revert H'. apply vrel_sub. intros k. apply (w_pre _ _ _ _ _ _ _ W).
  - eexists _, _. split; [reflexivity|]. intros d D. cbn in D. injection D as <-. right. right. now apply rk_tracked.
Qed.
Lemma rk_oper i y w : insn_of t i y -> i_op y <> LOAD -> i_op y <> STORE -> In w (operand_values y) -> val_ok t w.
Proof.
  intros I NL NS Iw. destruct (rk_cases i y I) as [(x & Ix & Li & Ed)|[(-> & u & ->)|[(_ & u & b & ->)|(_ & u & b & ->)]]]; [|destruct Iw|destruct NS; reflexivity|destruct NL; reflexivity].
  destruct (kp_operand _ _ _ _ _ W i x y w Ed Iw) as (w0 & I0 & Vr). rewrite (rk_op _ _ _ _ Ed) in *. exact (rk_val _ _ Vr (al_oper _ _ Al i x w0 Ix NL NS I0)).
Qed.
Lemma rk_plain i y w : insn_of t i y -> In w (operand_values y) -> plain_data (v_data w).
Proof.
  intros I Iw. destruct (rk_cases i y I) as [(x & Ix & Li & Ed)|[(-> & u & ->)|[(_ & u & b & ->)|(_ & u & b & ->)]]].
  - destruct (kp_operand _ _ _ _ _ W i x y w Ed Iw) as (w0 & I0 & [->|(_ & l & -> & _)]); [exact (al_plain _ _ Al i x w0 Ix I0)|exact Logic.I].
  - destruct Iw.
  - destruct Iw as [<-|[<-|[]]]; exact Logic.I.
  - destruct Iw as [<-|[]]; exact Logic.I.
Qed.
Lemma rk_enc i y : insn_of t i y -> encodable y.
Proof.
  intros I. destruct (rk_cases i y I) as [(x & Ix & Li & Ed)|[(-> & u & ->)|[(_ & u & b & ->)|(_ & u & b & ->)]]].
  - pose proof (al_enc _ _ Al i x Ix) as E. pose proof (rk_op _ _ _ _ Ed) as Op. assert (Al' : i_alu y = i_alu x) by apply (ed_rest _ _ _ _ _ Ed). destruct (ed_addr _ _ _ _ _ Ed) as (Av & Ao & _).
    constructor; rewrite ?Op, ?Al', ?Ao.
    + intros w c Iw D. destruct (kp_operand _ _ _ _ _ W i x y w Ed Iw) as (w0 & I0 & [->|(_ & l & -> & _)]); [exact (ec_const _ E w0 c I0 D)|discriminate D].
    + intros w Iw. destruct (kp_operand _ _ _ _ _ W i x y w Ed Iw) as (w0 & I0 & [->|(_ & l & -> & _)]); [exact (ec_hole _ E w0 I0)|exact Logic.I].
    + intros O w Iw. destruct (kp_operand _ _ _ _ _ W i x y w Ed Iw) as (w0 & I0 & [->|(_ & l & -> & _)]); [exact (ec_raw _ E O w0 I0)|exact Logic.I].
    + exact (ec_copy _ E).
    + intros O A w Iw. destruct (L_SpillKeep.F2_in _ _ _ _ (ed_vals _ _ _ _ _ Ed) Iw) as (w0 & I0 & [->|(_ & l & -> & _)]); [exact (ec_zero _ E O A w0 I0)|split; [discriminate|exact Logic.I]].
    + exact (ec_off _ E).
    + intros O c. destruct Av as [->|(_ & l & -> & _)]; [exact (ec_load _ E O c)|discriminate].
  - constructor; try (cbn; intuition discriminate).
  - constructor; try (cbn; intuition discriminate); [intros w c [<-|[<-|[]]] D; discriminate D|intros w [<-|[<-|[]]]; exact Logic.I].
  - constructor; try (cbn; intuition discriminate); [intros w c [<-|[]] D; discriminate D|intros w [<-|[]]; exact Logic.I].
Qed.
Lemma rk_fix i y e : insn_of t i y -> c_ex t i = Some e -> x_fin e = true -> i_op y <> ALLOC -> vp_spilled (x_pos e) = 0%Z.
Proof.
  intros I E F O. destruct (rk_cases i y I) as [(x & Ix & Li & Ed)|[(-> & u & ->)|[(-> & u & b & ->)|(G & u & b & ->)]]].
  - rewrite (w_ex _ _ _ _ _ _ _ W i Li) in E. rewrite (rk_op _ _ _ _ Ed) in O. exact (al_fix _ _ Al i x e Ix E F O).
  - destruct O. reflexivity.
  - destruct (w_st _ _ _ _ _ _ _ W) as (_ & E'). rewrite E in E'. injection E' as ->. reflexivity.
  - destruct (w_ld _ _ _ _ _ _ _ W i G) as (_ & E' & _). rewrite E in E'. injection E' as ->. reflexivity.
Qed.
Lemma rk_dst i y e : insn_of t i y -> c_ex t i = Some e -> is_void_op (i_op y) = false -> i_op y <> CALL -> x_dst e = Some i.
Proof.
  intros I E V O. destruct (rk_cases i y I) as [(x & Ix & Li & Ed)|[(-> & u & ->)|[(-> & u & b & ->)|(G & u & b & ->)]]].
  - rewrite (w_ex _ _ _ _ _ _ _ W i Li) in E. rewrite (rk_op _ _ _ _ Ed) in *. exact (al_dst _ _ Al i x e Ix E V O).
  - destruct (w_a _ _ _ _ _ _ _ W) as (_ & E'). rewrite E in E'. injection E' as ->. reflexivity.
  - discriminate V.
  - destruct (w_ld _ _ _ _ _ _ _ W i G) as (_ & E' & _). rewrite E in E'. injection E' as ->. reflexivity.
Qed.
Lemma rk_all : spillable t -> allocable d0 t.
Proof.
  intros Sbt. destruct rk_rest as (R1 & R2 & R3 & R4 & R5 & R6). constructor.
  - exact Sbt.
  - exact rk_tidy.
  - exact rk_second.
  - exact rk_empty.
  - exact rk_comp.
  - intros b Ib. rewrite R1 in Ib. destruct (al_paths _ _ Al b Ib) as (l & P). exists l. now apply rk_path'.
  - exact rk_copies.
  - exact rk_merge.
  - intros i y I. destruct (rk_cases i y I) as [(x & Ix & Li & Ed)|[(-> & u & ->)|[(_ & u & b & ->)|(_ & u & b & ->)]]]; [rewrite (rk_op _ _ _ _ Ed); exact (al_kinds _ _ Al i x Ix)|repeat split; discriminate|repeat split; discriminate|repeat split; discriminate].
  - exact rk_var.
  - exact rk_mem.
  - exact rk_named.
  - exact rk_ld.
  - exact rk_store.
  - exact rk_oper.
  - exact rk_plain.
  - exact rk_enc.
  - rewrite R3. destruct (al_sp _ _ Al) as (e & E & H). exists e. split; [|exact H]. exact (kp_ex _ _ Sb _ _ _ W _ _ E).
  - exact rk_fix.
  - exact rk_dst.
  - intros b i y Ii Y C. rewrite R1. assert (Ly : linked t i) by (exists b; split; [exact (kp_reach _ _ _ Sb Tv Xv _ _ _ W b i Ii)|exact Ii]).
    destruct (rk_cases i y (conj Ly Y)) as [(x & (Lx & X) & Li & Ed)|[(-> & u & ->)|[(_ & u & b' & ->)|(_ & u & b' & ->)]]]; try discriminate C. rewrite (rk_op _ _ _ _ Ed) in C.
    replace (i_bb1 y) with (i_bb1 x) by (symmetry; apply (ed_rest _ _ _ _ _ Ed)). exact (al_cond _ _ Al b i x (kp_old _ _ _ Sb Xv _ _ _ W _ _ Li Ii) X C).
  - intros b c Ib NJ N. rewrite R1 in *. apply (al_open _ _ Al b c Ib).
    + intros i x Ii X. destruct (w_old _ _ _ _ _ _ _ W i x X) as (y & Y & Ed). rewrite <- (rk_op _ _ _ _ Ed). apply (NJ i y); [exact (kp_in _ _ _ _ _ W b i Ii)|exact Y].
    + unfold next_of in *. rewrite R5 in N. exact N.
  - rewrite R4, R6, R1. exact (al_start _ _ Al).
Qed.
End Keep.

(** *** one value, then a list of values *)
Lemma spill_one_keeps d s v t : allocable d s -> tracked s v -> (- 2 ^ 31 <= c_off s - 8)%Z -> spill_one s v = Ok t -> allocable d t /\ forall u, tracked s u -> tracked t u.
Proof.
  intros A T B H. pose proof (al_spill _ _ A) as Sb. pose proof H as H'. unfold spill_one in H'. bo H' xv Hx. apply get_insn_ok in Hx. clear H'. pose proof (var_fixed d s v xv A T Hx) as NA.
  destruct (spill_one_spilt s v xv Sb T Hx t NA H) as (pre & tail & W & U). destruct (spill_one_ok s v t (sb_winv s Sb) H B) as (_ & OF & _). pose proof (val_moved s v xv t pre tail Sb T Hx B H W U) as Mo. split.
  - exact (rk_all d s v xv A T Hx t pre tail W OF (mo_able _ _ _ Mo)).
  - intros u. exact (kp_tracked _ _ _ Sb Hx _ _ _ W u).
Qed.
Lemma spill_keeps d l : forall s t, allocable d s -> (forall v, In v l -> tracked s v) -> (- 2 ^ 31 <= c_off s - 8 * Z.of_nat (length l))%Z -> spill s l = Ok t -> allocable d t.
Proof.
  induction l as [|v l IH]; intros s t A T B H; unfold spill in H; cbn [ofold] in H; [now injection H as <-|]. bo H s1 H1. cbn [length] in *. rewrite Nat2Z.inj_succ in *.
  destruct (spill_one_keeps d s v s1 A (T v (or_introl eq_refl)) ltac:(lia) H1) as (A1 & T1). destruct (spill_one_ok s v s1 (sb_winv s (al_spill _ _ A)) H1 ltac:(lia)) as (_ & OF & _).
  apply (IH s1 t A1); [|lia|exact H]. intros u Iu. apply T1, T. now right.
Qed.
