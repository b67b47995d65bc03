(** Preparing a function for register allocation: the state at the start. *)
From Coq Require Import ZArith List Bool Arith Lia Permutation.
From Verif Require Import M_Base M_Ir M_Norm M_Edit M_Ra SpecWord SpecFlat SpecProg SpecSsa SpecIr SpecEdit SpecRa SpecPass SpecShift SpecVirt SpecPrep
  L_Edit L_Uses L_Hist L_Ctor L_Ins L_PassPhi L_PassAlloc L_Sim L_RaGraph L_Word L_Virt L_Prep L_PrepStr L_PrepInv L_PrepAll.
From Verif Require Import SpecRa SpecVirt.
Import ListNotations.
Open Scope nat_scope.

(** the ten registers *)
Record regs10 (f : func) (s : cgs) (k : nat) (reach : list nat) (sp : nat) (args : list nat) : Prop := {
  rg_ni : f_ni (c_f s) = f_ni f + k;
  rg_rest : c_reach s = reach /\ c_sp s = sp /\ c_args s = args /\ c_off s = 0%Z /\ c_all s = [];
  rg_f : f_block (c_f s) = f_block f /\ f_nb (c_f s) = f_nb f /\ f_entry (c_f s) = f_entry f;
  rg_regs : c_regs s = seq (f_ni f) k;
  rg_old : forall j, j < f_ni f -> f_insn (c_f s) j = f_insn f j;
  rg_new : forall j, j < k -> f_insn (c_f s) (f_ni f + j) = Some (set_u (Z.of_nat j) (set_op REG (insn0 0))) /\ c_ex s (f_ni f + j) = Some (ex_reg (f_ni f + j) (Z.of_nat j));
  rg_none : (forall j, f_ni f + k <= j -> f_insn (c_f s) j = None) /\ forall j, j < f_ni f \/ f_ni f + k <= j -> c_ex s j = None }.
Lemma regs_fold f reach sp args : (forall j, f_ni f <= j -> f_insn f j = None) -> forall k,
  regs10 f (fold_left new_reg (seq 0 k) (mkCg f reach (fun _ => None) [] sp args [] [] 0%Z)) k reach sp args.
Proof.
  intros Fr. induction k as [|k IH].
  - cbn. constructor; cbn; auto; try lia. split; auto. intros j L. apply Fr. lia.
  - rewrite seq_S, fold_left_app. cbn [fold_left Nat.add]. destruct IH as [A1 A2 A3 A4 A5 A6 A7]. set (s := fold_left new_reg (seq 0 k) _) in *.
    unfold new_reg. constructor; cbn [c_f c_reach c_sp c_args c_off c_all c_regs c_ex f_ni f_nb f_block f_entry f_insn].
    + lia.
    + intuition.
    + exact A3.
    + rewrite A4, A1, seq_S. reflexivity.
    + intros j L. rewrite upd_ne by lia. now apply A5.
    + intros j L. rewrite A1. destruct (Nat.eq_dec j k) as [->|N]; [rewrite !upd_eq; auto|]. rewrite !upd_ne by lia. apply A6. lia.
    + split; intros j L; rewrite upd_ne by lia; [apply A7; lia|]. apply A7. lia.
Qed.
Lemma init_fold l : forall s t, ofold init_one s l = Ok t ->
  c_f t = c_f s /\ c_reach t = c_reach s /\ c_regs t = c_regs s /\ c_sp t = c_sp s /\ c_args t = c_args s /\ c_off t = c_off s /\ c_all t = c_all s /\
  (forall j, ~ In j l -> c_ex t j = c_ex s j) /\ forall j x, In j l -> f_insn (c_f s) j = Some x -> c_ex t j = Some (ex0 j (i_op x)).
Proof.
  induction l as [|i l IH]; intros s t H; cbn [ofold] in H.
  - injection H as <-. repeat split; auto. intros j x [].
  - bo H s1 H1. unfold init_one in H1. bo H1 x X. apply get_insn_ok in X. injection H1 as <-. destruct (IH _ _ H) as (P1 & P2 & P3 & P4 & P5 & P6 & P7 & P8 & P9).
    cbn [c_f c_reach c_regs c_sp c_args c_off c_all put_ex with_ex] in *. repeat (split; [assumption|]). split.
    + intros j N. rewrite P8 by (intros ?; apply N; now right). rewrite put_ex_ne; [reflexivity|]. intros ->. apply N. now left.
    + intros j y I Y. destruct (in_dec Nat.eq_dec j l) as [J|J]; [now apply P9|]. destruct I as [->|I]; [|contradiction]. rewrite P8 by exact J. rewrite put_ex_eq. congruence.
Qed.

Record inited (f : func) (s : cgs) (reach : list nat) (sp : nat) (args : list nat) : Prop := {
  nt_rest : c_reach s = reach /\ c_sp s = sp /\ c_args s = args /\ c_off s = 0%Z /\ c_all s = [] /\ c_regs s = seq (f_ni f) 10;
  nt_f : f_block (c_f s) = f_block f /\ f_nb (c_f s) = f_nb f /\ f_entry (c_f s) = f_entry f /\ f_ni (c_f s) = f_ni f + 10;
  nt_old : forall j, j < f_ni f -> f_insn (c_f s) j = f_insn f j;
  nt_reg : forall k, k < 10 -> f_insn (c_f s) (f_ni f + k) = Some (set_u (Z.of_nat k) (set_op REG (insn0 0))) /\ c_ex s (f_ni f + k) = Some (ex_reg (f_ni f + k) (Z.of_nat k));
  nt_none : forall j, f_ni f + 10 <= j -> f_insn (c_f s) j = None;
  nt_sp : c_ex s sp = Some (ex_reg sp 10);
  nt_ex : forall j x, placed_in f reach j -> f_insn f j = Some x -> c_ex s j = Some (ex0 j (i_op x));
  nt_dom : forall j e, c_ex s j = Some e -> f_ni f <= j < f_ni f + 10 \/ j = sp \/ placed_in f reach j }.
Lemma init_spec f reach sp args s : prepable f reach sp args -> init_cg f reach sp args = Ok s -> inited f s reach sp args.
Proof.
  intros P H. unfold init_cg in H. bo H l Hl. bo H s2 H2. injection H as <-.
  pose proof (regs_fold f reach sp args (proj1 (pp_fresh _ _ _ _ P)) 10) as R. set (s1 := fold_left new_reg (seq 0 10) _) in *. clearbody s1.
  assert (PL : forall j, In j l <-> placed_in f reach j). { intros j. apply insns_in_spec in Hl. subst l. rewrite in_flat_map. unfold placed_in. firstorder. }
  assert (PF : forall j, placed_in f reach j -> exists x, f_insn f j = Some x /\ j < f_ni f).
  { intros j (b & _ & I). destruct (td_linked _ (pp_tidy _ _ _ _ P) _ _ I) as (x & X & _). exists x. split; [auto|]. destruct (Nat.lt_ge_cases j (f_ni f)) as [?|G]; auto. rewrite (proj1 (pp_fresh _ _ _ _ P) _ G) in X. discriminate. }
  destruct (pp_sp _ _ _ _ P) as (NS & xs & Xs & _).
  assert (Ls : sp < f_ni f). { destruct (Nat.lt_ge_cases sp (f_ni f)) as [?|G]; auto. rewrite (proj1 (pp_fresh _ _ _ _ P) _ G) in Xs. discriminate. }
  apply init_fold in H2 as (P1 & P2 & P3 & P4 & P5 & P6 & P7 & P8 & P9). destruct R as [A1 (B1 & B2 & B3 & B4 & B5) (C1 & C2 & C3) A4 A5 A6 A7].
  constructor; cbn [c_f c_reach c_regs c_sp c_args c_off c_all put_ex with_ex]; rewrite ?P1, ?P2, ?P3, ?P4, ?P5, ?P6, ?P7; auto.
  - repeat split; assumption.
  - intros k Lk. split; [apply A6; exact Lk|]. fold (put_ex s2 sp (ex_reg sp 10)). rewrite put_ex_ne by lia. rewrite P8; [apply A6; exact Lk|]. intros I. apply PL in I. destruct (PF _ I) as (x & X & L). lia.
  - apply A7.
  - apply put_ex_eq.
  - intros j x Pj X. fold (put_ex s2 sp (ex_reg sp 10)). rewrite put_ex_ne by (intros ->; contradiction). apply P9; [now apply PL|]. rewrite A5; [exact X|]. destruct (PF _ Pj) as (_ & _ & L). exact L.
  - intros j e. fold (put_ex s2 sp (ex_reg sp 10)). destruct (Nat.eq_dec j sp) as [->|N]; [auto|]. rewrite put_ex_ne by auto. destruct (in_dec Nat.eq_dec j l) as [J|J]; [intros _; right; right; now apply PL|].
    rewrite P8 by exact J. destruct (Nat.lt_ge_cases j (f_ni f)) as [Lj|Gj]; [rewrite (proj2 A7) by auto; discriminate|]. destruct (Nat.lt_ge_cases j (f_ni f + 10)) as [Lj|Gj2]; [auto|]. rewrite (proj2 A7) by auto. discriminate.
Qed.

Lemma cond_cmp o : is_cond_jmp_op o = true -> exists c, cmp_op_of o = Some c.
Proof. destruct o; cbn; intros H; try discriminate H; eauto. Qed.
Section Init.
Context (f : func) (reach : list nat) (sp : nat) (args : list nat) (s : cgs).
Hypothesis P : prepable f reach sp args.
Hypothesis T : inited f s reach sp args.
Lemma in_list b : insns_of (c_f s) b = insns_of f b.
Proof. unfold insns_of. now rewrite (proj1 (nt_f _ _ _ _ _ T)). Qed.
Lemma in_succs b : succs_of (c_f s) b = succs_of f b.
Proof. unfold succs_of. now rewrite (proj1 (nt_f _ _ _ _ _ T)). Qed.
Lemma in_preds b : preds_of (c_f s) b = preds_of f b.
Proof. unfold preds_of. now rewrite (proj1 (nt_f _ _ _ _ _ T)). Qed.
Lemma in_linked j : linked s j <-> placed_in f reach j.
Proof. unfold linked, placed_in. rewrite (proj1 (nt_rest _ _ _ _ _ T)). split; intros (b & B & I); exists b; (split; [exact B|]); rewrite ?in_list in *; auto. Qed.
Lemma old_lt j : f_insn f j <> None -> j < f_ni f.
Proof. intros H. destruct (Nat.lt_ge_cases j (f_ni f)) as [?|G]; auto. destruct (H (proj1 (pp_fresh _ _ _ _ P) _ G)). Qed.
Lemma old_insn j x : f_insn f j = Some x -> f_insn (c_f s) j = Some x.
Proof. intros X. rewrite (nt_old _ _ _ _ _ T); [exact X|]. apply old_lt. congruence. Qed.
Lemma insn_was j x : f_insn (c_f s) j = Some x -> f_insn f j = Some x \/ (f_ni f <= j < f_ni f + 10 /\ i_op x = REG /\ operand_values x = [] /\ i_users x = []).
Proof.
  intros X. destruct (Nat.lt_ge_cases j (f_ni f)) as [L|G]; [left; now rewrite <- (nt_old _ _ _ _ _ T) by exact L|]. destruct (Nat.lt_ge_cases j (f_ni f + 10)) as [L|G2]; [|rewrite (nt_none _ _ _ _ _ T) in X by auto; discriminate].
  right. split; [lia|]. destruct (nt_reg _ _ _ _ _ T (j - f_ni f)) as (Y & _); [lia|]. replace (f_ni f + (j - f_ni f)) with j in Y by lia. rewrite X in Y. injection Y as ->. auto.
Qed.
Lemma placed_insn j : placed_in f reach j -> exists x, f_insn f j = Some x.
Proof. intros (b & _ & I). destruct (td_linked _ (pp_tidy _ _ _ _ P) _ _ I) as (x & X & _). eauto. Qed.
Lemma linked_insn j x : linked s j -> f_insn (c_f s) j = Some x -> f_insn f j = Some x /\ placed_in f reach j.
Proof. intros L X. apply in_linked in L. destruct (placed_insn _ L) as (y & Y). rewrite (old_insn _ _ Y) in X. injection X as ->. auto. Qed.
Lemma in_uses u d : uses (c_f s) u d = uses f u d.
Proof.
  unfold uses. destruct (f_insn (c_f s) u) as [x|] eqn:X.
  - destruct (insn_was _ _ X) as [Y|(R & _ & O & _)]; [now rewrite Y|]. rewrite O. destruct (f_insn f u) eqn:Y; [|reflexivity]. exfalso. assert (u < f_ni f) by (apply old_lt; congruence). lia.
  - destruct (f_insn f u) eqn:Y; [|reflexivity]. rewrite (old_insn _ _ Y) in X. discriminate.
Qed.
Lemma in_users d : users_of (c_f s) d = users_of f d.
Proof.
  unfold users_of. destruct (f_insn (c_f s) d) as [x|] eqn:X.
  - destruct (insn_was _ _ X) as [Y|(R & _ & _ & O)]; [now rewrite Y|]. rewrite O. destruct (f_insn f d) eqn:Y; [|reflexivity]. exfalso. assert (d < f_ni f) by (apply old_lt; congruence). lia.
  - destruct (f_insn f d) eqn:Y; [|reflexivity]. rewrite (old_insn _ _ Y) in X. discriminate.
Qed.
Lemma in_leads b c : leads s b c -> goes f b c.
Proof.
  intros [(i & x & I & X & J)|N].
  - rewrite in_list in I. destruct (td_linked _ (pp_tidy _ _ _ _ P) _ _ I) as (y & Y & _). rewrite (old_insn _ _ Y) in X. injection X as ->.
    destruct J as [(O & <-)|(O & J)]; [exact (go_ja _ _ _ _ I Y O)|]. destruct (cond_cmp _ O) as (k & K). destruct J as [<-|<-]; [exact (go_c1 _ _ _ _ _ I Y K)|exact (go_c2 _ _ _ _ _ I Y K)].
  - rewrite in_succs in N. destruct (succs_of f b) as [|a l] eqn:Q; [discriminate N|]. cbn in N. injection N as ->. exact (go_next _ _ _ _ Q).
Qed.
Lemma not_placed_new j : f_ni f <= j -> ~ placed_in f reach j.
Proof. intros G Pj. destruct (placed_insn _ Pj) as (x & X). assert (j < f_ni f) by (apply old_lt; congruence). lia. Qed.
Lemma reg_nth k r : nth_error (c_regs s) k = Some r -> k < 10 /\ r = f_ni f + k.
Proof.
  destruct (nt_rest _ _ _ _ _ T) as (_ & _ & _ & _ & _ & ->). intros H. assert (L : k < 10) by (rewrite <- (seq_length 10 (f_ni f)); apply nth_error_Some; congruence).
  split; [exact L|]. apply nth_error_nth with (d := 0) in H. rewrite seq_nth in H by exact L. now symmetry.
Qed.
Lemma init_inv : inv s.
Proof.
  destruct (nt_rest _ _ _ _ _ T) as (E1 & E2 & E3 & E4 & E5 & E6). destruct (nt_f _ _ _ _ _ T) as (F1 & F2 & F3 & F4).
  destruct (pp_sp _ _ _ _ P) as (NS & xs & Xs & NSa & NSb). destruct (pp_args _ _ _ _ P) as (NDa & La & NIa & RA).
  assert (Ls : sp < f_ni f) by (apply old_lt; congruence).
  constructor.
  - split; [intros j; rewrite F4; apply (nt_none _ _ _ _ _ T)|]. intros b. rewrite F2, F1. apply (pp_fresh _ _ _ _ P).
  - constructor.
    + intros u d. rewrite in_uses, in_users. apply (td_users _ (pp_tidy _ _ _ _ P)).
    + intros b i I. rewrite in_list in I. destruct (td_linked _ (pp_tidy _ _ _ _ P) _ _ I) as (x & X & Q). exists x. split; [now apply old_insn|exact Q].
    + intros b. rewrite in_list. apply (td_once _ (pp_tidy _ _ _ _ P)).
    + intros u d U. rewrite in_uses in U. destruct (td_placed _ (pp_tidy _ _ _ _ P) _ _ U) as (x & X & I). exists x. split; [now apply old_insn|]. now rewrite in_list.
  - rewrite E1, F1. split; [apply (pp_reach _ _ _ _ P)|]. apply (pp_reach _ _ _ _ P).
  - intros b i. rewrite in_list, E1. apply (pp_reach _ _ _ _ P).
  - split; [rewrite E6; apply seq_length|]. split; [rewrite E6; apply seq_NoDup|]. intros k r K. apply reg_nth in K as (Lk & ->). destruct (nt_reg _ _ _ _ _ T k Lk) as (Y & X).
    split; [exact X|]. split; [rewrite in_linked; apply not_placed_new; lia|]. eexists. split; [exact Y|reflexivity].
  - rewrite E2. split; [apply (nt_sp _ _ _ _ _ T)|]. split; [rewrite E6, in_seq; lia|]. split; [now rewrite in_linked|]. exists xs. split; [now apply old_insn|auto].
  - rewrite E3. split; [auto|]. split; [auto|]. intros a Ia. destruct (RA _ Ia) as (NP & x & X & Q1 & Q2). split; [|split; [now rewrite in_linked|exists x; split; [now apply old_insn|auto]]].
    destruct (c_ex s a) as [e|] eqn:Xa; [|reflexivity]. exfalso. destruct (nt_dom _ _ _ _ _ T _ _ Xa) as [L|[->|L]]; [|contradiction|contradiction]. assert (a < f_ni f) by (apply old_lt; congruence). lia.
  - intros i x L X. destruct (linked_insn _ _ L X) as (Y & Pl). exists (ex0 i (i_op x)). split; [exact (nt_ex _ _ _ _ _ T _ _ Pl Y)|]. constructor; cbn; try discriminate; auto 10.
    + intros ->. reflexivity.
    + intros ->. reflexivity.
    + intros ->. now left.
  - intros v e X. rewrite E6, E2. destruct (nt_dom _ _ _ _ _ T _ _ X) as [L|[->|L]]; [left; apply in_seq; lia|auto|]. right. right. now apply in_linked.
  - intros i e L X Fi. exfalso. destruct (placed_insn i) as (x & Y); [now apply in_linked|]. apply in_linked in L. rewrite (nt_ex _ _ _ _ _ T _ _ L Y) in X. injection X as <-. discriminate Fi.
  - intros u x v d L X I D. destruct (linked_insn _ _ L X) as (Y & Pl). pose proof (pp_ops _ _ _ _ P _ _ _ Pl Y I) as Q. rewrite D in Q. unfold operand_ok. rewrite E3, E2.
    destruct Q as [Q|[Q|(Q & y & Yd & Vo)]]; auto. right. right. right. split; [now apply in_linked|]. exists (ex0 d (i_op y)). split; [exact (nt_ex _ _ _ _ _ T _ _ Q Yd)|]. cbn. rewrite Vo. auto.
  - intros u x v L X I. destruct (linked_insn _ _ L X) as (Y & Pl). pose proof (pp_ops _ _ _ _ P _ _ _ Pl Y I) as Q. unfold operand_fits in Q. unfold plain_data. destruct (v_data v); auto.
  - intros b c Hb Ld. rewrite E1 in Hb. rewrite E1, F3, in_preds. exact (pp_goes _ _ _ _ P _ _ Hb (in_leads _ _ Ld)).
  - intros b p. rewrite E1, in_preds. apply (pp_preds _ _ _ _ P).
  - intros b l1 i l2 x Q X. rewrite in_list in Q. destruct (td_linked _ (pp_tidy _ _ _ _ P) b i) as (y & Y & _); [rewrite Q; apply in_or_app; right; now left|]. rewrite (old_insn _ _ Y) in X. injection X as ->. exact (pp_jump _ _ _ _ P _ _ _ _ _ Q Y).
  - intros i x L X O. destruct (linked_insn _ _ L X) as (Y & Pl). rewrite E1. exact (pp_phi _ _ _ _ P _ _ Pl Y O).
  - intros i x L X O. destruct (linked_insn _ _ L X) as (Y & Pl). exact (pp_call _ _ _ _ P _ _ Pl Y O).
  - intros i x L X. destruct (linked_insn _ _ L X) as (Y & Pl). exact (pp_arr _ _ _ _ P _ _ Pl Y).
  - rewrite F3, E1. split; [apply (pp_entry _ _ _ _ P)|]. intros i l Q (x & X & O). rewrite in_list in Q. apply (proj2 (pp_entry _ _ _ _ P) i l Q). exists x. split; [|exact O].
    destruct (td_linked _ (pp_tidy _ _ _ _ P) (f_entry f) i) as (y & Y & _); [rewrite Q; now left|]. rewrite (old_insn _ _ Y) in X. congruence.
Qed.
Lemma init_alu : second_ok f reach sp -> alu_ok s.
Proof. intros H i x L X O. destruct (linked_insn _ _ L X) as (Y & Pl). destruct (nt_rest _ _ _ _ _ T) as (_ & -> & _). exact (H i x Pl Y O). Qed.
End Init.
