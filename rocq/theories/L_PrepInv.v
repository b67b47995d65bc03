(** Preparing a function for register allocation: what holds of the function between the edits, and one
    edit in general. *)
From Coq Require Import ZArith List Bool Arith Lia Permutation.
From Verif Require Import M_Base M_Ir M_Norm M_Edit M_Ra SpecWord SpecFlat SpecProg SpecSsa SpecIr SpecEdit SpecRa SpecPass SpecShift SpecVirt
  L_Edit L_Uses L_Hist L_Ctor L_Ins L_PassPhi L_Sim L_RaGraph L_Virt L_Prep L_PrepStr.
From Verif Require Import SpecSpill SpecRa SpecVirt.
Import ListNotations.
Open Scope nat_scope.

Definition ex_fix (j : nat) (k : Z) : extra := set_pos (mkPos true 0 k 0) (set_fin true (ex0 j ASSIGN)).
(** the data of a linked instruction *)
Record normal (i : nat) (x : insn) (e : extra) : Prop := {
  no_vr : x_nonvr e = false;
  no_blank : x_in e = [] /\ x_out e = [] /\ x_adj e = [] /\ x_lam e = 0 /\ x_w e = 0;
  no_free : x_fin e = false -> x_pos e = mkPos false 0 0 0;
  no_fix : x_fin e = true -> i_op x = ASSIGN /\ exists k, (1 <= k <= 5)%Z /\ x_pos e = mkPos true 0 k 0;
  no_void : is_void_op (i_op x) = true -> x_dst e = None;
  no_dst : is_void_op (i_op x) = false -> i_op x <> CALL -> x_dst e = Some i;
  no_call : i_op x = CALL -> x_dst e = Some i \/ (x_dst e = None /\ i_vals x = []) }.
Definition operand_ok (s : cgs) (o : iop) (d : nat) : Prop :=
  In d (c_args s) \/ d = c_sp s \/ (In d (c_regs s) /\ o = ASSIGN) \/ tracked s d.
Definition plain_data (v : vdata) : Prop := match v with VConst _ | VInsn _ | VRawOff _ | VRawOffRev _ => True | _ => False end.
Record inv (s : cgs) : Prop := {
  n_fresh : fresh_ok (c_f s);
  n_tidy : SpecPass.tidy (c_f s);
  n_reach : NoDup (c_reach s) /\ forall b, In b (c_reach s) -> f_block (c_f s) b <> None;
  n_all : forall b i, In i (insns_of (c_f s) b) -> In b (c_reach s);
  n_regs : length (c_regs s) = 10 /\ NoDup (c_regs s) /\ forall k r, nth_error (c_regs s) k = Some r ->
    c_ex s r = Some (ex_reg r (Z.of_nat k)) /\ ~ linked s r /\ exists x, f_insn (c_f s) r = Some x /\ i_op x = REG;
  n_sp : c_ex s (c_sp s) = Some (ex_reg (c_sp s) 10) /\ ~ In (c_sp s) (c_regs s) /\ ~ linked s (c_sp s) /\
    exists x, f_insn (c_f s) (c_sp s) = Some x /\ i_op x <> ALLOC /\ i_op x <> ALLOCARRAY;
  n_args : NoDup (c_args s) /\ length (c_args s) <= 5 /\ forall a, In a (c_args s) -> c_ex s a = None /\ ~ linked s a /\
    exists x, f_insn (c_f s) a = Some x /\ i_op x <> PHI /\ i_op x <> ALLOC;
  n_ex : forall i x, linked s i -> f_insn (c_f s) i = Some x -> exists e, c_ex s i = Some e /\ normal i x e;
  n_dom : forall v e, c_ex s v = Some e -> In v (c_regs s) \/ v = c_sp s \/ linked s v;
  n_fix : forall i e, linked s i -> c_ex s i = Some e -> x_fin e = true -> forall u, uses (c_f s) u i = 0;
  n_ops : forall u x v d, linked s u -> f_insn (c_f s) u = Some x -> In v (operand_values x) -> v_data v = VInsn d -> operand_ok s (i_op x) d;
  n_vals : forall u x v, linked s u -> f_insn (c_f s) u = Some x -> In v (operand_values x) -> plain_data (v_data v);
  n_leads : forall b c, In b (c_reach s) -> leads s b c -> In c (c_reach s) /\ c <> f_entry (c_f s) /\ In b (preds_of (c_f s) c);
  n_preds : forall b p, In b (c_reach s) -> In p (preds_of (c_f s) b) -> In p (c_reach s);
  n_jump : forall b l1 i l2 x, insns_of (c_f s) b = l1 ++ i :: l2 -> f_insn (c_f s) i = Some x -> is_jmp_op (i_op x) = true -> l2 = [];
  n_phi : forall i x, linked s i -> f_insn (c_f s) i = Some x -> i_op x = PHI ->
    i_vals x = [] /\ NoDup (map snd (i_phi x)) /\ forall w b, In (w, b) (i_phi x) -> In b (c_reach s);
  n_few : forall i x, linked s i -> f_insn (c_f s) i = Some x -> i_op x = CALL -> length (i_vals x) <= 5;
  n_arr : forall i x, linked s i -> f_insn (c_f s) i = Some x -> i_op x <> ALLOCARRAY;
  n_entry : In (f_entry (c_f s)) (c_reach s) /\ phi_free s (f_entry (c_f s)) }.

(** ** One edit: copies [B] before and [A] behind [M] (the instruction [i], or nothing) in block [bb];
    uses of [i] may be renamed *)
Definition kept_rest (x y : insn) : Prop :=
  i_op y = i_op x /\ i_vrt y = i_vrt x /\ i_alu y = i_alu x /\ i_bb1 y = i_bb1 x /\ i_bb2 y = i_bb2 x /\
  i_u y = i_u x /\ i_ity y = i_ity x /\ i_imm64 y = i_imm64 x /\ i_parent y = i_parent x.
Definition renamed (τ : nat -> nat) (l l' : list value) : Prop :=
  forall v', In v' l' -> exists v, In v l /\ vsim τ v v'.
Record ext (s t : cgs) (τ : nat -> nat) (i bb : nat) (l1 B M A l2 : list nat) (N : nat -> value) : Prop := {
  x_n : f_ni (c_f s) <= f_ni (c_f t);
  x_fresh : fresh_ok (c_f t);
  x_rest : c_reach t = c_reach s /\ c_regs t = c_regs s /\ c_sp t = c_sp s /\ c_args t = c_args s /\ c_off t = c_off s /\ c_all t = c_all s;
  x_cfg : f_entry (c_f t) = f_entry (c_f s) /\ (forall b, f_block (c_f t) b = None <-> f_block (c_f s) b = None) /\
          (forall b, succs_of (c_f t) b = succs_of (c_f s) b) /\ (forall b, preds_of (c_f t) b = preds_of (c_f s) b);
  x_users : users_ok (c_f t);
  x_bb : In bb (c_reach s);
  x_M : (M = [] /\ l1 = [] /\ A = [] /\ bb = f_entry (c_f s) /\ In i (c_args s) /\ B <> []) \/
        (M = [i] /\ exists x, f_insn (c_f s) i = Some x /\ i_op x <> PHI /\ i_op x <> ALLOC /\ (A = [] \/ is_jmp_op (i_op x) = false));
  x_from : insns_of (c_f s) bb = l1 ++ M ++ l2;
  x_list : forall b, insns_of (c_f t) b = if b =? bb then l1 ++ B ++ M ++ A ++ l2 else insns_of (c_f s) b;
  x_new : NoDup (B ++ A) /\ forall j, In j (B ++ A) <-> f_ni (c_f s) <= j < f_ni (c_f t);
  x_copy : forall j, In j (B ++ A) -> (exists u, f_insn (c_f t) j = Some (set_users u (build bb (K_assign (N j))))) /\ plain_data (v_data (N j)) /\
    (forall d, v_data (N j) = VInsn d -> In d (c_regs s) \/ exists d0, d = τ d0 /\ (In d0 (c_args s) \/ d0 = c_sp s \/ tracked s d0)) /\
    (c_ex t j = Some (ex0 j ASSIGN) \/ exists k, (1 <= k <= 5)%Z /\ c_ex t j = Some (ex_fix j k) /\ forall u, uses (c_f t) u j = 0);
  x_old : forall j x, j <> i -> f_insn (c_f s) j = Some x -> exists y, f_insn (c_f t) j = Some y /\ isim τ x y;
  x_none : forall j, j < f_ni (c_f s) -> f_insn (c_f s) j = None -> f_insn (c_f t) j = None;
  x_i : forall x, f_insn (c_f s) i = Some x -> exists y, f_insn (c_f t) i = Some y /\ kept_rest x y /\
    (forall v', In v' (operand_values y) -> (exists v, In v (operand_values x) /\ vsim τ v v') \/
       M = [i] /\ exists d, v_data v' = VInsn d /\ In d B /\ c_ex t d = Some (ex0 d ASSIGN));
  x_ex : forall j, j < f_ni (c_f s) -> j <> i -> c_ex t j = c_ex s j;
  x_exi : c_ex t i = c_ex s i \/
    ((exists x, f_insn (c_f s) i = Some x /\ i_op x = CALL) /\ c_ex t i = option_map (set_dst None) (c_ex s i) /\
     (forall u, uses (c_f t) u i = 0) /\ forall y, f_insn (c_f t) i = Some y -> i_vals y = []);
  x_vals : forall y, linked s i -> f_insn (c_f t) i = Some y -> i_op y = CALL -> i_vals y = [];
  x_exn : forall j, f_ni (c_f t) <= j -> c_ex t j = None;
  x_tau : forall d, τ d = d \/ (d = i /\ In (τ d) (B ++ A) /\ c_ex t (τ d) = Some (ex0 (τ d) ASSIGN) /\ forall e, c_ex s i = Some e -> x_fin e = false);
  x_op : forall x, linked s i -> f_insn (c_f s) i = Some x -> i_op x <> ASSIGN;
  x_raw : forall x, linked s i -> f_insn (c_f s) i = Some x -> i_op x <> LOADRAW /\ i_op x <> STORERAW;
  x_lit : forall j, In j (B ++ A) -> (exists d, v_data (N j) = VInsn d) \/ (M = [i] /\ exists x, f_insn (c_f s) i = Some x /\ In (N j) (operand_values x));
  x_src : forall j d, In j (B ++ A) -> v_data (N j) = VInsn d -> (In d (c_regs s) /\ c_ex t j = Some (ex0 j ASSIGN)) \/
    (In j B /\ M = [i] /\ (exists k, c_ex t j = Some (ex_fix j k)) /\
     exists x v d0, f_insn (c_f s) i = Some x /\ i_op x = CALL /\ In v (operand_values x) /\ v_data v = VInsn d0 /\ d = τ d0) }.

Section Ext.
Context (s t : cgs) (τ : nat -> nat) (i bb : nat) (l1 B M A l2 : list nat) (N : nat -> value).
Hypothesis V : inv s.
Hypothesis E : ext s t τ i bb l1 B M A l2 N.

Lemma f_lt j : f_insn (c_f s) j <> None -> j < f_ni (c_f s).
Proof. intros H. destruct (Nat.lt_ge_cases j (f_ni (c_f s))) as [L|L]; auto. now rewrite (proj1 (n_fresh _ V) _ L) in H. Qed.
Lemma ex_lt v e : c_ex s v = Some e -> v < f_ni (c_f s).
Proof.
  intros H. apply f_lt. destruct (n_dom _ V _ _ H) as [I|[->|L]].
  - destruct (n_regs _ V) as (_ & _ & R). apply In_nth_error in I as (k & K). destruct (R _ _ K) as (_ & _ & x & X & _). congruence.
  - destruct (n_sp _ V) as (_ & _ & _ & x & X & _). congruence.
  - destruct L as (b & Hb & Hi). destruct (td_linked _ (n_tidy _ V) _ _ Hi) as (x & X & _). congruence.
Qed.
Lemma live_linked j : linked s j -> exists b x, In b (c_reach s) /\ In j (insns_of (c_f s) b) /\ f_insn (c_f s) j = Some x /\ i_parent x = b.
Proof. intros (b & Hb & Hi). destruct (td_linked _ (n_tidy _ V) _ _ Hi) as (x & X & P). exists b, x. auto. Qed.
Lemma linked_lt j : linked s j -> j < f_ni (c_f s).
Proof. intros L. destruct (live_linked j L) as (b & x & _ & _ & X & _). apply f_lt. congruence. Qed.
Lemma i_live : f_insn (c_f s) i <> None.
Proof.
  destruct (x_M _ _ _ _ _ _ _ _ _ _ _ E) as [(_ & _ & _ & _ & I & _)|(_ & x & X & _)]; [|congruence].
  destruct (n_args _ V) as (_ & _ & R). destruct (R _ I) as (_ & _ & x & X & _). congruence.
Qed.
Lemma i_lt : i < f_ni (c_f s).
Proof. apply f_lt, i_live. Qed.
Lemma M_linked : M = [i] -> linked s i.
Proof. intros Q. exists bb. split; [apply (x_bb _ _ _ _ _ _ _ _ _ _ _ E)|]. rewrite (x_from _ _ _ _ _ _ _ _ _ _ _ E), Q. apply in_or_app. right. now left. Qed.
Lemma i_cases : (M = [] /\ In i (c_args s) /\ ~ linked s i) \/ (M = [i] /\ linked s i).
Proof.
  destruct (x_M _ _ _ _ _ _ _ _ _ _ _ E) as [(Q & _ & _ & _ & I & _)|(Q & _)]; [left|right; split; [auto|now apply M_linked]].
  split; [auto|]. split; [auto|]. destruct (n_args _ V) as (_ & _ & R). now destruct (R _ I) as (_ & L & _).
Qed.
Lemma i_not_sp : i <> c_sp s.
Proof.
  intros Q. destruct (n_sp _ V) as (X & _ & L & _). rewrite <- Q in *. destruct i_cases as [(_ & I & _)|(_ & I)]; [|contradiction].
  destruct (n_args _ V) as (_ & _ & R). destruct (R _ I) as (Z & _). congruence.
Qed.
Lemma i_not_reg : ~ In i (c_regs s).
Proof.
  intros Q. destruct (n_regs _ V) as (_ & _ & R). apply In_nth_error in Q as (k & K). destruct (R _ _ K) as (X & L & _).
  destruct i_cases as [(_ & I & _)|(_ & I)]; [|contradiction]. destruct (n_args _ V) as (_ & _ & R'). destruct (R' _ I) as (Z & _). congruence.
Qed.
Lemma in_mid j : In j (l1 ++ B ++ M ++ A ++ l2) <-> In j (B ++ A) \/ In j (l1 ++ M ++ l2).
Proof. rewrite !in_app_iff. tauto. Qed.
Lemma list_of j b : In j (insns_of (c_f t) b) <-> (b = bb /\ In j (B ++ A)) \/ In j (insns_of (c_f s) b).
Proof.
  rewrite (x_list _ _ _ _ _ _ _ _ _ _ _ E). destruct (Nat.eqb_spec b bb) as [->|Nb]; [|tauto]. rewrite in_mid, (x_from _ _ _ _ _ _ _ _ _ _ _ E). tauto.
Qed.
Lemma linked_t j : linked t j <-> In j (B ++ A) \/ linked s j.
Proof.
  unfold linked. rewrite (proj1 (x_rest _ _ _ _ _ _ _ _ _ _ _ E)). split.
  - intros (b & Hb & Hj). apply list_of in Hj as [(-> & Hj)|Hj]; [now left|right; eauto].
  - intros [Hj|(b & Hb & Hj)]; [exists bb|exists b]; (split; [auto using (x_bb _ _ _ _ _ _ _ _ _ _ _ E)|]); apply list_of; auto.
Qed.
Lemma new_ge j : In j (B ++ A) -> f_ni (c_f s) <= j < f_ni (c_f t).
Proof. apply (x_new _ _ _ _ _ _ _ _ _ _ _ E). Qed.
Lemma new_not_linked j : In j (B ++ A) -> ~ linked s j.
Proof. intros I L. apply new_ge in I. apply linked_lt in L. lia. Qed.
(** instructions of [t] *)
Lemma insn_cases j y : f_insn (c_f t) j = Some y ->
  (In j (B ++ A) /\ exists u, y = set_users u (build bb (K_assign (N j)))) \/
  (j <> i /\ exists x, f_insn (c_f s) j = Some x /\ isim τ x y) \/
  (j = i /\ exists x, f_insn (c_f s) i = Some x /\ kept_rest x y).
Proof.
  intros Y. destruct (Nat.lt_ge_cases j (f_ni (c_f s))) as [L|L].
  - destruct (f_insn (c_f s) j) as [x|] eqn:X; [|rewrite (x_none _ _ _ _ _ _ _ _ _ _ _ E _ L X) in Y; discriminate].
    destruct (Nat.eq_dec j i) as [->|Nj].
    + right. right. split; [auto|]. destruct (x_i _ _ _ _ _ _ _ _ _ _ _ E _ X) as (y' & Y' & K & _). rewrite Y in Y'. injection Y' as <-. eauto.
    + right. left. split; [auto|]. destruct (x_old _ _ _ _ _ _ _ _ _ _ _ E _ _ Nj X) as (y' & Y' & K). rewrite Y in Y'. injection Y' as <-. eauto.
  - left. assert (I : In j (B ++ A)).
    { apply (x_new _ _ _ _ _ _ _ _ _ _ _ E). split; [auto|]. destruct (Nat.lt_ge_cases j (f_ni (c_f t))) as [?|G]; auto.
      rewrite (proj1 (x_fresh _ _ _ _ _ _ _ _ _ _ _ E) _ G) in Y. discriminate. }
    split; [auto|]. destruct (x_copy _ _ _ _ _ _ _ _ _ _ _ E _ I) as ((u & Q) & _). rewrite Y in Q. injection Q as ->. eauto.
Qed.
Lemma insn_old j x : f_insn (c_f s) j = Some x -> exists y, f_insn (c_f t) j = Some y /\ kept_rest x y.
Proof.
  intros X. destruct (Nat.eq_dec j i) as [->|Nj].
  - destruct (x_i _ _ _ _ _ _ _ _ _ _ _ E _ X) as (y & Y & K & _). eauto.
  - destruct (x_old _ _ _ _ _ _ _ _ _ _ _ E _ _ Nj X) as (y & Y & K). exists y. split; [auto|]. apply (is_rest _ _ _ K).
Qed.
Lemma isim_ops x y v' : isim τ x y -> In v' (operand_values y) -> exists v, In v (operand_values x) /\ vsim τ v v'.
Proof.
  intros H I. destruct H as [(Ro & _) Hv Hp Ha]. unfold operand_values in *. rewrite Ro in I. apply in_app_or in I as [I|I].
  - apply In_nth_error in I as (k & K).
    assert (P : forall l l' k v', Forall2 (vsim τ) l l' -> nth_error l' k = Some v' -> exists v, In v l /\ vsim τ v v').
    { clear. intros l l' k v' F. revert k. induction F as [|a b l l' Q F IH]; intros [|k] K; cbn in K; try discriminate.
      - injection K as <-. exists a. split; [now left|auto].
      - destruct (IH k K) as (v & Iv & S). exists v. split; [now right|auto]. }
    destruct (P _ _ _ _ Hv K) as (v & Iv & S). exists v. split; [apply in_or_app; now left|auto].
  - destruct (i_op x) eqn:O; try destruct I.
    + subst v'. destruct Ha as (Q & _); [auto|]. exists (a_val (i_addr x)). split; [apply in_or_app; right; now left|auto].
    + destruct H.
    + subst v'. destruct Ha as (Q & _); [auto|]. exists (a_val (i_addr x)). split; [apply in_or_app; right; now left|auto].
    + destruct H.
    + apply in_map_iff in I as ((v1 & b1) & Ev & I). cbn in Ev. subst v1. specialize (Hp eq_refl).
      assert (P : forall l l', Forall2 (fun e e' : value * nat => vsim τ (fst e) (fst e') /\ snd e' = snd e) l l' -> In (v', b1) l' -> exists v, In v (map fst l) /\ vsim τ v v').
      { clear. intros l l' F. induction F as [|[a b] [a' b'] l l' Q F IH]; intros I; [destruct I|]. destruct I as [I|I].
        - injection I as -> ->. exists a. split; [now left|apply Q].
        - destruct (IH I) as (v & Iv & S). exists v. split; [now right|auto]. }
      destruct (P _ _ Hp I) as (v & Iv & S). exists v. split; [apply in_or_app; now right|auto].
Qed.
Lemma vsim_data v v' d : vsim τ v v' -> v_data v' = VInsn d -> exists d0, v_data v = VInsn d0 /\ d = τ d0.
Proof. unfold vsim. destruct (v_data v) eqn:D; intros Q K; try (subst v'; congruence). rewrite Q in K. injection K as <-. eauto. Qed.
Lemma vsim_plain v v' : vsim τ v v' -> plain_data (v_data v) -> plain_data (v_data v').
Proof. unfold vsim. destruct (v_data v) eqn:D; intros Q K; try (subst v'; rewrite D; exact K). now rewrite Q. Qed.
Lemma tracked_new j : In j (B ++ A) -> c_ex t j = Some (ex0 j ASSIGN) -> tracked t j.
Proof. intros I X. split; [apply linked_t; now left|]. exists (ex0 j ASSIGN). auto. Qed.
Lemma use_some f u x v d : f_insn f u = Some x -> In v (operand_values x) -> v_data v = VInsn d -> 0 < uses f u d.
Proof.
  intros X I D. unfold uses. rewrite X. induction (operand_values x) as [|a l IH]; [destruct I|]. cbn. destruct I as [->|I].
  - unfold is_use_of at 1. rewrite D, Nat.eqb_refl. cbn. lia.
  - destruct (is_use_of d a); cbn; [lia|auto].
Qed.
Lemma use_inv f u d : 0 < uses f u d -> exists x v, f_insn f u = Some x /\ In v (operand_values x) /\ v_data v = VInsn d.
Proof.
  unfold uses. destruct (f_insn f u) as [x|]; [|lia]. intros H. destruct (filter (is_use_of d) (operand_values x)) as [|v l] eqn:Q; [cbn in H; lia|].
  assert (I : In v (filter (is_use_of d) (operand_values x))) by (rewrite Q; now left). apply filter_In in I as (I & U). exists x, v. split; [auto|]. split; [auto|].
  unfold is_use_of in U. destruct (v_data v); try discriminate. apply Nat.eqb_eq in U. now subst.
Qed.
(** an operand after the edit *)
Lemma operand_t o d u : operand_ok s o d -> 0 < uses (c_f t) u (τ d) -> operand_ok t o (τ d).
Proof.
  intros H U. destruct (x_rest _ _ _ _ _ _ _ _ _ _ _ E) as (_ & Rr & Rs & Ra & _). unfold operand_ok. rewrite Rr, Rs, Ra.
  destruct (x_tau _ _ _ _ _ _ _ _ _ _ _ E d) as [T|(-> & I & X & _)]; [|right; right; right; now apply tracked_new].
  rewrite T in *. destruct H as [H|[H|[H|(L & e & X & F & D)]]]; auto. right. right. right. split; [apply linked_t; now right|].
  destruct (Nat.eq_dec d i) as [->|Nd].
  - destruct (x_exi _ _ _ _ _ _ _ _ _ _ _ E) as [->|(_ & _ & Z & _)]; [eauto|]. rewrite Z in U. lia.
  - rewrite (x_ex _ _ _ _ _ _ _ _ _ _ _ E) by (auto using linked_lt). eauto.
Qed.

Lemma ext_inv : inv t.
Proof.
  destruct (x_rest _ _ _ _ _ _ _ _ _ _ _ E) as (Rh & Rr & Rs & Ra & Ro & Rl). destruct (x_cfg _ _ _ _ _ _ _ _ _ _ _ E) as (Ce & Cd & Cs & Cp).
  assert (LK : linked_ok (c_f t)).
  { intros b j I. apply list_of in I as [(-> & I)|I].
    - destruct (x_copy _ _ _ _ _ _ _ _ _ _ _ E _ I) as ((u & Y) & _). eauto.
    - destruct (td_linked _ (n_tidy _ V) _ _ I) as (x & X & P). destruct (insn_old _ _ X) as (y & Y & K). exists y. split; [auto|]. rewrite <- P. apply K. }
  assert (OLD : forall j, linked s j -> ~ In j (B ++ A)) by (intros j L I; exact (new_not_linked j I L)).
  assert (EX : forall j e, j <> i -> c_ex s j = Some e -> c_ex t j = Some e).
  { intros j e Nj H. rewrite (x_ex _ _ _ _ _ _ _ _ _ _ _ E) by (eauto using ex_lt). exact H. }
  constructor.
  - apply (x_fresh _ _ _ _ _ _ _ _ _ _ _ E).
  - constructor; [apply (x_users _ _ _ _ _ _ _ _ _ _ _ E)|exact LK| |].
    + intros b. rewrite (x_list _ _ _ _ _ _ _ _ _ _ _ E). destruct (Nat.eqb_spec b bb) as [->|]; [|apply (td_once _ (n_tidy _ V))].
      pose proof (td_once _ (n_tidy _ V) bb) as ND. rewrite (x_from _ _ _ _ _ _ _ _ _ _ _ E) in ND.
      assert (P : Permutation (l1 ++ B ++ M ++ A ++ l2) ((B ++ A) ++ (l1 ++ M ++ l2))).
      { rewrite !app_assoc. apply Permutation_app_tail. rewrite <- !app_assoc. etransitivity; [apply Permutation_app_swap_app|]. apply Permutation_app_head.
        etransitivity; [|apply Permutation_app_swap_app]. apply Permutation_app_head. apply Permutation_app_comm. }
      apply (Permutation_NoDup (Permutation_sym P)).
      clear P. destruct (x_new _ _ _ _ _ _ _ _ _ _ _ E) as (NN & _).
      assert (G : forall l l' : list nat, NoDup l -> NoDup l' -> (forall a, In a l -> ~ In a l') -> NoDup (l ++ l')).
      { induction l as [|a l IH]; intros l' H1 H2 H3; cbn; [auto|]. inversion H1; subst. constructor.
        - rewrite in_app_iff. intros [K|K]; [contradiction|]. apply (H3 a); [now left|auto].
        - apply IH; auto. intros c Hc. apply H3. now right. }
      apply G; auto. intros a I K. apply (new_not_linked a I). exists bb. split; [apply (x_bb _ _ _ _ _ _ _ _ _ _ _ E)|]. now rewrite (x_from _ _ _ _ _ _ _ _ _ _ _ E).
    + intros u d U. destruct (use_inv _ _ _ U) as (y & v & Y & Iv & D). exists y. split; [auto|].
      destruct (insn_cases u y Y) as [(I & k & ->)|[(Nu & x & X & K)|(-> & x & X & K)]].
      * cbn. apply list_of. now left.
      * destruct (isim_ops _ _ _ K Iv) as (v0 & I0 & S0). destruct (vsim_data _ _ _ S0 D) as (d0 & D0 & _).
        destruct (td_placed _ (n_tidy _ V) u d0 (use_some _ _ _ _ _ X I0 D0)) as (x' & X' & P). rewrite X in X'. injection X' as <-.
        destruct (is_rest _ _ _ K) as (_ & _ & _ & _ & _ & _ & _ & _ & Pq). rewrite Pq. apply list_of. now right.
      * destruct (x_i _ _ _ _ _ _ _ _ _ _ _ E _ X) as (y' & Y' & _ & O). rewrite Y in Y'. injection Y' as <-.
        destruct K as (_ & _ & _ & _ & _ & _ & _ & _ & Pq). rewrite Pq. apply list_of. right.
        destruct (O _ Iv) as [(v0 & I0 & S0)|(Mi & d0 & D0 & I0 & X0)].
        -- destruct (vsim_data _ _ _ S0 D) as (d0 & D0 & _). destruct (td_placed _ (n_tidy _ V) i d0 (use_some _ _ _ _ _ X I0 D0)) as (x' & X' & P). rewrite X in X'. now injection X' as <-.
        -- destruct (live_linked i (M_linked Mi)) as (b & x' & _ & Ib & X' & P). rewrite X in X'. injection X' as <-. now rewrite P.
  - rewrite Rh. split; [apply (n_reach _ V)|]. intros b Hb. intros Z. apply Cd in Z. now apply (proj2 (n_reach _ V) b Hb).
  - intros b j I. rewrite Rh. apply list_of in I as [(-> & _)|I]; [apply (x_bb _ _ _ _ _ _ _ _ _ _ _ E)|exact (n_all _ V _ _ I)].
  - rewrite Rr. destruct (n_regs _ V) as (R1 & R2 & R3). split; [auto|]. split; [auto|]. intros k r K. destruct (R3 k r K) as (X & L & x & Y & O).
    assert (Nr : r <> i). { intros ->. apply i_not_reg. now apply nth_error_In in K. }
    split; [now apply EX|]. split.
    + rewrite linked_t. intros [I|I]; [|contradiction]. apply new_ge in I. apply ex_lt in X. lia.
    + destruct (insn_old _ _ Y) as (y & Y' & Q). exists y. split; [auto|]. rewrite <- O. apply Q.
  - rewrite Rs, Rr. destruct (n_sp _ V) as (X & L & Nl & x & Y & O1 & O2). split; [apply EX; [intros Q; symmetry in Q; revert Q; apply i_not_sp|auto]|].
    split; [auto|]. split.
    + rewrite linked_t. intros [I|I]; [|contradiction]. apply new_ge in I. apply ex_lt in X. lia.
    + destruct (insn_old _ _ Y) as (y & Y' & Q). exists y. destruct Q as (Q & _). rewrite Q. auto.
  - rewrite Ra. destruct (n_args _ V) as (A1 & A2 & A3). split; [auto|]. split; [auto|]. intros a Ia. destruct (A3 a Ia) as (X & L & x & Y & O1 & O2).
    assert (La : a < f_ni (c_f s)) by (apply f_lt; congruence). split; [|split].
    + destruct (Nat.eq_dec a i) as [->|Na]; [|rewrite (x_ex _ _ _ _ _ _ _ _ _ _ _ E); auto].
      destruct (x_exi _ _ _ _ _ _ _ _ _ _ _ E) as [->|(_ & -> & _)]; [auto|]. now rewrite X.
    + rewrite linked_t. intros [I|I]; [|contradiction]. apply new_ge in I. lia.
    + destruct (insn_old _ _ Y) as (y & Y' & Q). exists y. destruct Q as (Q & _). rewrite Q. auto.
  - intros j y L Y. apply linked_t in L as [I|L].
    + destruct (x_copy _ _ _ _ _ _ _ _ _ _ _ E _ I) as ((u & Y') & _ & _ & X). rewrite Y in Y'. injection Y' as ->.
      destruct X as [X|(k & Hk & X & _)]; [exists (ex0 j ASSIGN)|exists (ex_fix j k)]; (split; [auto|]); constructor; cbn; auto; try discriminate; try (repeat split; auto; fail).
      intros _. split; [auto|]. exists k. auto.
    + destruct (live_linked j L) as (b & x & Hb & Hi & X & P). destruct (n_ex _ V _ _ L X) as (e & X' & No).
      destruct (insn_old _ _ X) as (y' & Y' & Q). rewrite Y in Y'. injection Y' as <-. destruct Q as (Qo & _).
      destruct (Nat.eq_dec j i) as [->|Nj].
      * destruct (x_exi _ _ _ _ _ _ _ _ _ _ _ E) as [Xi|((x0 & X0 & Oc) & Xi & Z & Vl)].
        -- exists e. split; [congruence|]. destruct No; constructor; rewrite ?Qo; auto. intros Oc. destruct (no_call0 Oc) as [?|(? & ?)]; [now left|right]. split; [auto|].
           apply (x_vals _ _ _ _ _ _ _ _ _ _ _ E y L Y). congruence.
        -- rewrite X in X0. injection X0 as <-. exists (set_dst None e). rewrite Xi, X'. split; [reflexivity|]. destruct No; constructor; rewrite ?Qo; cbn; auto.
           intros _ Nc. congruence.
      * exists e. split; [now apply EX|]. destruct (x_old _ _ _ _ _ _ _ _ _ _ _ E _ _ Nj X) as (y' & Y' & Sm). rewrite Y in Y'. injection Y' as <-.
        destruct No; constructor; rewrite ?Qo; auto. intros Oc. destruct (no_call0 Oc) as [?|(? & Vn)]; [now left|right]. split; [auto|].
        pose proof (is_vals _ _ _ Sm) as F. rewrite Vn in F. now inversion F.
  - intros v e X. rewrite Rr, Rs, linked_t. destruct (Nat.lt_ge_cases v (f_ni (c_f s))) as [Lv|Gv].
    + assert (K : exists e', c_ex s v = Some e').
      { destruct (Nat.eq_dec v i) as [->|Nv].
        - destruct (x_exi _ _ _ _ _ _ _ _ _ _ _ E) as [Xi|(_ & Xi & _)]; rewrite Xi in X; [eauto|]. destruct (c_ex s i); [eauto|discriminate].
        - rewrite (x_ex _ _ _ _ _ _ _ _ _ _ _ E) in X; eauto. }
      destruct K as (e' & K). destruct (n_dom _ V _ _ K) as [?|[?|?]]; auto.
    + right. right. left. apply (x_new _ _ _ _ _ _ _ _ _ _ _ E). split; [auto|]. destruct (Nat.lt_ge_cases v (f_ni (c_f t))) as [?|G]; auto.
      rewrite (x_exn _ _ _ _ _ _ _ _ _ _ _ E _ G) in X. discriminate.
  - intros j e L X F u. apply linked_t in L as [I|L].
    + destruct (x_copy _ _ _ _ _ _ _ _ _ _ _ E _ I) as (_ & _ & _ & [X'|(k & _ & _ & Z)]); [|apply Z]. rewrite X in X'. injection X' as ->. discriminate F.
    + assert (Q : exists e', c_ex s j = Some e' /\ x_fin e' = true).
      { destruct (Nat.eq_dec j i) as [->|Nj].
        - destruct (x_exi _ _ _ _ _ _ _ _ _ _ _ E) as [Xi|(_ & Xi & _)]; rewrite Xi in X; [eauto|]. destruct (c_ex s i) as [e'|]; [|discriminate]. injection X as <-. exists e'. auto.
        - rewrite (x_ex _ _ _ _ _ _ _ _ _ _ _ E) in X; eauto using linked_lt. }
      destruct Q as (e' & X' & F'). pose proof (n_fix _ V _ _ L X' F') as Z.
      destruct (uses (c_f t) u j) eqn:U; [reflexivity|]. exfalso. assert (U' : 0 < uses (c_f t) u j) by lia. destruct (use_inv _ _ _ U') as (y & v & Y & Iv & D).
      assert (Tj : forall d0, j = τ d0 -> d0 = j).
      { intros d0 T. destruct (x_tau _ _ _ _ _ _ _ _ _ _ _ E d0) as [?|(-> & I & _)]; [congruence|]. rewrite <- T in I. apply new_ge in I. apply linked_lt in L. lia. }
      assert (Zu : forall u x v0 d0, f_insn (c_f s) u = Some x -> In v0 (operand_values x) -> v_data v0 = VInsn d0 -> j = τ d0 -> False).
      { intros u0 x v0 d0 X0 I0 D0 T. apply Tj in T. subst d0. pose proof (use_some _ _ _ _ _ X0 I0 D0) as P. rewrite Z in P. lia. }
      destruct (insn_cases u y Y) as [(I & k & ->)|[(Nu & x & X0 & K)|(-> & x & X0 & K)]].
      * unfold operand_values in Iv. cbn in Iv. destruct Iv as [<-|[]]. destruct (x_copy _ _ _ _ _ _ _ _ _ _ _ E _ I) as (_ & _ & O & _).
        destruct (O _ D) as [Ir|(d0 & T & Od)].
        -- destruct (n_regs _ V) as (_ & _ & R). apply In_nth_error in Ir as (k' & Kr). destruct (R _ _ Kr) as (_ & NL & _). contradiction.
        -- apply Tj in T. subst d0. destruct Od as [Oa|[Os|(_ & e2 & X2 & F2 & _)]].
           ++ destruct (n_args _ V) as (_ & _ & R). destruct (R _ Oa) as (_ & NL & _). contradiction.
           ++ subst j. destruct (n_sp _ V) as (_ & _ & NL & _). contradiction.
           ++ congruence.
      * destruct (isim_ops _ _ _ K Iv) as (v0 & I0 & S0). destruct (vsim_data _ _ _ S0 D) as (d0 & D0 & T). eauto.
      * destruct (x_i _ _ _ _ _ _ _ _ _ _ _ E _ X0) as (y' & Y' & _ & O). rewrite Y in Y'. injection Y' as <-.
        destruct (O _ Iv) as [(v0 & I0 & S0)|(_ & d0 & D0 & I0 & X1)]; [destruct (vsim_data _ _ _ S0 D) as (d0 & D0 & T); eauto|].
        rewrite D in D0. injection D0 as <-. apply (OLD _ L). apply in_or_app. now left.
  - intros u y v d L Y Iv D. apply linked_t in L as [I|L].
    + destruct (x_copy _ _ _ _ _ _ _ _ _ _ _ E _ I) as ((k & Y') & _ & O & _). rewrite Y in Y'. injection Y' as ->. unfold operand_values in Iv. cbn in Iv. destruct Iv as [<-|[]].
      destruct (O _ D) as [Ir|(d0 & -> & Od)]; [right; right; left; rewrite Rr; auto|]. cbn [i_op set_users build set_vals set_op].
      apply (operand_t _ _ u); [unfold operand_ok; tauto|]. apply (use_some _ _ _ (N u) _ Y); [unfold operand_values; cbn; auto|exact D].
    + destruct (insn_cases u y Y) as [(I & _)|[(Nu & x & X & K)|(-> & x & X & K)]]; [destruct (OLD _ L I)| |].
      * destruct (isim_ops _ _ _ K Iv) as (v0 & I0 & S0). destruct (vsim_data _ _ _ S0 D) as (d0 & D0 & ->). rewrite (proj1 (is_rest _ _ _ K)).
        apply (operand_t _ _ u); [exact (n_ops _ V _ _ _ _ L X I0 D0)|exact (use_some _ _ _ _ _ Y Iv D)].
      * destruct (x_i _ _ _ _ _ _ _ _ _ _ _ E _ X) as (y' & Y' & _ & O). rewrite Y in Y'. injection Y' as <-. rewrite (proj1 K).
        destruct (O _ Iv) as [(v0 & I0 & S0)|(_ & d0 & D0 & I0 & X1)].
        -- destruct (vsim_data _ _ _ S0 D) as (d0 & D0 & ->). apply (operand_t _ _ i); [exact (n_ops _ V _ _ _ _ L X I0 D0)|exact (use_some _ _ _ _ _ Y Iv D)].
        -- rewrite D in D0. injection D0 as <-. right. right. right. apply tracked_new; [apply in_or_app; now left|auto].
  - intros u y v L Y Iv. apply linked_t in L as [I|L].
    + destruct (x_copy _ _ _ _ _ _ _ _ _ _ _ E _ I) as ((k & Y') & O & _). rewrite Y in Y'. injection Y' as ->. unfold operand_values in Iv. cbn in Iv. now destruct Iv as [<-|[]].
    + destruct (insn_cases u y Y) as [(I & _)|[(Nu & x & X & K)|(-> & x & X & K)]]; [destruct (OLD _ L I)| |].
      * destruct (isim_ops _ _ _ K Iv) as (v0 & I0 & S0). apply (vsim_plain _ _ S0). exact (n_vals _ V _ _ _ L X I0).
      * destruct (x_i _ _ _ _ _ _ _ _ _ _ _ E _ X) as (y' & Y' & _ & O). rewrite Y in Y'. injection Y' as <-.
        destruct (O _ Iv) as [(v0 & I0 & S0)|(_ & d0 & D0 & I0 & X1)]; [|now rewrite D0]. apply (vsim_plain _ _ S0). exact (n_vals _ V _ _ _ L X I0).
  - intros b c Hb Ld. rewrite Rh in Hb |- *. rewrite Ce, Cp. apply (n_leads _ V b c Hb). destruct Ld as [(j & y & I & Y & Q)|Q]; [left|right; now rewrite <- Cs].
    destruct (insn_cases j y Y) as [(_ & u & ->)|[(Nj & x & X & K)|(-> & x & X & K)]].
    + cbn in Q. destruct Q as [(Q & _)|(Q & _)]; discriminate Q.
    + exists j, x. destruct (is_rest _ _ _ K) as (K1 & _ & _ & K2 & K3 & _). rewrite K1, K2, K3 in Q. split; [|split; auto].
      apply list_of in I as [(-> & I)|I]; [|auto]. apply new_ge in I. assert (j < f_ni (c_f s)) by (apply f_lt; congruence). lia.
    + exists i, x. destruct K as (K1 & _ & _ & K2 & K3 & _). rewrite K1, K2, K3 in Q. split; [|split; auto].
      apply list_of in I as [(-> & I)|I]; [|auto]. apply new_ge in I. pose proof i_lt. lia.
  - intros b p Hb Hp. rewrite Rh, Cp in *. exact (n_preds _ V _ _ Hb Hp).
  - intros b m1 j m2 y H Y J. rewrite (x_list _ _ _ _ _ _ _ _ _ _ _ E) in H.
    destruct (insn_cases j y Y) as [(_ & u & ->)|Q]; [discriminate J|].
    assert (Q' : exists x, f_insn (c_f s) j = Some x /\ is_jmp_op (i_op x) = true).
    { destruct Q as [(Nj & x & X & K)|(-> & x & X & K)]; exists x; (split; [auto|]); [destruct (is_rest _ _ _ K) as (K1 & _)|destruct K as (K1 & _)]; congruence. }
    clear Q. destruct Q' as (x & X & Jx). destruct (Nat.eqb_spec b bb) as [->|_]; [|exact (n_jump _ V _ _ _ _ _ H X Jx)].
    pose proof (x_from _ _ _ _ _ _ _ _ _ _ _ E) as Fm.
    assert (Nn : ~ In j (B ++ A)). { intros I. apply new_ge in I. assert (j < f_ni (c_f s)) by (apply f_lt; congruence). lia. }
    assert (I : In j (l1 ++ M ++ l2)).
    { assert (In j (l1 ++ B ++ M ++ A ++ l2)) by (rewrite H; apply in_or_app; right; now left). apply in_mid in H0 as [?|?]; [contradiction|auto]. }
    (* the jump ends the list of [s] *)
    apply in_split in I as (p1 & p2 & Hp). rewrite Hp in Fm. pose proof (n_jump _ V _ _ _ _ _ Fm X Jx). subst p2.
    assert (U : forall (a1 a2 c1 : list nat), a1 ++ j :: a2 = c1 ++ [j] -> ~ In j c1 -> a2 = []).
    { clear. intros a1 a2 c1 Q Ni. destruct (exists_last (l := j :: a2)) as (r & z & Ez); [discriminate|]. rewrite Ez, app_assoc in Q. apply app_inj_tail in Q as (Q & ->).
      destruct r as [|r0 r]; [now injection Ez|]. injection Ez as -> _. exfalso. apply Ni. rewrite <- Q. apply in_or_app. right. now left. }
    assert (Np : ~ In j p1).
    { pose proof (td_once _ (n_tidy _ V) bb) as ND. rewrite Fm in ND. apply NoDup_remove_2 in ND. now rewrite app_nil_r in ND. }
    assert (Ls : exists c1, l1 ++ B ++ M ++ A ++ l2 = c1 ++ [j] /\ ~ In j c1).
    { assert (NA : ~ In j A) by (intros K; apply Nn, in_or_app; now right). assert (NB : ~ In j B) by (intros K; apply Nn, in_or_app; now left).
      destruct l2 as [|z l2'] eqn:El.
      - rewrite app_nil_r in Hp |- *. destruct (x_M _ _ _ _ _ _ _ _ _ _ _ E) as [(-> & -> & -> & _)|(-> & x0 & X0 & _ & _ & JA)]; [destruct p1; discriminate Hp|].
        apply app_inj_tail in Hp as (-> & <-). rewrite X in X0. injection X0 as <-. destruct JA as [->|JA]; [|congruence].
        exists (p1 ++ B). rewrite app_nil_r, <- app_assoc. split; [reflexivity|]. rewrite in_app_iff. tauto.
      - destruct (exists_last (l := z :: l2')) as (r & z' & Ez); [discriminate|]. rewrite Ez in *. rewrite !app_assoc in Hp. apply app_inj_tail in Hp as (Hp & ->).
        exists (l1 ++ B ++ M ++ A ++ r). rewrite <- !app_assoc. split; [reflexivity|]. rewrite <- Hp, !in_app_iff in Np. rewrite !in_app_iff. tauto. }
    destruct Ls as (c1 & Q & Nc). rewrite H in Q. exact (U _ _ _ Q Nc).
  - intros j y L Y O. apply linked_t in L as [I|L].
    { destruct (x_copy _ _ _ _ _ _ _ _ _ _ _ E _ I) as ((k & Y') & _). rewrite Y in Y'. injection Y' as ->. discriminate O. }
    rewrite Rh. destruct (insn_cases j y Y) as [(I & _)|[(Nj & x & X & K)|(-> & x & X & K)]]; [destruct (OLD _ L I)| |].
    + rewrite (proj1 (is_rest _ _ _ K)) in O. destruct (n_phi _ V _ _ L X O) as (P1 & P2 & P3). pose proof (is_vals _ _ _ K) as Fv. rewrite P1 in Fv. inversion Fv.
      pose proof (is_phi _ _ _ K O) as Fp.
      assert (Ms : map snd (i_phi y) = map snd (i_phi x)). { clear - Fp. induction Fp as [|a b l l' (_ & Q) F IH]; cbn; congruence. }
      split; [auto|]. split; [now rewrite Ms|]. intros w b Iw. assert (Ib : In b (map snd (i_phi x))) by (rewrite <- Ms; apply in_map_iff; now exists (w, b)).
      apply in_map_iff in Ib as ((w' & b') & <- & Iw'). exact (P3 _ _ Iw').
    + exfalso. rewrite (proj1 K) in O. destruct (x_M _ _ _ _ _ _ _ _ _ _ _ E) as [(_ & _ & _ & _ & Ia & _)|(_ & x0 & X0 & Np & _)]; [|congruence].
      destruct (n_args _ V) as (_ & _ & R). destruct (R _ Ia) as (_ & NL & _). contradiction.
  - intros j y L Y O. apply linked_t in L as [I|L].
    { destruct (x_copy _ _ _ _ _ _ _ _ _ _ _ E _ I) as ((k & Y') & _). rewrite Y in Y'. injection Y' as ->. discriminate. }
    destruct (insn_cases j y Y) as [(I & _)|[(Nj & x & X & K)|(-> & x & X & K)]]; [destruct (OLD _ L I)| |].
    + rewrite (proj1 (is_rest _ _ _ K)) in O. assert (Ln : length (i_vals y) = length (i_vals x)) by (pose proof (is_vals _ _ _ K) as Fv; clear - Fv; induction Fv; cbn; congruence). rewrite Ln. exact (n_few _ V _ _ L X O).
    + rewrite (x_vals _ _ _ _ _ _ _ _ _ _ _ E y L Y O). cbn. lia.
  - intros j y L Y. apply linked_t in L as [I|L].
    { destruct (x_copy _ _ _ _ _ _ _ _ _ _ _ E _ I) as ((k & Y') & _). rewrite Y in Y'. injection Y' as ->. discriminate. }
    destruct (live_linked j L) as (b & x & _ & _ & X & _). destruct (insn_old _ _ X) as (y' & Y' & K). rewrite Y in Y'. injection Y' as <-. rewrite (proj1 K). exact (n_arr _ V _ _ L X).
  - rewrite Ce, Rh. destruct (n_entry _ V) as (I & P). split; [auto|]. intros j l H (y & Y & O). rewrite (x_list _ _ _ _ _ _ _ _ _ _ _ E) in H.
    assert (Old : forall l', insns_of (c_f s) (f_entry (c_f s)) = j :: l' -> False).
    { intros l' H'. destruct (td_linked _ (n_tidy _ V) (f_entry (c_f s)) j) as (x & X & _); [rewrite H'; now left|]. destruct (insn_old _ _ X) as (y' & Y' & K). rewrite Y in Y'. injection Y' as <-.
      apply (P _ _ H'). exists x. split; [auto|]. rewrite <- O. symmetry. apply K. }
    destruct (Nat.eqb_spec (f_entry (c_f s)) bb) as [Eb|]; [|eauto]. rewrite Eb in Old. rewrite (x_from _ _ _ _ _ _ _ _ _ _ _ E) in Old.
    assert (New : In j (B ++ A) -> False).
    { intros I'. destruct (x_copy _ _ _ _ _ _ _ _ _ _ _ E _ I') as ((k & Y') & _). rewrite Y in Y'. injection Y' as ->. discriminate O. }
    destruct l1 as [|a l1']; [|cbn in H; injection H as -> _; eapply Old; reflexivity].
    destruct B as [|a B']; [|cbn in H; injection H as -> _; apply New; now left].
    destruct M as [|a M']; [|cbn in H; injection H as -> _; eapply Old; reflexivity].
    destruct A as [|a A']; [|cbn in H; injection H as -> _; apply New; now left]. cbn in H. eapply Old. exact H.
Qed.

(** ** The edit in the sense of [L_Prep]; the arguments of the function are virtual values *)
Definition seg (j : nat) : list nat := if j =? i then B ++ [i] ++ A else [j].
Definition pre : list nat := match M with [] => B | _ => [] end.
End Ext.
Definition aug (s : cgs) : cgs :=
  with_ex (fun v => match c_ex s v with Some e => Some e | None => if M_Ra.mem v (c_args s) then Some (ex0 v ASSIGN) else None end) s.
Lemma mem_In v l : M_Ra.mem v l = true <-> In v l.
Proof. unfold M_Ra.mem. rewrite existsb_exists. split; [intros (x & I & Q); apply Nat.eqb_eq in Q; now subst|intros I; exists v; now rewrite Nat.eqb_refl]. Qed.
Lemma aug_ex s v e : c_ex s v = Some e -> c_ex (aug s) v = Some e.
Proof. intros H. cbn. now rewrite H. Qed.
Lemma aug_arg s v : c_ex s v = None -> In v (c_args s) -> c_ex (aug s) v = Some (ex0 v ASSIGN).
Proof. intros H I. cbn. rewrite H. now rewrite (proj2 (mem_In _ _) I). Qed.
Lemma aug_inv s v e : c_ex (aug s) v = Some e -> c_ex s v = Some e \/ (c_ex s v = None /\ In v (c_args s) /\ e = ex0 v ASSIGN).
Proof. cbn. destruct (c_ex s v) as [e'|]; [auto|]. destruct (M_Ra.mem v (c_args s)) eqn:Q; [|discriminate]. intros H. injection H as <-. right. split; [auto|]. split; [now apply mem_In|auto]. Qed.

Section Ext2.
Context (s t : cgs) (τ : nat -> nat) (i bb : nat) (l1 B M A l2 : list nat) (N : nat -> value).
Hypothesis V : inv s.
Hypothesis E : ext s t τ i bb l1 B M A l2 N.
Notation sg := (seg i B A).
Notation pr := (pre B M).

Lemma seg_other l : ~ In i l -> flat_map sg l = l.
Proof.
  induction l as [|a l IH]; intros Ni; [reflexivity|]. cbn. unfold seg at 1. destruct (Nat.eqb_spec a i) as [->|_]; [destruct Ni; now left|]. cbn. rewrite IH; [auto|]. intros K. apply Ni. now right.
Qed.
Lemma ext_edit : edit (aug s) (aug t) τ i sg pr bb.
Proof.
  pose proof (i_cases _ _ _ _ _ _ _ _ _ _ _ V E) as IC.
  constructor; cbn [aug c_f c_reach with_ex].
  - apply (x_rest _ _ _ _ _ _ _ _ _ _ _ E).
  - intros b Hb. rewrite (x_list _ _ _ _ _ _ _ _ _ _ _ E). destruct (Nat.eqb_spec b bb) as [->|Nb].
    + rewrite (x_from _ _ _ _ _ _ _ _ _ _ _ E). pose proof (td_once _ (n_tidy _ V) bb) as ND. rewrite (x_from _ _ _ _ _ _ _ _ _ _ _ E) in ND.
      destruct (x_M _ _ _ _ _ _ _ _ _ _ _ E) as [(EM & E1 & EA & _)|(EM & _)]; subst M; cbn [pre app].
      * rewrite E1. cbn [app]. rewrite seg_other; [now rewrite EA|]. destruct IC as [(_ & _ & NL)|(Q & _)]; [|discriminate Q].
        intros K. apply NL. exists bb. split; [apply (x_bb _ _ _ _ _ _ _ _ _ _ _ E)|]. rewrite (x_from _ _ _ _ _ _ _ _ _ _ _ E), E1. exact K.
      * apply NoDup_remove in ND as (_ & ND). rewrite in_app_iff in ND. rewrite flat_map_app. cbn [flat_map]. unfold seg at 2. rewrite Nat.eqb_refl.
        rewrite !seg_other by tauto. rewrite <- !app_assoc. reflexivity.
    + cbn [app]. symmetry. apply seg_other. intros K. destruct IC as [(_ & _ & NL)|(Q & L)].
      * apply NL. exists b. auto.
      * assert (K2 : In i (insns_of (c_f s) bb)). { rewrite (x_from _ _ _ _ _ _ _ _ _ _ _ E), Q. apply in_or_app. right. now left. }
        destruct (td_linked _ (n_tidy _ V) _ _ K) as (x & X & P). destruct (td_linked _ (n_tidy _ V) _ _ K2) as (x' & X' & P'). congruence.
  - intros j Nj. unfold seg. destruct (Nat.eqb_spec j i); [contradiction|reflexivity].
  - intros L. change (linked s i) in L. destruct IC as [(_ & _ & NL)|(Q & _)]; [contradiction|]. unfold seg. rewrite Nat.eqb_refl.
    destruct B as [|a B'] eqn:EB.
    + destruct (x_M _ _ _ _ _ _ _ _ _ _ _ E) as [(Q' & _)|(_ & x & X & NP & _)]; [congruence|]. destruct (insn_old _ _ _ _ _ _ _ _ _ _ _ E _ _ X) as (y & Y & K).
      exists i, A, y. split; [reflexivity|]. split; [auto|]. rewrite (proj1 K). auto.
    + assert (I : In a ((a :: B') ++ A)) by now left. destruct (x_copy _ _ _ _ _ _ _ _ _ _ _ E _ I) as ((u & Y) & _). exists a, (B' ++ [i] ++ A). eexists. split; [reflexivity|]. split; [exact Y|]. discriminate.
  - intros x X. destruct (x_M _ _ _ _ _ _ _ _ _ _ _ E) as [(_ & _ & _ & _ & Ia & _)|(_ & x' & X' & P1 & P2 & _)].
    + destruct (n_args _ V) as (_ & _ & R). destruct (R _ Ia) as (_ & _ & x' & X' & O). rewrite X in X'. now injection X' as <-.
    + rewrite X in X'. injection X' as <-. auto.
  - intros b Hb Z. apply (x_cfg _ _ _ _ _ _ _ _ _ _ _ E) in Z. now apply (proj2 (n_reach _ V) b Hb).
  - intros b Hb. apply (x_cfg _ _ _ _ _ _ _ _ _ _ _ E).
  - intros j x Nj X. exact (x_old _ _ _ _ _ _ _ _ _ _ _ E _ _ Nj X).
  - intros d a L T. destruct (x_tau _ _ _ _ _ _ _ _ _ _ _ E d) as [Q|(-> & I & _)]; [congruence|]. exfalso. rewrite T in I. apply (new_ge _ _ _ _ _ _ _ _ _ _ _ E) in I.
    apply (f_lt _ V) in L. lia.
  - intros j x X _ Nj. destruct (x_tau _ _ _ _ _ _ _ _ _ _ _ E j) as [Q|(Q & _)]; [auto|contradiction].
  - intros d e X. apply aug_inv in X as [X|(X & Ia & ->)].
    + destruct (x_tau _ _ _ _ _ _ _ _ _ _ _ E d) as [T|(-> & I & T & NF)].
      * rewrite T. destruct (Nat.eq_dec d i) as [->|Nd].
        -- destruct (x_exi _ _ _ _ _ _ _ _ _ _ _ E) as [Q|(_ & Q & _)]; rewrite X in Q; cbn in Q; (eexists; split; [apply (aug_ex t); exact Q|]); auto.
        -- exists e. split; [|auto]. apply (aug_ex t). rewrite (x_ex _ _ _ _ _ _ _ _ _ _ _ E); auto. exact (ex_lt _ V _ _ X).
      * exists (ex0 (τ i) ASSIGN). split; [now apply (aug_ex t)|].
        pose proof (NF _ X) as F.
        rewrite F. cbn. split; [auto|discriminate].
    + destruct (x_tau _ _ _ _ _ _ _ _ _ _ _ E d) as [T|(-> & I & T & NF)].
      * rewrite T. exists (ex0 d ASSIGN). split; [|auto]. apply (aug_arg t); [|destruct (x_rest _ _ _ _ _ _ _ _ _ _ _ E) as (_ & _ & _ & -> & _); auto].
        destruct (Nat.eq_dec d i) as [->|Nd]; [destruct (x_exi _ _ _ _ _ _ _ _ _ _ _ E) as [Q|(_ & Q & _)]; rewrite X in Q; exact Q|].
        destruct (n_args _ V) as (_ & _ & R). destruct (R _ Ia) as (_ & _ & x & Xd & _). rewrite (x_ex _ _ _ _ _ _ _ _ _ _ _ E); auto. apply (f_lt _ V). congruence.
      * exists (ex0 (τ i) ASSIGN). split; [now apply (aug_ex t)|]. cbn. auto.
  - intros j L Nj. change (linked s j) in L. destruct (live_linked _ V _ L) as (b & x & _ & _ & X & _). destruct (n_ex _ V _ _ L X) as (e & Xe & _).
    transitivity (Some e); [apply (aug_ex t)|symmetry; now apply (aug_ex s)]. rewrite (x_ex _ _ _ _ _ _ _ _ _ _ _ E j) by (auto; exact (linked_lt _ V _ L)). exact Xe.
Qed.

Definition starts (q : vst) : Prop :=
  forall d z, v_env q d = Some z -> exists k, nth_error (c_args s) k = Some d /\ z = rget (v_st q) (Z.of_nat (S k)).
Lemma starts_rel q : starts q -> M = [i] -> hrel (aug s) τ q q.
Proof.
  intros St Q. constructor; [reflexivity|]. intros d z _ Z. destruct (St _ _ Z) as (k & K & _). apply nth_error_In in K.
  destruct (x_tau _ _ _ _ _ _ _ _ _ _ _ E d) as [->|(-> & _)]; [exact Z|]. destruct (n_args _ V) as (_ & _ & R). destruct (R _ K) as (_ & NL & _). destruct NL. exact (M_linked _ _ _ _ _ _ _ _ _ _ _ E Q).
Qed.
Lemma ext_run Rg w o bi n prev q z q2 :
  (M = [i] -> forall bi x q q' r, f_insn (c_f s) i = Some x -> hrel (aug s) τ q q' -> hexec Rg w bi (aug s) i (fill_insn o x) q = Some r ->
     exists r', hbody Rg w bi (aug t) o q' (B ++ [i] ++ A) = Some r' /\ hres (aug s) τ r r') ->
  (M = [] -> exists q1, hbody Rg w (bi bb) (aug t) o q B = Some (VNext q1) /\ hrel (aug s) τ q q1) -> starts q ->
  hrun Rg w bi (aug s) o n prev (f_entry (c_f s)) q = Some (VDone z q2) ->
  exists q2', hrun Rg w bi (aug t) o n prev (f_entry (c_f t)) q = Some (VDone z q2') /\ v_st q2' = v_st q2.
Proof.
  intros Th Pr St R. pose proof ext_edit as ED. rewrite (proj1 (x_cfg _ _ _ _ _ _ _ _ _ _ _ E)). pose proof (i_cases _ _ _ _ _ _ _ _ _ _ _ V E) as IC.
  assert (Self : forall j e d, linked (aug s) j -> c_ex (aug s) j = Some e -> x_dst e = Some d -> d = j).
  { intros j e d L X D. change (linked s j) in L. destruct (live_linked _ V _ L) as (b & x & _ & _ & X' & _). destruct (n_ex _ V _ _ L X') as (e' & Xe & No).
    apply (aug_ex s) in Xe. rewrite X in Xe. injection Xe as <-. destruct (is_void_op (i_op x)) eqn:Vo; [rewrite (no_void _ _ _ No Vo) in D; discriminate|].
    destruct (iop_eq_dec (i_op x) CALL) as [O|O]; [destruct (no_call _ _ _ No O) as [Q|(Q & _)]; congruence|]. rewrite (no_dst _ _ _ No Vo O) in D. congruence. }
  assert (Live : forall j, linked (aug s) j -> f_insn (c_f (aug s)) j <> None).
  { intros j L. change (linked s j) in L. destruct (live_linked _ V _ L) as (b & x & _ & _ & X' & _). cbn. congruence. }
  assert (This : forall bi x q q' r, linked (aug s) i -> f_insn (c_f (aug s)) i = Some x -> hrel (aug s) τ q q' ->
    hexec Rg w bi (aug s) i (fill_insn o x) q = Some r -> exists r', hbody Rg w bi (aug t) o q' (sg i) = Some r' /\ hres (aug s) τ r r').
  { intros bi0 x q0 q0' r L X H Hx. unfold seg. rewrite Nat.eqb_refl. apply (Th ltac:(destruct IC as [(_ & _ & NL)|(Q & _)]; [contradiction|exact Q]) bi0 x q0 q0' r X H Hx). }
  assert (Closed : forall b c, In b (c_reach (aug s)) -> leads (aug s) b c -> In c (c_reach (aug s)) /\ (pr = [] \/ c <> bb)).
  { intros b c Hb Ld. destruct (n_leads _ V b c Hb Ld) as (Ic & Ne & _). split; [exact Ic|].
    destruct (x_M _ _ _ _ _ _ _ _ _ _ _ E) as [(Q & _ & _ & -> & _)|(Q & _)]; rewrite Q; cbn; auto. }
  destruct (n_entry _ V) as (Ie & Pf). destruct (x_M _ _ _ _ _ _ _ _ _ _ _ E) as [(Q & _ & _ & Eb & _ & NB)|(Q & _)].
  - destruct (Pr Q) as (q1 & P1 & P2). rewrite <- Eb in *. 
    refine (first_h (aug s) (aug t) τ i sg pr bb Rg w o ED Self Live This Closed bi n prev q q1 z q2 Ie (proj2 (n_reach _ V) _ Ie) Pf _ _ P2 R).
    + rewrite Q. cbn [pre]. destruct B as [|a B'] eqn:EB; [contradiction|]. assert (I : In a ((a :: B') ++ A)) by now left. destruct (x_copy _ _ _ _ _ _ _ _ _ _ _ E _ I) as ((u & Y) & _).
      exists a, B'. eexists. split; [reflexivity|]. split; [exact Y|]. discriminate.
    + rewrite Q. exact P1.
  - refine (run_h (aug s) (aug t) τ i sg pr bb Rg w o ED Self Live This Closed bi n prev _ q q z q2 Ie _ (starts_rel q St Q) R). left. now rewrite Q.
Qed.
End Ext2.
