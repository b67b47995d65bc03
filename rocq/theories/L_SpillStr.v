(** Spilling: the function after a value has been moved to the stack. *)
From Coq Require Import ZArith List Bool Arith Lia.
From Verif Require Import M_Base M_Ir M_Norm M_Edit M_Ra SpecWord SpecFlat SpecProg SpecSsa SpecIr SpecEdit SpecPass SpecShift SpecInstr SpecFrame SpecRa SpecVirt SpecSpill
  L_Edit L_Uses L_Hist L_Ctor L_Ins L_PassPhi L_Sim L_Shift L_PrepStr L_PrepInv L_SpillNew.
From Verif Require Import SpecIr SpecRa SpecVirt.
Import ListNotations.
Open Scope nat_scope.

(** an operand is kept, or a use of [v] has become a use of one of the loads [P] *)
Definition vrel (v : nat) (P : nat -> Prop) (x y : value) : Prop :=
  y = x \/ (v_data x = VInsn v /\ exists l, y = val_insn l /\ P l).
Record edited (v : nat) (P : nat -> Prop) (E : nat -> nat -> Prop) (x y : insn) : Prop := {
  ed_rest : kept_rest x y;
  ed_vals : Forall2 (vrel v P) (i_vals x) (i_vals y);
  ed_addr : vrel v P (a_val (i_addr x)) (a_val (i_addr y)) /\ a_off (i_addr y) = a_off (i_addr x) /\ a_ot (i_addr y) = a_ot (i_addr x);
  ed_phi : Forall2 (fun a b => snd b = snd a /\ vrel v (E (snd a)) (fst a) (fst b)) (i_phi x) (i_phi y) }.
Lemma vrel_mono v (P Q : nat -> Prop) x y : (forall l, P l -> Q l) -> vrel v P x y -> vrel v Q x y.
Proof. intros H [->|(D & l & -> & L)]; [now left|right]. split; [exact D|]. exists l. auto. Qed.
Lemma F2_mono {A B} (R S : A -> B -> Prop) l l' : (forall a b, R a b -> S a b) -> Forall2 R l l' -> Forall2 S l l'.
Proof. intros H F. induction F; constructor; auto. Qed.
Lemma edited_mono v (P Q : nat -> Prop) (E G : nat -> nat -> Prop) x y : (forall l, P l -> Q l) -> (forall b l, E b l -> G b l) -> edited v P E x y -> edited v Q G x y.
Proof.
  intros H1 H2 [R A (B1 & B2) C]. constructor; auto.
  - exact (F2_mono _ _ _ _ (fun a b => vrel_mono v P Q a b H1) A).
  - split; [exact (vrel_mono _ _ _ _ _ H1 B1)|exact B2].
  - refine (F2_mono _ _ _ _ _ C). intros a b (S1 & S2). split; [exact S1|]. exact (vrel_mono _ _ _ _ _ (H2 (snd a)) S2).
Qed.
Lemma F2_refl {A} (R : A -> A -> Prop) l : (forall a, R a a) -> Forall2 R l l.
Proof. intros H. induction l; constructor; auto. Qed.
Lemma edited_users v P E x u : edited v P E x (set_users u x).
Proof.
  constructor; cbn.
  - repeat split.
  - apply F2_refl. intros a. now left.
  - split; [now left|auto].
  - apply F2_refl. intros a. split; [reflexivity|now left].
Qed.
Lemma edited_after v P E x y u : edited v P E x y -> edited v P E x (set_users u y).
Proof. intros [A B C D]. constructor; cbn; auto. Qed.
Lemma set_nth_F2 {A B} (R : A -> B -> Prop) l l' k c : Forall2 R l l' -> (forall a, nth_error l k = Some a -> R a c) -> Forall2 R l (set_nth k c l').
Proof.
  intros F. revert k. induction F as [|a b l l' H F IH]; intros k Hc; destruct k; cbn; constructor; auto.
Qed.
Lemma F2_nth {A B} (R : A -> B -> Prop) l l' k b : Forall2 R l l' -> nth_error l' k = Some b -> exists a, nth_error l k = Some a /\ R a b.
Proof. intros F. revert k. induction F as [|a b0 l l' H F IH]; intros [|k] E; cbn in *; try discriminate; [injection E as <-; eauto|eauto]. Qed.
(** an operand that still is [v] was [v] *)
Lemma vrel_old v (P : nat -> Prop) x y : (forall l, P l -> l <> v) -> vrel v P x y -> refers v y = true -> v_data x = VInsn v.
Proof.
  intros H [->|(D & _)] R; [|exact D]. unfold refers, val_target in R. destruct (v_data x); try discriminate R. apply Nat.eqb_eq in R. now subst.
Qed.
(** replacing an operand that is [v] by a load *)
Lemma edited_set v (P : nat -> Prop) (E : nat -> nat -> Prop) x y sl l old : (forall l, P l -> l <> v) -> (forall b l, E b l -> l <> v) -> edited v P E x y ->
  slot_get y sl = Some old -> refers v old = true ->
  match sl with SPhi k => exists w b, nth_error (i_phi y) k = Some (w, b) /\ E b l | _ => P l end ->
  edited v P E x (slot_set y sl (val_insn l)).
Proof.
  intros Hp He [A B C D] G R Hl. destruct sl as [k|k|]; cbn [slot_set slot_get] in *.
  - constructor; cbn; auto. apply set_nth_F2; [exact B|]. intros a Ha. destruct (F2_nth _ _ _ _ _ B G) as (a' & Ha' & V). rewrite Ha in Ha'. injection Ha' as <-.
    right. split; [exact (vrel_old _ _ _ _ Hp V R)|]. exists l. auto.
  - destruct (iop_eqb (i_op y) PHI); [|discriminate G]. destruct Hl as (w & b & Hn & El). rewrite Hn in G |- *. injection G as <-.
    constructor; cbn; auto. apply set_nth_F2; [exact D|]. intros a Ha. destruct (F2_nth _ _ _ _ _ D Hn) as (a' & Ha' & S & V). rewrite Ha in Ha'. injection Ha' as <-. cbn in S, V |- *. split; [exact S|].
    right. split; [exact (vrel_old _ _ _ _ (He _) V R)|]. exists l. split; [reflexivity|]. now rewrite <- S.
  - destruct (_ || _); [|discriminate G]. injection G as <-. destruct C as (C1 & C2 & C3). constructor; cbn; auto. split; [|auto].
    right. split; [exact (vrel_old _ _ _ _ Hp C1 R)|]. exists l. auto.
Qed.

Lemma term_jmp f i x : f_insn f i = Some x -> (is_terminator f i <-> is_jmp_op (i_op x) = true).
Proof.
  intros X. unfold is_terminator. rewrite X. split.
  - intros (y & Y & I). injection Y as <-. destruct (i_op x); cbn in I; intuition discriminate.
  - intros J. exists x. split; [reflexivity|]. destruct (i_op x); cbn in J |- *; try discriminate J; tauto.
Qed.
Definition load_insn (b a u : nat) : insn := set_vrt VR_64 (build b (K_load (val_insn a))).

(** the loads that have been executed when control leaves block [b] *)
Definition ends (s : cgs) (pre tail : nat -> list nat) (b l : nat) : Prop :=
  In l (tail b) \/ exists j, In j (insns_of (c_f s) b) /\ is_terminator (c_f s) j /\ In l (pre j).
Definition behind (v st j : nat) : list nat := if j =? v then [st] else [].
Definition group (v st : nat) (pre : nat -> list nat) (j : nat) : list nat := pre j ++ j :: behind v st j.
Definition atop (s : cgs) (v a st : nat) (b : nat) : list nat :=
  (if b =? f_entry (c_f s) then [a] else []) ++
  (match f_insn (c_f s) v with Some x => if iop_eqb (i_op x) PHI && (b =? i_parent x) then [st] else [] | None => [] end).
Record spilt (s t : cgs) (v a st : nat) (pre tail : nat -> list nat) : Prop := {
  w_ids : a = f_ni (c_f s) /\ st = S a /\ S st <= f_ni (c_f t);
  w_fresh : fresh_ok (c_f t);
  w_rest : c_reach t = c_reach s /\ c_regs t = c_regs s /\ c_sp t = c_sp s /\ c_args t = c_args s /\ c_off t = s32 (c_off s - 8);
  w_cfg : f_entry (c_f t) = f_entry (c_f s) /\ (forall b, f_block (c_f t) b = None <-> f_block (c_f s) b = None) /\
          (forall b, succs_of (c_f t) b = succs_of (c_f s) b) /\ (forall b, preds_of (c_f t) b = preds_of (c_f s) b);
  w_old : forall j x, f_insn (c_f s) j = Some x -> exists y, f_insn (c_f t) j = Some y /\ edited v (fun l => In l (pre j)) (ends s pre tail) x y;
  w_none : forall j, j < a -> f_insn (c_f s) j = None -> f_insn (c_f t) j = None;
  w_ex : forall j, j < a -> c_ex t j = c_ex s j;
  w_a : (exists u, f_insn (c_f t) a = Some (set_users u (build (f_entry (c_f s)) (K_alloc VR_64)))) /\
        c_ex t a = Some (set_pos (mkPos true 8 0 (c_off t)) (set_fin true (ex0 a ALLOC)));
  w_st : (exists u b, f_insn (c_f t) st = Some (set_users u (build b (K_store a (val_insn v))))) /\ c_ex t st = Some (ex0 st STORE);
  w_ld : forall l, st < l < f_ni (c_f t) -> (exists u b, f_insn (c_f t) l = Some (set_users u (load_insn b a l))) /\ c_ex t l = Some (ex0 l LOAD) /\
           exists b, In l (insns_of (c_f t) b);
  w_exn : forall j, f_ni (c_f t) <= j -> c_ex t j = None;
  w_pre : forall j l, In l (pre j) -> st < l < f_ni (c_f t);
  w_tail : forall b l, In l (tail b) -> (st < l < f_ni (c_f t)) /\ In b (c_reach s) /\ forall j, In j (insns_of (c_f s) b) -> ~ is_terminator (c_f s) j;
  w_list : forall b, exists P M, insns_of (c_f s) b = P ++ M /\ (forall i, In i P -> is_phi (c_f s) i) /\ (forall i, In i M -> ~ is_phi (c_f s) i) /\
    insns_of (c_f t) b = P ++ atop s v a st b ++ flat_map (group v st pre) M ++ tail b;
  w_linked : linked_ok (c_f t);
  w_once : forall b, NoDup (insns_of (c_f t) b) }.

(** users lists are right, but for the uses of [v] by [u] *)
Definition users_but (f : func) (v u : nat) : Prop :=
  (forall c w, c <> v \/ w <> u -> counted f c w) /\ cnt (users_of f v) u <= nref v (ops_of f u).

(** what [change_value] does to operands and users lists *)
Lemma change_cnt f u sl new f' x old : f_insn f u = Some x -> slot_get x sl = Some old -> change_value f u sl new = Ok f' ->
  f_entry f' = f_entry f /\
  (forall c w, cnt (users_of f' c) w = cnt (users_of f c) w - (if refers c old && (u =? w) then 1 else 0) + (if refers c new && (u =? w) then 1 else 0)) /\
  (forall w, w <> u -> ops_of f' w = ops_of f w) /\
  (forall c, nref c (ops_of f' u) + (if refers c old then 1 else 0) = nref c (ops_of f u) + (if refers c new then 1 else 0)).
Proof.
  intros Hx G E. unfold change_value in E. rewrite (proj2 (get_insn_ok _ _ _) Hx) in E. cbn [bind] in E. rewrite G in E.
  bo E f1 E1. apply remove_user_spec in E1 as (UE1 & U1). bo E x1 Hx1. apply get_insn_ok in Hx1. apply add_user_spec in E as (UE2 & U2).
  destruct (ue_rec _ _ UE1 u) as [l R]. rewrite Hx, Hx1 in R. cbn in R. injection R as ->.
  set (f2 := put_insn f1 u _) in *.
  assert (O2 : forall w, ops_of f' w = if w =? u then operands (slot_set (set_users l x) sl new) else ops_of f w).
  { intros w. rewrite (ue_ops _ _ UE2). unfold ops_of at 1, f2. rewrite f_insn_put. destruct (w =? u); auto. fold (ops_of f1 w). apply (ue_ops _ _ UE1). }
  split; [rewrite (ue_entry _ _ UE2); unfold f2; cbn; apply (ue_entry _ _ UE1)|]. split; [|split].
  - intros c w. rewrite U2. assert (V2 : users_of f2 c = users_of f1 c).
    { unfold users_of, f2. rewrite f_insn_put. destruct (Nat.eqb_spec c u) as [->|]; auto. rewrite Hx1, slot_set_users. reflexivity. }
    assert (C2 : cnt (users_of f1 c) w = cnt (users_of f c) w - (if refers c old && (u =? w) then 1 else 0)).
    { rewrite U1. destruct (refers c old); cbn [andb]; [|lia]. rewrite erase_first_count. destruct (Nat.eq_dec u w), (Nat.eqb_spec u w); lia. }
    rewrite <- C2, <- V2. destruct (refers c new); cbn [andb]; [|lia]. rewrite cnt_app, cnt_one. destruct (u =? w); lia.
  - intros w Nw. rewrite O2. apply Nat.eqb_neq in Nw. now rewrite Nw.
  - intros c. rewrite O2, Nat.eqb_refl. assert (G' : slot_get (set_users l x) sl = Some old) by now rewrite slot_get_users.
    pose proof (slot_set_nref _ _ new _ c G') as Q. rewrite operands_users in Q. assert (Z : ops_of f u = operands x) by (unfold ops_of; now rewrite Hx). now rewrite Z.
Qed.
Lemma refers_insn c l : refers c (val_insn l) = (l =? c). Proof. reflexivity. Qed.
Lemma refers_one c d w : refers c w = true -> refers d w = true -> c = d.
Proof. unfold refers. destruct (val_target w); [|discriminate]. intros A B. apply Nat.eqb_eq in A, B. congruence. Qed.
Lemma change_but f u sl l f' x old v : f_insn f u = Some x -> slot_get x sl = Some old -> refers v old = true -> l <> v -> change_value f u sl (val_insn l) = Ok f' ->
  users_but f v u -> users_but f' v u.
Proof.
  intros Hx G R Nl E (A & B). destruct (change_cnt _ _ _ _ _ _ _ Hx G E) as (_ & C & O & K).
  split.
  - intros c w D. specialize (A c w D). unfold counted in *. rewrite (count_occ_In Nat.eq_dec) in *. fold (cnt (users_of f' c) w) in *. rewrite C. destruct (Nat.eq_dec w u) as [->|Nw].
    + specialize (K c). destruct (refers c old) eqn:Rc; [pose proof (refers_one _ _ _ R Rc); destruct D; congruence|]. cbn [andb] in *. rewrite refers_insn in *. rewrite Nat.eqb_refl, andb_true_r in *. fold (cnt (users_of f c) u) in *. destruct (l =? c); lia.
    + rewrite (O w Nw). replace (u =? w) with false by (symmetry; apply Nat.eqb_neq; congruence). rewrite !andb_false_r. fold (cnt (users_of f c) w) in *. lia.
  - rewrite C. specialize (K v). rewrite R, refers_insn in *. rewrite Nat.eqb_refl in *. apply Nat.eqb_neq in Nl. rewrite Nl in *. cbn [andb] in *. lia.
Qed.

Lemma op_same o p : iop_eqb o p = true <-> o = p.
Proof. unfold iop_eqb. destruct (iop_eq_dec o p); split; congruence. Qed.
(** *** the slots of an instruction *)
Lemma set_nth_get {A} k (c : A) l j w : nth_error (set_nth k c l) j = Some w -> (j = k /\ w = c) \/ (j <> k /\ nth_error l j = Some w).
Proof.
  revert k j. induction l as [|b l IH]; intros k j H; [destruct k, j; discriminate H|]. destruct k, j; cbn in *.
  - injection H as <-. now left.
  - right. auto.
  - right. auto.
  - destruct (IH _ _ H) as [(-> & ->)|(N & Q)]; [left; auto|right]. split; [congruence|exact Q].
Qed.
Lemma set_nth_len {A} k (c : A) l : length (set_nth k c l) = length l.
Proof. revert k. induction l as [|b l IH]; intros [|k]; cbn; auto. Qed.
Lemma slot_set_op y sl new : i_op (slot_set y sl new) = i_op y.
Proof. destruct sl; cbn; try reflexivity. destruct (nth_error (i_phi y) k) as [[? ?]|]; reflexivity. Qed.
Lemma slot_get_set y sl new sl' w : slot_get (slot_set y sl new) sl' = Some w -> (sl' = sl /\ w = new) \/ (sl' <> sl /\ slot_get y sl' = Some w).
Proof.
  destruct sl as [k|k|]; cbn [slot_set].
  - destruct sl' as [k'|k'|]; cbn; intros H; [|right; split; [discriminate|exact H]..]. destruct (set_nth_get _ _ _ _ _ H) as [(-> & ->)|(N & Q)]; [now left|right]. split; [congruence|exact Q].
  - destruct (nth_error (i_phi y) k) as [[c b]|] eqn:Q.
    + destruct sl' as [k'|k'|]; cbn; intros H; [right; split; [discriminate|exact H]| |right; split; [discriminate|exact H]]. destruct (iop_eqb (i_op y) PHI); [|discriminate H].
      destruct (nth_error (set_nth k _ _) k') as [p|] eqn:S; [|discriminate H]. injection H as <-. destruct (set_nth_get _ _ _ _ _ S) as [(-> & ->)|(N & R)]; [now left|right]. split; [congruence|]. now rewrite R.
    + intros H. right. split; [|exact H]. intros ->. cbn in H. rewrite Q in H. destruct (iop_eqb (i_op y) PHI); discriminate H.
  - destruct sl' as [k'|k'|]; cbn; intros H; [right; split; [discriminate|exact H]..|]. destruct (_ || _); [|discriminate H]. injection H as <-. now left.
Qed.
Lemma slots_of_set y sl new : slots_of (slot_set y sl new) = slots_of y.
Proof.
  unfold slots_of. rewrite slot_set_op. destruct sl as [k|k|]; cbn [slot_set].
  - cbn. now rewrite set_nth_len.
  - destruct (nth_error (i_phi y) k) as [[c b]|]; cbn; [now rewrite set_nth_len|reflexivity].
  - reflexivity.
Qed.
Lemma slots_of_users y k : slots_of (set_users k y) = slots_of y. Proof. reflexivity. Qed.
Lemma no_slots v y : (forall sl w, In sl (slots_of y) -> slot_get y sl = Some w -> refers v w = false) -> nref v (operands y) = 0.
Proof.
  intros H. destruct (nref v (operands y)) eqn:Q; [reflexivity|]. exfalso. assert (P : nref v (operands y) > 0) by lia. apply nref_pos in P as (w & I & T).
  assert (R : refers v w = true) by now apply refers_iff.
  assert (exists sl, In sl (slots_of y) /\ slot_get y sl = Some w) as (sl & I2 & G); [|rewrite (H sl w I2 G) in R; discriminate R].
  unfold operands in I. unfold slots_of. apply in_app_iff in I as [I|I].
  - apply In_nth_error in I as (k & K). exists (SVal k). split; [|exact K]. apply in_or_app. left. apply in_map. apply in_seq. split; [lia|]. cbn. apply nth_error_Some. congruence.
  - apply in_app_iff in I as [I|I].
    + destruct (iop_eqb (i_op y) PHI) eqn:O; [|destruct I]. apply in_map_iff in I as ([w' b] & E1 & I). cbn in E1. subst w'. apply In_nth_error in I as (k & K). exists (SPhi k). cbn [slot_get]. rewrite O, K.
      split; [|reflexivity]. apply in_or_app. right. apply in_or_app. left. apply in_map. apply in_seq. split; [lia|]. cbn. apply nth_error_Some. congruence.
    + exists SAddr. cbn [slot_get]. destruct (iop_eqb (i_op y) LOADRAW || iop_eqb (i_op y) STORERAW) eqn:O; [|destruct I]. destruct I as [<-|[]]. split; [|reflexivity].
      apply in_or_app. right. apply in_or_app. right. now left.
Qed.
Lemma but_done f v u y : users_but f v u -> f_insn f u = Some y -> nref v (operands y) = 0 -> users_ok f.
Proof.
  intros (A & B) Y N. apply users_counted. intros c w. destruct (Nat.eq_dec c v) as [->|Nc]; [|apply A; now left]. destruct (Nat.eq_dec w u) as [->|Nw]; [|apply A; now right].
  unfold counted, ops_of in *. rewrite Y in *. rewrite N in *. split; lia.
Qed.
Lemma but_start f v u : users_ok f -> users_but f v u.
Proof. intros U. pose proof (proj1 (users_counted f) U) as C. split; [intros c w _; apply C|apply (C v u)]. Qed.

Section One.
Context (s : cgs) (v : nat) (xv : insn).
Hypothesis Sb : spillable s.
Hypothesis Tv : tracked s v.
Hypothesis Xv : f_insn (c_f s) v = Some xv.
Let n := f_ni (c_f s).
Let a := n.
Let st := S n.

Lemma str_live b j : In j (insns_of (c_f s) b) -> exists x, f_insn (c_f s) j = Some x /\ i_parent x = b.
Proof. apply (td_linked _ (sb_tidy _ Sb)). Qed.
Lemma str_lt j x : f_insn (c_f s) j = Some x -> j < n.
Proof. intros X. destruct (Nat.lt_ge_cases j n) as [L|L]; [exact L|]. rewrite (proj1 (sb_fresh _ Sb) _ L) in X. discriminate X. Qed.
Lemma str_in_lt b j : In j (insns_of (c_f s) b) -> j < n.
Proof. intros I. destruct (str_live _ _ I) as (x & X & _). exact (str_lt _ _ X). Qed.
Lemma str_v : v < n. Proof. exact (str_lt _ _ Xv). Qed.
Lemma v_not_jump : ~ is_terminator (c_f s) v.
Proof.
  intros T. apply (term_jmp _ _ _ Xv) in T. destruct Tv as (L & e & E & _ & D). pose proof (rd_jump _ (sb_ready _ Sb) v xv e L Xv E T). congruence.
Qed.
Lemma jump_last b l1 j l2 : insns_of (c_f s) b = l1 ++ j :: l2 -> is_terminator (c_f s) j -> l2 = [].
Proof.
  intros L T. assert (I : In j (insns_of (c_f s) b)) by (rewrite L; apply in_or_app; right; now left). destruct (str_live _ _ I) as (x & X & _). apply (term_jmp _ _ _ X) in T.
  pose proof (sh_jump _ (sb_shape _ Sb) b (length l1) j x (sb_all _ Sb _ _ I)) as H. unfold insn_at, ends_at in H. rewrite L, nth_error_app2, Nat.sub_diag in H by lia. specialize (H eq_refl X T).
  rewrite app_length in H. cbn [length] in H. destruct l2; [reflexivity|]. cbn in H. lia.
Qed.

Section Steps.
Context (t : cgs) (pre tail : nat -> list nat).
Hypothesis W : spilt s t v a st pre tail.

Lemma w_live b j : In j (insns_of (c_f t) b) -> f_insn (c_f t) j <> None.
Proof. intros I. destruct (w_linked _ _ _ _ _ _ _ W b j I) as (x & X & _). congruence. Qed.
Lemma w_kind j x y : f_insn (c_f s) j = Some x -> f_insn (c_f t) j = Some y -> i_op y = i_op x /\ i_parent y = i_parent x.
Proof.
  intros X Y. destruct (w_old _ _ _ _ _ _ _ W j x X) as (y' & Y' & E). rewrite Y in Y'. injection Y' as <-. destruct (ed_rest _ _ _ _ _ E) as (A & _ & _ & _ & _ & _ & _ & _ & B). auto.
Qed.
Lemma w_phi j : j < n -> (is_phi (c_f t) j <-> is_phi (c_f s) j).
Proof.
  intros L. unfold is_phi. destruct (f_insn (c_f s) j) as [x|] eqn:X.
  - destruct (w_old _ _ _ _ _ _ _ W j x X) as (y & Y & _). destruct (w_kind _ _ _ X Y) as (A & _). rewrite Y. split; intros (z & Z & P); injection Z as <-; eexists; split; eauto; congruence.
  - rewrite (w_none _ _ _ _ _ _ _ W j L X). split; intros (z & Z & _); discriminate.
Qed.
Lemma w_term j : j < n -> (is_terminator (c_f t) j <-> is_terminator (c_f s) j).
Proof.
  intros L. unfold is_terminator. destruct (f_insn (c_f s) j) as [x|] eqn:X.
  - destruct (w_old _ _ _ _ _ _ _ W j x X) as (y & Y & _). destruct (w_kind _ _ _ X Y) as (A & _). rewrite Y. split; intros (z & Z & P); injection Z as <-; eexists; split; eauto; congruence.
  - rewrite (w_none _ _ _ _ _ _ _ W j L X). split; intros (z & Z & _); discriminate.
Qed.
Lemma w_new_term j : n <= j -> ~ is_terminator (c_f t) j.
Proof.
  intros L (x & X & O). destruct (Nat.lt_ge_cases j (f_ni (c_f t))) as [G|G]; [|rewrite (proj1 (w_fresh _ _ _ _ _ _ _ W) j G) in X; discriminate X].
  destruct (Nat.eq_dec j a) as [->|Na]; [|destruct (Nat.eq_dec j st) as [->|Ns]].
  - destruct (w_a _ _ _ _ _ _ _ W) as ((u & A) & _). rewrite A in X. injection X as <-. cbn in O. intuition discriminate.
  - destruct (w_st _ _ _ _ _ _ _ W) as ((u & b & A) & _). rewrite A in X. injection X as <-. cbn in O. intuition discriminate.
  - destruct (w_ld _ _ _ _ _ _ _ W j) as ((u & b & A) & _); [unfold a, st in *; lia|]. rewrite A in X. injection X as <-. cbn in O. intuition discriminate.
Qed.
Lemma w_ends_new b l : ends s pre tail b l -> l <> v.
Proof. intros [H|(j & _ & _ & H)]; [apply (w_tail _ _ _ _ _ _ _ W) in H as (H & _)|apply (w_pre _ _ _ _ _ _ _ W) in H]; pose proof str_v; unfold st in *; lia. Qed.
Lemma w_pre_new j l : In l (pre j) -> l <> v.
Proof. intros H. apply (w_pre _ _ _ _ _ _ _ W) in H. pose proof str_v; unfold st in *; lia. Qed.

(** *** adding a load *)
Lemma grown_once f g i bb k l1 l2 : fresh_ok f -> linked_ok f -> (forall b, NoDup (insns_of f b)) -> insns_of f bb = l1 ++ l2 -> grown f g i bb k (l1 ++ i :: l2) ->
  forall b, NoDup (insns_of g b).
Proof.
  intros Fr Lk ND L G b. rewrite (gr_insns _ _ _ _ _ _ G). destruct (Nat.eqb_spec b bb) as [->|_]; [|apply ND].
  apply (NoDup_Add (Add_app i l1 l2)). split; [rewrite <- L; apply ND|]. rewrite <- L. rewrite (gr_id _ _ _ _ _ _ G). intros I. destruct (Lk _ _ I) as (x & X & _). rewrite (proj1 Fr) in X by lia. discriminate X.
Qed.
Lemma build_parent bb k : i_parent (build bb k) = bb.
Proof. destruct k; reflexivity. Qed.
Lemma grown_linked f g i bb k l1 l2 : fresh_ok f -> linked_ok f -> insns_of f bb = l1 ++ l2 -> grown f g i bb k (l1 ++ i :: l2) -> linked_ok g.
Proof.
  intros Fr Lk L G b j I. rewrite (gr_insns _ _ _ _ _ _ G) in I.
  assert (Q : (j = i /\ b = bb) \/ In j (insns_of f b)).
  { destruct (Nat.eqb_spec b bb) as [->|_]; [|now right]. apply in_app_iff in I as [I|[<-|I]]; [right; rewrite L; apply in_or_app; now left|now left|right; rewrite L; apply in_or_app; now right]. }
  destruct Q as [(-> & ->)|Q].
  - destruct (gr_new _ _ _ _ _ _ G) as (u & ->). eexists. split; [reflexivity|]. cbn [i_parent set_users]. apply build_parent.
  - destruct (Lk _ _ Q) as (x & X & P). destruct (Nat.eq_dec j i) as [->|N].
    + exfalso. rewrite (gr_id _ _ _ _ _ _ G), (proj1 Fr) in X by lia. discriminate X.
    + destruct (gr_old _ _ _ _ _ _ G j N) as (u & ->). rewrite X. eexists. split; [reflexivity|exact P].
Qed.
Lemma ni_put f i x : f_ni (put_insn f i x) = f_ni f. Proof. reflexivity. Qed.
Lemma spilt_load f i bb l1 l2 z pre' tail' :
  insns_of (c_f t) bb = l1 ++ l2 -> grown (c_f t) f i bb (K_load (val_insn a)) (l1 ++ i :: l2) -> f_insn f i = Some z ->
  (forall j l, In l (pre j) -> In l (pre' j)) -> (forall b l, In l (tail b) -> In l (tail' b)) ->
  (forall j l, In l (pre' j) -> In l (pre j) \/ l = i) ->
  (forall b l, In l (tail' b) -> In l (tail b) \/ (l = i /\ In b (c_reach s) /\ forall j, In j (insns_of (c_f s) b) -> ~ is_terminator (c_f s) j)) ->
  (forall b, exists P M, insns_of (c_f s) b = P ++ M /\ (forall i, In i P -> is_phi (c_f s) i) /\ (forall i, In i M -> ~ is_phi (c_f s) i) /\
    (if b =? bb then l1 ++ i :: l2 else insns_of (c_f t) b) = P ++ atop s v a st b ++ flat_map (group v st pre') M ++ tail' b) ->
  spilt s (with_f (put_insn f i (set_vrt VR_64 z)) (put_ex (with_f f t) i (ex0 i LOAD))) v a st pre' tail'.
Proof.
  intros L G Z I1 I2 I3 I4 HL. pose proof (gr_id _ _ _ _ _ _ G) as Hi. destruct (w_ids _ _ _ _ _ _ _ W) as (_ & _ & Ls).
  destruct (gr_new _ _ _ _ _ _ G) as (un & Gn). assert (Ez : z = set_users un (build bb (K_load (val_insn a)))) by congruence. clear Gn.
  assert (Fr : fresh_ok f) by exact (grown_fresh _ _ _ _ _ _ (w_fresh _ _ _ _ _ _ _ W) G).
  assert (Ni : f_ni f = S i) by apply (gr_ni _ _ _ _ _ _ G).
  assert (Li : n < i /\ st < i) by (unfold st in *; lia).
  remember (set_vrt VR_64 z) as zz eqn:Ezz.
  assert (Old : forall j, j <> i -> exists u, f_insn (put_insn f i zz) j = option_map (set_users u) (f_insn (c_f t) j)).
  { intros j N. rewrite f_insn_put. destruct (Nat.eqb_spec j i); [contradiction|]. apply (gr_old _ _ _ _ _ _ G j N). }
  assert (Ends : forall b l, ends s pre tail b l -> ends s pre' tail' b l).
  { intros b l [H|(j & A & B & H)]; [left; auto|right; exists j; auto]. }
  constructor; cbn [c_f with_f put_ex with_ex c_ex c_reach c_regs c_sp c_args c_off].
  - split; [reflexivity|]. split; [reflexivity|]. rewrite ni_put, Ni. unfold st in *. lia.
  - split; [|apply Fr]. intros j Lj. rewrite ni_put in Lj. rewrite f_insn_put. destruct (Nat.eqb_spec j i); [lia|]. apply Fr. exact Lj.
  - exact (w_rest _ _ _ _ _ _ _ W).
  - destruct (w_cfg _ _ _ _ _ _ _ W) as (C1 & C2 & C3 & C4). split; [exact (eq_trans (gr_entry _ _ _ _ _ _ G) C1)|]. split; [intros b; rewrite <- C2; apply (gr_dom _ _ _ _ _ _ G)|].
    split; intros b; [rewrite <- C3; apply (gr_succs _ _ _ _ _ _ G)|rewrite <- C4; apply (gr_preds _ _ _ _ _ _ G)].
  - intros j x X. pose proof (str_lt _ _ X) as Lj. destruct (w_old _ _ _ _ _ _ _ W j x X) as (y & Y & E). destruct (Old j) as (u & ->); [lia|]. rewrite Y. eexists. split; [reflexivity|].
    apply edited_after. refine (edited_mono _ _ _ _ _ _ _ _ _ E); [intros l; apply I1|exact Ends].
  - intros j Lj X. destruct (Old j) as (u & ->); [unfold a in *; lia|]. now rewrite (w_none _ _ _ _ _ _ _ W j Lj X).
  - intros j Lj. unfold upd. destruct (Nat.eqb_spec j i); [unfold a in *; lia|]. exact (w_ex _ _ _ _ _ _ _ W j Lj).
  - destruct (w_a _ _ _ _ _ _ _ W) as ((u & A) & B). split.
    + destruct (Old a) as (u' & ->); [unfold a; lia|]. rewrite A. exists u'. reflexivity.
    + unfold upd. destruct (Nat.eqb_spec a i); [unfold a in *; lia|]. exact B.
  - destruct (w_st _ _ _ _ _ _ _ W) as ((u & b & A) & B). split.
    + destruct (Old st) as (u' & ->); [lia|]. rewrite A. exists u', b. reflexivity.
    + unfold upd. destruct (Nat.eqb_spec st i); [lia|]. exact B.
  - intros l Ll. rewrite ni_put, Ni in Ll. destruct (Nat.eq_dec l i) as [->|N].
    + split; [exists un, bb; rewrite f_insn_put, Nat.eqb_refl, Ezz, Ez; reflexivity|]. split; [unfold upd; now rewrite Nat.eqb_refl|]. exists bb.
      change (insns_of _ bb) with (insns_of f bb). rewrite (gr_insns _ _ _ _ _ _ G), Nat.eqb_refl. apply in_or_app. right. now left.
    + destruct (w_ld _ _ _ _ _ _ _ W l) as ((u & b & A) & B & b' & C); [lia|]. split; [|split].
      * destruct (Old l N) as (u' & ->). rewrite A. exists u', b. reflexivity.
      * unfold upd. destruct (Nat.eqb_spec l i); [contradiction|]. exact B.
      * exists b'. change (insns_of _ b') with (insns_of f b'). rewrite (gr_insns _ _ _ _ _ _ G). destruct (Nat.eqb_spec b' bb) as [->|_]; [|exact C].
        rewrite L in C. apply in_app_iff in C. apply in_or_app. cbn. tauto.
  - intros j Lj. rewrite ni_put, Ni in Lj. unfold upd. destruct (Nat.eqb_spec j i); [lia|]. apply (w_exn _ _ _ _ _ _ _ W). lia.
  - intros j l Il. rewrite ni_put, Ni. apply I3 in Il as [Il| ->]; [apply (w_pre _ _ _ _ _ _ _ W) in Il; lia|lia].
  - intros b l Il. rewrite ni_put, Ni. apply I4 in Il as [Il|(-> & T)]; [apply (w_tail _ _ _ _ _ _ _ W) in Il as (A & B); split; [lia|exact B]|split; [lia|exact T]].
  - intros b. destruct (HL b) as (P & M & A & B & C & D). exists P, M. split; [exact A|]. split; [exact B|]. split; [exact C|]. rewrite <- D. apply (gr_insns _ _ _ _ _ _ G).
  - intros b j Ij. change (insns_of _ b) with (insns_of f b) in Ij. destruct (grown_linked _ _ _ _ _ _ _ (w_fresh _ _ _ _ _ _ _ W) (w_linked _ _ _ _ _ _ _ W) L G b j Ij) as (x & X & Px).
    rewrite f_insn_put. destruct (Nat.eqb_spec j i) as [->|_]; [|eauto]. rewrite Z in X. injection X as <-. eexists. split; [reflexivity|rewrite Ezz; exact Px].
  - intros b. exact (grown_once _ _ _ _ _ _ _ (w_fresh _ _ _ _ _ _ _ W) (w_linked _ _ _ _ _ _ _ W) (w_once _ _ _ _ _ _ _ W) L G b).
Qed.

Lemma cg_load_inl u t' l : cg_load t (inl u) a = Ok (t', l) -> exists f z, create_at (c_f t) u (K_load (val_insn a)) P_FRONT = Ok (f, l) /\ f_insn f l = Some z /\
  t' = with_f (put_insn f l (set_vrt VR_64 z)) (put_ex (with_f f t) l (ex0 l LOAD)).
Proof.
  intros H. unfold cg_load in H. bo H y Hy. apply get_insn_ok in Hy. destruct (w_a _ _ _ _ _ _ _ W) as ((ua & A) & _). rewrite A in Hy. injection Hy as <-. cbn in H.
  bo H c Ec. bo H z Hz. apply get_insn_ok in Hz. unfold cg_create in Ec. bo Ec r Er. destruct r as [f j]. cbn [fst snd] in Ec. injection Ec as <-. cbn [fst snd] in *. injection H as <- <-.
  exists f, z. auto.
Qed.
Lemma cg_load_inr b t' l : cg_load t (inr b) a = Ok (t', l) -> exists f z, create_at_bb (c_f t) b (K_load (val_insn a)) P_BACK_BEFORE_JMP = Ok (f, l) /\ f_insn f l = Some z /\
  t' = with_f (put_insn f l (set_vrt VR_64 z)) (put_ex (with_f f t) l (ex0 l LOAD)).
Proof.
  intros H. unfold cg_load in H. bo H y Hy. apply get_insn_ok in Hy. destruct (w_a _ _ _ _ _ _ _ W) as ((ua & A) & _). rewrite A in Hy. injection Hy as <-. cbn in H.
  bo H c Ec. bo H z Hz. apply get_insn_ok in Hz. unfold cg_create_bb in Ec. bo Ec r Er. destruct r as [f j]. cbn [fst snd] in Ec. injection Ec as <-. cbn [fst snd] in *. injection H as <- <-.
  exists f, z. auto.
Qed.
(** creating a load does not disturb the users lists *)
Definition calm (f g : func) : Prop := (forall c w, counted f c w -> counted g c w) /\ (forall w, w < n -> ops_of g w = ops_of f w /\ cnt (users_of g v) w = cnt (users_of f v) w) /\
  forall j, j < n -> exists k, f_insn g j = option_map (set_users k) (f_insn f j).
Lemma load_calm f i bb l z : grown (c_f t) f i bb (K_load (val_insn a)) l -> counts (c_f t) f i (operands (build bb (K_load (val_insn a)))) -> f_insn f i = Some z ->
  calm (c_f t) (put_insn f i (set_vrt VR_64 z)).
Proof.
  intros G C Z. pose proof (w_fresh _ _ _ _ _ _ _ W) as Fr. pose proof (gr_id _ _ _ _ _ _ G) as Hi. destruct (w_ids _ _ _ _ _ _ _ W) as (_ & _ & Ls).
  assert (U : forall c, users_of (put_insn f i (set_vrt VR_64 z)) c = users_of f c).
  { intros c. unfold users_of. rewrite f_insn_put. destruct (Nat.eqb_spec c i) as [->|]; [now rewrite Z|reflexivity]. }
  assert (O : forall w, ops_of (put_insn f i (set_vrt VR_64 z)) w = ops_of f w).
  { intros w. unfold ops_of. rewrite f_insn_put. destruct (Nat.eqb_spec w i) as [->|]; [now rewrite Z|reflexivity]. }
  split; [|split].
  - intros c w K. apply (grown_counted _ _ _ _ _ _ c w Fr G C) in K. unfold counted in *. rewrite U, O. exact K.
  - intros w Lw. rewrite O, U, C. rewrite (grown_ops _ _ _ _ _ _ w Fr G). destruct (Nat.eqb_spec w i); [unfold st in *; lia|]. destruct (Nat.eqb_spec i w); [congruence|]. split; [reflexivity|lia].
  - intros j Lj. rewrite f_insn_put. destruct (Nat.eqb_spec j i); [unfold st in *; lia|]. apply (gr_old _ _ _ _ _ _ G). assumption.
Qed.
Lemma calm_but f g u : calm f g -> u < n -> users_but f v u -> users_but g v u.
Proof. intros (A & B & _) L (C & D). destruct (B u L) as (E & F). split; [intros c w H; apply A; auto|]. rewrite E, F. exact D. Qed.
Lemma calm_users f g : calm f g -> users_ok f -> users_ok g.
Proof. intros (A & _) U. apply users_counted. intros c w. apply A. now apply users_counted. Qed.

Definition add (p : nat -> list nat) (u l : nat) (j : nat) : list nat := if j =? u then p j ++ [l] else p j.
Lemma add_keep p u l j k : In k (p j) -> In k (add p u l j).
Proof. intros I. unfold add. destruct (j =? u); [apply in_or_app; now left|exact I]. Qed.
Lemma add_inv p u l j k : In k (add p u l j) -> In k (p j) \/ (k = l /\ j = u).
Proof. unfold add. destruct (Nat.eqb_spec j u) as [->|]; [|auto]. intros I. apply in_app_iff in I as [I|[<-|[]]]; auto. Qed.
Lemma flat_add u l M : ~ In u M -> flat_map (group v st (add pre u l)) M = flat_map (group v st pre) M.
Proof.
  induction M as [|m M IH]; intros N; [reflexivity|]. cbn [flat_map]. rewrite IH by (intros K; apply N; now right). f_equal. unfold group, add.
  destruct (Nat.eqb_spec m u) as [->|]; [destruct N; now left|reflexivity].
Qed.


Lemma split_same (l1 l2 k1 k2 : list nat) u : NoDup (l1 ++ u :: l2) -> l1 ++ u :: l2 = k1 ++ u :: k2 -> l1 = k1 /\ l2 = k2.
Proof.
  revert k1. induction l1 as [|c l1 IH]; intros k1 ND Q.
  - destruct k1 as [|d k1]; cbn [app] in *; [injection Q as ->; auto|]. injection Q as <- Q. inversion ND as [|? ? N _]. destruct N. rewrite Q. apply in_or_app. right. now left.
  - destruct k1 as [|d k1]; cbn [app] in *.
    + injection Q as -> Q. inversion ND as [|? ? N _]. destruct N. apply in_or_app. right. now left.
    + injection Q as <- Q. inversion ND as [|? ? _ N]. destruct (IH k1 N Q) as (-> & ->). auto.
Qed.
Lemma old_place u b : In u (insns_of (c_f s) b) -> ~ is_phi (c_f s) u -> exists P M1 M2,
  insns_of (c_f s) b = P ++ M1 ++ u :: M2 /\ (forall i, In i P -> is_phi (c_f s) i) /\ (forall i, In i (M1 ++ u :: M2) -> ~ is_phi (c_f s) i) /\ ~ In u M1 /\ ~ In u M2 /\
  insns_of (c_f t) b = (P ++ atop s v a st b ++ flat_map (group v st pre) M1 ++ pre u) ++ u :: (behind v st u ++ flat_map (group v st pre) M2 ++ tail b).
Proof.
  intros Iu NP. destruct (w_list _ _ _ _ _ _ _ W b) as (P & M & L1 & LP & LM & L2).
  assert (IM : In u M). { rewrite L1 in Iu. apply in_app_iff in Iu as [Iu|Iu]; [|exact Iu]. destruct (NP (LP _ Iu)). }
  apply in_split in IM as (M1 & M2 & ->). exists P, M1, M2. split; [exact L1|]. split; [exact LP|]. split; [exact LM|].
  pose proof (td_once _ (sb_tidy _ Sb) b) as NDs. rewrite L1 in NDs. rewrite app_assoc in NDs. apply NoDup_remove in NDs as (_ & NDs). rewrite !in_app_iff in NDs.
  split; [tauto|]. split; [tauto|]. rewrite L2, flat_map_app. cbn [flat_map]. unfold group at 2. rewrite <- !app_assoc. cbn [app]. rewrite <- ?app_assoc. reflexivity.
Qed.
Lemma load_before u b f l z l1 l2 : In u (insns_of (c_f s) b) -> ~ is_phi (c_f s) u -> insns_of (c_f t) b = l1 ++ u :: l2 ->
  grown (c_f t) f l b (K_load (val_insn a)) (l1 ++ l :: u :: l2) -> f_insn f l = Some z ->
  spilt s (with_f (put_insn f l (set_vrt VR_64 z)) (put_ex (with_f f t) l (ex0 l LOAD))) v a st (add pre u l) tail.
Proof.
  intros Iu NP L G Z. destruct (old_place u b Iu NP) as (P & M1 & M2 & L1 & LP & LM & N1 & N2 & Lt).
  pose proof (w_once _ _ _ _ _ _ _ W b) as ND. rewrite L in ND, Lt. destruct (split_same _ _ _ _ _ ND Lt) as (E1 & E2). clear Lt ND.
  apply (spilt_load f l b l1 (u :: l2)); auto.
  - intros j k. apply add_keep.
  - intros j k I. apply add_inv in I as [I|(-> & _)]; auto.
  - intros b'. destruct (Nat.eqb_spec b' b) as [->|Nb].
    + exists P, (M1 ++ u :: M2). split; [exact L1|]. split; [exact LP|]. split; [exact LM|].
      rewrite E1, E2. rewrite flat_map_app. cbn [flat_map]. rewrite !flat_add by tauto. replace (group v st (add pre u l) u) with (pre u ++ l :: u :: behind v st u) by (unfold group, add; rewrite Nat.eqb_refl, <- app_assoc; reflexivity). rewrite <- !app_assoc. cbn [app]. rewrite <- ?app_assoc. reflexivity.
    + destruct (w_list _ _ _ _ _ _ _ W b') as (P' & M' & A & B & C' & D). exists P', M'. split; [exact A|]. split; [exact B|]. split; [exact C'|]. rewrite D. rewrite flat_add; [reflexivity|].
      intros Iu'. assert (H : In u (insns_of (c_f s) b')) by (rewrite A; apply in_or_app; now right). destruct (str_live _ _ H) as (x' & X' & Pb'). destruct (str_live _ _ Iu) as (x & X & Pb). congruence.
Qed.
Lemma load_front u x b t' l : f_insn (c_f s) u = Some x -> In u (insns_of (c_f s) b) -> i_op x <> PHI -> cg_load t (inl u) a = Ok (t', l) ->
  spilt s t' v a st (add pre u l) tail /\ calm (c_f t) (c_f t').
Proof.
  intros X Iu NP H. apply cg_load_inl in H as (f & z & Cr & Z & ->).
  assert (NP' : ~ is_phi (c_f s) u) by (intros (x' & X' & Q); congruence).
  destruct (w_old _ _ _ _ _ _ _ W u x X) as (y & Y & Ed). destruct (w_kind _ _ _ X Y) as (Oy & Py).
  destruct (str_live _ _ Iu) as (x' & X' & Pb). rewrite X in X'. injection X' as <-.
  destruct (old_place u b Iu NP') as (P & M1 & M2 & L1 & LP & LM & N1 & N2 & Lt).
  pose proof (w_once _ _ _ _ _ _ _ W b) as ND. rewrite Lt in ND. apply NoDup_remove in ND as (_ & ND). rewrite in_app_iff in ND.
  assert (Bt : f_block (c_f t) (i_parent y) <> None).
  { rewrite Py, Pb. intros Bn. assert (Bs : f_block (c_f s) b = None) by (apply (w_cfg _ _ _ _ _ _ _ W); exact Bn). revert Iu. unfold insns_of. rewrite Bs. intros []. }
  pose proof Lt as Lt'. rewrite <- (eq_trans Py Pb) in Lt' at 1.
  destruct (new_at (c_f t) u y (K_load (val_insn a)) P_FRONT f l _ _ (w_fresh _ _ _ _ _ _ _ W) Y ltac:(congruence) ltac:(discriminate) Bt Lt' ltac:(tauto) (or_introl eq_refl) Cr) as (G & C).
  rewrite Py, Pb in G, C. cbv iota in G.
  split; [|exact (load_calm _ _ _ _ _ G C Z)]. exact (load_before _ _ _ _ _ _ _ Iu NP' Lt G Z).
Qed.
Lemma tail_none b j : In j (insns_of (c_f s) b) -> is_terminator (c_f s) j -> tail b = [].
Proof. intros I T. destruct (tail b) as [|l r] eqn:Q; [reflexivity|]. destruct (w_tail _ _ _ _ _ _ _ W b l) as (_ & _ & N); [rewrite Q; now left|]. destruct (N j I T). Qed.
Lemma term_not_phi j : is_terminator (c_f s) j -> ~ is_phi (c_f s) j.
Proof. intros (x & X & O) (x' & X' & P). rewrite X in X'. injection X' as <-. rewrite P in O. cbn in O. intuition discriminate. Qed.
Lemma load_end b t' l : f_block (c_f s) b <> None -> In b (c_reach s) -> cg_load t (inr b) a = Ok (t', l) ->
  exists pre' tail', spilt s t' v a st pre' tail' /\ calm (c_f t) (c_f t') /\ (forall j k, In k (pre j) -> In k (pre' j)) /\ (forall b k, In k (tail b) -> In k (tail' b)) /\ ends s pre' tail' b l.
Proof.
  intros B Rb H. apply cg_load_inr in H as (f & z & Cr & Z & ->).
  assert (Bt : f_block (c_f t) b <> None) by (intros Q; apply B; now apply (w_cfg _ _ _ _ _ _ _ W)).
  destruct (new_at_bb _ _ _ _ _ _ (w_fresh _ _ _ _ _ _ _ W) (w_live b) Bt Cr) as ((l1 & l2 & (L & PL) & G) & C).
  pose proof (load_calm _ _ _ _ _ G C Z) as Ca. destruct PL as [(-> & NT)|(j & -> & T)].
  - exists pre, (add tail b l). rewrite app_nil_r in L.
    assert (N : forall j, In j (insns_of (c_f s) b) -> ~ is_terminator (c_f s) j).
    { intros j Ij Tj. destruct (old_place j b Ij (term_not_phi j Tj)) as (P & M1 & M2 & L1 & LP & LM & N1 & N2 & Lt). rewrite app_assoc in L1. pose proof (jump_last _ _ _ _ L1 Tj) as ->.
      rewrite (tail_none b j Ij Tj) in Lt. unfold behind in Lt. destruct (Nat.eqb_spec j v) as [->|_]; [exact (v_not_jump Tj)|]. cbn [app flat_map] in Lt. rewrite L in Lt.
      apply (NT _ _ Lt). apply w_term; [exact (str_in_lt _ _ Ij)|exact Tj]. }
    split; [|split; [exact Ca|split; [auto|split; [intros; now apply add_keep|]]]].
    + apply (spilt_load f l b l1 []); auto.
      * now rewrite app_nil_r.
      * intros b' k. apply add_keep.
      * intros b' k I. apply add_inv in I as [I|(-> & ->)]; auto.
      * intros b'. destruct (w_list _ _ _ _ _ _ _ W b') as (P & M & L1 & LP & LM & L2). exists P, M. split; [exact L1|]. split; [exact LP|]. split; [exact LM|]. unfold add.
        destruct (Nat.eqb_spec b' b) as [->|Nb]; [|exact L2]. rewrite <- L, L2, <- !app_assoc. reflexivity.
    + left. unfold add. rewrite Nat.eqb_refl. apply in_or_app. right. now left.
  - assert (It : In j (insns_of (c_f t) b)) by (rewrite L; apply in_or_app; right; now left).
    assert (Lj : j < n). { destruct (Nat.lt_ge_cases j n) as [Q|Q]; [exact Q|]. destruct (w_new_term j Q T). }
    pose proof (proj1 (w_term j Lj) T) as Ts.
    assert (Is : In j (insns_of (c_f s) b)).
    { destruct (w_list _ _ _ _ _ _ _ W b) as (P & M & L1 & LP & LM & L2). rewrite L1. rewrite L2 in It. rewrite !in_app_iff in It. rewrite in_app_iff. destruct It as [It|[It|[It|It]]]; [now left| | |].
      - exfalso. unfold atop in It. apply in_app_iff in It as [It|It].
        + destruct (b =? _); [destruct It as [<-|[]]; unfold a in Lj; lia|destruct It].
        + destruct (f_insn (c_f s) v); [|destruct It]. destruct (_ && _); [destruct It as [<-|[]]; unfold st in Lj; lia|destruct It].
      - right. apply in_flat_map in It as (m & Im & It). unfold group, behind in It. apply in_app_iff in It as [It|[<-|It]]; [apply (w_pre _ _ _ _ _ _ _ W) in It; unfold st in It; lia|exact Im|].
        destruct (m =? v); [destruct It as [<-|[]]; unfold st in Lj; lia|destruct It].
      - exfalso. apply (w_tail _ _ _ _ _ _ _ W) in It as (It & _). unfold st in It. lia. }
    exists (add pre j l), tail. split; [|split; [exact Ca|split; [intros; now apply add_keep|split; [auto|]]]].
    + exact (load_before _ _ _ _ _ _ _ Is (term_not_phi j Ts) L G Z).
    + right. exists j. split; [exact Is|]. split; [exact Ts|]. unfold add. rewrite Nat.eqb_refl. apply in_or_app. right. now left.
Qed.

Lemma spilt_change u x y sl l old f : f_insn (c_f s) u = Some x -> f_insn (c_f t) u = Some y -> slot_get y sl = Some old -> refers v old = true ->
  match sl with SPhi k => exists w b, nth_error (i_phi y) k = Some (w, b) /\ ends s pre tail b l | _ => In l (pre u) end ->
  change_value (c_f t) u sl (val_insn l) = Ok f -> spilt s (with_f f t) v a st pre tail.
Proof.
  intros X Y G R Hl E. destruct (change_cnt _ _ _ _ _ _ _ Y G E) as (En & _). destruct (change_raw _ _ _ _ _ _ Y E) as (Ni & Nb & Bl & (k & Fu) & Fo).
  destruct (w_old _ _ _ _ _ _ _ W u x X) as (y' & Y' & Ed). rewrite Y in Y'. injection Y' as <-.
  assert (Lu : u < n) by exact (str_lt _ _ X).
  assert (IN : forall b, insns_of f b = insns_of (c_f t) b) by (intros b; unfold insns_of; now rewrite Bl).
  assert (OLD : forall j z, f_insn (c_f t) j = Some z -> j <> u -> exists k, f_insn f j = Some (set_users k z)).
  { intros j z Z N. specialize (Fo j N). rewrite Z in Fo. unfold upto in Fo. destruct (f_insn f j); [|destruct Fo]. destruct Fo as (k' & ->). eauto. }
  assert (NON : forall j, f_insn (c_f t) j = None -> f_insn f j = None).
  { intros j Z. assert (N : j <> u) by congruence. specialize (Fo j N). rewrite Z in Fo. unfold upto in Fo. destruct (f_insn f j); [destruct Fo|reflexivity]. }
  destruct W. constructor; cbn [c_f c_ex c_reach c_regs c_sp c_args c_off with_f]; auto.
  - rewrite Ni. exact w_ids0.
  - split; [intros j L; apply NON; apply (proj1 w_fresh0); lia|intros b L; rewrite Bl; apply (proj2 w_fresh0); lia].
  - destruct w_cfg0 as (C1 & C2 & C3 & C4). split; [congruence|]. split; [intros b; rewrite Bl; apply C2|]. split; intros b; unfold succs_of, preds_of; rewrite Bl; [apply C3|apply C4].
  - intros j x' X'. destruct (Nat.eq_dec j u) as [->|N].
    + rewrite X in X'. injection X' as <-. eexists. split; [exact Fu|]. apply edited_after. eapply edited_set; eauto.
      * intros l' Il. apply w_pre0 in Il. pose proof str_v. unfold st in *. lia.
      * intros b l' El. exact (w_ends_new _ _ El).
    + destruct (w_old0 j x' X') as (y' & Y' & Ed'). destruct (OLD _ _ Y' N) as (k' & ->). eexists. split; [reflexivity|]. now apply edited_after.
  - destruct w_a0 as ((ua & A) & A2). split; [|exact A2]. destruct (OLD _ _ A ltac:(unfold a; lia)) as (k' & ->). eexists. reflexivity.
  - destruct w_st0 as ((ua & b & A) & A2). split; [|exact A2]. destruct (OLD _ _ A ltac:(unfold st; lia)) as (k' & ->). eexists. exists b. reflexivity.
  - rewrite Ni. intros j Lj. destruct (w_ld0 j Lj) as ((ua & b & A) & A2 & b' & A3). split; [|split; [exact A2|exists b'; now rewrite IN]].
    destruct (OLD _ _ A ltac:(unfold st in *; lia)) as (k' & ->). eexists. exists b. reflexivity.
  - rewrite Ni. exact w_exn0.
  - rewrite Ni. exact w_pre0.
  - rewrite Ni. exact w_tail0.
  - intros b. rewrite IN. apply w_list0.
  - intros b j I. rewrite IN in I. destruct (w_linked0 b j I) as (z & Z & P). destruct (Nat.eq_dec j u) as [->|N].
    + eexists. split; [exact Fu|]. rewrite Y in Z. injection Z as <-. rewrite <- P. destruct sl; cbn; try reflexivity. destruct (nth_error (i_phi y) k0) as [[? ?]|]; reflexivity.
    + destruct (OLD _ _ Z N) as (k' & ->). eexists. split; [reflexivity|exact P].
  - intros b. rewrite IN. apply w_once0.
Qed.
End Steps.

(** *** one user *)
Definition plain_slot (sl : slot) : Prop := match sl with SPhi _ => False | _ => True end.
Lemma new_not_v t pre tail u l : spilt s t v a st pre tail -> In l (pre u) -> l <> v.
Proof. intros W I. exact (w_pre_new _ _ _ W _ _ I). Qed.
Lemma slots_done u x l pre tail : f_insn (c_f s) u = Some x -> In l (pre u) -> forall L t t', spilt s t v a st pre tail -> users_but (c_f t) v u -> (forall sl, In sl L -> plain_slot sl) ->
  ofold (spill_slot u a v l) t L = Ok t' ->
  spilt s t' v a st pre tail /\ users_but (c_f t') v u /\
  forall y y', f_insn (c_f t) u = Some y -> f_insn (c_f t') u = Some y' -> slots_of y' = slots_of y /\ forall sl w, slot_get y' sl = Some w -> refers v w = true -> slot_get y sl = Some w /\ ~ In sl L.
Proof.
  intros X Il. induction L as [|sl L IH]; intros t t' W U PS H; cbn [ofold] in H.
  - injection H as <-. split; [exact W|]. split; [exact U|]. intros y y' Y Y'. rewrite Y in Y'. injection Y' as <-. split; [reflexivity|]. intros sl w G _. split; [exact G|intros []].
  - bo H t1 H1. unfold spill_slot in H1. bo H1 y Hy. apply get_insn_ok in Hy. destruct (slot_get y sl) as [w|] eqn:G; [|discriminate H1].
    assert (PS' : forall sl, In sl L -> plain_slot sl) by (intros sl' I; apply PS; now right).
    destruct (refers v w) eqn:R.
    + unfold in_func in H1. bo H1 f Hf. injection H1 as <-. pose proof (PS sl (or_introl eq_refl)) as P0.
      assert (W1 : spilt s (with_f f t) v a st pre tail).
      { eapply (spilt_change t pre tail W u x y sl l w f X Hy G R); [|exact Hf]. destruct sl; [exact Il|destruct P0|exact Il]. }
      assert (U1 : users_but f v u) by exact (change_but _ _ _ _ _ _ _ _ Hy G R (new_not_v _ _ _ _ _ W Il) Hf U).
      destruct (IH _ _ W1 U1 PS' H) as (W2 & U2 & K). split; [exact W2|]. split; [exact U2|].
      intros y0 y' Y0 Y'. rewrite Hy in Y0. injection Y0 as <-. destruct (change_raw _ _ _ _ _ _ Hy Hf) as (_ & _ & _ & (k & Fu) & _).
      destruct (K _ _ Fu Y') as (S1 & S2). split; [rewrite S1, slots_of_users; apply slots_of_set|].
      intros sl' w' G' R'. destruct (S2 sl' w' G' R') as (G2 & N2). rewrite slot_get_users in G2. destruct (slot_get_set _ _ _ _ _ G2) as [(-> & ->)|(N3 & G3)].
      * rewrite refers_insn in R'. apply Nat.eqb_eq in R'. destruct (new_not_v _ _ _ _ _ W Il R').
      * split; [exact G3|]. intros [->|I]; [congruence|exact (N2 I)].
    + injection H1 as <-. destruct (IH _ _ W U PS' H) as (W2 & U2 & K). split; [exact W2|]. split; [exact U2|]. intros y0 y' Y0 Y'. destruct (K _ _ Y0 Y') as (S1 & S2). split; [exact S1|].
      rewrite Hy in Y0. injection Y0 as <-. intros sl' w' G' R'. destruct (S2 sl' w' G' R') as (G2 & N2). split; [exact G2|]. intros [<-|I]; [congruence|exact (N2 I)].
Qed.
Lemma phis_done u x : f_insn (c_f s) u = Some x -> i_op x = PHI -> (forall w b, In (w, b) (i_phi x) -> f_block (c_f s) b <> None /\ In b (c_reach s)) -> forall L t t' pre tail, spilt s t v a st pre tail -> users_but (c_f t) v u ->
  ofold (spill_phi_slot u a v) t L = Ok t' -> exists pre' tail',
  spilt s t' v a st pre' tail' /\ users_but (c_f t') v u /\
  forall y y', f_insn (c_f t) u = Some y -> f_insn (c_f t') u = Some y' -> slots_of y' = slots_of y /\ forall sl w, slot_get y' sl = Some w -> refers v w = true -> slot_get y sl = Some w /\ ~ In sl (map SPhi L).
Proof.
  intros X O Bx. pose proof (str_lt _ _ X) as Lu. induction L as [|k L IH]; intros t t' pre tail W U H; cbn [ofold map] in *.
  - injection H as <-. exists pre, tail. split; [exact W|]. split; [exact U|]. intros y y' Y Y'. rewrite Y in Y'. injection Y' as <-. split; [reflexivity|]. intros sl w G _. split; [exact G|intros []].
  - bo H t1 H1. unfold spill_phi_slot in H1. bo H1 y Hy. apply get_insn_ok in Hy. destruct (nth_error (i_phi y) k) as [[w b]|] eqn:G; [|discriminate H1].
    destruct (w_kind _ _ _ W _ _ _ X Hy) as (Oy & _). rewrite O in Oy.
    assert (Gk : slot_get y (SPhi k) = Some w) by (cbn [slot_get]; rewrite Oy, G; reflexivity).
    destruct (refers v w) eqn:R.
    + bo H1 c Hc. destruct c as [tc l]. cbn [fst snd] in H1. unfold in_func in H1. bo H1 f Hf. injection H1 as <-.
      destruct (w_old _ _ _ _ _ _ _ W u x X) as (y0 & Y0 & Ed). rewrite Hy in Y0. injection Y0 as <-.
      destruct (F2_nth _ _ _ _ _ (ed_phi _ _ _ _ _ Ed) G) as ([w0 b0] & G0 & Sb0 & _). cbn in Sb0. subst b0.
      destruct (load_end t pre tail W b tc l (proj1 (Bx _ _ (nth_error_In _ _ G0))) (proj2 (Bx _ _ (nth_error_In _ _ G0))) Hc) as (pre1 & tail1 & W1 & Ca & Mp & Mt & En).
      pose proof Ca as (Ca1 & Ca2 & Ca3). destruct (Ca3 u Lu) as (ku & Yu). rewrite Hy in Yu. cbn [option_map] in Yu.
      assert (Gk' : slot_get (set_users ku y) (SPhi k) = Some w) by (rewrite slot_get_users; exact Gk).
      assert (W2 : spilt s (with_f f tc) v a st pre1 tail1).
      { eapply (spilt_change tc pre1 tail1 W1 u x _ (SPhi k) l w f X Yu Gk' R); [|exact Hf]. exists w, b. split; [exact G|exact En]. }
      assert (U2 : users_but f v u). { eapply (change_but _ _ _ _ _ _ _ _ Yu Gk' R); [|exact Hf|exact (calm_but _ _ _ Ca Lu U)]. exact (w_ends_new _ _ _ W1 _ _ En). }
      destruct (IH _ _ _ _ W2 U2 H) as (pre2 & tail2 & W3 & U3 & K). exists pre2, tail2. split; [exact W3|]. split; [exact U3|].
      intros y1 y' Y1 Y'. rewrite Hy in Y1. injection Y1 as <-. destruct (change_raw _ _ _ _ _ _ Yu Hf) as (_ & _ & _ & (k' & Fu) & _).
      destruct (K _ _ Fu Y') as (S1 & S2). split; [rewrite S1, slots_of_users, slots_of_set; reflexivity|].
      intros sl' w' G' R'. destruct (S2 sl' w' G' R') as (G2 & N2). rewrite slot_get_users in G2. destruct (slot_get_set _ _ _ _ _ G2) as [(-> & ->)|(N3 & G3)].
      * rewrite refers_insn in R'. apply Nat.eqb_eq in R'. destruct (w_ends_new _ _ _ W1 _ _ En R').
      * rewrite slot_get_users in G3. split; [exact G3|]. intros [<-|I]; [congruence|exact (N2 I)].
    + injection H1 as <-. destruct (IH _ _ _ _ W U H) as (pre2 & tail2 & W2 & U2 & K). exists pre2, tail2. split; [exact W2|]. split; [exact U2|]. intros y0 y' Y0 Y'. destruct (K _ _ Y0 Y') as (S1 & S2). split; [exact S1|].
      rewrite Hy in Y0. injection Y0 as <-. intros sl' w' G' R'. destruct (S2 sl' w' G' R') as (G2 & N2). split; [exact G2|]. intros [<-|I]; [congruence|exact (N2 I)].
Qed.
Lemma user_done u x t t' pre tail : f_insn (c_f s) u = Some x -> In u (insns_of (c_f s) (i_parent x)) -> spilt s t v a st pre tail -> users_ok (c_f t) -> spill_user a v t u = Ok t' ->
  exists pre' tail', spilt s t' v a st pre' tail' /\ users_ok (c_f t').
Proof.
  intros X Iu W U H. pose proof (str_lt _ _ X) as Lu. unfold spill_user in H. bo H y Hy. apply get_insn_ok in Hy. destruct (w_kind _ _ _ W _ _ _ X Hy) as (Oy & _).
  destruct (_ && _); [injection H as <-; exists pre, tail; auto|]. destruct (iop_eqb (i_op y) PHI) eqn:O.
  - apply op_same in O. rewrite Oy in O. assert (Lk : linked s u) by (exists (i_parent x); split; [exact (sb_all _ Sb _ _ Iu)|exact Iu]).
    destruct (rd_phi _ (sb_ready _ Sb) u x Lk X O) as (Vx & _ & Bx).
    assert (Bx' : forall w b, In (w, b) (i_phi x) -> f_block (c_f s) b <> None /\ In b (c_reach s)).
    { intros w b I. split; [|exact (Bx w b I)]. destruct (proj2 (rd_reach _ (sb_ready _ Sb)) b (Bx w b I)) as (k & ->). discriminate. }
    destruct (phis_done u x X O Bx' _ _ _ _ _ W (but_start _ _ _ U) H) as (pre' & tail' & W' & U' & K). exists pre', tail'. split; [exact W'|].
    destruct (w_old _ _ _ _ _ _ _ W' u x X) as (y' & Y' & Ed). destruct (K _ _ Hy Y') as (S1 & S2). apply (but_done _ _ _ _ U' Y'). apply no_slots. intros sl w I G. destruct (refers v w) eqn:R; [|reflexivity].
    exfalso. destruct (S2 _ _ G R) as (_ & N). apply N. rewrite S1 in I. unfold slots_of in I. pose proof Ed as [_ Ev _ _]. 
    destruct (w_old _ _ _ _ _ _ _ W u x X) as (y0 & Y0 & Ed0). rewrite Hy in Y0. injection Y0 as <-. pose proof (ed_vals _ _ _ _ _ Ed0) as V0. rewrite Vx in V0. assert (Q : i_vals y = []) by (inversion V0; reflexivity). rewrite Q in I. cbn [length seq map app] in I.
    rewrite Oy, O in I. cbn [iop_eqb orb] in I. change (iop_eqb PHI PHI) with true in I. change (iop_eqb PHI LOADRAW || iop_eqb PHI STORERAW) with false in I. cbv iota in I. rewrite app_nil_r in I. exact I.
  - assert (NP : i_op x <> PHI) by (rewrite <- Oy; intros Q; rewrite Q in O; discriminate O).
    bo H c Hc. destruct c as [tc l]. cbn [fst snd] in H. destruct (load_front t pre tail W u x _ tc l X Iu NP Hc) as (W1 & Ca).
    assert (Il : In l (add pre u l u)) by (unfold add; rewrite Nat.eqb_refl; apply in_or_app; right; now left).
    assert (PS : forall sl, In sl (slots_of y) -> plain_slot sl).
    { unfold slots_of. rewrite O. cbn [app]. intros sl I. apply in_app_iff in I as [I|I]; [apply in_map_iff in I as (k & <- & _); exact Logic.I|]. destruct (_ || _); [destruct I as [<-|[]]; exact Logic.I|destruct I]. }
    destruct (slots_done u x l _ _ X Il _ _ _ W1 (calm_but _ _ _ Ca Lu (but_start _ _ _ U)) PS H) as (W2 & U2 & K). exists (add pre u l), tail. split; [exact W2|].
    destruct (w_old _ _ _ _ _ _ _ W2 u x X) as (y' & Y' & Ed). pose proof Ca as (_ & _ & Ca3). destruct (Ca3 u Lu) as (ku & Yu). rewrite Hy in Yu. cbn [option_map] in Yu.
    destruct (K _ _ Yu Y') as (S1 & S2). apply (but_done _ _ _ _ U2 Y'). apply no_slots. intros sl w I G. destruct (refers v w) eqn:R; [|reflexivity].
    exfalso. destruct (S2 _ _ G R) as (_ & N). apply N. rewrite S1 in I. exact I.
Qed.
Lemma users_done L : forall t t' pre tail, (forall u, In u L -> exists x, f_insn (c_f s) u = Some x /\ In u (insns_of (c_f s) (i_parent x))) -> spilt s t v a st pre tail -> users_ok (c_f t) ->
  ofold (spill_user a v) t L = Ok t' -> exists pre' tail', spilt s t' v a st pre' tail' /\ users_ok (c_f t').
Proof.
  induction L as [|u L IH]; intros t t' pre tail HL W U H; cbn [ofold] in H; [injection H as <-; exists pre, tail; auto|].
  bo H t1 H1. destruct (HL u (or_introl eq_refl)) as (x & X & I). destruct (user_done u x t t1 pre tail X I W U H1) as (pre1 & tail1 & W1 & U1).
  exact (IH t1 t' pre1 tail1 (fun w Iw => HL w (or_intror Iw)) W1 U1 H).
Qed.

(** *** the start: the variable and the store *)
Let none : nat -> list nat := fun _ => [].
Lemma phi_dec j : is_phi (c_f s) j \/ ~ is_phi (c_f s) j.
Proof.
  unfold is_phi. destruct (f_insn (c_f s) j) as [x|]; [|right; intros (y & Y & _); discriminate Y]. destruct (iop_eq_dec (i_op x) PHI) as [Q|Q]; [left; eauto|right; intros (y & Y & P); congruence].
Qed.
Lemma split_phis b : exists P M, insns_of (c_f s) b = P ++ M /\ (forall i, In i P -> is_phi (c_f s) i) /\ (forall i, In i M -> ~ is_phi (c_f s) i).
Proof.
  pose proof (sb_phis _ Sb b) as PF. revert PF. generalize (insns_of (c_f s) b) as l. induction l as [|c l IH]; intros PF; [exists [], []; repeat split; intros i []|].
  destruct IH as (P & M & -> & HP & HM).
  { intros l1 i l2 Q Pi k Ik. apply (PF (c :: l1) i l2); [now rewrite Q|exact Pi|now right]. }
  destruct (phi_dec c) as [Pc|Nc].
  - exists (c :: P), M. split; [reflexivity|]. split; [intros i [<-|I]; auto|exact HM].
  - exists [], (c :: P ++ M). split; [reflexivity|]. split; [intros i []|]. intros i [<-|I]; [exact Nc|]. intros Pi. apply in_split in I as (l1 & l2 & Q). apply Nc. apply (PF (c :: l1) i l2); [now rewrite Q|exact Pi|now left].
Qed.
Lemma flat_none M : ~ In v M -> flat_map (group v st none) M = M.
Proof.
  induction M as [|m M IH]; intros N; [reflexivity|]. cbn [flat_map]. rewrite IH by (intros K; apply N; now right). unfold group, behind, none. cbn [app]. destruct (Nat.eqb_spec m v) as [->|]; [destruct N; now left|reflexivity].
Qed.
Lemma base_list f1 f2 bv l1 l2 :
  grown (c_f s) f1 a (f_entry (c_f s)) (K_alloc VR_64) (a :: insns_of (c_f s) (f_entry (c_f s))) -> i_parent xv = bv -> In v (insns_of (c_f s) bv) -> (i_op xv = PHI -> bv <> f_entry (c_f s)) ->
  insns_of f1 bv = l1 ++ l2 -> grown f1 f2 st bv (K_store a (val_insn v)) (l1 ++ st :: l2) ->
  (if iop_eqb (i_op xv) PHI then (forall i, In i l1 -> is_phi f1 i) /\ (forall z r, l2 = z :: r -> ~ is_phi f1 z) else exists k, l1 = k ++ [v]) ->
  forall b, exists P M, insns_of (c_f s) b = P ++ M /\ (forall i, In i P -> is_phi (c_f s) i) /\ (forall i, In i M -> ~ is_phi (c_f s) i) /\
    insns_of f2 b = P ++ atop s v a st b ++ flat_map (group v st none) M ++ none b.
Proof.
  intros G1 Pv Iv Ne L G2 K b. destruct (split_phis b) as (P & M & LS & HP & HM). exists P, M. split; [exact LS|]. split; [exact HP|]. split; [exact HM|].
  assert (PE : b = f_entry (c_f s) -> P = []).
  { intros ->. destruct P as [|p P]; [reflexivity|]. exfalso. exact (proj2 (sb_entry _ Sb) p (P ++ M) LS (HP p (or_introl eq_refl))). }
  rewrite (gr_insns _ _ _ _ _ _ G2), (gr_insns _ _ _ _ _ _ G1). unfold none at 2. rewrite app_nil_r.
  assert (Q1 : insns_of f1 b = P ++ (if b =? f_entry (c_f s) then [a] else []) ++ M).
  { rewrite (gr_insns _ _ _ _ _ _ G1). destruct (Nat.eqb_spec b (f_entry (c_f s))) as [Qb|N]; [|exact LS]. rewrite <- Qb, LS, (PE Qb). reflexivity. }
  assert (V1 : forall j, j < n -> (is_phi f1 j <-> is_phi (c_f s) j)).
  { intros j Lj. unfold is_phi. destruct (gr_old _ _ _ _ _ _ G1 j ltac:(unfold a; lia)) as (k & ->). destruct (f_insn (c_f s) j) as [x|]; cbn; [|split; intros (y & Y & _); discriminate Y].
    split; intros (y & Y & Py); injection Y as <-; eauto. }
  assert (NVM : b <> bv -> ~ In v M). { intros Nb I. assert (I' : In v (insns_of (c_f s) b)) by (rewrite LS; apply in_or_app; now right). destruct (str_live _ _ I') as (x & X & Px). congruence. }
  unfold atop. rewrite Xv. destruct (iop_eqb (i_op xv) PHI) eqn:O; cbn [andb].
  - apply op_same in O. assert (PhiV : is_phi (c_f s) v) by (exists xv; auto). assert (NV : ~ In v M) by (intros I; exact (HM v I PhiV)). rewrite (flat_none M NV). rewrite Pv. specialize (Ne O).
    destruct (Nat.eqb_spec b bv) as [->|Nb].
    + apply Nat.eqb_neq in Ne. rewrite Ne in *. cbn [app] in *. destruct K as (K1 & K2). rewrite L in Q1.
      assert (l1 = P /\ l2 = M) as (-> & ->); [|reflexivity].
      assert (K1' : forall i, In i l1 -> is_phi (c_f s) i).
      { intros i I. apply V1; [|apply K1; exact I]. apply (str_in_lt bv). rewrite LS, <- Q1. apply in_or_app. now left. }
      assert (K2' : forall z r, l2 = z :: r -> ~ is_phi (c_f s) z).
      { intros z r Q Pz. apply (K2 z r Q). apply V1; [|exact Pz]. apply (str_in_lt bv). rewrite LS, <- Q1. apply in_or_app. right. rewrite Q. now left. }
      clear - K1' K2' HP HM Q1. revert P HP Q1. induction l1 as [|c l1 IH]; intros P HP Q1; destruct P as [|p P]; cbn [app] in *.
      * auto.
      * exfalso. apply (K2' p (P ++ M) Q1). apply HP. now left.
      * exfalso. apply (HM c); [rewrite <- Q1; now left|apply K1'; now left].
      * injection Q1 as <- Q1. destruct (IH (fun i I => K1' i (or_intror I)) P (fun i I => HP i (or_intror I)) Q1) as (-> & ->). auto.
    + rewrite app_nil_r. rewrite <- (gr_insns _ _ _ _ _ _ G1). exact Q1.
  - rewrite app_nil_r. destruct K as (k & ->). destruct (Nat.eqb_spec b bv) as [->|Nb].
    + assert (IM : In v M). { rewrite LS in Iv. apply in_app_iff in Iv as [I|I]; [|exact I]. destruct (HP v I) as (x & X & Ox). rewrite Xv in X. injection X as <-. rewrite Ox in O. discriminate O. }
      apply in_split in IM as (M1 & M2 & ->). pose proof (td_once _ (sb_tidy _ Sb) bv) as ND. rewrite LS in ND.
      assert (ND2 : NoDup (P ++ M1 ++ v :: M2)) by exact ND. rewrite app_assoc in ND2. apply NoDup_remove in ND2 as (_ & ND2). rewrite !in_app_iff in ND2.
      rewrite flat_map_app. cbn [flat_map]. rewrite !flat_none by tauto. unfold group, behind, none. rewrite Nat.eqb_refl. cbn [app].
      assert (QL : k ++ v :: l2 = (P ++ (if bv =? f_entry (c_f s) then [a] else []) ++ M1) ++ v :: M2).
      { rewrite <- !app_assoc. rewrite <- app_assoc in L. cbn [app] in L. rewrite <- L, Q1. reflexivity. }
      assert (NDk : NoDup (k ++ v :: l2)).
      { rewrite <- app_assoc in L. cbn [app] in L. rewrite <- L. rewrite (gr_insns _ _ _ _ _ _ G1). destruct (Nat.eqb_spec bv (f_entry (c_f s))) as [->|N]; [|rewrite LS; exact ND].
        constructor; [|rewrite LS; exact ND]. intros I. apply str_in_lt in I. unfold a in I. lia. }
      destruct (split_same _ _ _ _ _ NDk QL) as (-> & ->). rewrite <- !app_assoc. reflexivity.
    + rewrite (flat_none M (NVM Nb)). rewrite <- (gr_insns _ _ _ _ _ _ G1). exact Q1.
Qed.

Lemma ex_none j : n <= j -> c_ex s j = None.
Proof. intros L. destruct (c_ex s j) eqn:Q; [|reflexivity]. pose proof (sh_ids _ (sb_shape _ Sb) j (or_intror (fun N => eq_ind (c_ex s j) (fun o => match o with Some _ => True | None => False end) ltac:(rewrite Q; exact Logic.I) None N))) as K. unfold n in L. lia. Qed.
Lemma spill_start f1 f2 l1 l2 s1 s2 t : i_op xv <> ALLOC ->
  grown (c_f s) f1 a (f_entry (c_f s)) (K_alloc VR_64) (a :: insns_of (c_f s) (f_entry (c_f s))) -> In v (insns_of (c_f s) (i_parent xv)) -> (i_op xv = PHI -> i_parent xv <> f_entry (c_f s)) ->
  insns_of f1 (i_parent xv) = l1 ++ l2 -> grown f1 f2 st (i_parent xv) (K_store a (val_insn v)) (l1 ++ st :: l2) ->
  (if iop_eqb (i_op xv) PHI then (forall i, In i l1 -> is_phi f1 i) /\ (forall z r, l2 = z :: r -> ~ is_phi f1 z) else exists k, l1 = k ++ [v]) ->
  s1 = put_ex (with_f f1 s) a (ex0 a ALLOC) -> s2 = put_ex (with_f f2 s1) st (ex0 st STORE) -> finalize_stack s2 a = Ok t ->
  spilt s t v a st none none /\ c_f t = f2.
Proof.
  intros _ G1 Iv Ne L G2 K -> -> H.
  pose proof (base_list f1 f2 _ l1 l2 G1 eq_refl Iv Ne L G2 K) as BL.
  pose proof (grown_fresh _ _ _ _ _ _ (sb_fresh _ Sb) G1) as Fr1. pose proof (grown_fresh _ _ _ _ _ _ Fr1 G2) as Fr2.
  assert (Lk1 : linked_ok f1) by exact (grown_linked (c_f s) f1 a (f_entry (c_f s)) (K_alloc VR_64) [] _ (sb_fresh _ Sb) (td_linked _ (sb_tidy _ Sb)) eq_refl G1).
  assert (On1 : forall b, NoDup (insns_of f1 b)) by exact (grown_once (c_f s) f1 a (f_entry (c_f s)) (K_alloc VR_64) [] _ (sb_fresh _ Sb) (td_linked _ (sb_tidy _ Sb)) (td_once _ (sb_tidy _ Sb)) eq_refl G1).
  unfold finalize_stack, get_new_spill in H. cbn [c_off put_ex with_f with_off with_ex] in H. bo H e He.
  unfold get_ex in He. cbn [c_ex put_ex with_f with_off with_ex] in He. unfold upd in He. replace (a =? st) with false in He by (symmetry; apply Nat.eqb_neq; unfold a, st; lia). rewrite Nat.eqb_refl in He. injection He as <-. cbn [x_pos ex0 vp_reg] in H. injection H as <-.
  split; [|reflexivity].
  assert (NI : f_ni f2 = S st) by apply (gr_ni _ _ _ _ _ _ G2).
  assert (OLD : forall j, j < n -> exists k, f_insn f2 j = option_map (set_users k) (f_insn (c_f s) j)).
  { intros j Lj. destruct (gr_old _ _ _ _ _ _ G2 j ltac:(unfold st; lia)) as (k2 & ->). destruct (gr_old _ _ _ _ _ _ G1 j ltac:(unfold a; lia)) as (k1 & ->). exists k2. destruct (f_insn (c_f s) j); reflexivity. }
  constructor; cbn [c_f c_ex c_reach c_regs c_sp c_args c_off with_f put_ex with_off with_ex].
  - split; [reflexivity|]. split; [reflexivity|]. rewrite NI. lia.
  - exact Fr2.
  - auto.
  - split; [rewrite (gr_entry _ _ _ _ _ _ G2); apply (gr_entry _ _ _ _ _ _ G1)|]. split; [intros b; rewrite (gr_dom _ _ _ _ _ _ G2); apply (gr_dom _ _ _ _ _ _ G1)|].
    split; intros b; [rewrite (gr_succs _ _ _ _ _ _ G2); apply (gr_succs _ _ _ _ _ _ G1)|rewrite (gr_preds _ _ _ _ _ _ G2); apply (gr_preds _ _ _ _ _ _ G1)].
  - intros j x X. destruct (OLD j (str_lt _ _ X)) as (k & ->). rewrite X. eexists. split; [reflexivity|]. apply edited_users.
  - intros j Lj X. destruct (OLD j Lj) as (k & ->). now rewrite X.
  - intros j Lj. unfold upd. destruct (Nat.eqb_spec j a); [unfold a in *; lia|]. destruct (Nat.eqb_spec j st); [unfold a, st in *; lia|]. destruct (Nat.eqb_spec j a); [unfold a in *; lia|]. reflexivity.
  - split; [|unfold upd; now rewrite Nat.eqb_refl]. destruct (gr_old _ _ _ _ _ _ G2 a ltac:(unfold a, st; lia)) as (k2 & ->). destruct (gr_new _ _ _ _ _ _ G1) as (k1 & ->). exists k2. reflexivity.
  - split; [|unfold upd; destruct (Nat.eqb_spec st a); [unfold a, st in *; lia|]; now rewrite Nat.eqb_refl]. destruct (gr_new _ _ _ _ _ _ G2) as (k1 & ->). exists k1, (i_parent xv). reflexivity.
  - intros l Ll. rewrite NI in Ll. lia.
  - intros j Lj. rewrite NI in Lj. unfold upd. destruct (Nat.eqb_spec j a); [unfold a, st in *; lia|]. destruct (Nat.eqb_spec j st); [unfold a, st in *; lia|]. destruct (Nat.eqb_spec j a); [unfold a in *; lia|].
    apply ex_none. unfold st in Lj. clear - Lj. lia.
  - intros j l [].
  - intros b l [].
  - exact BL.
  - exact (grown_linked _ _ _ _ _ _ _ Fr1 Lk1 L G2).
  - exact (grown_once _ _ _ _ _ _ _ Fr1 Lk1 On1 L G2).
Qed.
Lemma v_place : In v (insns_of (c_f s) (i_parent xv)) /\ In (i_parent xv) (c_reach s).
Proof. destruct Tv as ((b & B & I) & _). destruct (str_live _ _ I) as (x & X & P). rewrite Xv in X. injection X as <-. subst b. auto. Qed.

Theorem spill_one_spilt t : i_op xv <> ALLOC -> spill_one s v = Ok t -> exists pre tail, spilt s t v a st pre tail /\ users_ok (c_f t).
Proof.
  intros NA H. destruct v_place as (Iv & Bv). unfold spill_one in H. rewrite (proj2 (get_insn_ok _ _ _) Xv) in H. cbn [bind] in H. destruct (_ || _); [discriminate H|].
  destruct (iop_eqb (i_op xv) ALLOC) eqn:OA; [apply op_same in OA; contradiction|].
  bo H c Hc. unfold cg_create_bb in Hc. bo Hc r Hr. destruct r as [f1 i1]. cbn [fst snd] in Hc. injection Hc as <-. cbn [fst snd] in H.
  assert (Li : forall b j, In j (insns_of (c_f s) b) -> f_insn (c_f s) j <> None) by (intros b j I; destruct (str_live _ _ I) as (x & X & _); congruence).
  destruct (proj2 (rd_reach _ (sb_ready _ Sb)) _ (proj1 (sb_entry _ Sb))) as (be & Be).
  assert (Be2 : f_block (c_f s) (f_entry (c_f s)) <> None) by congruence.
  destruct (new_at_bb _ _ _ _ _ _ (sb_fresh _ Sb) (Li _) Be2 Hr) as ((l1 & l2 & (L & PL & PL2) & G1) & C1).
  assert (l1 = []) as ->. { destruct l1 as [|p l1]; [reflexivity|]. destruct (proj2 (sb_entry _ Sb) p (l1 ++ l2) L). apply PL. now left. }
  cbn [app] in L, G1. rewrite <- L in G1. assert (Ea : i1 = a) by exact (gr_id _ _ _ _ _ _ G1). rewrite Ea in *. clear Ea i1.
  change (i_op (build (f_entry (c_f s)) (K_alloc VR_64))) with ALLOC in H. set (s1 := put_ex (with_f f1 s) a (ex0 a ALLOC)) in *.
  bo H d Hd. unfold cg_create in Hd. bo Hd r Hr2. destruct r as [f2 i2]. cbn [fst snd] in Hd. injection Hd as <-. cbn [fst snd] in H. change (c_f s1) with f1 in Hr2.
  change (i_op (build 0 (K_store a (val_insn v)))) with STORE in H. set (s2 := put_ex (with_f f2 s1) i2 (ex0 i2 STORE)) in *. bo H s3 Hs.
  pose proof (grown_fresh _ _ _ _ _ _ (sb_fresh _ Sb) G1) as Fr1.
  destruct (gr_old _ _ _ _ _ _ G1 v ltac:(pose proof str_v; unfold a; lia)) as (kv & Yv). rewrite Xv in Yv. cbn [option_map] in Yv.
  assert (Lk1 : linked_ok f1) by exact (grown_linked (c_f s) f1 a (f_entry (c_f s)) (K_alloc VR_64) [] _ (sb_fresh _ Sb) (td_linked _ (sb_tidy _ Sb)) eq_refl G1).
  assert (On1 : forall b, NoDup (insns_of f1 b)) by exact (grown_once (c_f s) f1 a (f_entry (c_f s)) (K_alloc VR_64) [] _ (sb_fresh _ Sb) (td_linked _ (sb_tidy _ Sb)) (td_once _ (sb_tidy _ Sb)) eq_refl G1).
  assert (Li1 : forall b j, In j (insns_of f1 b) -> f_insn f1 j <> None) by (intros b j I; destruct (Lk1 _ _ I) as (x & X & _); congruence).
  assert (B1 : f_block f1 (i_parent xv) <> None). { destruct (proj2 (rd_reach _ (sb_ready _ Sb)) _ Bv) as (bb & Bb). intros Q. apply (gr_dom _ _ _ _ _ _ G1) in Q. congruence. }
  assert (Ne : i_op xv = PHI -> i_parent xv <> f_entry (c_f s)).
  { intros O Q. destruct (split_phis (i_parent xv)) as (P & M & LS & HP & HM). rewrite Q in *. destruct P as [|p P].
    - apply (HM v); [rewrite LS in Iv; exact Iv|]. exists xv. auto.
    - exact (proj2 (sb_entry _ Sb) p (P ++ M) LS (HP p (or_introl eq_refl))). }
  assert (exists k1 k2, insns_of f1 (i_parent xv) = k1 ++ k2 /\ grown f1 f2 i2 (i_parent xv) (K_store a (val_insn v)) (k1 ++ i2 :: k2) /\ counts f1 f2 i2 (operands (build (i_parent xv) (K_store a (val_insn v)))) /\
    (if iop_eqb (i_op xv) PHI then (forall i, In i k1 -> is_phi f1 i) /\ (forall z r, k2 = z :: r -> ~ is_phi f1 z) else exists k, k1 = k ++ [v])) as (k1 & k2 & L1 & G2 & C2 & K).
  { destruct (iop_eqb (i_op xv) PHI) eqn:O.
    - apply op_same in O. destruct (new_at_phi f1 v (set_users kv xv) (K_store a (val_insn v)) P_BACK f2 i2 Fr1 Yv O ltac:(discriminate) (Li1 _) B1 Hr2) as ((k1 & k2 & (PL3 & PL4) & G2) & C2). exists k1, k2. split; [exact PL3|]. split; [exact G2|]. split; [exact C2|exact PL4].
    - assert (NP : i_op (set_users kv xv) <> PHI). { cbn. intros Q. rewrite Q in O. discriminate O. }
      assert (I1 : In v (insns_of f1 (i_parent xv))). { rewrite (gr_insns _ _ _ _ _ _ G1). destruct (_ =? _) eqn:Q; [|exact Iv]. apply Nat.eqb_eq in Q. rewrite <- Q. now right. }
      apply in_split in I1 as (k1 & k2 & L1). pose proof (On1 (i_parent xv)) as ND. rewrite L1 in ND. apply NoDup_remove in ND as (_ & ND). rewrite in_app_iff in ND.
      destruct (new_at f1 v (set_users kv xv) (K_store a (val_insn v)) P_BACK f2 i2 k1 k2 Fr1 Yv NP ltac:(discriminate) B1 L1 ltac:(tauto) (or_intror eq_refl) Hr2) as (G2 & C2).
      exists (k1 ++ [v]), k2. cbv iota in G2. cbn [i_parent set_users] in G2, C2. rewrite <- !app_assoc. cbn [app]. split; [exact L1|]. split; [exact G2|]. split; [exact C2|]. eauto. }
  assert (Ei : i2 = st). { pose proof (gr_id _ _ _ _ _ _ G2) as Q. rewrite Q, (gr_ni _ _ _ _ _ _ G1). reflexivity. }
  subst i2.
  destruct (spill_start f1 f2 k1 k2 s1 s2 s3 NA G1 Iv Ne L1 G2 K eq_refl eq_refl Hs) as (W & Ef).
  assert (U : users_ok (c_f s3)).
  { rewrite Ef. apply (grown_users _ _ _ _ _ _ Fr1 G2 C2). apply (grown_users _ _ _ _ _ _ (sb_fresh _ Sb) G1 C1). apply (td_users _ (sb_tidy _ Sb)). }
  refine (users_done _ _ _ _ _ _ W U H). intros u Iu. assert (P : 0 < uses (c_f s) u v).
  { destruct (td_users _ (sb_tidy _ Sb) u v) as (_ & Q). assert (I2 : In u (users_of (c_f s) v)) by (unfold users_of; rewrite Xv; exact Iu). rewrite (count_occ_In Nat.eq_dec) in I2. lia. }
  exact (td_placed _ (sb_tidy _ Sb) u v P).
Qed.
End One.
