(** What phi removal and flattening make of a function. *)
From Coq Require Import ZArith List Bool Arith Lia.
From Verif Require Import M_Base M_Ir M_Norm M_Edit M_Ra SpecWord SpecFlat SpecProg SpecSsa SpecIr SpecRa SpecPass SpecShift SpecVirt
  L_Edit L_Uses L_Word L_RaGraph L_RaLive L_Frame L_Shift L_Virt L_Prog.
From Verif Require Import SpecVirt L_Virt.
Import ListNotations.
Open Scope nat_scope.

(** ** Instructions equal up to their operands and users *)
Record match_insn (Rv : value -> value -> Prop) (x x' : insn) : Prop := {
  mi_rest : i_op x' = i_op x /\ i_vrt x' = i_vrt x /\ i_alu x' = i_alu x /\ i_bb1 x' = i_bb1 x /\ i_bb2 x' = i_bb2 x /\
            i_u x' = i_u x /\ i_ity x' = i_ity x /\ i_imm64 x' = i_imm64 x /\ i_parent x' = i_parent x;
  mi_vals : Forall2 Rv (i_vals x) (i_vals x');
  mi_phi : Forall2 (fun e e' => Rv (fst e) (fst e') /\ snd e' = snd e) (i_phi x) (i_phi x');
  mi_addr : Rv (a_val (i_addr x)) (a_val (i_addr x')) /\ a_off (i_addr x') = a_off (i_addr x) /\ a_ot (i_addr x') = a_ot (i_addr x) }.
Definition osame (Rv : value -> value -> Prop) (a b : option insn) : Prop :=
  match a, b with Some x, Some y => match_insn Rv x y | None, None => True | _, _ => False end.

Lemma F2_impl {A B} (P Q : A -> B -> Prop) l l' : (forall a b, P a b -> Q a b) -> Forall2 P l l' -> Forall2 Q l l'.
Proof. intros H F. induction F; constructor; auto. Qed.
Lemma Forall2_self {A} (P : A -> A -> Prop) l : (forall a, P a a) -> Forall2 P l l.
Proof. intros H. induction l; constructor; auto. Qed.
Lemma Forall2_comp {A} (P Q T : A -> A -> Prop) : (forall a b c, P a b -> Q b c -> T a c) ->
  forall l1 l2, Forall2 P l1 l2 -> forall l3, Forall2 Q l2 l3 -> Forall2 T l1 l3.
Proof. intros H l1 l2 F. induction F; intros l3 G; inversion G; subst; constructor; eauto. Qed.
Lemma match_comp (P Q T : value -> value -> Prop) x y z : (forall a b c, P a b -> Q b c -> T a c) -> match_insn P x y -> match_insn Q y z -> match_insn T x z.
Proof.
  intros H [(A1 & A2 & A3 & A4 & A5 & A6 & A7 & A8 & A9) B C (D1 & D2 & D3)] [(A1' & A2' & A3' & A4' & A5' & A6' & A7' & A8' & A9') B' C' (D1' & D2' & D3')]. constructor.
  - repeat split; congruence.
  - exact (Forall2_comp _ _ _ H _ _ B _ B').
  - refine (Forall2_comp _ _ _ _ _ _ C _ C'). intros a b c (E1 & E2) (E3 & E4). split; [eauto|congruence].
  - repeat split; [eauto|congruence|congruence].
Qed.
Lemma match_users (P : value -> value -> Prop) l x : (forall v, P v v) -> match_insn P x (set_users l x).
Proof. intros H. constructor; cbn; [repeat split|now apply Forall2_self|apply Forall2_self; auto|auto]. Qed.
Lemma osame_comp (P Q T : value -> value -> Prop) a b c : (forall x y z, P x y -> Q y z -> T x z) -> osame P a b -> osame Q b c -> osame T a c.
Proof. intros H. destruct a, b, c; cbn; try tauto. apply match_comp. exact H. Qed.

(** replacing [i] by [rep] in some operands *)
Definition n1 (i : nat) (rep v v' : value) : Prop := v' = v \/ (v_data v = VInsn i /\ v' = rep).
Lemma n1_refl i rep v : n1 i rep v v. Proof. now left. Qed.
Lemma n1_trans i rep a b c : n1 i rep a b -> n1 i rep b c -> n1 i rep a c.
Proof. intros [->|(A & ->)] [->|(B & ->)]; unfold n1; auto. Qed.
Record nudged (i : nat) (rep : value) (f g : func) : Prop := {
  nu_insn : forall j, osame (n1 i rep) (f_insn f j) (f_insn g j);
  nu_block : forall b, f_block g b = f_block f b;
  nu_ni : f_ni g = f_ni f }.
Lemma osame_refl (P : value -> value -> Prop) a : (forall v, P v v) -> osame P a a.
Proof. intros H. destruct a as [x|]; cbn; [|exact I]. rewrite <- (set_users_id x) at 2. now apply match_users. Qed.
Lemma nudged_refl i rep f : nudged i rep f f.
Proof. constructor; auto. intros j. apply osame_refl, n1_refl. Qed.
Lemma nudged_trans i rep f g h : nudged i rep f g -> nudged i rep g h -> nudged i rep f h.
Proof.
  intros [A B C] [A' B' C']. constructor; [|intros; rewrite B'; apply B|congruence]. intros j. eapply osame_comp; [apply n1_trans|apply A|apply A'].
Qed.
Lemma users_nudged i rep f g : users_edit f g -> nudged i rep f g.
Proof.
  intros U. constructor; [|apply (ue_block _ _ U)|apply (ue_ni _ _ U)]. intros j. destruct (ue_rec _ _ U j) as (l & E). rewrite E. destruct (f_insn f j); cbn; [|exact I].
  apply match_users, n1_refl.
Qed.
Lemma subst_n1 d rep v : n1 d rep v (subst_val d rep v).
Proof. unfold n1, subst_val, val_target. destruct (v_data v) eqn:E; auto. destruct (Nat.eqb_spec i d) as [->|]; auto. Qed.
Lemma Forall2_map_r {A B} (P : A -> B -> Prop) (f : A -> B) l : (forall a, P a (f a)) -> Forall2 P l (map f l).
Proof. intros H. induction l; cbn; constructor; auto. Qed.
Lemma subst_match d rep x : match_insn (n1 d rep) x (subst_insn d rep x).
Proof.
  unfold subst_insn. destruct (iop_eqb (i_op x) PHI) eqn:P, (iop_eqb (i_op x) LOADRAW || iop_eqb (i_op x) STORERAW) eqn:Q; constructor; cbn;
    try (repeat split; fail); try (apply Forall2_map_r; intros; try split; cbn; auto using subst_n1; fail); try (apply Forall2_self; intros; split; auto using n1_refl; fail);
    try (repeat split; auto using subst_n1, n1_refl; fail).
Qed.
Lemma replace_user_nudged d rep f u g : replace_in_user d rep f u = Ok g -> nudged d rep f g.
Proof.
  unfold replace_in_user. intros H. bo H x Ex. apply get_insn_ok in Ex. apply add_user_n_spec in H as (U & _).
  apply (nudged_trans _ _ _ (put_insn f u (subst_insn d rep x))); [|now apply users_nudged]. constructor; try reflexivity.
  intros j. rewrite f_insn_put. destruct (Nat.eqb_spec j u) as [->|]; [|apply osame_refl, n1_refl]. rewrite Ex. cbn. apply subst_match.
Qed.
Lemma replace_all_nudged d rep f g : replace_all f d rep = Ok g -> nudged d rep f g.
Proof.
  unfold replace_all. intros H. bo H x Ex. apply get_insn_ok in Ex.
  assert (K : nudged d rep f (put_insn f d (set_users [] x))) by (apply users_nudged; now apply put_users_edit). revert H K. generalize (put_insn f d (set_users [] x)).
  generalize (i_users x). intros l. induction l as [|a l IH]; intros f1 H K; cbn [ofold] in H; [now oks H|]. bo H f2 E2. apply (IH f2 H).
  apply (nudged_trans _ _ _ f1); [exact K|]. exact (replace_user_nudged _ _ _ _ _ E2).
Qed.

Lemma exists_last_or {A} (l : list A) : l = [] \/ exists l' a, l = l' ++ [a].
Proof. destruct l as [|a l]; [now left|right]. destruct (exists_last (l := a :: l)) as (l' & z & E); [discriminate|]. eauto. Qed.

Lemma NoDup_left {A} (l r : list A) : NoDup (l ++ r) -> NoDup l.
Proof. induction l as [|a l IH]; cbn; intros H; [constructor|]. inversion H; subst. constructor; [|auto]. intros K. apply H2. apply in_or_app. now left. Qed.

Section Out.
Context (s u1 : cgs) (o : Z).
Hypothesis R : ready s.
Hypothesis Sh : shape s.
Hypothesis Er : c_reach u1 = c_reach s.
Hypothesis Eg : c_regs u1 = c_regs s.
Hypothesis En : f_ni (c_f u1) = f_ni (c_f s).
Hypothesis Eb : forall b, f_block (c_f u1) b = f_block (c_f s) b.
Hypothesis Ei : forall i x, f_insn (c_f s) i = Some x -> linked s i -> exists y, f_insn (c_f u1) i = Some y /\ filled o x y.
Hypothesis Eo : forall i, ~ linked s i -> f_insn (c_f u1) i = f_insn (c_f s) i.
Hypothesis Ex : forall i, c_ex u1 i = None <-> c_ex s i = None.
Hypothesis Ereg : forall k r, nth_error (c_regs s) k = Some r -> exists e, c_ex u1 r = Some e /\ vp_alloc (x_pos e) = true /\ vp_spilled (x_pos e) = 0%Z /\ vp_reg (x_pos e) = Z.of_nat k.
Hypothesis Epos : forall i x, linked s i -> f_insn (c_f s) i = Some x -> i_op x = PHI -> exists e, c_ex u1 i = Some e /\ vp_alloc (x_pos e) = true /\ vp_spilled (x_pos e) = 0%Z.
Hypothesis Ed : forall i e e', c_ex s i = Some e -> c_ex u1 i = Some e' -> x_dst e' = x_dst e.

Definition place (d d' : nat) : Prop := d = d' \/ ((exists x, f_insn (c_f u1) d = Some x /\ i_op x = PHI) /\
  exists e e', c_ex u1 d = Some e /\ c_ex u1 d' = Some e' /\ poseq (x_pos e') (x_pos e)).
Lemma place_trans a b c : place a b -> place b c -> place a c.
Proof.
  intros [->|(P & e & e1 & A & B & C)]; [auto|]. intros [<-|(P' & e' & e2 & A' & B' & C')]; right; (split; [exact P|]).
  - exists e, e1. auto.
  - exists e, e2. rewrite B in A'. injection A' as ->. split; [exact A|]. split; [exact B'|]. unfold poseq in *. intuition congruence.
Qed.
Definition vrel (v v' : value) : Prop := match v_data v with VInsn d => exists d', v_data v' = VInsn d' /\ place d d' | _ => v' = v end.
Lemma vrel_refl v : vrel v v.
Proof. unfold vrel. destruct (v_data v) eqn:E; auto. exists i. split; auto. now left. Qed.
Lemma vrel_n1 i r v v' v'' : place i r -> vrel v v' -> n1 i (val_insn r) v' v'' -> vrel v v''.
Proof.
  intros P A [->|(B & ->)]; [exact A|]. unfold vrel in *. destruct (v_data v) eqn:E; try (subst v'; congruence). destruct A as (d' & D & Pl). rewrite B in D. injection D as <-.
  exists r. split; [reflexivity|]. exact (place_trans _ _ _ Pl P).
Qed.

(** the three parts of a block *)
Definition is_phib (i : nat) : bool := match f_insn (c_f s) i with Some x => iop_eqb (i_op x) PHI | None => false end.
Definition is_jmpb (i : nat) : bool := match f_insn (c_f s) i with Some x => is_jmp_op (i_op x) | None => false end.
Fixpoint headp (l : list nat) : list nat := match l with i :: r => if is_phib i then i :: headp r else [] | [] => [] end.
Fixpoint tailp (l : list nat) : list nat := match l with i :: r => if is_phib i then tailp r else l | [] => [] end.
Definition Pp (b : nat) : list nat := headp (insns_of (c_f s) b).
Definition lastj (l : list nat) : list nat * list nat := match rev l with z :: r => if is_jmpb z then (rev r, [z]) else (l, []) | [] => ([], []) end.
Definition Mp (b : nat) : list nat := fst (lastj (tailp (insns_of (c_f s) b))).
Definition Zp (b : nat) : list nat := snd (lastj (tailp (insns_of (c_f s) b))).
Lemma head_tail l : l = headp l ++ tailp l.
Proof. induction l as [|i l IH]; cbn; [reflexivity|]. destruct (is_phib i); cbn; [now f_equal|reflexivity]. Qed.
Lemma lastj_app l : l = fst (lastj l) ++ snd (lastj l).
Proof.
  unfold lastj. destruct (rev l) as [|z r] eqn:E.
  - assert (K : rev (rev l) = []) by now rewrite E. rewrite rev_involutive in K. now subst.
  - destruct (is_jmpb z); cbn; [|now rewrite app_nil_r]. assert (K : rev (rev l) = rev (z :: r)) by now rewrite E. rewrite rev_involutive in K. exact K.
Qed.
Lemma parts b : insns_of (c_f s) b = Pp b ++ Mp b ++ Zp b.
Proof. unfold Pp, Mp, Zp. rewrite <- lastj_app. apply head_tail. Qed.
Lemma phib_in i : is_phib i = true <-> phi_in s i.
Proof.
  unfold is_phib, phi_in. destruct (f_insn (c_f s) i) as [x|]; [|split; [discriminate|intros (x & X & _); discriminate X]]. split.
  - intros H. exists x. split; [reflexivity|]. destruct (i_op x); cbn in H; congruence.
  - intros (y & Y & O). injection Y as <-. now rewrite O.
Qed.
Lemma Pp_phis b : Forall (phi_in s) (Pp b).
Proof. unfold Pp. induction (insns_of (c_f s) b) as [|i l IH]; cbn; [constructor|]. destruct (is_phib i) eqn:E; constructor; auto. now apply phib_in. Qed.
Lemma tail_head b i l : Mp b ++ Zp b = i :: l -> ~ phi_in s i.
Proof.
  unfold Mp, Zp. rewrite <- lastj_app. induction (insns_of (c_f s) b) as [|a r IH]; cbn; [discriminate|]. destruct (is_phib a) eqn:E; [exact IH|].
  intros H P. injection H as <- _. apply phib_in in P. congruence.
Qed.
Lemma Zp_cases b : (Zp b = [] /\ forall l z, Mp b = l ++ [z] -> is_jmpb z = false) \/ (exists z, Zp b = [z] /\ is_jmpb z = true).
Proof.
  unfold Zp, Mp, lastj. destruct (rev (tailp (insns_of (c_f s) b))) as [|z r] eqn:E.
  - left. split; [reflexivity|]. intros l z H. destruct l; discriminate H.
  - destruct (is_jmpb z) eqn:J; [right; exists z; split; [reflexivity|exact J]|left]. split; [reflexivity|]. cbn. intros l z' H. rewrite H, rev_app_distr in E. cbn in E. injection E as <- _. exact J.
Qed.

(** ** The state in the middle of phi removal *)
Definition alive (dead : list nat) (i : nat) : bool := negb (existsb (Nat.eqb i) dead).
Definition iscopy (t : cgs) (jv : nat * value) (c : nat) : Prop :=
  f_ni (c_f u1) <= c < f_ni (c_f t) /\ exists x v' e ej, f_insn (c_f t) c = Some x /\ i_op x = ASSIGN /\ i_vals x = [v'] /\ vrel (fill_val o (snd jv)) v' /\
    i_alu x <> A_32 /\ c_ex t c = Some e /\ x_dst e = Some c /\ c_ex u1 (fst jv) = Some ej /\ x_pos e = x_pos ej.
Record mid (dead skip : list nat) (cps : nat -> list (nat * value)) (t : cgs) : Prop := {
  md_reach : c_reach t = c_reach s;
  md_regs : c_regs t = c_regs s;
  md_ni : f_ni (c_f u1) <= f_ni (c_f t);
  md_ex : forall i, i < f_ni (c_f u1) -> alive dead i = true -> c_ex t i = c_ex u1 i;
  md_dead : forall i, i < f_ni (c_f u1) -> alive dead i = false -> c_ex t i = None;
  md_old : forall i, i < f_ni (c_f u1) -> alive dead i = true -> ~ In i skip -> osame vrel (f_insn (c_f u1) i) (f_insn (c_f t) i);
  md_skip : forall i, i < f_ni (c_f u1) -> alive dead i = true -> In i skip -> exists x x', f_insn (c_f u1) i = Some x /\
    f_insn (c_f t) i = Some x' /\ i_op x' = i_op x /\ i_parent x' = i_parent x;
  md_block : forall b, In b (c_reach s) -> exists k ids, f_block (c_f s) b = Some k /\
    f_block (c_f t) b = Some (set_insns (filter (alive dead) (Pp b) ++ Mp b ++ ids ++ Zp b) k) /\ Forall2 (iscopy t) (cps b) ids }.

Lemma mid_nudge dead skip cps t i r g : mid dead skip cps t -> place i r -> nudged i (val_insn r) (c_f t) g -> mid dead skip cps (with_f g t).
Proof.
  intros [A B C D E F G H] P [N1 N2 N3]. constructor; cbn [with_f c_reach c_regs c_ex c_f]; auto.
  - now rewrite N3.
  - intros j Lj Aj Sj. eapply osame_comp; [|apply (F j Lj Aj Sj)|apply N1]. intros x y z X Y. exact (vrel_n1 _ _ _ _ _ P X Y).
  - intros j Lj Aj Sj. destruct (G j Lj Aj Sj) as (x & x' & X & X' & O & Q). specialize (N1 j). rewrite X' in N1. cbn in N1. destruct (f_insn g j) as [x2|]; [|contradiction].
    exists x, x2. destruct N1 as [M _ _ _]. repeat split; auto; intuition congruence.
  - intros b Hb. destruct (H b Hb) as (k & ids & K & T & FF). exists k, ids. rewrite N2. split; [exact K|]. split; [exact T|].
    refine (F2_impl _ _ _ _ _ FF). intros jv c (L & x & v' & e & ej & X & O & V & Vr & Al & Ce & Dx & Cj & Ps).
    unfold iscopy. cbn [with_f c_f c_ex]. rewrite N3. split; [exact L|]. specialize (N1 c). rewrite X in N1. cbn in N1. destruct (f_insn g c) as [x2|]; [|contradiction].
    destruct N1 as [M MV _ _]. rewrite V in MV. inversion MV as [|? v2 ? ? V1 V2]; subst. inversion V2; subst.
    exists x2, v2, e, ej. repeat split; auto; try (intuition congruence). exact (vrel_n1 _ _ _ _ _ P Vr V1).
Qed.

Lemma linked_dec i : linked s i \/ ~ linked s i.
Proof.
  destruct (in_dec Nat.eq_dec i (flat_map (insns_of (c_f s)) (c_reach s))) as [H|H]; rewrite in_flat_map in H; [left|right]; unfold linked; exact H.
Qed.
Lemma linked_lt i : linked s i -> i < f_ni (c_f u1).
Proof.
  intros (b & Hb & Hi). rewrite En. apply (sh_ids s Sh). left. destruct (rd_insn s R b i Hb Hi) as (x & _ & X & _). congruence.
Qed.
Lemma op_u1 i : linked s i -> exists x y, f_insn (c_f s) i = Some x /\ f_insn (c_f u1) i = Some y /\ i_op y = i_op x /\ i_parent y = i_parent x.
Proof.
  intros L. destruct L as (b & Hb & Hi). destruct (rd_insn s R b i Hb Hi) as (x & _ & X & _). destruct (Ei i x X) as (y & Y & Fl); [exists b; auto|].
  exists x, y. repeat split; auto; [apply (fi_op _ _ _ Fl)|]. destruct (fi_rest _ _ _ Fl) as (_ & _ & _ & _ & _ & _ & _ & K). exact K.
Qed.
Lemma op_mid dead skip cps t i : mid dead skip cps t -> linked s i -> alive dead i = true -> op_of (c_f t) i = op_of (c_f s) i /\
  exists x', f_insn (c_f t) i = Some x'.
Proof.
  intros M L A. pose proof (linked_lt i L) as Lt. destruct (op_u1 i L) as (x & y & X & Y & O & _). unfold op_of. rewrite X.
  destruct (in_dec Nat.eq_dec i skip) as [S0|S0].
  - destruct (md_skip _ _ _ _ M i Lt A S0) as (y' & x' & Y' & X' & O' & _). rewrite X'. split; [|eauto]. rewrite Y in Y'. injection Y' as <-. congruence.
  - pose proof (md_old _ _ _ _ M i Lt A S0) as K. rewrite Y in K. cbn in K. destruct (f_insn (c_f t) i) as [x'|]; [|contradiction]. split; [|eauto].
    destruct K as [(O' & _) _ _ _]. congruence.
Qed.

(** where a copy goes *)
Lemma insert_place dead skip cps t b ids : mid dead skip cps t -> In b (c_reach s) -> Forall2 (iscopy t) (cps b) ids ->
  (forall i, In i (Mp b ++ Zp b) -> alive dead i = true) -> forall c,
  insert_list_bb (c_f t) c (filter (alive dead) (Pp b) ++ Mp b ++ ids ++ Zp b) P_BACK_BEFORE_JMP =
  filter (alive dead) (Pp b) ++ Mp b ++ (ids ++ [c]) ++ Zp b.
Proof.
  intros M Hb FF Al c. unfold insert_list_bb.
  assert (Lk : forall i, In i (Pp b) \/ In i (Mp b ++ Zp b) -> linked s i).
  { intros i Hi. exists b. split; [exact Hb|]. rewrite parts. apply in_or_app. exact Hi. }
  assert (Jm : forall i, linked s i -> is_jmpb i = is_jmp_op (op_of (c_f s) i)).
  { intros i L. destruct (op_u1 i L) as (x & _ & X & _). unfold is_jmpb, op_of. now rewrite X. }
  destruct (Zp_cases b) as [(Z0 & Hl)|(z & Z1 & Jz)].
  - rewrite Z0, !app_nil_r.
    assert (K : forall l z, filter (alive dead) (Pp b) ++ Mp b ++ ids = l ++ [z] -> is_jmp_op (op_of (c_f t) z) = false).
    { intros l z E. rewrite app_assoc in E. destruct (exists_last_or ids) as [->|(ids' & c' & ->)].
      - rewrite app_nil_r in E. destruct (exists_last_or (Mp b)) as [M0|(m' & z' & M0)].
        + rewrite M0, app_nil_r in E. assert (Hz : In z (filter (alive dead) (Pp b))) by (rewrite E; apply in_or_app; right; now left).
          apply filter_In in Hz as (Hz & Az). pose proof (Pp_phis b) as FP. rewrite Forall_forall in FP. destruct (FP z Hz) as (x & X & O).
          destruct (op_mid _ _ _ _ z M (Lk z (or_introl Hz)) Az) as (K & _). rewrite K. unfold op_of. rewrite X, O. reflexivity.
        + rewrite M0, app_assoc in E. apply app_inj_tail in E as (_ & <-). pose proof (Hl m' z' M0) as J.
          assert (Iz : In z' (Mp b ++ Zp b)) by (rewrite M0; apply in_or_app; left; apply in_or_app; right; now left).
          destruct (op_mid _ _ _ _ z' M (Lk z' (or_intror Iz)) (Al z' Iz)) as (K & _). rewrite K, <- Jm; auto.
      - rewrite app_assoc in E. apply app_inj_tail in E as (_ & <-). apply Forall2_app_inv_r in FF as (c1 & c2 & _ & F2 & _).
        inversion F2 as [|? ? ? ? (_ & x & v' & e & ej & X & O & _) _]; subst. unfold op_of. rewrite X, O. reflexivity. }
    destruct (rev (filter (alive dead) (Pp b) ++ Mp b ++ ids)) as [|z r] eqn:E.
    + now rewrite <- !app_assoc.
    + assert (Q : filter (alive dead) (Pp b) ++ Mp b ++ ids = rev r ++ [z]) by (rewrite <- (rev_involutive (_ ++ _)), E; reflexivity).
      rewrite (K _ _ Q). now rewrite <- !app_assoc.
  - rewrite Z1. replace (filter (alive dead) (Pp b) ++ Mp b ++ ids ++ [z]) with ((filter (alive dead) (Pp b) ++ Mp b ++ ids) ++ [z]) by now rewrite <- !app_assoc.
    rewrite rev_app_distr. cbn [rev app]. assert (Iz : In z (Mp b ++ Zp b)) by (rewrite Z1; apply in_or_app; right; now left).
    destruct (op_mid _ _ _ _ z M (Lk z (or_intror Iz)) (Al z Iz)) as (K & _). rewrite K, <- Jm by auto. rewrite Jz, rev_involutive. now rewrite <- !app_assoc.
Qed.

(** no phi is removed but those at the head of a block *)
Definition only_heads (dead : list nat) : Prop := forall i, In i dead -> exists b, In b (c_reach s) /\ In i (Pp b).
Lemma alive_iff dead i : alive dead i = true <-> ~ In i dead.
Proof.
  unfold alive. rewrite negb_true_iff. split.
  - intros H I. assert (K : existsb (Nat.eqb i) dead = true) by (apply existsb_exists; exists i; split; [exact I|apply Nat.eqb_refl]). congruence.
  - intros H. destruct (existsb (Nat.eqb i) dead) eqn:E; [|reflexivity]. apply existsb_exists in E as (x & I & Q). apply Nat.eqb_eq in Q. subst. contradiction.
Qed.
Lemma nodup_block b : In b (c_reach s) -> NoDup (Pp b ++ Mp b ++ Zp b).
Proof. intros Hb. rewrite <- parts. exact (rd_once s R b Hb). Qed.
Lemma unique_block b b' i : In b (c_reach s) -> In b' (c_reach s) -> In i (insns_of (c_f s) b) -> In i (insns_of (c_f s) b') -> b = b'.
Proof.
  intros H H' I I'. destruct (rd_insn s R b i H I) as (x & _ & X & P & _). destruct (rd_insn s R b' i H' I') as (x' & _ & X' & P' & _). congruence.
Qed.
Lemma rest_alive dead b i : only_heads dead -> In b (c_reach s) -> In i (Mp b ++ Zp b) -> alive dead i = true.
Proof.
  intros O Hb Hi. apply alive_iff. intros D. destruct (O i D) as (b' & Hb' & Ip).
  assert (b = b') as <-. { apply (unique_block b b' i Hb Hb'); rewrite parts; apply in_or_app; [now right|now left]. }
  pose proof (nodup_block b Hb) as Nd. clear - Nd Ip Hi. induction (Pp b) as [|a l IH]; [contradiction|]. cbn in Nd. inversion Nd as [|? ? Na Nd']; subst.
  destruct Ip as [->|Ip]; [|auto]. apply Na. apply in_or_app. now right.
Qed.


Lemma insert_cong f g c l : (forall z, In z l -> op_of g z = op_of f z) -> insert_list_bb g c l P_BACK_BEFORE_JMP = insert_list_bb f c l P_BACK_BEFORE_JMP.
Proof.
  intros H. unfold insert_list_bb. destruct (rev l) as [|z r] eqn:E; [reflexivity|]. rewrite H; [reflexivity|]. apply in_rev. rewrite E. now left.
Qed.
Lemma phi_copy_shape t j p v' b t' : phi_copy j p t (v', b) = Ok t' -> exists k, f_block (c_f t) b = Some k /\
  c_reach t' = c_reach t /\ c_regs t' = c_regs t /\ f_ni (c_f t') = S (f_ni (c_f t)) /\
  (forall i, c_ex t' i = if i =? f_ni (c_f t) then Some (set_pos p (ex0 (f_ni (c_f t)) ASSIGN)) else c_ex t i) /\
  (forall i, exists l, f_insn (c_f t') i = option_map (set_users l) (if i =? f_ni (c_f t) then Some (build b (K_assign v')) else f_insn (c_f t) i)) /\
  (forall b', b' <> b -> f_block (c_f t') b' = f_block (c_f t) b') /\
  (In (f_ni (c_f t)) (b_insns k) \/ f_block (c_f t') b = Some (set_insns (insert_list_bb (c_f t) (f_ni (c_f t)) (b_insns k) P_BACK_BEFORE_JMP) k)).
Proof.
  intros H. unfold phi_copy in H. cbn [fst snd] in H. bo H c Ec. bo H y Ey. apply get_ex_ok in Ey. unfold in_func in H. bo H g Eg'. oks H.
  apply remove_user_spec in Eg' as (U3 & _).
  unfold cg_create_bb in Ec. bo Ec r Er'. oks Ec. cbn [fst snd] in *. unfold create_at_bb in Er'. bo Er' r1 Er1. bo Er' f2 Ef2. oks Er'. cbn [fst snd] in *.
  unfold create_insn in Er1. bo Er1 f3 Ef3. oks Er1. cbn [fst snd] in *. apply fold_add_spec in Ef3 as (U1 & _).
  unfold insert_at_bb in Ef2. bo Ef2 k Ek. apply get_block_ok in Ek. oks Ef2.
  rewrite (ue_block _ _ U1) in Ek. cbn in Ek. exists k. split; [exact Ek|].
  cbn [put_ex with_ex c_ex with_f c_f c_reach c_regs] in *. unfold upd in Ey at 1. rewrite Nat.eqb_refl in Ey. injection Ey as <-.
  split; [reflexivity|]. split; [reflexivity|]. split; [rewrite (ue_ni _ _ U3); cbn; rewrite (ue_ni _ _ U1); reflexivity|].
  split.
  { intros i. unfold upd. now destruct (i =? f_ni (c_f t)). }
  split.
  { intros i. destruct (ue_rec _ _ U3 i) as (l & E). destruct (ue_rec _ _ U1 i) as (l' & E'). exists l. rewrite E. cbn [put_block with_block f_insn]. rewrite E'. cbn [f_insn].
    unfold upd. destruct (i =? f_ni (c_f t)); [reflexivity|]. now destruct (f_insn (c_f t) i). }
  split.
  { intros b' Hb. rewrite (ue_block _ _ U3). unfold put_block, with_block, upd. cbn [f_block]. destruct (Nat.eqb_spec b' b); [contradiction|]. now rewrite (ue_block _ _ U1). }
  destruct (in_dec Nat.eq_dec (f_ni (c_f t)) (b_insns k)) as [I|I]; [now left|right].
  rewrite (ue_block _ _ U3). unfold put_block, with_block, upd. cbn [f_block]. rewrite Nat.eqb_refl. f_equal. f_equal. apply insert_cong. intros z Hz.
  unfold op_of. destruct (ue_rec _ _ U1 z) as (l' & E'). rewrite E'. cbn [f_insn]. unfold upd. destruct (Nat.eqb_spec z (f_ni (c_f t))) as [->|]; [contradiction|].
  now destruct (f_insn (c_f t) z).
Qed.

Lemma iscopy_step t t' : f_ni (c_f t) <= f_ni (c_f t') -> (forall i, i < f_ni (c_f t) -> exists l, f_insn (c_f t') i = option_map (set_users l) (f_insn (c_f t) i)) ->
  (forall i, f_ni (c_f u1) <= i < f_ni (c_f t) -> c_ex t' i = c_ex t i) -> forall jv c, iscopy t jv c -> iscopy t' jv c.
Proof.
  intros L U E jv c (Lc & x & v' & e & ej & X & O & V & Vr & Al & Ce & D & Cj & Ps). split; [lia|].
  destruct (U c (proj2 Lc)) as (l & Q). rewrite X in Q. cbn in Q. exists (set_users l x), v', e, ej. rewrite (E c Lc). repeat split; auto.
Qed.
Lemma vrel_eq a b c : vrel a b -> b = c -> vrel a c. Proof. intros H <-. exact H. Qed.
Lemma mid_phi_copy dead skip cps t j v v' b ej t' : mid dead skip cps t -> only_heads dead -> In b (c_reach s) ->
  vrel (fill_val o v) v' -> c_ex u1 j = Some ej ->
  phi_copy j (x_pos ej) t (v', b) = Ok t' -> mid dead skip (fun c => if c =? b then cps c ++ [(j, v)] else cps c) t'.
Proof.
  intros M Oh Hb Vr Ej H. destruct (phi_copy_shape _ _ _ _ _ _ H) as (k & Bk & Q1 & Q2 & Q3 & Q4 & Q5 & Q6 & Q7). clear H.
  pose proof (md_ni _ _ _ _ M) as Lni. set (c := f_ni (c_f t)) in *.
  assert (Ic : forall jv c', iscopy t jv c' -> iscopy t' jv c').
  { apply iscopy_step; [lia| |].
    - intros i Li. destruct (Q5 i) as (l & E). exists l. rewrite E. destruct (Nat.eqb_spec i c); [lia|reflexivity].
    - intros i Li. rewrite Q4. destruct (Nat.eqb_spec i c); [lia|reflexivity]. }
  constructor.
  - rewrite Q1. apply (md_reach _ _ _ _ M).
  - rewrite Q2. apply (md_regs _ _ _ _ M).
  - lia.
  - intros i Li Ai. rewrite Q4. destruct (Nat.eqb_spec i c); [lia|]. now apply (md_ex _ _ _ _ M).
  - intros i Li Ai. rewrite Q4. destruct (Nat.eqb_spec i c); [lia|]. now apply (md_dead _ _ _ _ M).
  - intros i Li Ai Si. destruct (Q5 i) as (l & E). rewrite E. destruct (Nat.eqb_spec i c); [lia|].
    eapply osame_comp; [exact vrel_eq|exact (md_old _ _ _ _ M i Li Ai Si)|]. destruct (f_insn (c_f t) i); cbn; [|exact I]. now apply match_users.
  - intros i Li Ai Si. destruct (md_skip _ _ _ _ M i Li Ai Si) as (x & x' & X & X' & O & P). destruct (Q5 i) as (l & E). destruct (Nat.eqb_spec i c); [lia|].
    rewrite X' in E. exists x, (set_users l x'). repeat split; auto.
  - intros b' Hb'. destruct (md_block _ _ _ _ M b' Hb') as (k' & ids & K & T & FF).
    destruct (Nat.eqb_spec b' b) as [->|Ne].
    + exists k', (ids ++ [c]). split; [exact K|]. rewrite Bk in T. injection T as ->. cbn [set_insns b_insns] in *.
      assert (Nc : ~ In c (filter (alive dead) (Pp b) ++ Mp b ++ ids ++ Zp b)).
      { intros I. assert (Lk : forall i, In i (Pp b ++ Mp b ++ Zp b) -> i < c).
        { intros i Hi. rewrite <- parts in Hi. assert (linked s i) by (exists b; auto). pose proof (linked_lt i H). lia. }
        apply in_app_or in I as [I|I]; [apply filter_In in I as (I & _); specialize (Lk c); rewrite in_app_iff in Lk; specialize (Lk (or_introl I)); lia|].
        apply in_app_or in I as [I|I]; [specialize (Lk c); rewrite !in_app_iff in Lk; specialize (Lk (or_intror (or_introl I))); lia|].
        apply in_app_or in I as [I|I]; [|specialize (Lk c); rewrite !in_app_iff in Lk; specialize (Lk (or_intror (or_intror I))); lia].
        clear - FF I. induction FF as [|jv c' l l' A FF IH]; [contradiction|]. destruct I as [->|I]; [destruct A; lia|auto]. }
      destruct Q7 as [Q7|Q7]; [contradiction|]. rewrite (insert_place dead skip cps t b ids M Hb FF (fun i => rest_alive dead b i Oh Hb) c) in Q7.
      split; [exact Q7|]. apply Forall2_app; [exact (F2_impl _ _ _ _ Ic FF)|]. constructor; [|constructor].
      split; [lia|]. destruct (Q5 c) as (l & E). rewrite Nat.eqb_refl in E. cbn in E. eexists. exists v', (set_pos (x_pos ej) (ex0 c ASSIGN)), ej. split; [exact E|]. cbn [fst snd].
      rewrite Q4, Nat.eqb_refl. repeat split; auto. cbn. discriminate.
    + exists k', ids. split; [exact K|]. rewrite Q6 by exact Ne. split; [exact T|]. exact (F2_impl _ _ _ _ Ic FF).
Qed.

Lemma mid_ext dead skip cps cps' t : (forall b, In b (c_reach s) -> cps' b = cps b) -> mid dead skip cps t -> mid dead skip cps' t.
Proof.
  intros E [A B C D F G H I]. constructor; auto. intros b Hb. destruct (I b Hb) as (k & ids & K). exists k, ids. rewrite (E b Hb). exact K.
Qed.
Definition from (b : nat) (j : nat) (l : list (value * nat)) : list (nat * value) := map (fun e => (j, fst e)) (filter (fun e => snd e =? b) l).
Lemma mid_fold dead skip j ej : only_heads dead -> c_ex u1 j = Some ej -> forall l l', Forall2 (fun e e' => vrel (fill_val o (fst e)) (fst e') /\ snd e' = snd e) l l' ->
  (forall e, In e l -> In (snd e) (c_reach s)) -> forall cps t t', mid dead skip cps t -> ofold (phi_copy j (x_pos ej)) t l' = Ok t' ->
  mid dead skip (fun b => cps b ++ from b j l) t'.
Proof.
  intros Oh Ej l l' F. induction F as [|[v b] [v' b'] l l' (Vr & Q) F IH]; intros Rc cps t t' M H; cbn [ofold] in H.
  - oks H. apply (mid_ext _ _ cps); [|exact M]. intros b _. unfold from. cbn. now rewrite app_nil_r.
  - cbn [fst snd] in *. subst b'. bo H t1 E1. pose proof (mid_phi_copy _ _ _ _ _ _ _ _ _ _ M Oh (Rc (v, b) (or_introl eq_refl)) Vr Ej E1) as M1.
    refine (mid_ext _ _ _ _ _ _ (IH _ _ _ _ M1 H)); [|intros e He; apply Rc; now right].
    intros c _. cbn beta. unfold from. cbn [filter snd]. rewrite (Nat.eqb_sym b c). destruct (c =? b); cbn; [rewrite <- app_assoc; reflexivity|reflexivity].
Qed.
Lemma erase_first_app i l r : In i l -> NoDup l -> erase_first i (l ++ r) = filter (fun j => negb (j =? i)) l ++ r.
Proof.
  induction l as [|a l IH]; [contradiction|]. intros H N. inversion N as [|? ? Na Nd]; subst. cbn. destruct (Nat.eqb_spec a i) as [->|Ne].
  - cbn. f_equal. clear - Na. induction l as [|c l IH]; cbn; [reflexivity|]. destruct (Nat.eqb_spec c i) as [->|]; cbn; [exfalso; apply Na; now left|]. f_equal. apply IH. intros K. apply Na. now right.
  - cbn. f_equal. apply IH; [|exact Nd]. destruct H; [contradiction|assumption].
Qed.
Lemma alive_cons dead i l : filter (alive (i :: dead)) l = filter (fun j => negb (j =? i)) (filter (alive dead) l).
Proof.
  induction l as [|a l IH]; [reflexivity|]. cbn [filter]. assert (K : alive (i :: dead) a = negb (a =? i) && alive dead a).
  { unfold alive. cbn. now rewrite negb_orb. }
  rewrite K, IH. destruct (a =? i) eqn:E; cbn [negb andb]; destruct (alive dead a); cbn [filter]; rewrite ?E; reflexivity.
Qed.
Lemma filter_none i (l : list nat) : ~ In i l -> filter (fun j => negb (j =? i)) l = l.
Proof. induction l as [|a l IH]; cbn; [reflexivity|]. intros H. destruct (Nat.eqb_spec a i) as [->|]; cbn; [exfalso; apply H; now left|]. f_equal. apply IH. intros K. apply H. now right. Qed.

Lemma erase_shape t i t' x3 : erase_cg t i = Ok t' -> f_insn (c_f t) i = Some x3 -> exists k, f_block (c_f t) (i_parent x3) = Some k /\
  c_reach t' = c_reach t /\ c_regs t' = c_regs t /\ f_ni (c_f t') = f_ni (c_f t) /\
  (forall j, c_ex t' j = if j =? i then None else c_ex t j) /\
  (forall j, exists l, f_insn (c_f t') j = if j =? i then None else option_map (set_users l) (f_insn (c_f t) j)) /\
  (forall b, f_block (c_f t') b = if b =? i_parent x3 then Some (set_insns (erase_first i (b_insns k)) k) else f_block (c_f t) b).
Proof.
  unfold erase_cg. intros H X. bo H g E. oks H. unfold erase_insn in E. bo E x Ei'. apply get_insn_ok in Ei'. rewrite X in Ei'. injection Ei' as <-.
  destruct (existsb _ (i_users x3)); [discriminate E|]. bo E f1 E1. apply fold_remove_spec in E1 as (U & _). bo E f2 E2. oks E.
  unfold unlink in E2. bo E2 x' Ex'. apply get_insn_ok in Ex'. destruct (ue_rec _ _ U i) as (l & L). rewrite X in L. cbn in L. rewrite L in Ex'. injection Ex' as <-.
  bo E2 k Ek. apply get_block_ok in Ek. oks E2. cbn [set_users i_parent] in *. change (i_parent (set_users l x3)) with (i_parent x3) in *. rewrite (ue_block _ _ U) in Ek. exists k.
  cbn [with_ex with_f c_f c_reach c_regs c_ex with_insn f_ni f_insn f_block put_block with_block].
  split; [exact Ek|]. split; [reflexivity|]. split; [reflexivity|]. split; [apply (ue_ni _ _ U)|]. split; [reflexivity|]. split.
  - intros j. destruct (ue_rec _ _ U j) as (l' & L'). exists l'. unfold upd. destruct (j =? i); [reflexivity|exact L'].
  - intros b. unfold upd. destruct (b =? i_parent x3); [reflexivity|apply (ue_block _ _ U)].
Qed.

Lemma mid_one dead cps t i x b t' : mid dead [] cps t -> only_heads dead -> In b (c_reach s) -> In i (Pp b) -> ~ In i dead -> f_insn (c_f s) i = Some x ->
  remove_one_phi t i = Ok t' -> mid (i :: dead) [] (fun b => cps b ++ from b i (i_phi x)) t' /\ only_heads (i :: dead).
Proof.
  intros M Oh Hb Hi Nd X H.
  assert (Oh' : only_heads (i :: dead)) by (intros j [<-|Hj]; [exists b; auto|auto]). split; [|exact Oh'].
  assert (Ib : In i (insns_of (c_f s) b)) by (rewrite parts; apply in_or_app; now left).
  assert (Li : linked s i) by (exists b; auto). pose proof (linked_lt i Li) as Lt. apply alive_iff in Nd.
  pose proof (Pp_phis b) as FP. rewrite Forall_forall in FP. destruct (FP i Hi) as (x0 & X0 & Op). rewrite X in X0. injection X0 as <-.
  destruct (Ei i x X Li) as (y & Y & Fl).
  destruct (rd_insn s R b i Hb Ib) as (x0 & e0 & X0 & Pa & _). rewrite X in X0. injection X0 as <-. clear e0. assert (Pb : i_parent x = b /\ True) by auto. clear Pa.
  destruct (Epos i x Li X Op) as (ei & Eei & Ea & Es).
  unfold remove_one_phi in H. bo H xt Ext. apply get_insn_ok in Ext. bo H et Eet. apply get_ex_ok in Eet. rewrite (md_ex _ _ _ _ M i Lt Nd), Eei in Eet. injection Eet as <-.
  bo H s1 E1.
  pose proof (md_old _ _ _ _ M i Lt Nd (fun K => K)) as Mo. rewrite Y, Ext in Mo. cbn in Mo. destruct Mo as [(Mo & _) _ Mp' _].
  rewrite (fi_phi _ _ _ Fl Op) in Mp'.
  assert (M1 : mid dead [] (fun b => cps b ++ from b i (i_phi x)) s1).
  { refine (mid_fold _ _ _ _ Oh Eei _ _ _ _ _ _ _ M E1).
    - clear - Mp'. remember (map _ (i_phi x)) as l eqn:El. revert El. generalize (i_phi x). induction Mp' as [|a c l l' (A & B) F IH]; intros l0 E0.
      + destruct l0; [constructor|discriminate E0].
      + destruct l0 as [|e l0]; [discriminate E0|]. injection E0 as -> E0. cbn in A, B. constructor; [auto|]. apply IH. exact E0.
    - intros [w n] He. cbn. exact (proj2 (proj2 (rd_phi s R i x Li X Op)) w n He). }
  clear M E1. set (cps' := fun b => cps b ++ from b i (i_phi x)) in *. bo H x1 Ex1. apply get_insn_ok in Ex1. bo H r Er'. bo H s3 E3. unfold in_func in E3. bo E3 g Eg'. oks E3.
  set (s2 := with_f (put_insn (c_f s1) i (set_phi [] x1)) s1) in *.
  assert (M2 : mid dead [i] cps' s2).
  { destruct M1 as [A B C D E F G K]. subst s2. constructor; cbn [with_f c_reach c_regs c_ex c_f put_insn f_ni f_block with_insn]; auto.
    - intros j Lj Aj Nj. rewrite f_insn_put. destruct (Nat.eqb_spec j i) as [->|]; [exfalso; apply Nj; now left|]. apply F; auto.
    - intros j Lj Aj [<-|[]]. rewrite f_insn_put, Nat.eqb_refl. specialize (F i Lj Aj (fun K => K)). rewrite Y, Ex1 in F. cbn in F. destruct F as [F _ _ _].
      exists y, (set_phi [] x1). repeat split; auto; cbn; intuition.
    - intros b' Hb'. destruct (K b' Hb') as (k & ids & K1 & K2 & K3). exists k, ids. split; [exact K1|]. split; [exact K2|]. refine (F2_impl _ _ _ _ _ K3).
      intros jv c (Lc & x2 & v' & e & ej & W). split; [exact Lc|]. exists x2, v', e, ej. cbn [with_f c_f c_ex]. rewrite f_insn_put.
      destruct (Nat.eqb_spec c i) as [->|]; [lia|exact W]. }
  clear M1. apply replace_all_nudged in Eg'.
  assert (Pl : place i r).
  { right. split; [exists y; split; [exact Y|]; rewrite (fi_op _ _ _ Fl); exact Op|]. unfold reg_node in Er'. destruct (vp_reg (x_pos ei) <? 0)%Z eqn:Neg; [discriminate Er'|].
    rewrite (md_regs _ _ _ _ M2) in Er'. destruct (nth_error (c_regs s) _) as [r0|] eqn:Nt; [|discriminate Er']. injection Er' as ->.
    destruct (Ereg _ _ Nt) as (e' & E' & A & B & C). exists ei, e'. split; [exact Eei|]. split; [exact E'|]. apply Z.ltb_ge in Neg. unfold poseq. rewrite A, B, C, Ea, Es. repeat split. lia. }
  pose proof (mid_nudge _ _ _ _ _ _ _ M2 Pl Eg') as M3. clear M2 Eg'. set (s3 := with_f g s2) in *.
  destruct (md_skip _ _ _ _ M3 i Lt Nd (or_introl eq_refl)) as (y' & x3 & Y' & X3 & _ & P3). rewrite Y in Y'. injection Y' as <-.
  destruct (fi_rest _ _ _ Fl) as (_ & _ & _ & _ & _ & _ & _ & Py). destruct Pb as (Pb & _). assert (P3' : i_parent x3 = b) by congruence.
  destruct (erase_shape _ _ _ _ H X3) as (k & Bk & Q1 & Q2 & Q3 & Q4 & Q5 & Q6). rewrite P3' in *. clear H.
  assert (Ali : forall j, alive (i :: dead) j = true <-> j <> i /\ alive dead j = true).
  { intros j. rewrite !alive_iff. cbn. intuition. }
  pose proof (md_ni _ _ _ _ M3) as Lni.
  assert (Ic : forall jv c', iscopy s3 jv c' -> iscopy t' jv c').
  { intros jv c (Lc & x2 & v' & e & ej & W0 & W). split; [lia|]. destruct (Q5 c) as (l & L). rewrite Q4. destruct (Nat.eqb_spec c i) as [->|]; [lia|].
    rewrite W0 in L. cbn in L. exists (set_users l x2), v', e, ej. split; [exact L|]. exact W. }
  constructor.
  - rewrite Q1. apply (md_reach _ _ _ _ M3).
  - rewrite Q2. apply (md_regs _ _ _ _ M3).
  - lia.
  - intros j Lj Aj. apply Ali in Aj as (Ne & Aj). rewrite Q4. destruct (Nat.eqb_spec j i); [contradiction|]. now apply (md_ex _ _ _ _ M3).
  - intros j Lj Aj. rewrite Q4. destruct (Nat.eqb_spec j i) as [->|Ne]; [reflexivity|]. apply (md_dead _ _ _ _ M3); [exact Lj|].
    destruct (alive dead j) eqn:Q; [|reflexivity]. assert (alive (i :: dead) j = true) by (apply Ali; auto). congruence.
  - intros j Lj Aj _. apply Ali in Aj as (Ne & Aj). destruct (Q5 j) as (l & L). rewrite L. destruct (Nat.eqb_spec j i); [contradiction|].
    assert (Nj : ~ In j [i]) by (intros [<-|[]]; now apply Ne).
    eapply osame_comp; [exact vrel_eq|exact (md_old _ _ _ _ M3 j Lj Aj Nj)|]. destruct (f_insn (c_f s3) j); cbn; [|exact I]. now apply match_users.
  - intros j _ _ [].
  - intros b' Hb'. destruct (md_block _ _ _ _ M3 b' Hb') as (k' & ids & K1 & K2 & K3). exists k', ids. split; [exact K1|]. split; [|exact (F2_impl _ _ _ _ Ic K3)].
    rewrite Q6, alive_cons. destruct (Nat.eqb_spec b' b) as [->|Ne].
    + rewrite K2 in Bk. injection Bk as <-. cbn [set_insns b_insns]. rewrite erase_first_app; [reflexivity| |].
      * apply filter_In. auto.
      * apply NoDup_filter. pose proof (nodup_block b Hb) as Nb. exact (NoDup_left _ _ Nb).
    + rewrite filter_none; [exact K2|]. rewrite filter_In. intros (K & _). apply Ne. apply (unique_block b' b i Hb' Hb); [|exact Ib]. rewrite parts. apply in_or_app. now left.
Qed.

Definition cfrom (b i : nat) : list (nat * value) := match f_insn (c_f s) i with Some x => from b i (i_phi x) | None => [] end.
Lemma mid_all : forall L dead cps t t', mid dead [] cps t -> only_heads dead -> (forall i, In i L -> exists b, In b (c_reach s) /\ In i (Pp b)) -> NoDup L ->
  (forall i, In i L -> ~ In i dead) -> ofold remove_one_phi t L = Ok t' ->
  exists dead', mid dead' [] (fun b => cps b ++ flat_map (cfrom b) L) t' /\ only_heads dead' /\ forall i, In i dead' <-> In i dead \/ In i L.
Proof.
  induction L as [|i L IH]; intros dead cps t t' M Oh Hl Nl Nd H; cbn [ofold] in H.
  - oks H. exists dead. split; [|split; [exact Oh|cbn; tauto]]. apply (mid_ext _ _ cps); [|exact M]. intros b _. cbn. now rewrite app_nil_r.
  - bo H t1 E1. destruct (Hl i (or_introl eq_refl)) as (b & Hb & Hi). inversion Nl as [|? ? Ni Nl']; subst.
    assert (Ib : In i (insns_of (c_f s) b)) by (rewrite parts; apply in_or_app; now left). destruct (rd_insn s R b i Hb Ib) as (x & _ & X & _).
    destruct (mid_one _ _ _ _ _ _ _ M Oh Hb Hi (Nd i (or_introl eq_refl)) X E1) as (M1 & Oh1).
    assert (Nd' : forall j, In j L -> ~ In j (i :: dead)).
    { intros j Hj [<-|K]; [contradiction|]. exact (Nd j (or_intror Hj) K). }
    destruct (IH _ _ _ _ M1 Oh1 (fun j Hj => Hl j (or_intror Hj)) Nl' Nd' H) as (dead' & M' & Oh' & Q).
    exists dead'. split; [|split; [exact Oh'|intros j; rewrite Q; cbn; tauto]].
    refine (mid_ext _ _ _ _ _ _ M'). intros c _. cbn [flat_map]. unfold cfrom at 1. rewrite X. now rewrite app_assoc.
Qed.
Lemma head_phis_ok : forall l L, (forall i, In i l -> linked s i) -> head_phis u1 l = Ok L -> L = headp l.
Proof.
  induction l as [|i l IH]; intros L Lk H; cbn [head_phis] in H; [now oks H|]. bo H y Ey. apply get_insn_ok in Ey.
  destruct (op_u1 i (Lk i (or_introl eq_refl))) as (x & y' & X & Y & O & _). rewrite Ey in Y. injection Y as <-. cbn [headp]. unfold is_phib. rewrite X, <- O.
  destruct (iop_eqb (i_op y) PHI); [|now oks H]. bo H e Ee. destruct (negb _); [discriminate H|]. destruct (negb _); [discriminate H|]. bo H r Er'. oks H. f_equal. apply IH; [|exact Er']. intros j Hj. apply Lk. now right.
Qed.
Lemma all_phis_ok : forall l L, (forall b, In b l -> In b (c_reach s)) -> all_phis u1 l = Ok L -> L = flat_map Pp l.
Proof.
  induction l as [|b l IH]; intros L Hl H; cbn [all_phis] in H; [now oks H|]. bo H k Ek. apply get_block_ok in Ek. rewrite Eb in Ek. bo H p Ep. bo H r Er'. oks H. cbn [flat_map].
  rewrite (IH r (fun c Hc => Hl c (or_intror Hc)) Er'). f_equal.
  assert (EI : insns_of (c_f s) b = b_insns k) by (unfold insns_of; now rewrite Ek). unfold Pp. rewrite EI. apply head_phis_ok; [|exact Ep].
  intros i Hi. exists b. split; [apply Hl; now left|now rewrite EI].
Qed.
Lemma mid_start : mid [] [] (fun _ => []) u1.
Proof.
  constructor; auto.
  - intros i _ A. discriminate A.
  - intros i _ _ _. apply osame_refl, vrel_refl.
  - intros i _ _ [].
  - intros b Hb. destruct (proj2 (rd_reach s R) b Hb) as (k & K). exists k, []. split; [exact K|]. split; [|constructor].
    rewrite Eb, K. f_equal. assert (F : forall l, filter (alive []) l = l) by (induction l; cbn; congruence). rewrite F. cbn [app]. rewrite <- parts. unfold insns_of. rewrite K. now destruct k.
Qed.
Lemma NoDup_flat l : NoDup l -> (forall b, In b l -> In b (c_reach s)) -> NoDup (flat_map Pp l).
Proof.
  induction l as [|b l IH]; intros N H; cbn [flat_map]; [constructor|]. inversion N as [|? ? Nb Nl]; subst.
  assert (Hb : In b (c_reach s)) by (apply H; now left). pose proof (NoDup_left _ _ (nodup_block b Hb)) as Np. specialize (IH Nl (fun c Hc => H c (or_intror Hc))).
  assert (D : forall i, In i (Pp b) -> ~ In i (flat_map Pp l)).
  { intros i Hi K. apply in_flat_map in K as (c & Hc & Ic). assert (b = c) as <-; [|contradiction].
    apply (unique_block b c i Hb (H c (or_intror Hc))); rewrite parts; apply in_or_app; now left. }
  clear - Np IH D. induction (Pp b) as [|a r IHr]; cbn; [exact IH|]. inversion Np; subst. constructor.
  - intros K. apply in_app_or in K as [K|K]; [contradiction|]. exact (D a (or_introl eq_refl) K).
  - apply IHr; [assumption|]. intros i Hi. apply D. now right.
Qed.
Lemma removed t : remove_phi u1 = Ok t -> exists dead, mid dead [] (fun b => flat_map (cfrom b) (flat_map Pp (c_reach s))) t /\
  (forall i, In i dead <-> exists b, In b (c_reach s) /\ In i (Pp b)).
Proof.
  unfold remove_phi. intros H. bo H L EL. rewrite Er in EL. apply all_phis_ok in EL; [|auto]. subst L.
  assert (Nr : NoDup (c_reach s)) by apply (rd_reach s R).
  destruct (mid_all _ _ _ _ _ mid_start (fun i K => False_ind _ K) (fun i Hi => proj1 (in_flat_map _ _ _) Hi) (NoDup_flat _ Nr (fun b Hb => Hb)) (fun i _ K => K) H) as (dead & M & Oh & Q).
  exists dead. split; [exact M|]. intros i. rewrite Q, in_flat_map. cbn. tauto.
Qed.

(** ** Flattening *)
Context (t : cgs) (p : nprog).
Hypothesis Et : remove_phi u1 = Ok t.
Hypothesis Ep : flatten t = Ok p.

Lemma omap_F2 {A B} (f : A -> outcome B) l l' : omap f l = Ok l' -> Forall2 (fun a b => f a = Ok b) l l'.
Proof.
  revert l'. induction l as [|a l IH]; intros l' H; cbn in H; [oks H; constructor|]. bo H b E. bo H r E'. oks H. constructor; auto.
Qed.
Lemma lookup_flat l p' b : omap (flat_block t) l = Ok p' -> In b l -> exists nb, lookup p' b = Some nb /\ flat_block t b = Ok nb.
Proof.
  intros H. apply omap_F2 in H. induction H as [|a nb l l' E F IH]; [contradiction|]. intros Hb. cbn [lookup].
  assert (Q : nb_id nb = a) by (unfold flat_block in E; bo E x E1; bo E y E2; oks E; reflexivity). rewrite Q.
  destruct (Nat.eqb_spec a b) as [->|Ne]; [exists nb; auto|]. destruct Hb as [|Hb]; [contradiction|]. exact (IH Hb).
Qed.

Section Flat.
Context (dead : list nat) (cps : nat -> list (nat * value)).
Hypothesis Md : mid dead [] cps t.
Hypothesis Dd : forall i, In i dead <-> exists b, In b (c_reach s) /\ In i (Pp b).

Lemma ex_t d e : d < f_ni (c_f u1) -> c_ex t d = Some e -> c_ex u1 d = Some e /\ alive dead d = true.
Proof.
  intros L E. destruct (alive dead d) eqn:A; [rewrite (md_ex _ _ _ _ Md d L A) in E; auto|]. rewrite (md_dead _ _ _ _ Md d L A) in E. discriminate E.
Qed.
Lemma ex_lt d e : c_ex u1 d = Some e -> d < f_ni (c_f u1).
Proof. intros E. rewrite En. apply (sh_ids s Sh). right. intros K. apply Ex in K. congruence. Qed.
Lemma flat_fval v v' vf : vrel v v' -> (forall d, v_data v = VInsn d -> d < f_ni (c_f u1)) -> flat_value t v' = Ok vf -> fval u1 v vf.
Proof.
  unfold vrel, fval, flat_value, val_target. intros V L H. destruct (v_data v) eqn:D; auto.
  - subst v'. rewrite D in H. now oks H.
  - destruct V as (d' & D' & Pl). rewrite D' in H. bo H e Ee. apply get_ex_ok in Ee. destruct (x_dst e) as [dd|]; [|discriminate H]. destruct (dd =? d'); [|discriminate H]. oks H.
    destruct Pl as [<-|(_ & e1 & e2 & E1 & E2 & Ps)].
    + destruct (ex_t i e (L i eq_refl) Ee) as (K & _). exists e, (x_pos e). repeat split; auto.
    + destruct (ex_t d' e (ex_lt _ _ E2) Ee) as (K & _). rewrite K in E2. injection E2 as <-. exists e1, (x_pos e). split; [exact E1|]. split; [reflexivity|exact Ps].
Qed.
Lemma fill_insn_data v d : v_data (fill_val o v) = VInsn d -> v_data v = VInsn d.
Proof. unfold fill_val. destruct (v_data v) eqn:E; cbn; try discriminate; congruence. Qed.
Lemma flat_F2 l : forall l' lf, Forall2 vrel l l' -> (forall v d, In v l -> v_data v = VInsn d -> d < f_ni (c_f u1)) -> omap (flat_value t) l' = Ok lf -> Forall2 (fval u1) l lf.
Proof.
  induction l as [|v l IH]; intros l' lf F L H; inversion F as [|? v' ? r' V F']; subst; cbn in H; [oks H; constructor|]. bo H a Ea. bo H b Eb'. oks H. constructor.
  - exact (flat_fval _ _ _ V (fun d => L v d (or_introl eq_refl)) Ea).
  - exact (IH _ _ F' (fun w d Hw => L w d (or_intror Hw)) Eb').
Qed.

Lemma flat_seen b i n : In b (c_reach s) -> In i (Mp b ++ Zp b) -> flat_insn t i = Ok n -> seen s u1 o i n.
Proof.
  intros Hb Hi H. assert (Oh : only_heads dead) by (intros j Hj; now apply Dd). pose proof (rest_alive dead b i Oh Hb Hi) as Al.
  assert (Ib : In i (insns_of (c_f s) b)) by (rewrite parts; apply in_or_app; now right). assert (Li : linked s i) by (exists b; auto). pose proof (linked_lt i Li) as Lt.
  destruct (rd_insn s R b i Hb Ib) as (x & e0 & X & _ & E0 & Dst & _). exists x. split; [exact X|]. destruct (Ei i x X Li) as (y & Y & Fl).
  pose proof (md_old _ _ _ _ Md i Lt Al (fun K => K)) as Mo. rewrite Y in Mo. cbn in Mo.
  unfold flat_insn in H. bo H x' Ex'. apply get_insn_ok in Ex'. rewrite Ex' in Mo. bo H e Ee. apply get_ex_ok in Ee. destruct (ex_t i e Lt Ee) as (Ei1 & _).
  bo H x1 E1. bo H vs Evs. bo H ph Eph. bo H a Ea. bo H q Eq'. oks H.
  destruct Mo as [(M1 & M2 & M3 & M4 & M5 & M6 & M7 & M8 & M9) Mv _ (Ma1 & Ma2 & Ma3)].
  destruct Fl as [F1 F2 F3 Fe _ (F4 & F5 & F6 & F7 & F8 & F9 & F10 & F11)].
  assert (K1 : i_vals x1 = i_vals x' /\ i_op x1 = i_op x' /\ i_alu x1 = i_alu x' /\ i_bb1 x1 = i_bb1 x' /\ i_bb2 x1 = i_bb2 x' /\ i_u x1 = i_u x' /\ i_ity x1 = i_ity x' /\ i_imm64 x1 = i_imm64 x' /\ i_addr x1 = i_addr x').
  { destruct (iop_eqb (i_op x') LOAD || iop_eqb (i_op x') STORE); [|oks E1; repeat split].
    destruct (i_vals x') as [|v0 r0] eqn:V0; [discriminate E1|]. destruct (val_target v0); [|discriminate E1]. bo E1 y0 Ey0. destruct (iop_eqb (i_op y0) ALLOC); [|discriminate E1]. oks E1. cbn. auto 20. }
  destruct K1 as (K1 & K2 & K3 & K4 & K5 & K6 & K7 & K8 & K9).
  assert (Refs : forall v d, In v (map (fill_val o) (i_vals x)) -> v_data v = VInsn d -> d < f_ni (c_f u1)).
  { intros v d Hv D. apply in_map_iff in Hv as (v0 & <- & Hv). apply fill_insn_data in D. rewrite En. apply (sh_refs s Sh i x v0 d X); [|exact D]. unfold operand_values. apply in_or_app. now left. }
  split; [|intros Nr; assert (Q1 : i_op x <> LOADRAW) by (intros Q; rewrite Q in Nr; discriminate Nr); assert (Q2 : i_op x <> STORERAW) by (intros Q; rewrite Q in Nr; discriminate Nr);
    cbn [n_i set_addr set_phi set_vals i_addr a_ot]; rewrite K9, Ma3, (Fe Q1 Q2); reflexivity].
  constructor; unfold fill_insn; cbn [set_addr set_phi set_vals i_op i_vals i_vrt i_alu i_bb1 i_bb2 i_u i_ity i_imm64 i_addr n_i n_pos].
  - congruence.
  - rewrite K1 in Evs. rewrite F2 in Mv. exact (flat_F2 _ _ _ Mv Refs Evs).
  - replace (i_op x) with (i_op x') by congruence. destruct (iop_eqb (i_op x') LOAD || iop_eqb (i_op x') STORE) eqn:LS.
    + intros v r Hv a0 y0 D Y0 Op0. rewrite F2, Hv in Mv. inversion Mv as [|? v' ? r' V1 _ HH HH']; subst.
      rewrite <- HH' in E1. unfold vrel in V1. rewrite D in V1. destruct V1 as (d' & D' & Pl). unfold val_target in E1. rewrite D' in E1.
      bo E1 y1 Ey1. apply get_insn_ok in Ey1. destruct (iop_eqb (i_op y1) ALLOC) eqn:O1; [|discriminate E1]. oks E1. cbn.
      assert (Ua : exists ya, f_insn (c_f u1) a0 = Some ya /\ i_op ya = ALLOC /\ i_vrt ya = i_vrt y0).
      { destruct (linked_dec a0) as [La|La].
        - destruct (Ei a0 y0 Y0 La) as (ya & Ya & Fa). exists ya. split; [exact Ya|]. split; [rewrite (fi_op _ _ _ Fa); exact Op0|]. apply (fi_rest _ _ _ Fa).
        - exists y0. rewrite (Eo a0 La). auto. }
      destruct Ua as (ya & Ya & Oa & Va). destruct Pl as [<-|((xp & Xp & Oxp) & _)]; [|congruence].
      assert (La : a0 < f_ni (c_f u1)) by (rewrite En; apply (sh_ids s Sh); left; congruence).
      assert (Aa : alive dead a0 = true).
      { apply alive_iff. intros K. apply Dd in K as (b' & Hb' & Hp). pose proof (Pp_phis b') as FP. rewrite Forall_forall in FP. destruct (FP a0 Hp) as (xp & Xp & Oxp). congruence. }
      pose proof (md_old _ _ _ _ Md a0 La Aa (fun K => K)) as Mo'. rewrite Ya, Ey1 in Mo'. cbn in Mo'. destruct Mo' as [(_ & W & _) _ _ _]. congruence.
    + oks E1. cbn. congruence.
  - congruence.
  - split; congruence.
  - repeat split; congruence.
  - intros Hr. specialize (F3 Hr). rewrite F3 in Ma1, Ma2, Ma3. rewrite K9 in *. cbn [a_off a_ot a_val]. split; [congruence|]. split; [congruence|].
    assert (Q : is_raw (i_op x') = true) by (rewrite M1, F1; destruct Hr as [-> | ->]; reflexivity). rewrite Q in Ea. refine (flat_fval _ _ _ Ma1 _ Ea).
    intros d D. rewrite En. apply (sh_refs s Sh i x (a_val (i_addr x)) d X).
    + unfold operand_values. apply in_or_app. right. destruct Hr as [-> | ->]; cbn; now left.
    + unfold fill_addr in D. destruct (a_ot (i_addr x)); exact D.
  - intros e' d E' D. rewrite Ei1 in E'. injection E' as <-. rewrite (Ed i e0 e E0 Ei1) in D.
    assert (d = i) as -> by (destruct Dst as [Dst|Dst]; congruence).
    rewrite (Ed i e0 e E0 Ei1), D in Eq'. bo Eq' de Ede. oks Eq'. apply get_ex_ok in Ede. rewrite Ee in Ede. injection Ede as <-. exists e. split; [exact Ei1|]. repeat split.
  - intros e' E' D. rewrite Ei1 in E'. injection E' as <-. rewrite D in Eq'. oks Eq'. reflexivity.
Qed.

Lemma flat_copied jv c n : (exists b, phi_at s b jv) -> iscopy t jv c -> flat_insn t c = Ok n -> copied u1 o jv n.
Proof.
  intros (b & xj & Lj & Xj & Oj & Ij) (Lc & x & v' & e & ej & X & O & V & Vr & Al & Ce & D & Cj & Ps) H.
  unfold flat_insn in H. bo H x' Ex'. apply get_insn_ok in Ex'. rewrite X in Ex'. injection Ex' as <-. rewrite O in H. cbn [iop_eqb orb is_raw] in H.
  bo H e' Ee'. apply get_ex_ok in Ee'. rewrite Ce in Ee'. injection Ee' as <-. bo H x1 E1. cbn in E1. oks E1. bo H vs Evs. bo H ph Eph. bo H a Ea. bo H q Eq'. oks H.
  rewrite V in Evs. cbn in Evs. bo Evs w Ew. oks Evs. rewrite D in Eq'. bo Eq' de Ede. oks Eq'. apply get_ex_ok in Ede. rewrite Ce in Ede. injection Ede as <-.
  unfold copied. cbn [n_i n_pos set_addr set_phi set_vals i_op i_vals i_alu]. split; [exact O|]. split.
  - exists w. split; [reflexivity|]. refine (flat_fval _ _ _ Vr _ Ew). intros d Dd'. apply fill_insn_data in Dd'. rewrite En.
    apply (sh_refs s Sh (fst jv) xj (snd jv) d Xj); [|exact Dd']. unfold operand_values. rewrite Oj. apply in_or_app. right. apply in_map_iff. exists (snd jv, b). auto.
  - split; [exact Al|]. exists ej. split; [exact Cj|]. rewrite Ps. repeat split.
Qed.
End Flat.

Lemma from_one b i x : linked s i -> f_insn (c_f s) i = Some x -> i_op x = PHI -> length (from b i (i_phi x)) <= 1.
Proof.
  intros Li X O. destruct (sh_phi s Sh i x Li X O) as (_ & Nd & _). unfold from. rewrite map_length. clear - Nd. induction (i_phi x) as [|[v c] l IH]; cbn; [auto|].
  cbn in Nd. inversion Nd as [|? ? Na Nd']; subst. destruct (Nat.eqb_spec c b) as [->|]; [|auto]. cbn.
  assert (K : filter (fun e => snd e =? b) l = []); [|rewrite K; auto]. clear - Na. induction l as [|[v c] l IH]; cbn; [reflexivity|]. destruct (Nat.eqb_spec c b) as [->|]; [exfalso; apply Na; now left|].
  apply IH. intros K. apply Na. now right.
Qed.
Lemma cfrom_split b : forall L c1 i v c2, (forall j, In j L -> length (cfrom b j) <= 1) -> flat_map (cfrom b) L = c1 ++ (i, v) :: c2 ->
  exists L1 L2, L = L1 ++ i :: L2 /\ forall jv, In jv c2 -> In (fst jv) L2.
Proof.
  assert (Fst : forall j jv, In jv (cfrom b j) -> fst jv = j).
  { intros j jv. unfold cfrom. destruct (f_insn (c_f s) j); [|contradiction]. unfold from. intros H. apply in_map_iff in H as (e & <- & _). reflexivity. }
  induction L as [|j L IH]; intros c1 i v c2 H1 E; cbn [flat_map] in E; [destruct c1; discriminate E|].
  pose proof (H1 j (or_introl eq_refl)) as Lj. specialize (Fst j) as Fj. destruct (cfrom b j) as [|a [|a' r]]; [| |cbn in Lj; lia].
  - destruct (IH c1 i v c2 (fun z Hz => H1 z (or_intror Hz)) E) as (L1 & L2 & -> & K). exists (j :: L1), L2. auto.
  - cbn [app] in E. destruct c1 as [|a0 c1]; cbn in E; injection E as -> E.
    + exists [], L. cbn. split; [f_equal; symmetry; exact (Fj (i, v) (or_introl eq_refl))|]. intros jv Hv. rewrite <- E in Hv. apply in_flat_map in Hv as (z & Hz & Iz). now rewrite (Fst z jv Iz).
    + destruct (IH c1 i v c2 (fun z Hz => H1 z (or_intror Hz)) E) as (L1 & L2 & -> & K). exists (j :: L1), L2. auto.
Qed.
Lemma flat_order : forall l L1 i L2 j, NoDup l -> flat_map Pp l = L1 ++ i :: L2 -> In j L2 ->
  (exists b l1 l2, In b l /\ Pp b = l1 ++ i :: l2 /\ In j l2) \/ (exists b b', b <> b' /\ In b l /\ In b' l /\ In i (Pp b) /\ In j (Pp b')).
Proof.
  induction l as [|b l IH]; intros L1 i L2 j Nl E Hj; cbn [flat_map] in E; [destruct L1; discriminate E|]. inversion Nl as [|? ? Nb Nl']; subst.
  assert (Sp : (exists r, L1 = Pp b ++ r /\ flat_map Pp l = r ++ i :: L2) \/ (exists r, Pp b = L1 ++ i :: r /\ L2 = r ++ flat_map Pp l)).
  { clear - E. revert L1 E. generalize (Pp b). intros q. induction q as [|a q IH]; intros L1 E; cbn in E; [left; exists L1; auto|].
    destruct L1 as [|a' L1]; cbn in E; injection E as <- E; [right; exists q; auto|]. destruct (IH L1 E) as [(r & -> & Q)|(r & -> & Q)]; [left|right]; exists r; auto. }
  destruct Sp as [(r & -> & Q)|(r & Q & ->)].
  - destruct (IH r i L2 j Nl' Q Hj) as [(c & l1 & l2 & Hc & K)|(c & c' & Ne & Hc & Hc' & K)]; [left; exists c, l1, l2|right; exists c, c']; cbn; tauto.
  - apply in_app_or in Hj as [Hj|Hj]; [left; exists b, L1, r; cbn; auto|]. apply in_flat_map in Hj as (c & Hc & Ic). right. exists b, c.
    split; [intros ->; contradiction|]. cbn. repeat split; auto. rewrite Q. apply in_or_app. right. now left.
Qed.
Lemma headp_in P l i : Forall (phi_in s) P -> In i P -> In i (headp (P ++ l)).
Proof.
  intros F. induction F as [|a P Ha F IH]; [contradiction|]. intros [->|Hi]; cbn; apply phib_in in Ha; rewrite Ha; [now left|right; auto].
Qed.

Lemma all_painted b : In b (c_reach s) -> exists nb, lookup p b = Some nb /\ painted s u1 o b (nb_insns nb).
Proof.
  intros Hb. destruct (removed t Et) as (dead & Md & Dd). unfold flatten in Ep. rewrite (md_reach _ _ _ _ Md) in Ep.
  destruct (lookup_flat _ _ b Ep Hb) as (nb & Lk & Fb). exists nb. split; [exact Lk|].
  unfold flat_block in Fb. bo Fb k Ek. apply get_block_ok in Ek. bo Fb ln Eln. oks Fb. cbn [nb_insns].
  destruct (md_block _ _ _ _ Md b Hb) as (k' & ids & K1 & K2 & K3). rewrite K2 in Ek. injection Ek as <-. cbn [set_insns b_insns] in Eln.
  assert (F0 : filter (alive dead) (Pp b) = []).
  { assert (Z : forall i, In i (Pp b) -> alive dead i = false).
    { intros i Hi. destruct (alive dead i) eqn:A; [|reflexivity]. apply alive_iff in A. exfalso. apply A. apply Dd. eauto. }
    clear - Z. induction (Pp b) as [|a l IH]; cbn; [reflexivity|]. rewrite (Z a (or_introl eq_refl)). apply IH. intros i Hi. apply Z. now right. }
  rewrite F0 in Eln. cbn [app] in Eln. apply omap_F2 in Eln. apply Forall2_app_inv_l in Eln as (LM & r1 & FM & Fr & ->). apply Forall2_app_inv_l in Fr as (LC & LZ & FC & FZ & ->).
  set (cl := flat_map (cfrom b) (flat_map Pp (c_reach s))) in *.
  assert (Ph : forall jv, In jv cl -> phi_at s b jv).
  { intros jv Hv. subst cl. apply in_flat_map in Hv as (i & Hi & Hv). apply in_flat_map in Hi as (c & Hc & Hi). pose proof (Pp_phis c) as FP. rewrite Forall_forall in FP.
    destruct (FP i Hi) as (x & X & O). unfold cfrom in Hv. rewrite X in Hv. unfold from in Hv. apply in_map_iff in Hv as ([w n] & <- & Hw). apply filter_In in Hw as (Hw & Q). cbn in Q. apply Nat.eqb_eq in Q. subst n.
    exists x. cbn [fst snd]. split; [exists c; split; [exact Hc|rewrite parts; apply in_or_app; now left]|]. auto. }
  constructor. exists (Pp b), (Mp b), (Zp b), LM, LC, LZ, cl.
  split; [apply parts|]. split; [apply Pp_phis|]. split; [exact (fun i l => tail_head b i l)|]. split; [|split; [|split; [|split; [|split; [reflexivity|split; [|split]]]]]].
  - destruct (Zp_cases b) as [(Z0 & Hl)|(z & Z1 & Jz)]; [left|right].
    + split; [exact Z0|]. intros k Hk (i & x & Hi & X & J). unfold insn_at in Hi. unfold ends_at in Hk. rewrite parts, Z0, app_nil_r in Hi, Hk.
      destruct (exists_last_or (Mp b)) as [M0|(m' & z & M0)].
      * rewrite M0, app_nil_r in Hi. apply nth_error_In in Hi. pose proof (Pp_phis b) as FP. rewrite Forall_forall in FP. destruct (FP i Hi) as (x' & X' & O). rewrite X in X'. injection X' as <-. rewrite O in J. discriminate J.
      * rewrite M0, app_assoc in Hi, Hk. rewrite app_length in Hk. cbn in Hk. rewrite nth_error_app2 in Hi by lia. replace (k - length (Pp b ++ m')) with 0 in Hi by lia. cbn in Hi. injection Hi as <-.
        pose proof (Hl m' z M0) as K. unfold is_jmpb in K. rewrite X in K. congruence.
    + unfold is_jmpb in Jz. destruct (f_insn (c_f s) z) as [x|] eqn:X; [|discriminate Jz]. exists z, x. auto.
  - assert (Q : forall i n, In i (Mp b) -> flat_insn t i = Ok n -> seen s u1 o i n) by (intros i n Hi; apply (flat_seen dead _ Md Dd b i n Hb); apply in_or_app; now left).
    clear - FM Q. induction FM; constructor; [apply Q; [now left|assumption]|apply IHFM; intros; apply Q; [now right|assumption]].
  - assert (Q : forall i n, In i (Zp b) -> flat_insn t i = Ok n -> seen s u1 o i n) by (intros i n Hi; apply (flat_seen dead _ Md Dd b i n Hb); apply in_or_app; now right).
    clear - FZ Q. induction FZ; constructor; [apply Q; [now left|assumption]|apply IHFZ; intros; apply Q; [now right|assumption]].
  - assert (Q : forall jv c n, In jv cl -> iscopy t jv c -> flat_insn t c = Ok n -> copied u1 o jv n) by (intros jv c n Hv; apply (flat_copied dead _ Md); exists b; auto).
    clearbody cl. clear - K3 FC Q. revert LC FC. induction K3 as [|jv c l l' A F IH]; intros LC FC; inversion FC; subst; constructor; [apply (Q jv c); auto; now left|].
    apply IH; [|assumption]. intros; eapply Q; eauto. now right.
  - apply Forall_forall. exact Ph.
  - intros c1 i v c2 jv E Hv. subst cl.
    assert (One : forall j, In j (flat_map Pp (c_reach s)) -> length (cfrom b j) <= 1).
    { intros j Hj. apply in_flat_map in Hj as (c & Hc & Hj). pose proof (Pp_phis c) as FP. rewrite Forall_forall in FP. destruct (FP j Hj) as (x & X & O). unfold cfrom. rewrite X.
      apply from_one; auto. exists c. split; [exact Hc|]. rewrite parts. apply in_or_app. now left. }
    destruct (cfrom_split b _ _ _ _ _ One E) as (L1 & L2 & EL & K).
    destruct (flat_order _ _ _ _ (fst jv) (proj1 (rd_reach s R)) EL (K jv Hv)) as [(c & l1 & l2 & Hc & Q & Hj)|(c & c' & Ne & Hc & Hc' & Ii & Ij)]; [left|right].
    + exists c, l1, l2, (Mp c ++ Zp c). split; [exact Hc|]. rewrite <- Q. split; [apply parts|]. split; [apply Pp_phis|exact Hj].
    + exists c, c'. split; [exact Ne|]. split; [exact Hc|]. split; [exact Hc'|]. split; rewrite parts; apply in_or_app; now left.
  - intros c P' l i x v Hc Ec FP Hi X Hv. subst cl. apply in_flat_map. exists i. split.
    + apply in_flat_map. exists c. split; [exact Hc|]. unfold Pp. rewrite Ec. now apply headp_in.
    + unfold cfrom. rewrite X. unfold from. apply in_map_iff. exists (v, b). split; [reflexivity|]. apply filter_In. split; [exact Hv|]. cbn. apply Nat.eqb_refl.
Qed.
End Out.

(** ** From the assignment to the flattened program *)
Lemma shift_keep o l : forall s t,
  ofold (fun t i => do x <- get_insn (c_f t) i; Ok (with_f (put_insn (c_f t) i (shift_insn o x)) t)) s l = Ok t ->
  c_reach t = c_reach s /\ c_regs t = c_regs s /\ f_ni (c_f t) = f_ni (c_f s) /\ (forall b, f_block (c_f t) b = f_block (c_f s) b).
Proof.
  induction l as [|a r IH]; intros s t H; cbn [ofold] in H; [oks H; auto|]. bo H s1 E. bo E x Ex. oks E. destruct (IH _ _ H) as (A & B & C & D). auto.
Qed.
Lemma out_painted s u t p : ready s -> shape s -> same_function s u -> sound_assignment s u -> all_fit s -> ssa_out u = Ok t -> flatten t = Ok p ->
  exists u1, (forall v, c_ex u1 v = c_ex u v) /\ forall b, In b (c_reach s) -> exists nb, lookup p b = Some nb /\ painted s u1 (c_off s) b (nb_insns nb).
Proof.
  intros R Sh Sg Sa (Ho & Ft) H Hp. destruct Sg as (F & Rc & Rg & Of & St). unfold ssa_out in H. bo H u1 E1. exists u1.
  assert (Nd : NoDup (flat_map (insns_of (c_f u)) (c_reach u))) by (rewrite F, Rc; apply L_RaLive.NoDup_flat, R).
  assert (Lk : forall i, linked u i <-> linked s i) by (intros i; unfold linked; rewrite F, Rc; tauto).
  assert (Fd : forall i x, f_insn (c_f s) i = Some x -> linked s i -> exists y, f_insn (c_f u1) i = Some y /\ filled (c_off s) x y).
  { intros i x X L. rewrite <- Of. apply (filled_ok u u1 i x Nd E1); rewrite ?Of; auto; [now apply Lk|now rewrite F|exact (Ft i x L X)]. }
  unfold add_stack_offset in E1. bo E1 l El. apply insns_in_flat in El. subst l. destruct (shift_keep _ _ _ _ E1) as (K1 & K2 & K3 & K4).
  destruct (shift_fold _ _ _ _ Nd E1) as (X & _ & Nl & _). split; [exact X|]. intros b Hb.
  apply (all_painted s u1 (c_off s) R Sh) with (t := t); auto.
  - now rewrite K1.
  - now rewrite K2.
  - now rewrite K3, F.
  - intros c. now rewrite K4, F.
  - intros i Hi. rewrite Nl, F; [reflexivity|]. rewrite flat_linked, Lk. exact Hi.
  - intros i. rewrite X. specialize (St i). destruct (c_ex u i), (c_ex s i); cbn in St; split; congruence.
  - intros k r Hk. rewrite X. destruct (rd_reg s R k r Hk) as (e & E & Fi & _ & A & B & C).
    assert (Fx : fixed s r) by (exists e; auto). pose proof (sa_fixed s u Sa r Fx) as P. unfold position in P. rewrite E in P. cbn in P. destruct (c_ex u r) as [e'|]; [|discriminate P].
    injection P as P. exists e'. rewrite P. auto.
  - intros i x Li Xi Oi. rewrite X. destruct (sh_phi s Sh i x Li Xi Oi) as (T & _). destruct (sa_all s u Sa i T) as (r & (e & E & A & B & _) & _). exists e. auto.
  - intros i e e' E E'. rewrite X in E'. specialize (St i). rewrite E, E' in St. cbn in St. congruence.
Qed.
Lemma painted_ext s u u1 o b nb : (forall v, c_ex u1 v = c_ex u v) -> painted s u1 o b nb -> painted s u o b nb.
Proof.
  intros X [(P & M & Z & LM & LC & LZ & cl & A1 & A2 & A3 & A4 & A5 & A6 & A7 & A8)].
  assert (Fv : forall v v', fval u1 v v' -> fval u v v') by (intros v v'; unfold fval; destruct (v_data v); auto; now rewrite X).
  assert (Sn : forall i n, seen s u1 o i n -> seen s u o i n).
  { intros i n (x & Hx & [B1 B2 B3 B4 B5 B6 B7 B8 B9] & B10). exists x. split; [exact Hx|]. split; [|exact B10]. constructor; auto.
    - exact (F2_impl _ _ _ _ Fv B2).
    - intros Q. destruct (B7 Q) as (C1 & C2 & C3). auto.
    - intros e d E D. rewrite <- X in E. destruct (B8 e d E D) as (ed & C & C'). exists ed. now rewrite <- X.
    - intros e E D. rewrite <- X in E. exact (B9 e E D). }
  constructor. exists P, M, Z, LM, LC, LZ, cl. split; [exact A1|]. split; [exact A2|]. split; [exact A3|]. split; [exact A4|].
  split; [exact (F2_impl _ _ _ _ Sn A5)|]. split; [exact (F2_impl _ _ _ _ Sn A6)|]. split; [|exact A8].
  refine (F2_impl _ _ _ _ _ A7). intros jv n (C1 & (v' & C2 & C3) & C4 & (e & C5 & C6)). split; [exact C1|]. split; [exists v'; auto|]. split; [exact C4|].
  exists e. now rewrite <- X.
Qed.

Theorem exit_sim w ar s u t p bi n prev b q out : ready s -> shape s -> same_function s u -> sound_assignment s u -> apart ar s u -> few_args w ar -> all_fit s ->
  ssa_out u = Ok t -> flatten t = Ok p -> start s b -> phi_free s b ->
  st_ok (v_st q) -> (forall v, v_env q v = None) ->
  vrun w bi s (c_off s) n prev b q = Some out ->
  match out with
  | VAt _ b' _ => exists m', prun w bi (next_of s) p n b (v_st q) = Some (PGo b' m')
  | VDone z q' => exists m', prun w bi (next_of s) p n b (v_st q) = Some (PRet z m') /\ mem m' = mem (v_st q') /\ ncall m' = ncall (v_st q')
  end.
Proof.
  intros R Sh Sg Sa Ap Fw Ft H Hp Hs Hh Ok' En E. destruct (out_painted s u t p R Sh Sg Sa Ft H Hp) as (u1 & X & Pt).
  assert (Pt' : forall b, In b (c_reach s) -> exists nb, lookup p b = Some nb /\ painted s u (c_off s) b (nb_insns nb)).
  { intros c Hc. destruct (Pt c Hc) as (nb & L & K). exists nb. split; [exact L|]. exact (painted_ext _ _ _ _ _ _ X K). }
  destruct Sg as (_ & _ & _ & _ & St).
  pose proof (run_sim w ar s u (c_off s) R Sa Ap Sh St Fw p bi Pt' n prev b q (v_st q) out) as K.
  specialize (K (inv_start ar s u (c_off s) bi prev b q Hs Ok' En Hh) E). destruct out; [|exact K]. destruct K as (m' & K & _). exists m'. exact K.
Qed.
