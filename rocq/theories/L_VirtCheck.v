(** Boolean checkers for the conditions under which the exit from SSA keeps the meaning of a function. *)
From Coq Require Import ZArith List Bool Arith Lia.
From Verif Require Import M_Base M_Ir M_Norm M_Edit M_Ra SpecWord SpecFlat SpecProg SpecSsa SpecIr SpecRa SpecPass SpecShift SpecVirt
  L_Edit L_RaGraph L_RaLive L_RaCheck.
From Verif Require Import SpecVirt.
Import ListNotations.
Open Scope nat_scope.

Definition opt_l {A B} (o : option A) (g : A -> list B) : list B := match o with Some a => g a | None => [] end.
(** ** Points at which something is wanted *)
Definition tab := list (Z * (nat * nat)).
Definition key_eqb (a b : Z * (nat * nat)) : bool := (fst a =? fst b)%Z && (fst (snd a) =? fst (snd b)) && (snd (snd a) =? snd (snd b)).
Lemma key_eqb_eq a b : key_eqb a b = true <-> a = b.
Proof.
  destruct a as [z [b1 k1]], b as [z' [b2 k2]]. unfold key_eqb. cbn [fst snd]. rewrite !andb_true_iff, Z.eqb_eq, !Nat.eqb_eq. split; [intros ((-> & ->) & ->); reflexivity|].
  intros H. injection H as -> -> ->. auto.
Qed.
Definition inT (T : tab) (e : Z * (nat * nat)) : bool := existsb (key_eqb e) T.
Lemma inT_In T e : inT T e = true <-> In e T.
Proof.
  unfold inT. rewrite existsb_exists. split.
  - intros (x & H & E). apply key_eqb_eq in E. now subst.
  - intros H. exists e. split; [exact H|]. now apply key_eqb_eq.
Qed.
Definition targets (x : insn) : list nat := flat_map (fun v => match v_data v with VInsn d => [d] | _ => [] end) (operand_values x).
Definition at_list (s : cgs) (b : nat) : list (nat * nat) := combine (seq 0 (ends_at s b)) (insns_of (c_f s) b).
Lemma at_list_in s b k i : insn_at s b k i -> In (k, i) (at_list s b).
Proof. intros H. unfold at_list, ends_at. exact (nth_combine _ 0 k i H). Qed.
Definition phib (s : cgs) (i : nat) : bool := opt (f_insn (c_f s) i) (fun x => iop_eqb (i_op x) PHI).
Lemma phib_ok s i : phib s i = true <-> exists x, f_insn (c_f s) i = Some x /\ i_op x = PHI.
Proof.
  unfold phib, opt. destruct (f_insn (c_f s) i) as [x|]; split.
  - intros H. exists x. split; [reflexivity|]. destruct (i_op x); cbn in H; congruence.
  - intros (y & Y & O). injection Y as <-. now rewrite O.
  - discriminate.
  - intros (y & Y & _). discriminate Y.
Qed.

Section Closed.
Context (s : cgs) (use : nat -> list Z) (puse : value -> list Z) (kill : nat -> Z -> bool).
Definition add (T : tab) (e : Z * (nat * nat)) : tab := if inT T e then T else e :: T.
Definition gen : tab :=
  flat_map (fun b => flat_map (fun ki => if phib s (snd ki) then [] else map (fun z => (z, (b, fst ki))) (use (snd ki))) (at_list s b)) (c_reach s) ++
  flat_map (fun i => opt_l (f_insn (c_f s) i) (fun x => if iop_eqb (i_op x) PHI
    then flat_map (fun e => map (fun z => (z, (snd e, ends_at s (snd e)))) (puse (fst e))) (i_phi x) else [])) (linsns s).
Definition back (e : Z * (nat * nat)) : tab :=
  match snd e with
  | (b, S k) => if M_Ra.mem b (c_reach s) then opt_l (nth_error (insns_of (c_f s) b) k) (fun i => if kill i (fst e) then [] else [(fst e, (b, k))]) else []
  | (c, O) => if M_Ra.mem c (c_reach s) then map (fun b => (fst e, (b, ends_at s b))) (preds_of (c_f s) c) else []
  end.
Fixpoint grow (n : nat) (T todo : tab) : tab :=
  match n with
  | O => T
  | S m => let new := fold_left add (flat_map back todo) [] in
           let new := filter (fun e => negb (inT T e)) new in
           match new with [] => T | _ => grow m (new ++ T) new end
  end.
Definition table (n : nat) : tab := let g := fold_left add gen [] in grow n g g.
Definition closedb (T : tab) : bool := forallb (inT T) gen && forallb (fun e => forallb (inT T) (back e)) T.

Context (T : tab).
Hypothesis Cl : closedb T = true.
Lemma cl_use b k i z : In b (c_reach s) -> insn_at s b k i -> In z (use i) -> ~ (exists x, f_insn (c_f s) i = Some x /\ i_op x = PHI) -> In (z, (b, k)) T.
Proof.
  intros Hb Hi Hz Np. apply inT_In. unfold closedb in Cl. apply andb_prop in Cl as [C _]. rewrite forallb_forall in C. apply C. unfold gen. apply in_or_app. left.
  apply in_flat_map. exists b. split; [exact Hb|]. apply in_flat_map. exists (k, i). split; [now apply at_list_in|]. cbn [fst snd].
  destruct (phib s i) eqn:P; [exfalso; apply Np; now apply phib_ok|]. apply in_map_iff. eauto.
Qed.
Lemma cl_phi b p x w z : linked s p -> f_insn (c_f s) p = Some x -> i_op x = PHI -> In (w, b) (i_phi x) -> In z (puse w) -> In (z, (b, ends_at s b)) T.
Proof.
  intros Lp X O Hw Hz. apply inT_In. unfold closedb in Cl. apply andb_prop in Cl as [C _]. rewrite forallb_forall in C. apply C. unfold gen. apply in_or_app. right.
  apply in_flat_map. exists p. split; [now apply linsns_in|]. rewrite X. cbn [opt_l]. rewrite O. cbn [iop_eqb]. apply in_flat_map. exists (w, b). split; [exact Hw|]. cbn [fst snd]. apply in_map_iff. eauto.
Qed.
Lemma cl_back e e' : In e T -> In e' (back e) -> In e' T.
Proof.
  intros He H. apply inT_In. unfold closedb in Cl. apply andb_prop in Cl as [_ C]. rewrite forallb_forall in C. specialize (C e He). rewrite forallb_forall in C. now apply C.
Qed.
Lemma cl_step b k i z : In b (c_reach s) -> insn_at s b k i -> kill i z = false -> In (z, (b, S k)) T -> In (z, (b, k)) T.
Proof.
  intros Hb Hi Kl H. apply (cl_back _ _ H). unfold back. cbn [fst snd]. apply mem_In in Hb. rewrite Hb. unfold insn_at in Hi. rewrite Hi. cbn [opt_l]. rewrite Kl. now left.
Qed.
Lemma cl_edge b c z : In c (c_reach s) -> In b (preds_of (c_f s) c) -> In (z, (c, 0)) T -> In (z, (b, ends_at s b)) T.
Proof.
  intros Hc Hp H. apply (cl_back _ _ H). unfold back. cbn [fst snd]. apply mem_In in Hc. rewrite Hc. apply in_map_iff. eauto.
Qed.
End Closed.

(** values *)
Definition vuse (s : cgs) (i : nat) : list Z := opt_l (f_insn (c_f s) i) (fun x => map Z.of_nat (targets x)).
Definition vpuse (w : value) : list Z := match v_data w with VInsn d => [Z.of_nat d] | _ => [] end.
Definition vkill (s : cgs) (i : nat) (z : Z) : bool := opt (c_ex s i) (fun e => opt (x_dst e) (fun d => (Z.of_nat d =? z)%Z)).
Lemma reads_targets s i d : reads s i d -> exists x, f_insn (c_f s) i = Some x /\ In d (targets x).
Proof.
  unfold reads, uses. destruct (f_insn (c_f s) i) as [x|]; [|lia]. intros H. exists x. split; [reflexivity|]. unfold targets. apply in_flat_map.
  destruct (filter (is_use_of d) (operand_values x)) as [|v l] eqn:F; [cbn in H; lia|]. assert (K : In v (filter (is_use_of d) (operand_values x))) by (rewrite F; now left).
  apply filter_In in K as (K & U). exists v. split; [exact K|]. unfold is_use_of in U. destruct (v_data v); try discriminate U. apply Nat.eqb_eq in U. subst. now left.
Qed.
Lemma live_in s T v p : closedb s (vuse s) vpuse (vkill s) T = true -> live s v p -> In (Z.of_nat v, p) T.
Proof.
  intros Cl H. induction H as [b k i Hb Hi Rd Np|b p x w Lp X O Hw U|b k i Hb Hi Nd H IH|b c Hc Hp H IH].
  - apply (cl_use _ _ _ _ T Cl b k i); auto. destruct (reads_targets _ _ _ Rd) as (x & X & Ht). unfold vuse. rewrite X. cbn [opt_l]. now apply in_map.
  - apply (cl_phi _ _ _ _ T Cl b p x w); auto. unfold vpuse. unfold is_use_of in U. destruct (v_data w); try discriminate U. apply Nat.eqb_eq in U. subst. now left.
  - apply (cl_step _ _ _ _ T Cl b k i); auto. unfold vkill. destruct (c_ex s i) as [e|] eqn:E; [|reflexivity]. cbn [opt]. destruct (x_dst e) as [d|] eqn:D; [|reflexivity]. cbn [opt].
    destruct (Z.eqb_spec (Z.of_nat d) (Z.of_nat v)) as [Q|]; [|reflexivity]. apply Nat2Z.inj in Q. subst. exfalso. apply Nd. exists e. auto.
  - apply (cl_edge _ _ _ _ T Cl b c); auto.
Qed.

(** registers *)
Definition freg (s : cgs) (d : nat) : list Z :=
  opt_l (c_ex s d) (fun e => if x_fin e && vp_alloc (x_pos e) && (vp_spilled (x_pos e) =? 0)%Z then [vp_reg (x_pos e)] else []).
Lemma freg_in s d r : fixed_reg s d r -> In r (freg s d).
Proof. intros (e & E & A & B & C & D). unfold freg. rewrite E. cbn [opt_l]. rewrite A, B, C. cbn. now left. Qed.
Definition ruse (s : cgs) (ar : arity) (i : nat) : list Z :=
  opt_l (f_insn (c_f s) i) (fun x => flat_map (freg s) (targets x) ++
    (if iop_eqb (i_op x) CALL then map Z.of_nat (seq 1 (ar (i_u x))) else []) ++
    (if iop_eqb (i_op x) RET then match i_vals x with [] => [0%Z] | _ => [] end else [])).
Definition rpuse (s : cgs) (w : value) : list Z := match v_data w with VInsn d => freg s d | _ => [] end.
Definition rkill (s : cgs) (i : nat) (r : Z) : bool :=
  opt (c_ex s i) (fun e => opt (x_dst e) (fun d => existsb (Z.eqb r) (freg s d))) ||
  opt (f_insn (c_f s) i) (fun x => iop_eqb (i_op x) CALL && (0 <=? r)%Z && (r <=? 5)%Z).
Lemma rkill_ok s i r : rkill s i r = true -> writes_reg s i r.
Proof.
  unfold rkill. intros H. apply orb_prop in H as [H|H].
  - apply opt_ok in H as (e & E & H). apply opt_ok in H as (d & D & H). apply existsb_exists in H as (z & Hz & Q). apply Z.eqb_eq in Q. subst z.
    unfold freg in Hz. destruct (c_ex s d) as [ed|] eqn:Cd; [|contradiction]. cbn [opt_l] in Hz. destruct (x_fin ed && _ && _) eqn:B; [|contradiction]. destruct Hz as [<-|[]].
    rewrite !andb_true_iff, Z.eqb_eq in B. destruct B as ((B1 & B2) & B3). apply (wr_dst s i _ d); [exists e; auto|]. exists ed. auto.
  - apply opt_ok in H as (x & X & H). rewrite !andb_true_iff, !Z.leb_le in H. destruct H as ((O & L1) & L2). apply (wr_call s i r x X); [|lia]. destruct (i_op x); cbn in O; congruence.
Qed.
Lemma needed_in s ar T r p : closedb s (ruse s ar) (rpuse s) (rkill s) T = true -> needed s ar r p -> In (r, p) T.
Proof.
  intros Cl H. induction H as [b k i Hb Hi Rd Np|b p x w d Lp X O Hw U F|b k i Hb Hi Nd H IH|b c Hc Hp H IH].
  - apply (cl_use _ _ _ _ T Cl b k i); auto. destruct Rd as [d Rd F|x X O L|x X O V ->]; unfold ruse.
    + destruct (reads_targets _ _ _ Rd) as (x & X & Ht). rewrite X. cbn [opt_l]. apply in_or_app. left. apply in_flat_map. exists d. split; [exact Ht|now apply freg_in].
    + rewrite X. cbn [opt_l]. apply in_or_app. right. apply in_or_app. left. rewrite O. cbn [iop_eqb]. apply in_map_iff. exists (Z.to_nat r). split; [lia|]. apply in_seq. lia.
    + rewrite X. cbn [opt_l]. apply in_or_app. right. apply in_or_app. right. rewrite O, V. cbn. now left.
  - apply (cl_phi _ _ _ _ T Cl b p x w); auto. unfold rpuse. unfold is_use_of in U. destruct (v_data w); try discriminate U. apply Nat.eqb_eq in U. subst. now apply freg_in.
  - apply (cl_step _ _ _ _ T Cl b k i); auto. destruct (rkill s i r) eqn:K; [|reflexivity]. exfalso. apply Nd. now apply rkill_ok.
  - apply (cl_edge _ _ _ _ T Cl b c); auto.
Qed.

(** ** The conditions on the assignment *)
Definition regof (u : cgs) (v : nat) : option Z :=
  match c_ex u v with Some e => if vp_alloc (x_pos e) && (vp_spilled (x_pos e) =? 0)%Z then Some (vp_reg (x_pos e)) else None | None => None end.
Lemma regof_ok u v r : in_reg u v r <-> regof u v = Some r.
Proof.
  unfold in_reg, regof. destruct (c_ex u v) as [e|]; split.
  - intros (e' & E & A & B & C). injection E as <-. rewrite A, B, C. reflexivity.
  - destruct (vp_alloc (x_pos e)) eqn:A; [|discriminate]. destruct (Z.eqb_spec (vp_spilled (x_pos e)) 0); [|discriminate]. cbn. intros H. injection H as <-. exists e. auto.
  - intros (e' & E & _). discriminate E.
  - discriminate.
Qed.
Definition regb_is (u : cgs) (v : nat) (r : Z) : bool := opt (regof u v) (Z.eqb r).
Lemma regb_is_ok u v r : regb_is u v r = false -> ~ in_reg u v r.
Proof. intros H K. apply regof_ok in K. unfold regb_is in H. rewrite K in H. cbn in H. rewrite Z.eqb_refl in H. discriminate H. Qed.
Definition shareb (u : cgs) (a b : nat) : bool := opt (regof u a) (regb_is u b).
Lemma shareb_ok u a b : shareb u a b = false -> ~ share u a b.
Proof. intros H (r & A & B). apply regof_ok in A. unfold shareb in H. rewrite A in H. cbn in H. exact (regb_is_ok _ _ _ H B). Qed.
Definition cpt (s : cgs) (b : nat) : nat :=
  match rev (insns_of (c_f s) b) with
  | z :: _ => if opt (f_insn (c_f s) z) (fun x => is_jmp_op (i_op x)) then pred (ends_at s b) else ends_at s b
  | [] => ends_at s b
  end.
Lemma copy_point_cpt s b m : copy_point s b m -> m = cpt s b.
Proof.
  assert (La : forall k i, S k = ends_at s b -> insn_at s b k i -> exists r, rev (insns_of (c_f s) b) = i :: r).
  { intros k i Hk Hi. unfold ends_at in Hk. unfold insn_at in Hi. destruct (rev (insns_of (c_f s) b)) as [|z r] eqn:E.
    - assert (Q : insns_of (c_f s) b = []) by (rewrite <- (rev_involutive (insns_of _ _)), E; reflexivity). rewrite Q in Hi. destruct k; discriminate Hi.
    - assert (Q : insns_of (c_f s) b = rev r ++ [z]) by (rewrite <- (rev_involutive (insns_of _ _)), E; reflexivity). rewrite Q, app_length in Hk. cbn in Hk.
      rewrite Q, nth_error_app2 in Hi by lia. replace (k - length (rev r)) with 0 in Hi by lia. cbn in Hi. injection Hi as ->. eauto. }
  unfold cpt. intros [k Hk (i & x & Hi & X & J)|Hn].
  - destruct (La k i Hk Hi) as (r & E). rewrite E, X. cbn [opt]. rewrite J. lia.
  - destruct (rev (insns_of (c_f s) b)) as [|z r] eqn:E; [reflexivity|]. destruct (f_insn (c_f s) z) as [x|] eqn:X; [|reflexivity]. cbn [opt]. destruct (is_jmp_op (i_op x)) eqn:J; [|reflexivity].
    exfalso. assert (Q : insns_of (c_f s) b = rev r ++ [z]) by (rewrite <- (rev_involutive (insns_of _ _)), E; reflexivity).
    apply (Hn (length (rev r))); [unfold ends_at; rewrite Q, app_length; cbn; lia|]. exists z, x. split; [|auto]. unfold insn_at. rewrite Q, nth_error_app2, Nat.sub_diag by lia. reflexivity.
Qed.

Definition poseqb (p q : vrpos) : bool := Bool.eqb (vp_alloc p) (vp_alloc q) && (vp_size p =? vp_size q)%Z && (vp_reg p =? vp_reg q)%Z && (vp_spilled p =? vp_spilled q)%Z.
Lemma poseqb_ok p q : poseqb p q = true -> p = q.
Proof. destruct p, q. unfold poseqb. cbn. rewrite !andb_true_iff, !Z.eqb_eq. intros (((A & ->) & ->) & ->). apply eqb_prop in A. now subst. Qed.

Section Tables.
Context (s u : cgs) (ar : arity) (TL TN : tab).
(** the tracked values at a point *)
Definition liveat (b k : nat) : list nat :=
  filter (trackedb s) (flat_map (fun e => if (fst (snd e) =? b) && (snd (snd e) =? k) then [Z.to_nat (fst e)] else []) TL).
Definition needat (b k : nat) : list Z := flat_map (fun e => if (fst (snd e) =? b) && (snd (snd e) =? k) then [fst e] else []) TN.
Definition phi_edges (i : nat) (x : insn) : list (value * nat) := if iop_eqb (i_op x) PHI then i_phi x else [].
Definition storevar (x : insn) : list nat := match i_op x, i_vals x with STORE, [t; v] => match v_data t with VInsn d => [d] | _ => [] end | _, _ => [] end.
Definition soundat (b k i : nat) : bool :=
  opt (f_insn (c_f s) i) (fun x => opt (c_ex s i) (fun e =>
    let after := liveat b (S k) in
    forallb (fun d => forallb (fun v => (d =? v) || negb (shareb u d v)) after) (opt_l (x_dst e) (fun d => [d])) &&
    (negb (iop_eqb (i_op x) CALL) ||
     forallb (fun v => negb (M_Ra.mem v (liveat b k)) || opt (regof u v) (fun r => (6 <=? r)%Z)) after) &&
    (negb (is_bin_alu_op (i_op x)) ||
     match nth_error (i_vals x) 1 with Some v => match v_data v with VInsn d => negb (shareb u i d) | _ => true end | None => true end) &&
    forallb (fun we => forallb (fun v => (v =? i) || negb (shareb u v i)) (liveat (snd we) (cpt s (snd we)))) (phi_edges i x))).
Definition apartat (b k i : nat) : bool :=
  opt (f_insn (c_f s) i) (fun x => opt (c_ex s i) (fun e =>
    let need := needat b (S k) in
    forallb (fun d => negb (trackedb s d) || forallb (fun r => negb (regb_is u d r)) need) (opt_l (x_dst e) (fun d => [d]) ++ storevar x) &&
    forallb (fun we => let n := snd we in let m := cpt s n in
       forallb (fun r => negb (regb_is u i r)) (needat n m) &&
       (negb (inT TL (Z.of_nat i, (n, m))) || is_use_of i (fst we)) &&
       forallb (fun j => opt (f_insn (c_f s) j) (fun y => (i_parent x =? i_parent y) || negb (existsb (fun e => snd e =? n) (phi_edges j y)) || negb (shareb u i j)))
         (linsns s)) (phi_edges i x))).
Definition soundb : bool :=
  closedb s (vuse s) vpuse (vkill s) TL &&
  forallb (fun v => negb (trackedb s v) || opt (regof u v) asg) (linsns s) &&
  forallb (fun v => match c_ex s v with Some e => negb (x_fin e) || opt (c_ex u v) (fun e' => poseqb (x_pos e') (x_pos e)) | None => true end) (seq 0 (f_ni (c_f s))) &&
  forallb (fun e => forallb (fun b => negb (trackedb s b) || let a := Z.to_nat (fst e) in negb (trackedb s a) || (a =? b) || negb (shareb u a b))
     (liveat (fst (snd e)) (snd (snd e)))) TL &&
  forallb (fun b => forallb (fun ki => soundat b (fst ki) (snd ki)) (at_list s b)) (c_reach s).
Definition apartb : bool :=
  closedb s (vuse s) vpuse (vkill s) TL && closedb s (ruse s ar) (rpuse s) (rkill s) TN &&
  forallb (fun b => forallb (fun ki => apartat b (fst ki) (snd ki)) (at_list s b)) (c_reach s).


Lemma live_at v b k : closedb s (vuse s) vpuse (vkill s) TL = true -> tracked s v -> live s v (b, k) -> In v (liveat b k).
Proof.
  intros cl_L T L. unfold liveat. apply filter_In. split; [|now apply trackedb_ok]. apply in_flat_map. exists (Z.of_nat v, (b, k)). split; [exact (live_in _ _ _ _ cl_L L)|].
  cbn [fst snd]. rewrite !Nat.eqb_refl, Nat2Z.id. now left.
Qed.
Lemma need_at r b k : closedb s (ruse s ar) (rpuse s) (rkill s) TN = true -> needed s ar r (b, k) -> In r (needat b k).
Proof.
  intros cl_N L. unfold needat. apply in_flat_map. exists (r, (b, k)). split; [exact (needed_in _ _ _ _ _ cl_N L)|]. cbn [fst snd]. rewrite !Nat.eqb_refl. now left.
Qed.
Lemma all_at (g : nat -> nat -> nat -> bool) b k i : forallb (fun b => forallb (fun ki => g b (fst ki) (snd ki)) (at_list s b)) (c_reach s) = true ->
  In b (c_reach s) -> insn_at s b k i -> g b k i = true.
Proof.
  intros K Hb Hi. rewrite forallb_forall in K. specialize (K b Hb). rewrite forallb_forall in K. exact (K (k, i) (at_list_in _ _ _ _ Hi)).
Qed.
Lemma linked_at i : linked s i -> exists b k, In b (c_reach s) /\ insn_at s b k i.
Proof. intros (b & Hb & Hi). apply In_nth_error in Hi as (k & Hk). exists b, k. auto. Qed.
Ltac spoint P := unfold soundat in P; apply opt_ok in P as (?x & ?X & P); apply opt_ok in P as (?e & ?E & P); cbv zeta in P; rewrite !andb_true_iff in P;
  destruct P as (((?P1 & ?P3) & ?P4) & ?P5).
Ltac apoint P := unfold apartat in P; apply opt_ok in P as (?x & ?X & P); apply opt_ok in P as (?e & ?E & P); cbv zeta in P; rewrite !andb_true_iff in P;
  destruct P as (?P2 & ?P5).

Lemma sound_by : soundb = true -> (forall v, f_ni (c_f s) <= v -> c_ex s v = None) -> sound_assignment s u.
Proof.
  intros H Nx. unfold soundb in H. rewrite !andb_true_iff in H. destruct H as ((((cl_L & C1) & C2) & C3) & C4). rewrite forallb_forall in C1, C2, C3.
  assert (at_point : forall b k i, In b (c_reach s) -> insn_at s b k i -> soundat b k i = true) by (intros; now apply (all_at soundat)). constructor.
  - intros v T. specialize (C1 v (proj2 (linsns_in s v) (proj1 T))). apply trackedb_ok in T. rewrite T in C1. cbn in C1. apply opt_ok in C1 as (r & A & B). exists r. split; [now apply regof_ok|now apply asg_ok].
  - intros v (e & E & F). assert (Lv : v < f_ni (c_f s)) by (destruct (le_lt_dec (f_ni (c_f s)) v) as [L|L]; [rewrite (Nx v L) in E; discriminate E|exact L]).
    specialize (C2 v (proj2 (in_seq _ _ _) (conj (Nat.le_0_l v) Lv))). rewrite E, F in C2. cbn in C2. apply opt_ok in C2 as (e' & E' & P). apply poseqb_ok in P. unfold position. rewrite E, E'. cbn. now rewrite P.
  - intros a b [bb k] Ta Tb Ne _ La Lb. pose proof (live_in _ _ _ _ cl_L La) as Ia. specialize (C3 _ Ia). cbn [fst snd] in C3. rewrite forallb_forall in C3. specialize (C3 b (live_at b bb k cl_L Tb Lb)).
    rewrite Nat2Z.id in C3. apply trackedb_ok in Ta, Tb. rewrite Ta, Tb in C3. cbn in C3. destruct (Nat.eqb_spec a b); [contradiction|]. cbn in C3. apply negb_true_iff in C3. now apply shareb_ok.
  - intros b k i d v Hb Hi (e0 & E0 & D0) T Ne L. pose proof (at_point b k i Hb Hi) as P. spoint P. rewrite E in E0. injection E0 as <-. rewrite D0 in P1. cbn in P1. rewrite andb_true_r in P1.
    rewrite forallb_forall in P1. specialize (P1 v (live_at v b (S k) cl_L T L)). destruct (Nat.eqb_spec d v); [contradiction|]. cbn in P1. apply negb_true_iff in P1. now apply shareb_ok.
  - intros b k i x0 v r Hb Hi X0 O T L1 L2 Ir. pose proof (at_point b k i Hb Hi) as P. spoint P. rewrite X in X0. injection X0 as <-. rewrite O in P3. cbn in P3.
    rewrite forallb_forall in P3. specialize (P3 v (live_at v b (S k) cl_L T L2)). apply (live_at _ _ _ cl_L T) in L1. apply mem_In in L1. rewrite L1 in P3. cbn in P3. apply opt_ok in P3 as (r' & Q & L).
    apply regof_ok in Ir. rewrite Ir in Q. injection Q as <-. now apply Z.leb_le.
  - intros i x0 w n m v Li X0 O Hw T Ne Cp L. destruct (linked_at i Li) as (b & k & Hb & Hi). pose proof (at_point b k i Hb Hi) as P. spoint P. rewrite X in X0. injection X0 as <-.
    unfold phi_edges in P5. rewrite O in P5. cbn in P5. rewrite forallb_forall in P5. specialize (P5 (w, n) Hw). cbn [fst snd] in P5. apply copy_point_cpt in Cp. subst m. rename P5 into Q.
    rewrite forallb_forall in Q. specialize (Q v (live_at v n _ cl_L T L)). destruct (Nat.eqb_spec v i); [contradiction|]. cbn in Q. apply negb_true_iff in Q. now apply shareb_ok.
  - intros i x0 v d Li X0 O Hv D. destruct (linked_at i Li) as (b & k & Hb & Hi). pose proof (at_point b k i Hb Hi) as P. spoint P. rewrite X in X0. injection X0 as <-.
    rewrite O, Hv, D in P4. cbn in P4. apply negb_true_iff in P4. now apply shareb_ok.
Qed.
Lemma apart_by : apartb = true -> apart ar s u.
Proof.
  intros H. unfold apartb in H. rewrite !andb_true_iff in H. destruct H as ((cl_L & cl_N) & C4).
  assert (at_point : forall b k i, In b (c_reach s) -> insn_at s b k i -> apartat b k i = true) by (intros; now apply (all_at apartat)). constructor.
  - intros b k i d r Hb Hi As T Nd. pose proof (at_point b k i Hb Hi) as P. apoint P. rewrite forallb_forall in P2.
    assert (Id : In d (opt_l (x_dst e) (fun d => [d]) ++ storevar x)).
    { apply in_or_app. destruct As as [(e0 & E0 & D0)|(x0 & t & v & X0 & O & V & D)]; [left|right].
      - rewrite E in E0. injection E0 as <-. rewrite D0. now left.
      - rewrite X in X0. injection X0 as <-. unfold storevar. rewrite O, V, D. now left. }
    specialize (P2 d Id). apply trackedb_ok in T. rewrite T in P2. cbn in P2. rewrite forallb_forall in P2. specialize (P2 r (need_at r b (S k) cl_N Nd)). apply negb_true_iff in P2. now apply regb_is_ok.
  - intros i x0 w n m r Li X0 O Hw Cp Nd. destruct (linked_at i Li) as (b & k & Hb & Hi). pose proof (at_point b k i Hb Hi) as P. apoint P. rewrite X in X0. injection X0 as <-.
    unfold phi_edges in P5. rewrite O in P5. cbn in P5. rewrite forallb_forall in P5. specialize (P5 (w, n) Hw). cbn [fst snd] in P5. apply copy_point_cpt in Cp. subst m. rewrite !andb_true_iff in P5. destruct P5 as ((Q & _) & _).
    rewrite forallb_forall in Q. specialize (Q r (need_at r n _ cl_N Nd)). apply negb_true_iff in Q. now apply regb_is_ok.
  - intros i x0 w n m Li X0 O Hw Cp L. destruct (linked_at i Li) as (b & k & Hb & Hi). pose proof (at_point b k i Hb Hi) as P. apoint P. rewrite X in X0. injection X0 as <-.
    unfold phi_edges in P5. rewrite O in P5. cbn in P5. rewrite forallb_forall in P5. specialize (P5 (w, n) Hw). cbn [fst snd] in P5. apply copy_point_cpt in Cp. subst m. rewrite !andb_true_iff in P5. destruct P5 as ((_ & Q) & _).
    apply (live_in _ _ _ _ cl_L) in L. apply inT_In in L. rewrite L in Q. exact Q.
  - intros i x0 w j y w' n Li X0 O Hw Lj Y Oj Hw' Ne. destruct (linked_at i Li) as (b & k & Hb & Hi). pose proof (at_point b k i Hb Hi) as P. apoint P. rewrite X in X0. injection X0 as <-.
    unfold phi_edges in P5 at 2. rewrite O in P5. cbn in P5. rewrite forallb_forall in P5. specialize (P5 (w, n) Hw). cbn [fst snd] in P5. rewrite !andb_true_iff in P5. destruct P5 as (_ & Q).
    rewrite forallb_forall in Q. specialize (Q j (proj2 (linsns_in s j) Lj)). rewrite Y in Q. cbn [opt] in Q. destruct (Nat.eqb_spec (i_parent x) (i_parent y)); [contradiction|]. cbn [orb] in Q.
    unfold phi_edges in Q. rewrite Oj in Q. change (iop_eqb PHI PHI) with true in Q. cbv iota in Q. assert (K : existsb (fun e : value * nat => snd e =? n) (i_phi y) = true) by (apply existsb_exists; exists (w', n); split; [exact Hw'|apply Nat.eqb_refl]).
    rewrite K in Q. cbn in Q. apply negb_true_iff in Q. now apply shareb_ok.
Qed.
End Tables.

(** ** The shape of the function *)
Definition readableb (s : cgs) (v : vdata) : bool :=
  match v with
  | VConst _ | VRawOff _ | VRawOffRev _ => true
  | VInsn d => trackedb s d || opt (c_ex s d) (fun e => x_fin e && vp_alloc (x_pos e) && (negb (vp_spilled (x_pos e) =? 0)%Z || is_reg (vp_reg (x_pos e))))
  | _ => false
  end.
Lemma readableb_ok s v : readableb s v = true -> readable s v.
Proof.
  destruct v; cbn; auto; try discriminate. intros H. apply orb_prop in H as [H|H]; [left; now apply trackedb_ok|right]. apply opt_ok in H as (e & E & H).
  rewrite !andb_true_iff, orb_true_iff, negb_true_iff, Z.eqb_neq in H. exists e. intuition.
Qed.
Definition jumps_to (x : insn) : list nat := match i_op x with JA => [i_bb1 x] | _ => if is_cond_jmp_op (i_op x) then [i_bb1 x; i_bb2 x] else [] end.
Definition leadsto (s : cgs) (b : nat) : list nat :=
  flat_map (fun i => opt_l (f_insn (c_f s) i) jumps_to) (insns_of (c_f s) b) ++ opt_l (hd_error (succs_of (c_f s) b)) (fun c => [c]).
Definition shapeb (s : cgs) : bool :=
  forallb (fun b =>
    forallb (fun ki => opt (f_insn (c_f s) (snd ki)) (fun x => negb (is_jmp_op (i_op x)) || (S (fst ki) =? ends_at s b))) (at_list s b) &&
    forallb (fun c => M_Ra.mem c (c_reach s) && M_Ra.mem b (preds_of (c_f s) c)) (leadsto s b)) (c_reach s) &&
  forallb (fun i => opt (f_insn (c_f s) i) (fun x => opt (c_ex s i) (fun e =>
    (negb (iop_eqb (i_op x) PHI) || (trackedb s i && nodupb (map snd (i_phi x)) && forallb (fun e => readableb s (v_data (fst e))) (i_phi x))) &&
    (negb (iop_eqb (i_op x) STORE || iop_eqb (i_op x) STORERAW || iop_eqb (i_op x) CALL) || match x_dst e with None => true | _ => false end) &&
    (negb (iop_eqb (i_op x) STORE) || match i_vals x with v :: _ => readableb s (v_data v) | [] => true end)))) (linsns s) &&
  forallb (fun i => match f_insn (c_f s) i with
     | Some x => forallb (fun d => d <? f_ni (c_f s)) (targets x) &&
        (negb (iop_eqb (i_op x) ALLOC || iop_eqb (i_op x) ALLOCARRAY) ||
         match c_ex s i with Some e => negb (x_fin e) || (vp_alloc (x_pos e) && negb (vp_spilled (x_pos e) =? 0)%Z) | None => true end)
     | None => true end) (seq 0 (f_ni (c_f s))).
Lemma iop_eqb_ok a b : iop_eqb a b = true <-> a = b.
Proof. split; [destruct a, b; cbn; congruence|intros ->; destruct b; reflexivity]. Qed.
Lemma shapeb_ok s : shapeb s = true -> (forall v, f_ni (c_f s) <= v -> c_ex s v = None /\ f_insn (c_f s) v = None) -> shape s.
Proof.
  unfold shapeb. rewrite !andb_true_iff, !forallb_forall. intros ((A & B) & C) N.
  assert (Lt : forall i, f_insn (c_f s) i <> None \/ c_ex s i <> None -> i < f_ni (c_f s)).
  { intros i Hi. destruct (le_lt_dec (f_ni (c_f s)) i) as [L|L]; [|exact L]. destruct (N i L) as (N1 & N2). destruct Hi; contradiction. }
  assert (B' : forall i x, linked s i -> f_insn (c_f s) i = Some x -> exists e, c_ex s i = Some e /\
    (i_op x = PHI -> tracked s i /\ NoDup (map snd (i_phi x)) /\ (forall w n, In (w, n) (i_phi x) -> readable s (v_data w))) /\
    (In (i_op x) [STORE; STORERAW; CALL] -> x_dst e = None) /\ (i_op x = STORE -> forall v, hd_error (i_vals x) = Some v -> readable s (v_data v))).
  { intros i x L X. specialize (B i (proj2 (linsns_in s i) L)). apply opt_ok in B as (x' & X' & B). rewrite X in X'. injection X' as <-. apply opt_ok in B as (e & E & B). rewrite !andb_true_iff in B.
    destruct B as ((B1 & B2) & B3). exists e. split; [exact E|]. split; [|split].
    - intros O. rewrite O in B1. cbn in B1. rewrite !andb_true_iff, forallb_forall in B1. destruct B1 as ((Q1 & Q2) & Q3). split; [now apply trackedb_ok|]. split; [now apply nodupb_ok|].
      intros w n Hw. apply readableb_ok. exact (Q3 (w, n) Hw).
    - intros O. destruct (x_dst e); [|reflexivity]. exfalso. destruct O as [O|[O|[O|[]]]]; rewrite <- O in B2; discriminate B2.
    - intros O v Hv. rewrite O in B3. cbn in B3. destruct (i_vals x) as [|v0 r]; [discriminate Hv|]. cbn in Hv. injection Hv as ->. now apply readableb_ok. }
  assert (C' : forall i x, f_insn (c_f s) i = Some x -> (forall d, In d (targets x) -> d < f_ni (c_f s)) /\
    (i_op x = ALLOC \/ i_op x = ALLOCARRAY -> forall e, c_ex s i = Some e -> x_fin e = true -> vp_alloc (x_pos e) = true /\ vp_spilled (x_pos e) <> 0%Z)).
  { intros i x X. assert (Li : i < f_ni (c_f s)) by (apply Lt; left; congruence). specialize (C i (proj2 (in_seq _ _ _) (conj (Nat.le_0_l i) Li))). rewrite X in C. rewrite andb_true_iff, forallb_forall in C.
    destruct C as (C1 & C2). split; [intros d Hd; apply Nat.ltb_lt; auto|]. intros O e E F. rewrite E, F in C2. cbn in C2. destruct O as [O|O]; rewrite O in C2; cbn in C2; rewrite andb_true_iff, negb_true_iff, Z.eqb_neq in C2; exact C2. }
  constructor.
  - intros b k i x Hb Hi X J. specialize (A b Hb). apply andb_prop in A as [A _]. rewrite forallb_forall in A. specialize (A (k, i) (at_list_in _ _ _ _ Hi)). cbn [fst snd] in A. rewrite X in A. cbn [opt] in A. rewrite J in A. now apply Nat.eqb_eq in A.
  - intros b c Hb L. specialize (A b Hb). apply andb_prop in A as [_ A]. rewrite forallb_forall in A.
    assert (K : In c (leadsto s b)).
    { unfold leadsto. apply in_or_app. destruct L as [(i & x & Hi & X & L)|L]; [left|right].
      - apply in_flat_map. exists i. split; [exact Hi|]. rewrite X. cbn [opt_l]. unfold jumps_to. destruct L as [(O & <-)|(O & L)]; [rewrite O; now left|].
        destruct (i_op x); try discriminate O; cbn; destruct L as [<-|<-]; auto.
      - rewrite L. now left. }
    specialize (A c K). apply andb_prop in A as [A1 A2]. split; now apply mem_In.
  - intros i x L X O. destruct (B' i x L X) as (e & E & Q & _). auto.
  - exact Lt.
  - intros i x v d X Hv D. apply (proj1 (C' i x X)). unfold targets. apply in_flat_map. exists v. split; [exact Hv|]. rewrite D. now left.
  - intros i x e L X E O. destruct (B' i x L X) as (e' & E' & _ & Q & _). rewrite E in E'. injection E' as <-. auto.
  - intros i x v L X O Hv. destruct (B' i x L X) as (e' & E' & _ & _ & Q). auto.
  - intros i x e X O E F. exact (proj2 (C' i x X) O e E F).
Qed.

(** ** The extra stack *)
Definition value_fitb (o : Z) (v : value) : bool :=
  match v_data v with
  | VRawOff c => (- 2 ^ 63 <=? c + o)%Z && (c + o <? 2 ^ 63)%Z
  | VRawOffRev c => (- 2 ^ 63 <=? c - o)%Z && (c - o <? 2 ^ 63)%Z
  | _ => true
  end.
Definition no_holeb (v : value) : bool := match v_data v with VRawOff _ | VRawOffRev _ => false | _ => true end.
Definition fitb (o : Z) (x : insn) : bool :=
  forallb (value_fitb o) (i_vals x) && forallb (fun e => value_fitb o (fst e)) (i_phi x) &&
  (negb (is_raw (i_op x)) || (forallb no_holeb (i_vals x) && no_holeb (a_val (i_addr x)) &&
     match a_ot (i_addr x) with
     | O_CONST => true
     | O_RAWOFF => (- 2 ^ 15 <=? a_off (i_addr x) + o)%Z && (a_off (i_addr x) + o <? 2 ^ 15)%Z
     | O_RAWOFF_REV => (- 2 ^ 15 <=? a_off (i_addr x) - o)%Z && (a_off (i_addr x) - o <? 2 ^ 15)%Z
     end)).
Lemma value_fitb_ok o v : value_fitb o v = true -> value_fits o v.
Proof. unfold value_fitb, value_fits. destruct (v_data v); auto; rewrite andb_true_iff, Z.leb_le, Z.ltb_lt; auto. Qed.
Lemma no_holeb_ok v : no_holeb v = true -> no_hole v.
Proof. unfold no_holeb, no_hole. destruct (v_data v); auto; discriminate. Qed.
Lemma fitb_ok o x : fitb o x = true -> fits o x.
Proof.
  unfold fitb. rewrite !andb_true_iff, !forallb_forall. intros ((A & B) & C). constructor.
  - intros v Hv. apply value_fitb_ok. auto.
  - intros _ e He. apply value_fitb_ok. exact (B e He).
  - intros Hr. assert (Q : is_raw (i_op x) = true) by (destruct Hr as [-> | ->]; reflexivity). rewrite Q in C. cbn [negb orb] in C. rewrite !andb_true_iff, forallb_forall in C. destruct C as ((C1 & C2) & C3).
    split; [intros v Hv; apply no_holeb_ok; auto|]. split; [now apply no_holeb_ok|]. destruct (a_ot (i_addr x)); auto; rewrite andb_true_iff, Z.leb_le, Z.ltb_lt in C3; exact C3.
Qed.
