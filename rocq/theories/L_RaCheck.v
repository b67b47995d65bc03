(** Boolean checkers for the conditions of the register allocator, used in the examples. *)
From Verif Require Import M_Base M_Ir M_Edit M_Ra SpecIr SpecRa L_Edit L_RaGraph L_RaLive L_RaMain.
From Coq Require Import Permutation.
Open Scope nat_scope.

Fixpoint nodupb (l : list nat) : bool :=
  match l with [] => true | a :: r => negb (mem a r) && nodupb r end.
Lemma nodupb_ok l : nodupb l = true -> NoDup l.
Proof.
  induction l as [|a r IH]; cbn; intros H; [constructor|]. apply andb_prop in H as [H1 H2]. constructor; [|auto].
  apply negb_true_iff in H1. apply mem_not in H1. exact H1.
Qed.
Definition linsns (s : cgs) : list nat := flat_map (insns_of (c_f s)) (c_reach s).
Definition opt {A} (o : option A) (g : A -> bool) : bool := match o with Some a => g a | None => false end.
Lemma opt_ok {A} (o : option A) g : opt o g = true -> exists a, o = Some a /\ g a = true.
Proof. destruct o as [a|]; cbn; [eauto|discriminate]. Qed.
Definition dst_self (e : extra) (i : nat) : bool := match x_dst e with None => true | Some d => d =? i end.
Definition defb (s : cgs) (i : nat) : bool := opt (c_ex s i) (fun e => opt (x_dst e) (Nat.eqb i)).
Lemma defb_ok s i : defb s i = true -> defines s i i.
Proof.
  intros H. apply opt_ok in H. destruct H as (e & He & H). apply opt_ok in H. destruct H as (d & Hd & H).
  apply Nat.eqb_eq in H. subst d. exists e. auto.
Qed.
Definition asg (r : Z) : bool := (0 <=? r)%Z && (r <? 10)%Z.
Lemma asg_ok r : asg r = true -> assignable r.
Proof. unfold asg, assignable. intros H. apply andb_prop in H as [A B]. apply Z.leb_le in A. apply Z.ltb_lt in B. lia. Qed.

Definition regb (s : cgs) (kr : nat * nat) : bool :=
  opt (c_ex s (snd kr)) (fun e => x_fin e && x_nonvr e && vp_alloc (x_pos e) && (vp_spilled (x_pos e) =? 0)%Z
     && (vp_reg (x_pos e) =? Z.of_nat (fst kr))%Z && negb (mem (snd kr) (linsns s))).
Definition insnb (s : cgs) (b i : nat) : bool :=
  opt (f_insn (c_f s) i) (fun x => opt (c_ex s i) (fun e =>
    (i_parent x =? b) && dst_self e i && negb (x_nonvr e) && Bool.eqb (vp_alloc (x_pos e)) (x_fin e)
    && (negb (x_fin e) || negb (vp_spilled (x_pos e) =? 0)%Z || asg (vp_reg (x_pos e)))
    && (negb (is_jmp_op (i_op x)) || match x_dst e with None => true | _ => false end)
    && (negb (iop_eqb (i_op x) PHI) ||
        match i_vals x with [] => true | _ => false end && defb s i && forallb (fun p => mem (snd p) (c_reach s)) (i_phi x)))).
Definition usersb (s : cgs) (d : nat) : bool :=
  forallb (fun u => mem u (linsns s) && (0 <? uses (c_f s) u d)) (users_of (c_f s) d) &&
  forallb (fun u => negb (0 <? uses (c_f s) u d) || mem u (users_of (c_f s) d)) (linsns s).
Definition readyb (s : cgs) : bool :=
  (length (c_regs s) =? 10) && nodupb (c_regs s) && forallb (regb s) (combine (seq 0 10) (c_regs s))
  && negb (mem (c_sp s) (c_regs s)) && negb (mem (c_sp s) (linsns s))
  && nodupb (c_reach s)
  && forallb (fun b => match f_block (c_f s) b with Some _ => true | None => false end
                       && forallb (fun p => mem p (c_reach s)) (preds_of (c_f s) b)
                       && nodupb (insns_of (c_f s) b) && forallb (insnb s b) (insns_of (c_f s) b)) (c_reach s)
  && forallb (usersb s) (linsns s).

Lemma linsns_in s i : In i (linsns s) <-> linked s i.
Proof. apply flat_linked. Qed.
Lemma nth_combine {A} (l : list A) : forall n k r, nth_error l k = Some r -> In (n + k, r) (combine (seq n (length l)) l).
Proof.
  induction l as [|a l IH]; intros n [|k] r H; cbn in *; try discriminate.
  - injection H as ->. left. f_equal. lia.
  - right. replace (n + S k) with (S n + k) by lia. apply IH, H.
Qed.
Lemma readyb_ok s : readyb s = true -> ready s.
Proof.
  unfold readyb. intros H. repeat (apply andb_prop in H as [H ?]).
  rename H into Hlen, H0 into Hus, H1 into Hbl, H2 into Hre, H3 into Hsl, H4 into Hsr, H5 into Hrg, H6 into Hnd.
  apply Nat.eqb_eq in Hlen. rewrite forallb_forall in Hrg, Hbl, Hus.
  assert (Rg : forall k r, nth_error (c_regs s) k = Some r -> regb s (k, r) = true).
  { intros k r Hk. apply Hrg. rewrite <- Hlen. apply (nth_combine (c_regs s) 0 k r Hk). }
  assert (Ib : forall b i, In b (c_reach s) -> In i (insns_of (c_f s) b) -> insnb s b i = true).
  { intros b i Hb Hi. specialize (Hbl b Hb). repeat (apply andb_prop in Hbl as [Hbl ?]). rewrite forallb_forall in H. apply H, Hi. }
  assert (Il : forall b i, In b (c_reach s) -> In i (insns_of (c_f s) b) -> exists x e, f_insn (c_f s) i = Some x /\ c_ex s i = Some e /\
    i_parent x = b /\ dst_self e i = true /\ x_nonvr e = false /\ vp_alloc (x_pos e) = x_fin e /\
    (negb (x_fin e) || negb (vp_spilled (x_pos e) =? 0)%Z || asg (vp_reg (x_pos e))) = true /\
    (negb (is_jmp_op (i_op x)) || match x_dst e with None => true | _ => false end) = true /\
    (negb (iop_eqb (i_op x) PHI) ||
        match i_vals x with [] => true | _ => false end && defb s i && forallb (fun p => mem (snd p) (c_reach s)) (i_phi x)) = true).
  { intros b i Hb Hi. specialize (Ib b i Hb Hi). unfold insnb in Ib. apply opt_ok in Ib. destruct Ib as (x & Hx & Ib).
    apply opt_ok in Ib. destruct Ib as (e & He & Ib). repeat (apply andb_prop in Ib as [Ib ?]). exists x, e.
    apply Nat.eqb_eq in Ib. apply negb_true_iff in H3. apply Bool.eqb_prop in H2. repeat split; assumption. }
  split.
  - exact Hlen.
  - apply nodupb_ok, Hnd.
  - intros k r Hk. specialize (Rg k r Hk). unfold regb in Rg. cbn [fst snd] in Rg. apply opt_ok in Rg. destruct Rg as (e & He & Rg).
    repeat (apply andb_prop in Rg as [Rg ?]). exists e. apply Z.eqb_eq in H0, H1. auto 10.
  - intros r Hr L. apply In_nth_error in Hr. destruct Hr as (k & Hk). specialize (Rg k r Hk). unfold regb in Rg. cbn [fst snd] in Rg.
    apply opt_ok in Rg. destruct Rg as (e & He & Rg). apply andb_prop in Rg as [_ Rg]. apply negb_true_iff, mem_not in Rg. apply Rg, linsns_in, L.
  - apply negb_true_iff, mem_not in Hsl, Hsr. split; [exact Hsr|]. intros L. apply Hsl, linsns_in, L.
  - split; [apply nodupb_ok, Hre|]. intros b Hb. specialize (Hbl b Hb). repeat (apply andb_prop in Hbl as [Hbl ?]).
    destruct (f_block (c_f s) b) as [x|]; [eauto|discriminate].
  - intros b p Hb Hp. specialize (Hbl b Hb). repeat (apply andb_prop in Hbl as [Hbl ?]). rewrite forallb_forall in H1. apply mem_In, H1, Hp.
  - intros b Hb. specialize (Hbl b Hb). repeat (apply andb_prop in Hbl as [Hbl ?]). apply nodupb_ok, H0.
  - intros b i Hb Hi. destruct (Il b i Hb Hi) as (x & e & Hx & He & Hp & Hd & Hn & Ha & Hf & _). exists x, e.
    split; [exact Hx|]. split; [exact Hp|]. split; [exact He|]. split.
    { unfold dst_self in Hd. destruct (x_dst e) as [d|]; [right; apply Nat.eqb_eq in Hd; congruence|auto]. }
    split; [exact Hn|]. split; [exact Ha|]. intros F. rewrite F in Hf. cbn in Hf. apply orb_prop in Hf. destruct Hf as [Hf|Hf].
    + left. apply negb_true_iff, Z.eqb_neq in Hf. exact Hf.
    + right. apply asg_ok, Hf.
  - intros d u Ld. apply linsns_in in Ld. specialize (Hus d Ld). unfold usersb in Hus. apply andb_prop in Hus as [U1 U2].
    rewrite forallb_forall in U1, U2. split.
    + intros Hu. specialize (U1 u Hu). apply andb_prop in U1 as [A B]. split; [apply linsns_in, mem_In, A|]. apply Nat.ltb_lt, B.
    + intros (L & Rd). apply linsns_in in L. specialize (U2 u L). unfold reads in Rd. apply Nat.ltb_lt in Rd. rewrite Rd in U2. cbn in U2.
      apply mem_In, U2.
  - intros i x e (b & Hb & Hi) Hx He J. destruct (Il b i Hb Hi) as (x' & e' & Hx' & He' & _ & _ & _ & _ & _ & K & _).
    rewrite Hx in Hx'. injection Hx' as <-. rewrite He in He'. injection He' as <-. rewrite J in K. cbn in K. destruct (x_dst e); [discriminate|reflexivity].
  - intros i x (b & Hb & Hi) Hx Ep. destruct (Il b i Hb Hi) as (x' & e' & Hx' & He' & _ & _ & _ & _ & _ & _ & K).
    rewrite Hx in Hx'. injection Hx' as <-. unfold iop_eqb in K. destruct (iop_eq_dec (i_op x) PHI) as [_|N]; [|contradiction]. cbn in K.
    apply andb_prop in K as [K K3]. apply andb_prop in K as [K1 K2]. split; [destruct (i_vals x); [reflexivity|discriminate]|].
    split; [apply defb_ok, K2|]. intros w c Hw. rewrite forallb_forall in K3. apply mem_In. apply (K3 (w, c) Hw).
Qed.

(** Forgetting everything at and above the counter of instructions. *)
Definition restrict (s : cgs) : cgs :=
  with_ex (fun v => if v <? f_ni (c_f s) then c_ex s v else None) s.
Definition emptyb (e : extra) : bool :=
  match x_in e, x_out e, x_adj e with [], [], [] => (x_lam e =? 0) && (x_w e =? 0) | _, _, _ => false end.
Definition tidyb (s : cgs) : bool :=
  forallb (fun v => match c_ex s v with
     | None => true
     | Some e => (mem v (c_regs s) || mem v (linsns s) || ((v =? c_sp s) && emptyb e))
                 && (x_fin e || (vp_spilled (x_pos e) =? 0)%Z)
     end) (seq 0 (f_ni (c_f s))).
Lemma tidyb_ok s : tidyb s = true -> (forall v, f_ni (c_f s) <= v -> c_ex s v = None) -> tidy s.
Proof.
  unfold tidyb. intros H N. rewrite forallb_forall in H.
  assert (K : forall v e, c_ex s v = Some e -> (mem v (c_regs s) || mem v (linsns s) || ((v =? c_sp s) && emptyb e))
                 && (x_fin e || (vp_spilled (x_pos e) =? 0)%Z) = true).
  { intros v e He. specialize (H v). rewrite He in H. apply H, in_seq. destruct (le_lt_dec (f_ni (c_f s)) v) as [L|L]; [|lia].
    rewrite (N v L) in He. discriminate. }
  split; intros v e He; specialize (K v e He); apply andb_prop in K as [K1 K2].
  - apply orb_prop in K1 as [K1|K1]; [apply orb_prop in K1 as [K1|K1]|].
    + left. apply mem_In, K1.
    + right. left. apply linsns_in, mem_In, K1.
    + right. right. apply andb_prop in K1 as [A B]. apply Nat.eqb_eq in A. unfold emptyb in B.
      destruct (x_in e), (x_out e), (x_adj e); try discriminate. apply andb_prop in B as [B1 B2]. apply Nat.eqb_eq in B1, B2. auto 10.
  - intros F. rewrite F in K2. apply Z.eqb_eq, K2.
Qed.
Lemma restrict_none s v : f_ni (c_f (restrict s)) <= v -> c_ex (restrict s) v = None.
Proof. unfold restrict. cbn [c_f c_ex with_ex]. intros H. destruct (Nat.ltb_spec v (f_ni (c_f s))); [lia|reflexivity]. Qed.

Definition trackedb (s : cgs) (v : nat) : bool :=
  mem v (linsns s) && opt (c_ex s v) (fun e => negb (x_fin e) && opt (x_dst e) (Nat.eqb v)).
Lemma trackedb_ok s v : trackedb s v = true <-> tracked s v.
Proof.
  unfold trackedb, tracked. rewrite andb_true_iff, mem_In, linsns_in. split.
  - intros (L & H). split; [exact L|]. apply opt_ok in H. destruct H as (e & He & H). apply andb_prop in H as [F D].
    apply opt_ok in D. destruct D as (d & Hd & D). apply Nat.eqb_eq in D. subst d. exists e. apply negb_true_iff in F. auto.
  - intros (L & e & He & F & D). split; [exact L|]. rewrite He. cbn. rewrite F, D. cbn. apply Nat.eqb_refl.
Qed.
Definition operandsb (s : cgs) : bool :=
  forallb (fun i => opt (f_insn (c_f s) i) (fun x => negb (is_bin_alu_op (i_op x)) ||
     (trackedb s i && opt (nth_error (i_vals x) 1) (fun v => match v_data v with
        | VInsn d => mem d (linsns s) && defb s d && negb (d =? i) | _ => true end)))) (linsns s).
Lemma operandsb_ok s : operandsb s = true -> operands_ok s.
Proof.
  unfold operandsb. intros H i x L Hx A. rewrite forallb_forall in H. apply linsns_in in L. specialize (H i L). rewrite Hx in H. cbn in H.
  rewrite A in H. cbn in H. apply andb_prop in H as [T H]. split; [apply trackedb_ok, T|]. apply opt_ok in H. destruct H as (v & Hv & H).
  exists v. split; [exact Hv|]. intros d Hd. rewrite Hd in H. apply andb_prop in H as [H D]. apply andb_prop in H as [H1 H2].
  split; [apply linsns_in, mem_In, H1|]. split; [apply defb_ok, H2|]. apply negb_true_iff, Nat.eqb_neq in D. exact D.
Qed.
(** no phi operand comes from an empty block *)
Definition fullb (s : cgs) : bool :=
  forallb (fun i => opt (f_insn (c_f s) i) (fun x => negb (iop_eqb (i_op x) PHI) ||
     forallb (fun p => match insns_of (c_f s) (snd p) with [] => false | _ => true end) (i_phi x))) (linsns s).
Lemma fullb_ok s d : fullb s = true -> empties_below s d.
Proof.
  unfold fullb. intros H i x w n L Hx Ep Hw. rewrite forallb_forall in H. apply linsns_in in L. specialize (H i L). rewrite Hx in H. cbn in H.
  unfold iop_eqb in H. destruct (iop_eq_dec (i_op x) PHI) as [_|N]; [|contradiction]. cbn in H. rewrite forallb_forall in H.
  specialize (H (w, n) Hw). cbn in H. apply sh_full. intros E. rewrite E in H. discriminate.
Qed.
(** nothing is live where execution starts: read off the result of the analysis *)
Definition strictb (s t : cgs) : bool :=
  forallb (fun b => match preds_of (c_f s) b with
     | [] => match insns_of (c_f s) b with
             | [] => false
             | i :: _ => opt (c_ex t i) (fun e => match x_in e with [] => true | _ => false end)
             end
     | _ => true end) (c_reach s).
Lemma strictb_ok s t : analysed s t -> strictb s t = true -> strict s.
Proof.
  intros A H v b T (Hb & Pb) L. unfold strictb in H. rewrite forallb_forall in H. specialize (H b Hb). rewrite Pb in H.
  destruct (insns_of (c_f s) b) as [|i r] eqn:Ei; [discriminate|]. apply opt_ok in H. destruct H as (e & He & H).
  destruct (an_exact s t A v T) as (X & _). assert (Hi : insn_at s b 0 i) by (unfold insn_at; rewrite Ei; reflexivity).
  apply (X b 0 i Hb Hi) in L. destruct L as (e' & He' & I). rewrite He in He'. injection He' as <-. destruct (x_in e); [destruct I|discriminate].
Qed.

(** the copies of a function and whether they may be merged *)
Definition placeb (s : cgs) (v : nat) : bool := mem v (c_regs s) || (mem v (linsns s) && defb s v).
Definition finb (s : cgs) (v : nat) : bool := opt (c_ex s v) x_fin.
Definition stackb (s : cgs) (v : nat) : bool :=
  opt (c_ex s v) (fun e => vp_alloc (x_pos e) && negb (vp_spilled (x_pos e) =? 0)%Z).
Definition adjcb (t : cgs) (a b : nat) : bool := opt (c_ex t a) (fun e => mem b (x_adj e)).
Definition mergeb (s t : cgs) (a b : nat) : bool :=
  placeb s a && placeb s b &&
  (stackb s a || stackb s b || (negb (finb s a && finb s b) && (finb s a || finb s b || negb (adjcb t a b)))).
Lemma finb_ok s v : finb s v = true <-> fixed s v.
Proof.
  unfold finb, fixed. split.
  - intros H. apply opt_ok in H. exact H.
  - intros (e & He & F). rewrite He. exact F.
Qed.
Lemma placeb_ok s v : placeb s v = true -> has_place s v.
Proof.
  unfold placeb, has_place. rewrite orb_true_iff, andb_true_iff, !mem_In, linsns_in. intros [H|(L & D)]; [auto|].
  right. split; [exact L|apply defb_ok, D].
Qed.
Lemma stackb_ok s v : stackb s v = true -> on_stack s v.
Proof.
  unfold stackb, on_stack. intros H. apply opt_ok in H. destruct H as (e & He & H). apply andb_prop in H as [A B].
  exists e. split; [exact He|]. split; [exact A|]. apply negb_true_iff, Z.eqb_neq in B. exact B.
Qed.
Lemma adjcb_ok t a b : adjacent t a b -> adjcb t a b = true.
Proof. intros (e & He & H). unfold adjcb. rewrite He. apply mem_In, H. Qed.
Lemma mergeb_ok s t a b : mergeb s t a b = true -> mergeable s t a b.
Proof.
  unfold mergeb, mergeable. rewrite !andb_true_iff, !orb_true_iff, andb_true_iff, !orb_true_iff, !negb_true_iff.
  intros ((Pa & Pb) & H). split; [apply placeb_ok, Pa|]. split; [apply placeb_ok, Pb|].
  destruct H as [[H|H]|(N & H)]; [left; apply stackb_ok, H|right; left; apply stackb_ok, H|right; right].
  split.
  - intros (Fa & Fb). apply finb_ok in Fa, Fb. rewrite Fa, Fb in N. discriminate.
  - destruct H as [[H|H]|H]; [left; apply finb_ok, H|right; left; apply finb_ok, H|right; right].
    intros Ad. apply adjcb_ok in Ad. congruence.
Qed.
Definition vdef (v : value) : option nat := match v_data v with VInsn d => Some d | _ => None end.
Definition allocb (s : cgs) (v : value) : bool :=
  opt (vdef v) (fun d => opt (f_insn (c_f s) d) (fun y => iop_eqb (i_op y) ALLOC)).
Definition copyb (s t : cgs) (i : nat) : bool :=
  opt (f_insn (c_f s) i) (fun x =>
    match i_op x with
    | ASSIGN => match i_vals x with v :: _ => match vdef v with Some b => mergeb s t i b | None => true end | [] => false end
    | STORE => match i_vals x with
               | v :: w :: _ => allocb s v && match vdef v, vdef w with Some a, Some b => mergeb s t a b | _, _ => true end
               | _ => false end
    | LOAD => match i_vals x with
              | v :: _ => allocb s v && match vdef v with Some b => mergeb s t i b | None => true end
              | _ => false end
    | _ => true
    end).
Lemma allocb_ok s v : allocb s v = true -> exists d y, v_data v = VInsn d /\ f_insn (c_f s) d = Some y /\ i_op y = ALLOC.
Proof.
  unfold allocb, vdef. intros H. apply opt_ok in H. destruct H as (d & Hd & H). apply opt_ok in H. destruct H as (y & Hy & H).
  exists d, y. split; [destruct (v_data v); congruence|]. split; [exact Hy|].
  unfold iop_eqb in H. destruct (iop_eq_dec (i_op y) ALLOC); [assumption|discriminate].
Qed.
Lemma vdef_some v b : v_data v = VInsn b -> vdef v = Some b.
Proof. unfold vdef. intros ->. reflexivity. Qed.
Lemma copyb_ok s t : forallb (copyb s t) (linsns s) = true ->
  copies_ok s /\ (forall i a b, linked s i -> copies s i a b -> mergeable s t a b).
Proof.
  intros H. rewrite forallb_forall in H. split.
  - intros i x L Hx. apply linsns_in in L. specialize (H i L). unfold copyb in H. rewrite Hx in H. cbn [opt] in H.
    split; [|split]; intros E; rewrite E in H.
    + intros N. rewrite N in H. discriminate.
    + destruct (i_vals x) as [|v [|w r]]; try discriminate. apply andb_prop in H as [H _]. apply allocb_ok in H.
      destruct H as (d & y & H1 & H2 & H3). exists v, w, r, d, y. auto.
    + destruct (i_vals x) as [|v r]; try discriminate. apply andb_prop in H as [H _]. apply allocb_ok in H.
      destruct H as (d & y & H1 & H2 & H3). exists v, r, d, y. auto.
  - intros i a b L (x & Hx & C). apply linsns_in in L. specialize (H i L). unfold copyb in H. rewrite Hx in H. cbn [opt] in H.
    destruct C as [(E & -> & v & r & Ev & D)|[(E & v & w & r & Ev & Da & Db)|(E & -> & v & r & Ev & D)]]; rewrite E, Ev in H.
    + rewrite (vdef_some v b D) in H. apply mergeb_ok, H.
    + rewrite (vdef_some v a Da), (vdef_some w b Db) in H. apply andb_prop in H as [_ H]. apply mergeb_ok, H.
    + rewrite (vdef_some v b D) in H. apply andb_prop in H as [_ H]. apply mergeb_ok, H.
Qed.
Definition copies_okb (s : cgs) : bool :=
  forallb (fun i => opt (f_insn (c_f s) i) (fun x =>
    match i_op x with
    | ASSIGN => negb (length (i_vals x) =? 0)
    | STORE => match i_vals x with v :: w :: _ => allocb s v | _ => false end
    | LOAD => match i_vals x with v :: _ => allocb s v | _ => false end
    | _ => true
    end)) (linsns s).
Lemma copies_okb_ok s : copies_okb s = true -> copies_ok s.
Proof.
  unfold copies_okb. intros H i x L Hx. rewrite forallb_forall in H. apply linsns_in in L. specialize (H i L). rewrite Hx in H. cbn [opt] in H.
  split; [|split]; intros E; rewrite E in H.
  - intros N. rewrite N in H. discriminate.
  - destruct (i_vals x) as [|v [|w r]]; try discriminate. apply allocb_ok in H.
    destruct H as (d & y & H1 & H2 & H3). exists v, w, r, d, y. auto.
  - destruct (i_vals x) as [|v r]; try discriminate. apply allocb_ok in H.
    destruct H as (d & y & H1 & H2 & H3). exists v, r, d, y. auto.
Qed.
(** a state computed by the allocator up to and including colouring, sets enumerated as listed *)
Definition ident (n : nat) (l : list nat) : list nat := l.
Lemma ident_orders : orders ident.
Proof. intros n l. apply Permutation_refl. Qed.
Definition coloured (fuel : nat) (s : cgs) : outcome (cgs * cgs) :=
  do t <- analysis fuel s;
  do r <- pre_spill fuel ident ident t;
  do u <- coloring (fst r); Ok (t, u).
Lemma coloured_spec fuel s t t1 x : analysis fuel s = Ok t -> pre_spill fuel ident ident t = Ok (t1, x) ->
  (coloring t1 = Err -> coloured fuel s = Err) /\ (forall u, coloring t1 = Ok u -> coloured fuel s = Ok (t, u)).
Proof.
  intros H1 H2. unfold coloured. rewrite H1. cbn [bind]. rewrite H2. cbn [bind fst].
  split; [intros ->|intros u ->]; reflexivity.
Qed.
