(** Lemmas about the graph part of the register allocator: maximum cardinality search, choice of the
    values to spill, colouring, coalescing. *)
From Verif Require Import M_Base M_Ir M_Edit M_Ra SpecIr SpecRa L_Edit.
From Coq Require Import Permutation.
Open Scope nat_scope.

(** ** Sets *)
Lemma mem_In x l : mem x l = true <-> In x l.
Proof.
  unfold mem. rewrite existsb_exists. split.
  - intros (y & H & E). apply Nat.eqb_eq in E. subst. exact H.
  - intros H. exists x. split; [exact H|apply Nat.eqb_refl].
Qed.
Lemma mem_not x l : mem x l = false <-> ~ In x l.
Proof. rewrite <- mem_In. destruct (mem x l); split; congruence. Qed.
Lemma ins_In x y l : In y (ins x l) <-> y = x \/ In y l.
Proof.
  unfold ins. destruct (mem x l) eqn:E.
  - apply mem_In in E. split; [auto|]. intros [->|H]; auto.
  - rewrite in_app_iff. cbn. intuition.
Qed.
Lemma ins_NoDup x l : NoDup l -> NoDup (ins x l).
Proof.
  intros H. unfold ins. destruct (mem x l) eqn:E; [exact H|]. apply mem_not in E.
  apply (Permutation_NoDup (l := x :: l)); [apply Permutation_cons_append|constructor; assumption].
Qed.
Lemma del_In x y l : In y (del x l) <-> In y l /\ y <> x.
Proof.
  unfold del. rewrite filter_In. rewrite negb_true_iff, Nat.eqb_neq. tauto.
Qed.
Lemma del_NoDup x l : NoDup l -> NoDup (del x l).
Proof. apply NoDup_filter. Qed.
Lemma del_notin x l : ~ In x l -> del x l = l.
Proof.
  induction l as [|a r IH]; intros H; [reflexivity|]. unfold del in *. cbn.
  destruct (a =? x) eqn:E; cbn.
  - apply Nat.eqb_eq in E. subst. destruct H. left. reflexivity.
  - f_equal. apply IH. intros G. apply H. right. exact G.
Qed.
Lemma del_perm x l : NoDup l -> In x l -> Permutation l (x :: del x l).
Proof.
  intros N H. apply NoDup_Permutation; [exact N| |].
  - constructor; [|apply del_NoDup, N]. rewrite del_In. tauto.
  - intros y. cbn. rewrite del_In. destruct (Nat.eq_dec y x) as [->|D]; [tauto|].
    split; [tauto|]. intros [->|G]; tauto.
Qed.
Lemma del_length x l : NoDup l -> In x l -> length l = S (length (del x l)).
Proof. intros N H. rewrite (Permutation_length (del_perm x l N H)). reflexivity. Qed.
Lemma del_le x l : length (del x l) <= length l.
Proof. unfold del. induction l; cbn; [lia|]. destruct (negb _); cbn; lia. Qed.

(** ** State *)
Lemma put_ex_eq s i e : c_ex (put_ex s i e) i = Some e.
Proof. cbn. unfold upd. rewrite Nat.eqb_refl. reflexivity. Qed.
Lemma put_ex_ne s i e j : j <> i -> c_ex (put_ex s i e) j = c_ex s j.
Proof. intros H. cbn. unfold upd. destruct (Nat.eqb_spec j i); [contradiction|reflexivity]. Qed.
Lemma get_ex_ok s i e : get_ex s i = Ok e <-> c_ex s i = Some e.
Proof. unfold get_ex. destruct (c_ex s i); split; intros H; inversion H; reflexivity. Qed.

(** States that agree except for the fields forgotten by [h] and the elimination order. *)
Definition simh {A} (h : extra -> A) (s t : cgs) : Prop :=
  c_f t = c_f s /\ c_reach t = c_reach s /\ c_regs t = c_regs s /\ c_sp t = c_sp s /\ c_args t = c_args s /\
  c_all t = c_all s /\ c_off t = c_off s /\
  forall v, option_map h (c_ex t v) = option_map h (c_ex s v).
Lemma simh_refl {A} (h : extra -> A) s : simh h s s.
Proof. unfold simh. intuition. Qed.
Lemma simh_trans {A} (h : extra -> A) s t u : simh h s t -> simh h t u -> simh h s u.
Proof.
  unfold simh. intros (a1 & a2 & a3 & a4 & a5 & a6 & a7 & a8) (b1 & b2 & b3 & b4 & b5 & b6 & b7 & b8).
  repeat (split; [congruence|]). intros v. rewrite b8. apply a8.
Qed.
Lemma simh_put {A} (h : extra -> A) s i e e' :
  c_ex s i = Some e -> h e' = h e -> simh h s (put_ex s i e').
Proof.
  intros H E. unfold simh. cbn. repeat (split; [reflexivity|]). intros v. unfold upd.
  destruct (Nat.eqb_spec v i) as [->|D]; [rewrite H; cbn; congruence|reflexivity].
Qed.
Lemma simh_seo {A} (h : extra -> A) s l : simh h s (with_seo l s).
Proof. unfold simh. cbn. intuition. Qed.
Lemma simh_some {A} (h : extra -> A) s t v e :
  simh h s t -> c_ex s v = Some e -> exists e', c_ex t v = Some e' /\ h e' = h e.
Proof.
  intros (_ & _ & _ & _ & _ & _ & _ & H) E. specialize (H v). rewrite E in H.
  destruct (c_ex t v) as [e'|]; cbn in H; [|discriminate]. exists e'. split; [reflexivity|congruence].
Qed.
Lemma simh_some' {A} (h : extra -> A) s t v e :
  simh h s t -> c_ex t v = Some e -> exists e', c_ex s v = Some e' /\ h e' = h e.
Proof.
  intros (_ & _ & _ & _ & _ & _ & _ & H) E. specialize (H v). rewrite E in H.
  destruct (c_ex s v) as [e'|]; cbn in H; [|discriminate]. exists e'. split; [reflexivity|congruence].
Qed.
Lemma simh_weaken {A B} (h : extra -> A) (g : extra -> B) s t :
  (forall e e', h e = h e' -> g e = g e') -> simh h s t -> simh g s t.
Proof.
  intros W (a1 & a2 & a3 & a4 & a5 & a6 & a7 & a8). unfold simh. repeat (split; [assumption|]).
  intros v. specialize (a8 v). destruct (c_ex t v), (c_ex s v); cbn in *; try discriminate; [|reflexivity].
  injection a8 as a8. f_equal. apply W, a8.
Qed.

Definition but_lam := set_lam 0.
Definition but_w := set_w 0.

(** ** The search for a maximum *)
Section Scan.
Variable key : nat -> option nat.
Let step := (fun (a : nat * option nat) v =>
                   match key v with
                   | None => UB
                   | Some k => Ok (if fst a <=? k then (k, Some v) else a)
                   end).
Lemma scan_loop l : forall k0 m0,
  (forall v, In v l -> key v <> None) ->
  exists k m, ofold step (k0, m0) l = Ok (k, m) /\ k0 <= k /\
    (forall v kv, In v l -> key v = Some kv -> kv <= k) /\
    ((k, m) = (k0, m0) /\ (l = [] \/ forall v kv, In v l -> key v = Some kv -> kv < k0)
     \/ exists v, In v l /\ m = Some v /\ key v = Some k).
Proof.
  induction l as [|a r IH]; intros k0 m0 H; cbn [ofold].
  - exists k0, m0. split; [reflexivity|]. split; [lia|]. split; [intros ? ? []|]. left. auto.
  - destruct (key a) as [ka|] eqn:Ka; [|exfalso; apply (H a); [left; reflexivity|exact Ka]].
    unfold step at 1. rewrite Ka. cbn [bind fst].
    destruct (k0 <=? ka) eqn:E.
    + apply Nat.leb_le in E.
      destruct (IH ka (Some a)) as (k & m & R & L & M & D); [intros v Hv; apply H; right; exact Hv|].
      exists k, m. split; [exact R|]. split; [lia|]. split.
      * intros v kv [->|Hv] Kv; [rewrite Ka in Kv; injection Kv as <-; exact L|eauto].
      * right. destruct D as [(D & _)|(v & Hv & Em & Kv)].
        -- injection D as -> ->. exists a. split; [left; reflexivity|]. auto.
        -- exists v. split; [right; exact Hv|]. auto.
    + apply Nat.leb_gt in E.
      destruct (IH k0 m0) as (k & m & R & L & M & D); [intros v Hv; apply H; right; exact Hv|].
      exists k, m. split; [exact R|]. split; [lia|]. split.
      * intros v kv [->|Hv] Kv; [rewrite Ka in Kv; injection Kv as <-; lia|eauto].
      * destruct D as [(D & D')|(v & Hv & Em & Kv)].
        -- left. split; [exact D|]. right. intros v kv [->|Hv] Kv.
           ++ rewrite Ka in Kv. injection Kv as <-. lia.
           ++ destruct D' as [->|D']; [destruct Hv|eauto].
        -- right. exists v. split; [right; exact Hv|]. auto.
Qed.
End Scan.

Lemma scan_max_ok key l :
  l <> [] -> (forall v, In v l -> key v <> None) ->
  exists v k, scan_max key l = Ok (Some v) /\ In v l /\ key v = Some k /\
    forall u ku, In u l -> key u = Some ku -> ku <= k.
Proof.
  intros N H. unfold scan_max.
  destruct (scan_loop key l 0 None H) as (k & m & R & L & M & D).
  rewrite R. cbn [bind snd]. destruct D as [(D & [D'|D'])|(v & Hv & -> & Kv)].
  - contradiction.
  - exfalso. destruct l as [|a r]; [contradiction|]. destruct (key a) as [ka|] eqn:Ka.
    + specialize (D' a ka (or_introl eq_refl) Ka). lia.
    + apply (H a); [left; reflexivity|exact Ka].
  - exists v, k. auto.
Qed.

(** ** Maximum cardinality search *)
Lemma adjb_sim s t w u : simh but_lam s t -> adjb t w u = adjb s w u.
Proof.
  intros (_ & _ & _ & _ & _ & _ & _ & H). specialize (H w). unfold adjb.
  destruct (c_ex t w) as [a|], (c_ex s w) as [b|]; cbn in H; try discriminate; [|reflexivity].
  injection H as _ _ _ H1 _ _ _ _. rewrite H1. reflexivity.
Qed.

Lemma bump_fold allvar l : forall s,
  (forall v, In v allvar -> has_data s v) -> NoDup l ->
  exists t, ofold (bump allvar) s l = Ok t /\ simh but_lam s t /\ c_seo t = c_seo s /\
    forall v, lam_of t v = if mem v allvar && mem v l then option_map S (lam_of s v) else lam_of s v.
Proof.
  induction l as [|a r IH]; intros s D N; cbn [ofold].
  - exists s. split; [reflexivity|]. split; [apply simh_refl|]. split; [reflexivity|].
    intros v. rewrite andb_false_r. reflexivity.
  - inversion N as [|? ? Na Nr]; subst. unfold bump at 1. destruct (mem a allvar) eqn:Ea.
    + assert (Ia : In a allvar) by (apply mem_In; exact Ea).
      destruct (D a Ia) as (e & He). unfold get_ex. rewrite He. cbn [bind].
      set (s1 := put_ex s a (set_lam (S (x_lam e)) e)).
      assert (S1 : simh but_lam s s1) by (apply (simh_put _ _ _ e); [exact He|reflexivity]).
      destruct (IH s1) as (t & R & St & Q & L).
      * intros v Hv. destruct (D v Hv) as (e' & He'). destruct (simh_some _ _ _ _ _ S1 He') as (z & Hz & _).
        exists z. exact Hz.
      * exact Nr.
      * exists t. split; [exact R|]. split; [eapply simh_trans; eassumption|]. split; [exact Q|].
        intros v. rewrite L. unfold lam_of at 1 2. destruct (Nat.eq_dec v a) as [->|Dv].
        -- rewrite Ea. cbn [mem existsb]. rewrite Nat.eqb_refl. cbn [orb andb].
           assert (mem a r = false) as -> by (apply mem_not; exact Na).
           unfold s1. rewrite put_ex_eq. unfold lam_of. rewrite He. reflexivity.
        -- unfold s1. rewrite put_ex_ne by exact Dv. unfold lam_of. cbn [mem existsb].
           fold (mem v r). assert (v =? a = false) as -> by (apply Nat.eqb_neq; exact Dv). reflexivity.
    + cbn [bind]. destruct (IH s D Nr) as (t & R & St & Q & L). exists t. split; [exact R|].
      split; [exact St|]. split; [exact Q|]. intros v. rewrite L. cbn [mem existsb]. fold (mem v r).
      destruct (Nat.eqb_spec v a) as [->|Dv]; [rewrite Ea; reflexivity|reflexivity].
Qed.

Lemma degree_app s l1 l2 u : degree_in s (l1 ++ l2) u = degree_in s l1 u + degree_in s l2 u.
Proof. unfold degree_in. rewrite filter_app, app_length. reflexivity. Qed.

Lemma mcs_loop_ok om (Ho : orders om) s0 : forall n s allvar,
  length allvar = n -> NoDup allvar -> simh but_lam s0 s ->
  (forall v, In v allvar -> has_data s0 v) ->
  (forall v e, c_ex s0 v = Some e -> NoDup (x_adj e)) ->
  (forall v, In v allvar -> lam_of s v = Some (degree_in s0 (c_seo s) v)) ->
  exists t l, mcs_loop om n s allvar = Ok t /\ simh but_lam s0 t /\ c_seo t = c_seo s ++ l /\
    Permutation l allvar /\
    forall l1 v l2 u, l = l1 ++ v :: l2 -> In u l2 ->
      degree_in s0 (c_seo s ++ l1) u <= degree_in s0 (c_seo s ++ l1) v.
Proof.
  induction n as [|n IH]; intros s allvar Len N S0 D NA Lam.
  - destruct allvar; [|discriminate]. exists s, []. cbn [mcs_loop]. split; [reflexivity|].
    split; [exact S0|]. split; [symmetry; apply app_nil_r|]. split; [constructor|].
    intros [|? ?] v l2 u H; discriminate.
  - cbn [mcs_loop].
    pose proof (Ho (S n) allvar) as P.
    destruct (scan_max_ok (lam_of s) (om (S n) allvar)) as (v & k & R & Iv & Kv & Mx).
    { intros E. rewrite E in P. apply Permutation_nil in P. subst allvar. discriminate. }
    { intros v Hv. apply (Permutation_in _ P) in Hv. rewrite (Lam v Hv). discriminate. }
    assert (Iv' : In v allvar) by (apply (Permutation_in _ P), Iv).
    rewrite R. cbn [bind].
    destruct (D v Iv') as (e0 & He0). destruct (simh_some _ _ _ _ _ S0 He0) as (e & He & Ee).
    unfold get_ex. cbn [c_ex with_seo]. rewrite He. cbn [bind].
    assert (Adj : x_adj e = x_adj e0) by (unfold but_lam, set_lam in Ee; congruence).
    set (s1 := with_seo (c_seo s ++ [v]) s).
    assert (S1 : simh but_lam s0 s1) by (eapply simh_trans; [exact S0|apply simh_seo]).
    destruct (bump_fold allvar (x_adj e) s1) as (s2 & R2 & S2 & Q2 & L2).
    { intros x Hx. destruct (D x Hx) as (y & Hy). destruct (simh_some _ _ _ _ _ S1 Hy) as (z & Hz & _).
      exists z. exact Hz. }
    { rewrite Adj. eapply NA. exact He0. }
    rewrite R2. cbn [bind].
    destruct (IH s2 (del v allvar)) as (t & l & Rt & St & Qt & Pt & Mt).
    + pose proof (del_length v allvar N Iv'). lia.
    + apply del_NoDup, N.
    + eapply simh_trans; eassumption.
    + intros x Hx. apply del_In in Hx. apply D, Hx.
    + exact NA.
    + intros x Hx. apply del_In in Hx. destruct Hx as (Hx & _). rewrite L2.
      assert (mem x allvar = true) as -> by (apply mem_In; exact Hx). cbn [andb].
      rewrite Q2. cbn [c_seo s1 with_seo]. rewrite degree_app.
      assert (Lx : lam_of s1 x = Some (degree_in s0 (c_seo s) x)) by (apply Lam, Hx).
      assert (Dx : degree_in s0 [v] x = if mem x (x_adj e0) then 1 else 0).
      { unfold degree_in. cbn [filter]. unfold adjb. rewrite He0. fold (mem x (x_adj e0)).
        destruct (mem x (x_adj e0)); reflexivity. }
      rewrite Lx, Dx, Adj. destruct (mem x (x_adj e0)); cbn [option_map]; f_equal; lia.
    + exists t, (v :: l). split; [exact Rt|]. split; [exact St|].
      split; [rewrite Qt, Q2; cbn [c_seo s1 with_seo]; rewrite <- app_assoc; reflexivity|].
      split; [eapply Permutation_trans; [apply perm_skip, Pt|apply Permutation_sym, del_perm; assumption]|].
      intros l1 w l2 u E Hu. destruct l1 as [|b l1]; cbn in E; injection E as -> E.
      * subst l. rewrite app_nil_r.
        assert (Iu : In u allvar).
        { apply (Permutation_in _ Pt) in Hu. apply del_In in Hu. apply Hu. }
        pose proof (Lam u Iu) as Lu. pose proof (Lam w Iv') as Lw.
        specialize (Mx u _ (Permutation_in _ (Permutation_sym P) Iu) Lu).
        rewrite Lw in Kv. injection Kv as Kv. lia.
      * rewrite Q2 in Mt. cbn [c_seo s1 with_seo] in Mt.
        specialize (Mt l1 w l2 u E Hu). rewrite <- app_assoc in Mt. exact Mt.
Qed.

Lemma mcs_ok om s :
  orders om -> NoDup (c_all s) -> (forall v, In v (c_all s) -> has_data s v) ->
  (forall v e, c_ex s v = Some e -> NoDup (x_adj e)) ->
  (forall v e, In v (c_all s) -> c_ex s v = Some e -> x_lam e = 0) ->
  exists t, mcs om s = Ok t /\ simh but_lam s t /\ Permutation (c_seo t) (c_all s) /\
    forall l1 v l2 u, c_seo t = l1 ++ v :: l2 -> In u l2 -> degree_in s l1 u <= degree_in s l1 v.
Proof.
  intros Ho N D NA Z. unfold mcs.
  destruct (mcs_loop_ok om Ho s (length (c_all s)) (with_seo [] s) (c_all s)) as (t & l & R & S & Q & P & M); auto.
  - apply simh_seo.
  - intros v Hv. unfold lam_of. cbn [c_ex with_seo]. destruct (D v Hv) as (e & He). rewrite He. cbn.
    rewrite (Z v e Hv He). reflexivity.
  - cbn in Q. exists t. rewrite Q. auto.
Qed.

(** Without the conditions on counters and lists: the order is still a permutation. *)
Lemma bump_total allvar l : forall s,
  (forall v, In v allvar -> has_data s v) ->
  exists t, ofold (bump allvar) s l = Ok t /\ simh but_lam s t /\ c_seo t = c_seo s.
Proof.
  induction l as [|a r IH]; intros s D; cbn [ofold].
  - exists s. split; [reflexivity|]. split; [apply simh_refl|reflexivity].
  - unfold bump at 1. destruct (mem a allvar) eqn:Ea.
    + apply mem_In in Ea. destruct (D a Ea) as (e & He). unfold get_ex. rewrite He. cbn [bind].
      assert (S1 : simh but_lam s (put_ex s a (set_lam (S (x_lam e)) e)))
        by (apply (simh_put _ _ _ e); [exact He|reflexivity]).
      destruct (IH (put_ex s a (set_lam (S (x_lam e)) e))) as (t & R & St & Q).
      2: { exists t. split; [exact R|]. split; [eapply simh_trans; eassumption|]. exact Q. }
      intros v Hv. destruct (D v Hv) as (e' & He'). destruct (simh_some _ _ _ _ _ S1 He') as (z & Hz & _).
      exists z. exact Hz.
    + cbn [bind]. apply IH, D.
Qed.
Lemma mcs_loop_perm om (Ho : orders om) : forall n s allvar,
  length allvar = n -> NoDup allvar -> (forall v, In v allvar -> has_data s v) ->
  exists t l, mcs_loop om n s allvar = Ok t /\ simh but_lam s t /\ c_seo t = c_seo s ++ l /\ Permutation l allvar.
Proof.
  induction n as [|n IH]; intros s allvar Len N D.
  - destruct allvar; [|discriminate]. exists s, []. cbn [mcs_loop]. split; [reflexivity|].
    split; [apply simh_refl|]. split; [symmetry; apply app_nil_r|constructor].
  - cbn [mcs_loop]. pose proof (Ho (S n) allvar) as P.
    destruct (scan_max_ok (lam_of s) (om (S n) allvar)) as (v & k & R & Iv & Kv & Mx).
    { intros E. rewrite E in P. apply Permutation_nil in P. subst allvar. discriminate. }
    { intros v Hv. apply (Permutation_in _ P) in Hv. destruct (D v Hv) as (e & He). unfold lam_of. rewrite He. discriminate. }
    assert (Iv' : In v allvar) by (apply (Permutation_in _ P), Iv).
    rewrite R. cbn [bind]. destruct (D v Iv') as (e & He).
    unfold get_ex. cbn [c_ex with_seo]. rewrite He. cbn [bind].
    set (s1 := with_seo (c_seo s ++ [v]) s).
    assert (S1 : simh but_lam s s1) by apply simh_seo.
    destruct (bump_total allvar (x_adj e) s1 D) as (s2 & R2 & S2 & Q2).
    rewrite R2. cbn [bind].
    assert (S02 : simh but_lam s s2) by exact (simh_trans _ _ _ _ S1 S2).
    destruct (IH s2 (del v allvar)) as (t & l & Rt & St & Qt & Pt).
    + pose proof (del_length v allvar N Iv'). lia.
    + apply del_NoDup, N.
    + intros x Hx. apply del_In in Hx. destruct (D x (proj1 Hx)) as (y & Hy).
      destruct (simh_some _ _ _ _ _ S02 Hy) as (z & Hz & _). exists z. exact Hz.
    + exists t, (v :: l). split; [exact Rt|]. split; [eapply simh_trans; eassumption|].
      split; [rewrite Qt, Q2; cbn [c_seo s1 with_seo]; rewrite <- app_assoc; reflexivity|].
      eapply Permutation_trans; [apply perm_skip, Pt|apply Permutation_sym, del_perm; assumption].
Qed.
Lemma mcs_perm om s :
  orders om -> NoDup (c_all s) -> (forall v, In v (c_all s) -> has_data s v) ->
  exists t, mcs om s = Ok t /\ simh but_lam s t /\ Permutation (c_seo t) (c_all s).
Proof.
  intros Ho N D. unfold mcs.
  destruct (mcs_loop_perm om Ho (length (c_all s)) (with_seo [] s) (c_all s)) as (t & l & R & S & Q & P); auto.
  cbn in Q. exists t. rewrite Q. split; [exact R|]. split; [|exact P]. eapply simh_trans; [apply simh_seo|exact S].
Qed.

(** ** Candidate cliques *)
Lemma inc_w_ok s v e : c_ex s v = Some e -> inc_w s v = Ok (put_ex s v (set_w (S (x_w e)) e)).
Proof. intros H. unfold inc_w, get_ex. rewrite H. reflexivity. Qed.
Lemma inc_w_sim s v : has_data s v -> exists t, inc_w s v = Ok t /\ simh but_w s t /\ c_seo t = c_seo s.
Proof.
  intros (e & He). rewrite (inc_w_ok s v e He). eexists. split; [reflexivity|].
  split; [apply (simh_put _ _ _ e); [exact He|reflexivity]|reflexivity].
Qed.
Lemma data_sim {A} (h : extra -> A) s t v : simh h s t -> has_data s v -> has_data t v.
Proof. intros S (e & He). destruct (simh_some _ _ _ _ _ S He) as (z & Hz & _). exists z. exact Hz. Qed.

(** the candidate set of [v]: [v] and its earlier neighbours *)
Definition cand (s : cgs) (earlier : list nat) (v : nat) (q : list nat) : Prop :=
  NoDup q /\ forall u, In u q <-> u = v \/ (adjacent s v u /\ In u earlier).

Lemma clique_fold earlier l : forall s q,
  (forall v, In v earlier -> has_data s v) -> NoDup q ->
  exists t q', ofold (fun (t : cgs * list nat) u =>
           if mem u earlier then do s2 <- inc_w (fst t) u; Ok (s2, ins u (snd t)) else Ok t) (s, q) l = Ok (t, q') /\
    simh but_w s t /\ c_seo t = c_seo s /\ NoDup q' /\
    forall u, In u q' <-> In u q \/ (In u l /\ In u earlier).
Proof.
  induction l as [|a r IH]; intros s q D N; cbn [ofold].
  - exists s, q. split; [reflexivity|]. split; [apply simh_refl|]. split; [reflexivity|]. split; [exact N|].
    intros u. cbn. tauto.
  - destruct (mem a earlier) eqn:Ea.
    + apply mem_In in Ea. destruct (inc_w_sim s a (D a Ea)) as (s1 & R1 & S1 & Q1). cbn [fst snd]. rewrite R1. cbn [bind].
      destruct (IH s1 (ins a q)) as (t & q' & R & S & Q & N' & E).
      * intros v Hv. eapply data_sim; [exact S1|auto].
      * apply ins_NoDup, N.
      * exists t, q'. split; [exact R|]. split; [eapply simh_trans; eassumption|]. split; [congruence|].
        split; [exact N'|]. intros u. rewrite E, ins_In. cbn. split.
        -- intros [[->|H]|H]; tauto.
        -- intros [H|[[->|H] G]]; tauto.
    + cbn [bind]. destruct (IH s q D N) as (t & q' & R & S & Q & N' & E).
      exists t, q'. split; [exact R|]. split; [exact S|]. split; [exact Q|]. split; [exact N'|].
      intros u. rewrite E. cbn. split; [tauto|]. intros [H|[[->|H] G]]; try tauto.
      apply mem_In in G. congruence.
Qed.

Lemma clique_of_ok earlier s v :
  has_data s v -> (forall u, In u earlier -> has_data s u) ->
  exists t q, clique_of earlier s v = Ok (t, q) /\ simh but_w s t /\ c_seo t = c_seo s /\ cand s earlier v q.
Proof.
  intros (e & He) D. unfold clique_of.
  destruct (inc_w_sim s v) as (s1 & R1 & S1 & Q1); [exists e; exact He|]. rewrite R1. cbn [bind].
  destruct (simh_some _ _ _ _ _ S1 He) as (e1 & He1 & Ee). unfold get_ex. rewrite He1. cbn [bind].
  destruct (clique_fold earlier (x_adj e1) s1 [v]) as (t & q & R & S & Q & N & E).
  - intros u Hu. eapply data_sim; [exact S1|auto].
  - constructor; [intros []|constructor].
  - exists t, q. split; [exact R|]. split; [eapply simh_trans; eassumption|]. split; [congruence|].
    split; [exact N|]. intros u. rewrite E. cbn.
    assert (Adj : x_adj e1 = x_adj e) by (unfold but_w, set_w in Ee; congruence). rewrite Adj. split.
    + intros [[->|[]]|[H G]]; [left; reflexivity|]. right. split; [exists e; auto|exact G].
    + intros [->|[(e' & He' & H) G]]; [auto|]. rewrite He in He'. injection He' as <-. auto.
Qed.

Lemma adjacent_sim {A} (h : extra -> A) s t a b :
  (forall e e', h e = h e' -> x_adj e = x_adj e') -> simh h s t -> (adjacent t a b <-> adjacent s a b).
Proof.
  intros W S. unfold adjacent. split.
  - intros (e & He & H). destruct (simh_some' _ _ _ _ _ S He) as (e' & He' & E). exists e'.
    split; [exact He'|]. rewrite (W _ _ E). exact H.
  - intros (e & He & H). destruct (simh_some _ _ _ _ _ S He) as (e' & He' & E). exists e'.
    split; [exact He'|]. rewrite (W _ _ E). exact H.
Qed.
Lemma but_w_adj e e' : but_w e = but_w e' -> x_adj e = x_adj e'.
Proof. unfold but_w, set_w. congruence. Qed.
Lemma but_lam_adj e e' : but_lam e = but_lam e' -> x_adj e = x_adj e'.
Proof. unfold but_lam, set_lam. congruence. Qed.
Lemma cand_sim s t earlier v q : simh but_w s t -> cand t earlier v q -> cand s earlier v q.
Proof.
  intros S (N & E). split; [exact N|]. intros u. rewrite E. rewrite (adjacent_sim _ _ _ _ _ but_w_adj S). tauto.
Qed.

Lemma cliques_ok l : forall earlier s,
  (forall u, In u l -> has_data s u) -> (forall u, In u earlier -> has_data s u) ->
  exists t eps, cliques earlier s l = Ok (t, eps) /\ simh but_w s t /\ c_seo t = c_seo s /\
    length eps = length l /\
    forall k v q, nth_error l k = Some v -> nth_error eps k = Some q -> cand s (earlier ++ firstn k l) v q.
Proof.
  induction l as [|v r IH]; intros earlier s D De; cbn [cliques].
  - exists s, []. split; [reflexivity|]. split; [apply simh_refl|]. split; [reflexivity|]. split; [reflexivity|].
    intros [|k]; discriminate.
  - destruct (clique_of_ok earlier s v) as (s1 & q & R1 & S1 & Q1 & C1); auto.
    { apply D. left. reflexivity. }
    rewrite R1. cbn [bind fst snd].
    destruct (IH (earlier ++ [v]) s1) as (t & eps & R & S & Q & L & C).
    + intros u Hu. eapply data_sim; [exact S1|]. apply D. right. exact Hu.
    + intros u Hu. eapply data_sim; [exact S1|]. apply in_app_or in Hu.
      destruct Hu as [Hu|[<-|[]]]; [auto|]. apply D. left. reflexivity.
    + rewrite R. cbn [bind fst snd]. exists t, (q :: eps). split; [reflexivity|].
      split; [eapply simh_trans; eassumption|]. split; [congruence|]. split; [cbn; congruence|].
      intros [|k] w p Hl He; cbn in Hl, He.
      * injection Hl as <-. injection He as <-. cbn. rewrite app_nil_r. exact C1.
      * eapply cand_sim; [exact S1|]. specialize (C k w p Hl He). rewrite <- app_assoc in C. exact C.
Qed.

(** ** Choosing what to spill *)
Section ScanSpill.
Variable s : cgs.
Let step := (fun (a : nat * option nat) v =>
                   match spill_key s v with
                   | None => UB
                   | Some (k, nv) => Ok (if (fst a <=? k) && negb nv then (k, Some v) else a)
                   end).
Lemma scan_spill_loop l : forall k0 m0,
  (forall v, In v l -> has_data s v) ->
  exists k m, ofold step (k0, m0) l = Ok (k, m) /\
    (forall v, m = Some v -> m0 = Some v \/ (In v l /\ ~ physical s v)) /\
    (m = None -> m0 = None /\ (k0 = 0 -> forall v, In v l -> physical s v)).
Proof.
  induction l as [|a r IH]; intros k0 m0 H; cbn [ofold].
  - exists k0, m0. split; [reflexivity|]. split; [auto|]. intros E. split; [exact E|]. intros _ v [].
  - destruct (H a) as (e & He); [left; reflexivity|]. unfold step at 1, spill_key at 1. rewrite He. cbn [option_map bind fst].
    destruct ((k0 <=? x_w e) && negb (x_nonvr e)) eqn:E.
    + apply andb_prop in E. destruct E as (E1 & E2). apply negb_true_iff in E2.
      destruct (IH (x_w e) (Some a)) as (k & m & R & M1 & M2); [intros v Hv; apply H; right; exact Hv|].
      exists k, m. split; [exact R|]. split.
      * intros v Em. destruct (M1 v Em) as [Ea|[I P]].
        -- injection Ea as <-. right. split; [left; reflexivity|]. intros (e' & He' & Q). congruence.
        -- right. split; [right; exact I|exact P].
      * intros Em. destruct (M2 Em) as (M3 & _). discriminate.
    + destruct (IH k0 m0) as (k & m & R & M1 & M2); [intros v Hv; apply H; right; exact Hv|].
      exists k, m. split; [exact R|]. split.
      * intros v Em. destruct (M1 v Em) as [Ea|[I P]]; [auto|]. right. split; [right; exact I|exact P].
      * intros Em. destruct (M2 Em) as (M3 & M4). split; [exact M3|]. intros Z v [<-|Hv]; [|auto].
        subst k0. cbn in E. apply negb_false_iff in E. exists e. auto.
Qed.
End ScanSpill.

Lemma scan_spill_ok s l :
  (forall v, In v l -> has_data s v) -> (exists v, In v l /\ ~ physical s v) ->
  exists v, scan_spill s l = Ok (Some v) /\ In v l /\ ~ physical s v.
Proof.
  intros D (v & Hv & P). unfold scan_spill.
  destruct (scan_spill_loop s l 0 None D) as (k & m & R & M1 & M2). rewrite R. cbn [bind snd].
  destruct m as [w|].
  - exists w. split; [reflexivity|]. destruct (M1 w eq_refl) as [E|H]; [discriminate|exact H].
  - exfalso. destruct (M2 eq_refl) as (_ & M3). apply P. apply (M3 eq_refl), Hv.
Qed.

Lemma need_spill_some eps q : need_spill eps = Some q -> In q eps /\ 10 < length q.
Proof. unfold need_spill. intros H. apply find_some in H. destruct H as (H & E). apply Nat.ltb_lt in E. auto. Qed.
Lemma need_spill_none eps : need_spill eps = None -> forall q, In q eps -> length q <= 10.
Proof. unfold need_spill. intros H q Hq. pose proof (find_none _ _ H q Hq) as E. apply Nat.ltb_ge in E. exact E. Qed.

Definition minus (l ts : list nat) : list nat := filter (fun x => negb (mem x ts)) l.
Lemma minus_In x l ts : In x (minus l ts) <-> In x l /\ ~ In x ts.
Proof. unfold minus. rewrite filter_In, negb_true_iff, mem_not. tauto. Qed.
Lemma minus_del l v ts : minus (del v l) ts = minus l (v :: ts).
Proof.
  unfold minus, del. induction l as [|a r IH]; [reflexivity|]. cbn. destruct (a =? v) eqn:E; cbn.
  - exact IH.
  - fold (mem a ts). destruct (mem a ts); cbn; [exact IH|]. f_equal. exact IH.
Qed.
Lemma minus_nil l : minus l [] = l.
Proof. unfold minus. induction l; cbn; [reflexivity|]. f_equal. assumption. Qed.

(** the vertices that occur in some candidate set and can be spilled: each round removes one of them *)
Lemma spill_loop_ok os (Ho : orders os) s pool : forall fuel eps acc,
  length pool < fuel -> NoDup pool ->
  (forall q, In q eps -> NoDup q) ->
  (forall q v, In q eps -> In v q -> has_data s v) ->
  (forall q v, In q eps -> In v q -> physical s v \/ In v pool) ->
  (forall l, NoDup l -> (forall v, In v l -> physical s v) -> (exists q, In q eps /\ incl l q) -> length l <= 10) ->
  exists ts, spill_loop fuel os s eps acc = Ok (acc ++ ts, map (fun q => minus q ts) eps) /\
    (forall v, In v ts -> In v pool /\ ~ physical s v /\ exists q, In q eps /\ In v q) /\ NoDup ts /\
    forall q, In q eps -> length (minus q ts) <= 10.
Proof.
  revert pool. intros pool fuel. revert pool.
  induction fuel as [|k IH]; intros pool eps acc Len NP NQ D PV PH; [lia|]. cbn [spill_loop].
  destruct (need_spill eps) as [cur|] eqn:E.
  - destruct (need_spill_some _ _ E) as (Ic & Lc).
    pose proof (Ho k cur) as P.
    destruct (scan_spill_ok s (os k cur)) as (v & R & Iv & Pv).
    + intros v Hv. apply (D cur v Ic), (Permutation_in _ P), Hv.
    + (* some member is not physical *)
      assert (X : (forall v, In v cur -> physical s v) -> False).
      { intros A. specialize (PH cur (NQ cur Ic) A). lapply PH; [lia|]. exists cur. split; [exact Ic|apply incl_refl]. }
      assert (Y : forall l, incl l cur -> (forall v, In v l -> physical s v) \/ exists v, In v l /\ ~ physical s v).
      { induction l as [|a r IHr]; intros I; [left; intros ? []|].
        destruct IHr as [A|(v & Hv & B)]; [intros x Hx; apply I; right; exact Hx| |right; exists v; split; [right|]; assumption].
        destruct (D cur a Ic) as (e & He); [apply I; left; reflexivity|]. destruct (x_nonvr e) eqn:Ne.
        - left. intros v [<-|Hv]; [exists e; auto|auto].
        - right. exists a. split; [left; reflexivity|]. intros (e' & He' & Q). congruence. }
      destruct (Y cur (incl_refl _)) as [A|(v & Hv & B)]; [destruct (X A)|].
      exists v. split; [apply (Permutation_in _ (Permutation_sym P)), Hv|exact B].
    + rewrite R. cbn [bind].
      assert (Iv' : In v cur) by (apply (Permutation_in _ P), Iv).
      assert (Ip : In v pool) by (destruct (PV cur v Ic Iv'); [contradiction|assumption]).
      destruct (IH (del v pool) (map (del v) eps) (acc ++ [v])) as (ts & Rt & A & N & B).
      * pose proof (del_length v pool NP Ip). lia.
      * apply del_NoDup, NP.
      * intros q Hq. apply in_map_iff in Hq. destruct Hq as (q0 & <- & Hq). apply del_NoDup, NQ, Hq.
      * intros q u Hq Hu. apply in_map_iff in Hq. destruct Hq as (q0 & <- & Hq). apply del_In in Hu. eapply D; [exact Hq|apply Hu].
      * intros q u Hq Hu. apply in_map_iff in Hq. destruct Hq as (q0 & <- & Hq). apply del_In in Hu. destruct Hu as (Hu & Du).
        destruct (PV q0 u Hq Hu) as [G|G]; [left; exact G|right; apply del_In; auto].
      * intros l Nl Pl (q & Hq & I). apply in_map_iff in Hq. destruct Hq as (q0 & <- & Hq). apply PH; auto.
        exists q0. split; [exact Hq|]. intros x Hx. apply I in Hx. apply del_In in Hx. apply Hx.
      * exists (v :: ts). split; [|split; [|split]].
        -- rewrite Rt, <- app_assoc. cbn [app]. f_equal. f_equal. rewrite map_map. apply map_ext. intros q. apply minus_del.
        -- intros u [<-|Hu]; [split; [exact Ip|split; [exact Pv|exists cur; auto]]|].
           destruct (A u Hu) as (A1 & A2 & q & Hq & A3). apply del_In in A1.
           apply in_map_iff in Hq. destruct Hq as (q0 & <- & Hq). apply del_In in A3.
           split; [apply A1|split; [exact A2|exists q0; split; [exact Hq|apply A3]]].
        -- constructor; [|exact N]. intros Hv. destruct (A v Hv) as (A1 & _). apply del_In in A1. destruct A1. congruence.
        -- intros q Hq. rewrite <- minus_del. apply B. apply in_map. exact Hq.
  - exists []. split; [rewrite app_nil_r; f_equal; f_equal; rewrite <- (map_id eps) at 1; apply map_ext; intros; symmetry; apply minus_nil|].
    split; [intros ? []|]. split; [constructor|]. intros q Hq. rewrite minus_nil. eapply need_spill_none; eassumption.
Qed.

Lemma combine_nth_in {A B} (l : list A) : forall (m : list B) q,
  length m = length l -> In q m -> exists k v, nth_error l k = Some v /\ nth_error m k = Some q.
Proof.
  intros m q L H. apply In_nth_error in H. destruct H as (k & Hk). exists k.
  destruct (nth_error l k) as [v|] eqn:E; [exists v; auto|].
  apply nth_error_None in E. assert (nth_error m k = None) by (apply nth_error_None; lia). congruence.
Qed.

Lemma physical_sim {A} (h : extra -> A) s t v :
  (forall e e', h e = h e' -> x_nonvr e = x_nonvr e') -> simh h s t -> (physical t v <-> physical s v).
Proof.
  intros W S. unfold physical. split.
  - intros (e & He & H). destruct (simh_some' _ _ _ _ _ S He) as (e' & He' & E). exists e'.
    split; [exact He'|]. rewrite (W _ _ E). exact H.
  - intros (e & He & H). destruct (simh_some _ _ _ _ _ S He) as (e' & He' & E). exists e'.
    split; [exact He'|]. rewrite (W _ _ E). exact H.
Qed.
Definition but_lw (e : extra) := set_lam 0 (set_w 0 e).
Lemma but_lam_lw e e' : but_lam e = but_lam e' -> but_lw e = but_lw e'.
Proof. unfold but_lam, but_lw, set_lam, set_w. cbn. congruence. Qed.
Lemma but_w_lw e e' : but_w e = but_w e' -> but_lw e = but_lw e'.
Proof. unfold but_w, but_lw, set_lam, set_w. cbn. congruence. Qed.
Lemma but_lw_nonvr e e' : but_lw e = but_lw e' -> x_nonvr e = x_nonvr e'.
Proof. unfold but_lw, set_lam, set_w. cbn. congruence. Qed.
Lemma but_lw_adj e e' : but_lw e = but_lw e' -> x_adj e = x_adj e'.
Proof. unfold but_lw, set_lam, set_w. cbn. congruence. Qed.

Lemma pre_spill_ok fuel om os s :
  orders om -> orders os -> NoDup (c_all s) -> (forall v, In v (c_all s) -> has_data s v) ->
  (forall l, NoDup l -> incl l (c_all s) -> (forall v, In v l -> physical s v) -> length l <= 10) ->
  length (c_all s) < fuel ->
  exists t ts eps, pre_spill fuel om os s = Ok (t, (ts, eps)) /\ simh but_lw s t /\
    Permutation (c_seo t) (c_all s) /\
    NoDup ts /\ (forall v, In v ts -> In v (c_all s) /\ ~ physical s v) /\
    (forall q, In q eps -> length q <= 10) /\
    (forall l1 v l2, c_seo t = l1 ++ v :: l2 -> exists q, In q eps /\
       forall u, In u q <-> (u = v \/ (adjacent s v u /\ In u l1)) /\ ~ In u ts).
Proof.
  intros Ho Hs N D Ph Fu. unfold pre_spill.
  destruct (mcs_perm om s Ho N D) as (s1 & R1 & S1 & P1). rewrite R1. cbn [bind].
  assert (N1 : NoDup (c_seo s1)) by (eapply Permutation_NoDup; [apply Permutation_sym, P1|exact N]).
  assert (D1 : forall u, In u (c_seo s1) -> has_data s1 u).
  { intros u Hu. eapply data_sim; [exact S1|]. apply D. eapply Permutation_in; eassumption. }
  destruct (cliques_ok (c_seo s1) [] s1 D1 ltac:(intros ? [])) as (s2 & eps & R2 & S2 & Q2 & L2 & C2).
  rewrite R2. cbn [bind fst snd].
  assert (SS : simh but_lw s s2).
  { eapply simh_trans; [exact (simh_weaken _ _ _ _ but_lam_lw S1)|exact (simh_weaken _ _ _ _ but_w_lw S2)]. }
  assert (CI : forall q, In q eps -> NoDup q /\ incl q (c_all s)).
  { intros q Hq. destruct (combine_nth_in (c_seo s1) eps q L2 Hq) as (k & v & K1 & K2).
    destruct (C2 k v q K1 K2) as (Nq & E). split; [exact Nq|]. intros u Hu. apply E in Hu.
    apply (Permutation_in _ P1). destruct Hu as [->|(_ & Hu)].
    - eapply nth_error_In; exact K1.
    - cbn in Hu. rewrite <- (firstn_skipn k). apply in_or_app. left. exact Hu. }
  destruct (spill_loop_ok os Hs s2 (c_all s) fuel eps []) as (ts & R3 & A & Nt & B); auto.
  - intros q Hq. apply CI, Hq.
  - intros q v Hq Hv. eapply data_sim; [exact SS|]. apply D. apply (CI q Hq), Hv.
  - intros q v Hq Hv. right. apply (CI q Hq), Hv.
  - intros l Nl Pl (q & Hq & I). apply Ph; [exact Nl| |].
    + intros u Hu. apply (CI q Hq), I, Hu.
    + intros v Hv. apply (physical_sim _ _ _ _ but_lw_nonvr SS), Pl, Hv.
  - rewrite R3. cbn [bind app]. exists s2, ts, (map (fun q => minus q ts) eps).
    split; [reflexivity|]. split; [exact SS|]. rewrite Q2. split; [exact P1|]. split; [exact Nt|].
    split; [|split].
    + intros v Hv. destruct (A v Hv) as (A1 & A2 & _). split; [exact A1|].
      intros X. apply A2. apply (physical_sim _ _ _ _ but_lw_nonvr SS), X.
    + intros q Hq. apply in_map_iff in Hq. destruct Hq as (q0 & <- & Hq). apply B, Hq.
    + intros l1 v l2 E.
      assert (K : nth_error (c_seo s1) (length l1) = Some v)
        by (rewrite E, nth_error_app2, Nat.sub_diag by lia; reflexivity).
      destruct (nth_error eps (length l1)) as [q|] eqn:Kq.
      2: { apply nth_error_None in Kq. assert (length l1 < length (c_seo s1)) by (apply nth_error_Some; congruence). lia. }
      exists (minus q ts). split; [apply (in_map (fun q => minus q ts)); eapply nth_error_In; exact Kq|].
      intros u. rewrite minus_In. destruct (C2 _ _ _ K Kq) as (_ & C). rewrite C. cbn [app].
      rewrite E, firstn_app, Nat.sub_diag, firstn_all, app_nil_r.
      rewrite (adjacent_sim _ _ _ _ _ but_lam_adj S1). tauto.
Qed.

(** ** Colouring *)
Definition but_pos (e : extra) := set_pos (mkPos false 0 0 0) e.

Lemma but_pos_adj e e' : but_pos e = but_pos e' -> x_adj e = x_adj e'.
Proof. unfold but_pos, set_pos. cbn. congruence. Qed.
Lemma but_pos_fin e e' : but_pos e = but_pos e' -> x_fin e = x_fin e'.
Proof. unfold but_pos, set_pos. cbn. congruence. Qed.

Lemma graph_sim s t : simh but_pos s t -> graph_ok s -> graph_ok t.
Proof.
  intros S [G1 G2 G3].
  assert (X : forall a b, adjacent t a b <-> adjacent s a b) by (intros; apply (adjacent_sim _ _ _ _ _ but_pos_adj S)).
  split.
  - intros a b H. apply X in H. apply X. auto.
  - intros a H. apply X in H. apply (G2 a H).
  - destruct S as (_ & _ & _ & Sp & _). intros a H. rewrite Sp in H. apply X in H. apply (G3 a H).
Qed.

Lemma mark_used_ok s l : forall u0,
  (forall c, In c l -> exists e, c_ex s c = Some e /\ forall r, in_reg s c r -> assignable r) ->
  exists u, ofold (mark_used s) u0 l = Ok u /\ incl u0 u /\
    (forall c r, In c l -> in_reg s c r -> In r u) /\
    (forall r, In r u -> In r u0 \/ exists c, In c l /\ in_reg s c r).
Proof.
  induction l as [|c r IH]; intros u0 H; cbn [ofold].
  - exists u0. split; [reflexivity|]. split; [apply incl_refl|]. split; [intros ? ? []|auto].
  - destruct (H c (or_introl eq_refl)) as (e & He & As).
    assert (H' : forall x, In x r -> exists e, c_ex s x = Some e /\ forall r, in_reg s x r -> assignable r)
      by (intros; apply H; right; assumption).
    unfold mark_used at 1, get_ex. rewrite He. cbn [bind].
    destruct (vp_alloc (x_pos e)) eqn:Al; [destruct (vp_spilled (x_pos e) =? 0)%Z eqn:Sp|]; cbn [andb].
    + apply Z.eqb_eq in Sp.
      assert (Ir : in_reg s c (vp_reg (x_pos e))) by (exists e; auto).
      pose proof (As _ Ir) as Rg. unfold assignable in Rg.
      assert ((vp_reg (x_pos e) <? 10)%Z = true) as -> by (apply Z.ltb_lt; lia). cbn [bind].
      destruct (IH (vp_reg (x_pos e) :: u0) H') as (u & R & I & M & X). exists u. split; [exact R|].
      split; [intros x Hx; apply I; right; exact Hx|]. split.
      * intros x k [<-|Hx] K; [|eauto]. destruct K as (e' & He' & _ & _ & <-).
        rewrite He in He'. injection He' as <-. apply I. left. reflexivity.
      * intros k Hk. destruct (X k Hk) as [[<-|Hx]|(x & Hx & K)]; [right|left|right].
        -- exists c. split; [left; reflexivity|exact Ir].
        -- exact Hx.
        -- exists x. split; [right|]; assumption.
    + apply Z.eqb_neq in Sp. cbn [bind]. destruct (IH u0 H') as (u & R & I & M & X). exists u. split; [exact R|].
      split; [exact I|]. split.
      * intros x k [<-|Hx] K; [|eauto]. destruct K as (e' & He' & _ & K & _). congruence.
      * intros k Hk. destruct (X k Hk) as [Hx|(x & Hx & K)]; [auto|]. right. exists x. split; [right|]; assumption.
    + cbn [bind]. destruct (IH u0 H') as (u & R & I & M & X). exists u. split; [exact R|].
      split; [exact I|]. split.
      * intros x k [<-|Hx] K; [|eauto]. destruct K as (e' & He' & K & _). congruence.
      * intros k Hk. destruct (X k Hk) as [Hx|(x & Hx & K)]; [auto|]. right. exists x. split; [right|]; assumption.
Qed.

Lemma free_color_some u c : free_color u = Some c -> assignable c /\ ~ In c u.
Proof.
  unfold free_color. intros H. apply find_some in H. destruct H as (H & E). split.
  - unfold assignable. cbn in H. lia.
  - intros I. apply negb_true_iff in E. assert (existsb (Z.eqb c) u = true); [|congruence].
    apply existsb_exists. exists c. split; [exact I|apply Z.eqb_refl].
Qed.
Lemma free_color_none u : free_color u = None -> forall r, assignable r -> In r u.
Proof.
  unfold free_color, assignable. intros H r Hr. 
  assert (I : In r colors) by (cbn; lia).
  pose proof (find_none _ _ H r I) as E. apply negb_false_iff in E. apply existsb_exists in E.
  destruct E as (x & Hx & E). apply Z.eqb_eq in E. subst. exact Hx.
Qed.

(** the vertices that are in registers in both states keep them, except [v] *)
Lemma in_reg_put_ne s v e u r : u <> v -> in_reg (put_ex s v e) u r <-> in_reg s u r.
Proof. intros D. unfold in_reg. rewrite put_ex_ne by exact D. tauto. Qed.

Lemma color_one_ok s v :
  graph_ok s -> in_range s -> has_data s v -> v <> c_sp s ->
  color_one s v = Err \/
  exists t, color_one s v = Ok t /\ simh but_pos s t /\ c_seo t = c_seo s /\
    (proper s -> proper t) /\ in_range t /\ allocated t v /\
    (forall u, allocated s u -> c_ex t u = c_ex s u) /\
    (forall u, u <> v -> c_ex t u = c_ex s u) /\
    (forall e e', c_ex s v = Some e -> c_ex t v = Some e' -> vp_spilled (x_pos e') = vp_spilled (x_pos e)).
Proof.
  intros G Rg (e & He) Nsp. unfold color_one, get_ex. rewrite He. cbn [bind].
  destruct (vp_alloc (x_pos e)) eqn:Al.
  { right. exists s. split; [reflexivity|]. split; [apply simh_refl|]. split; [reflexivity|].
    split; [auto|]. split; [exact Rg|]. split; [exists e; auto|]. split; [auto|]. split; [auto|]. congruence. }
  destruct (mark_used_ok s (x_adj e) []) as (u & R & _ & M & _).
  { intros c Hc. assert (A : adjacent s v c) by (exists e; auto).
    destruct (g_sym s G _ _ A) as (ec & Hec & _). exists ec. split; [exact Hec|]. intros r Hr.
    apply (Rg c r); [|exact Hr]. intros ->. apply (g_sp s G _ A). }
  rewrite R. cbn [bind]. destruct (free_color u) as [c|] eqn:Fc; [|left; reflexivity].
  destruct (free_color_some u c Fc) as (Ac & Nc). right. eexists. split; [reflexivity|].
  set (e1 := set_pos (set_reg c (x_pos e)) e).
  assert (S : simh but_pos s (put_ex s v e1)) by (apply (simh_put _ _ _ e); [exact He|reflexivity]).
  assert (Rv : forall r, in_reg (put_ex s v e1) v r -> r = c).
  { intros r (e' & He' & _ & _ & E). rewrite put_ex_eq in He'. injection He' as <-. cbn in E. auto. }
  split; [exact S|]. split; [reflexivity|]. split; [|split; [|split; [|split; [|split]]]].
  - intros P a b r A Ia Ib. apply (adjacent_sim _ _ _ _ _ but_pos_adj S) in A.
    destruct (Nat.eq_dec a v) as [->|Da]; destruct (Nat.eq_dec b v) as [->|Db].
    + apply (g_irr s G v A).
    + apply Rv in Ia. subst r. apply in_reg_put_ne in Ib; [|exact Db]. apply Nc, (M b); [|exact Ib].
      destruct A as (e' & He' & A). congruence.
    + apply Rv in Ib. subst r. apply in_reg_put_ne in Ia; [|exact Da]. apply Nc, (M a); [|exact Ia].
      apply (g_sym s G) in A. destruct A as (e' & He' & A). congruence.
    + apply in_reg_put_ne in Ia; [|exact Da]. apply in_reg_put_ne in Ib; [|exact Db]. eapply P; eassumption.
  - intros w r Nw Iw. cbn [c_sp put_ex with_ex] in Nw. destruct (Nat.eq_dec w v) as [->|Dw].
    + apply Rv in Iw. subst. exact Ac.
    + apply in_reg_put_ne in Iw; [|exact Dw]. eapply Rg; eassumption.
  - exists e1. split; [apply put_ex_eq|reflexivity].
  - intros w (ew & Hw & A). apply put_ex_ne. intros ->. congruence.
  - intros w Dw. apply put_ex_ne, Dw.
  - intros x y Hx Hy. rewrite put_ex_eq in Hy. injection Hy as <-. injection Hx as <-. reflexivity.
Qed.

Lemma allocated_pres s t u : allocated s u -> c_ex t u = c_ex s u -> allocated t u.
Proof. intros (e & He & A) E. exists e. rewrite E. auto. Qed.

Lemma color_fold l : forall s,
  graph_ok s -> in_range s -> (forall v, In v l -> has_data s v /\ v <> c_sp s) ->
  ofold color_one s l = Err \/
  exists t, ofold color_one s l = Ok t /\ simh but_pos s t /\ c_seo t = c_seo s /\
    (proper s -> proper t) /\ in_range t /\ (forall v, In v l -> allocated t v) /\
    (forall u, allocated s u -> c_ex t u = c_ex s u) /\
    (forall u, ~ In u l -> c_ex t u = c_ex s u) /\
    (forall v e e', c_ex s v = Some e -> c_ex t v = Some e' -> vp_spilled (x_pos e') = vp_spilled (x_pos e)).
Proof.
  induction l as [|v r IH]; intros s G Rg H; cbn [ofold].
  - right. exists s. split; [reflexivity|]. split; [apply simh_refl|]. split; [reflexivity|].
    split; [auto|]. split; [exact Rg|]. split; [intros ? []|]. split; [auto|]. split; [auto|]. congruence.
  - destruct (H v (or_introl eq_refl)) as (D & Nsp).
    destruct (color_one_ok s v G Rg D Nsp) as [E|(s1 & R1 & S1 & Q1 & P1 & Rg1 & A1 & K1 & K1' & Z1)].
    { rewrite E. left. reflexivity. }
    rewrite R1. cbn [bind].
    destruct (IH s1) as [E|(t & R & S & Q & P & Rg' & A & K & K' & Z)].
    + eapply graph_sim; eassumption.
    + exact Rg1.
    + intros x Hx. destruct (H x (or_intror Hx)) as (Dx & Nx). split; [eapply data_sim; eassumption|].
      destruct S1 as (_ & _ & _ & Sp & _). congruence.
    + left. exact E.
    + right. exists t. split; [exact R|]. split; [eapply simh_trans; eassumption|]. split; [congruence|].
      split; [auto|]. split; [exact Rg'|]. split; [|split; [|split]].
      * intros x [<-|Hx]; [|auto]. eapply allocated_pres; [exact A1|]. apply K, A1.
      * intros u Hu. rewrite K; [apply K1, Hu|]. eapply allocated_pres; [exact Hu|]. apply K1, Hu.
      * intros u Hu. rewrite K' by (intros X; apply Hu; right; exact X). apply K1'. intros ->. apply Hu. left. reflexivity.
      * intros x e e' He He'. destruct (simh_some _ _ _ _ _ S1 He) as (e1 & He1 & _).
        rewrite (Z x e1 e' He1 He'). destruct (Nat.eq_dec x v) as [->|Dx]; [eapply Z1; eassumption|].
        rewrite (K1' x Dx) in He1. congruence.
Qed.

(** colouring succeeds when every vertex sees at most nine registers *)
Lemma distinct_regs s l : forall rs, NoDup rs -> (forall r, In r rs -> exists c, In c l /\ in_reg s c r) ->
  length rs <= length l.
Proof.
  induction l as [|c l IH]; intros rs N H.
  - destruct rs as [|r rs]; [cbn; lia|]. destruct (H r (or_introl eq_refl)) as (c & [] & _).
  - destruct (c_ex s c) as [e|] eqn:Hc.
    + set (k := vp_reg (x_pos e)).
      assert (L : length (filter (fun x => negb (Z.eqb x k)) rs) <= length l).
      { apply IH; [apply NoDup_filter, N|]. intros r Hr. apply filter_In in Hr. destruct Hr as (Hr & E).
        destruct (H r Hr) as (x & [<-|Hx] & I); [|exists x; auto].
        destruct I as (e' & He' & _ & _ & <-). rewrite Hc in He'. injection He' as <-. unfold k in E.
        rewrite Z.eqb_refl in E. discriminate. }
      assert (X : forall l0, NoDup l0 -> length l0 <= S (length (filter (fun x => negb (Z.eqb x k)) l0))).
      { clear. induction l0 as [|a l0 IH]; intros N; cbn; [lia|]. inversion N as [|? ? Na Nl]; subst.
        destruct (Z.eqb_spec a k) as [->|D]; cbn; [|specialize (IH Nl); lia].
        assert (filter (fun x => negb (Z.eqb x k)) l0 = l0) as ->; [|lia].
        clear IH N Nl. induction l0 as [|b l0 IH]; [reflexivity|]. cbn. destruct (Z.eqb_spec b k) as [->|D]; cbn.
        - exfalso. apply Na. left. reflexivity.
        - f_equal. apply IH. intros Q. apply Na. right. exact Q. }
      specialize (X rs N). cbn. lia.
    + cbn. apply Nat.le_trans with (length l); [|lia]. apply IH; [exact N|]. intros r Hr.
      destruct (H r Hr) as (x & [<-|Hx] & I); [|exists x; auto]. destruct I as (e' & He' & _). congruence.
Qed.

Lemma color_fold_success l : forall s,
  graph_ok s -> in_range s -> (forall v, In v l -> has_data s v /\ v <> c_sp s) -> NoDup l ->
  (forall l1 v l2, l = l1 ++ v :: l2 -> ~ allocated s v ->
     exists nb, length nb <= 9 /\
       forall u, adjacent s v u -> allocated s u \/ In u l1 -> In u nb) ->
  exists t, ofold color_one s l = Ok t.
Proof.
  induction l as [|v r IH]; intros s G Rg H Nd F; cbn [ofold]; [eauto|].
  destruct (H v (or_introl eq_refl)) as (D & Nsp). inversion Nd as [|? ? Nv Nr]; subst.
  destruct (color_one_ok s v G Rg D Nsp) as [E|(s1 & R1 & S1 & Q1 & P1 & Rg1 & A1 & K1 & K1' & Z1)].
  - exfalso. destruct D as (e & He). unfold color_one, get_ex in E. rewrite He in E. cbn [bind] in E.
    destruct (vp_alloc (x_pos e)) eqn:Al; [discriminate|].
    destruct (mark_used_ok s (x_adj e) []) as (u & R & _ & _ & M).
    { intros c Hc. assert (A : adjacent s v c) by (exists e; auto).
      destruct (g_sym s G _ _ A) as (ec & Hec & _). exists ec. split; [exact Hec|]. intros k Hk.
      apply (Rg c k); [|exact Hk]. intros ->. apply (g_sp s G _ A). }
    rewrite R in E. cbn [bind] in E. destruct (free_color u) eqn:Fc; [discriminate|].
    destruct (F [] v r eq_refl) as (nb & Lnb & Nb).
    { intros (e' & He' & X). congruence. }
    pose proof (distinct_regs s nb colors) as L. lapply L; clear L.
    2: { repeat constructor; cbn; lia. }
    intros L. lapply L; clear L; [cbn; lia|].
    intros k Hk. assert (Ak : assignable k) by (unfold assignable; cbn in Hk; lia).
    destruct (M k (free_color_none u Fc k Ak)) as [[]|(c & Hc & Ic)]. exists c. split; [|exact Ic].
    apply Nb; [exists e; auto|]. left. destruct Ic as (ec & Hec & Alc & _). exists ec. auto.
  - rewrite R1. cbn [bind]. apply IH.
    + eapply graph_sim; eassumption.
    + exact Rg1.
    + intros x Hx. destruct (H x (or_intror Hx)) as (Dx & Nx). split; [eapply data_sim; eassumption|].
      destruct S1 as (_ & _ & _ & Sp & _). congruence.
    + exact Nr.
    + intros l1 w l2 E Na. destruct (F (v :: l1) w l2) as (nb & Lnb & Nb).
      * rewrite E. reflexivity.
      * intros X. apply Na. eapply allocated_pres; [exact X|]. apply K1, X.
      * exists nb. split; [exact Lnb|]. intros u A [X|X].
        -- apply Nb; [apply (adjacent_sim _ _ _ _ _ but_pos_adj S1), A|].
           destruct (Nat.eq_dec u v) as [->|Du]; [right; left; reflexivity|]. left.
           destruct X as (eu & Heu & X). rewrite (K1' u Du) in Heu. exists eu. auto.
        -- apply Nb; [apply (adjacent_sim _ _ _ _ _ but_pos_adj S1), A|]. right. right. exact X.
Qed.

(** ** Coalescing *)
(** positions up to the register *)
Definition shape (e : extra) := (but_pos e, vp_alloc (x_pos e), vp_size (x_pos e), vp_spilled (x_pos e)).
Lemma shape_pos e e' : shape e = shape e' -> but_pos e = but_pos e'.
Proof. unfold shape. congruence. Qed.

Lemma mark_alloc_ok s l : forall u0,
  (forall c, In c l -> allocated s c /\ forall r, in_reg s c r -> assignable r) ->
  exists u, ofold (mark_alloc s) u0 l = Ok u /\ incl u0 u /\
    (forall c r, In c l -> in_reg s c r -> In r u) /\
    (forall r, In r u -> In r u0 \/ exists c, In c l /\ in_reg s c r).
Proof.
  induction l as [|c r IH]; intros u0 H; cbn [ofold].
  - exists u0. split; [reflexivity|]. split; [apply incl_refl|]. split; [intros ? ? []|auto].
  - destruct (H c (or_introl eq_refl)) as ((e & He & Al) & As).
    assert (H' : forall x, In x r -> allocated s x /\ forall r, in_reg s x r -> assignable r)
      by (intros; apply H; right; assumption).
    unfold mark_alloc at 1, get_ex. rewrite He. cbn [bind]. rewrite Al. cbn [negb].
    destruct (vp_spilled (x_pos e) =? 0)%Z eqn:Sp.
    + apply Z.eqb_eq in Sp.
      assert (Ir : in_reg s c (vp_reg (x_pos e))) by (exists e; auto).
      pose proof (As _ Ir) as Rg. unfold assignable in Rg.
      assert ((vp_reg (x_pos e) <? 10)%Z = true) as -> by (apply Z.ltb_lt; lia). cbn [bind].
      destruct (IH (vp_reg (x_pos e) :: u0) H') as (u & R & I & M & X). exists u. split; [exact R|].
      split; [intros x Hx; apply I; right; exact Hx|]. split.
      * intros x k [<-|Hx] K; [|eauto]. destruct K as (e' & He' & _ & _ & <-).
        rewrite He in He'. injection He' as <-. apply I. left. reflexivity.
      * intros k Hk. destruct (X k Hk) as [[<-|Hx]|(x & Hx & K)]; [right|left|right].
        -- exists c. split; [left; reflexivity|exact Ir].
        -- exact Hx.
        -- exists x. split; [right|]; assumption.
    + apply Z.eqb_neq in Sp. cbn [bind]. destruct (IH u0 H') as (u & R & I & M & X). exists u. split; [exact R|].
      split; [exact I|]. split.
      * intros x k [<-|Hx] K; [|eauto]. destruct K as (e' & He' & _ & K & _). congruence.
      * intros k Hk. destruct (X k Hk) as [Hx|(x & Hx & K)]; [auto|]. right. exists x. split; [right|]; assumption.
Qed.

(** moving one value to a register none of its neighbours has *)
Lemma move_ok s v e r :
  graph_ok s -> in_range s -> proper s -> c_ex s v = Some e -> v <> c_sp s -> assignable r ->
  (forall c, adjacent s v c -> ~ in_reg s c r) ->
  let t := put_ex s v (set_pos (mkPos (vp_alloc (x_pos e)) (vp_size (x_pos e)) r (vp_spilled (x_pos e))) e) in
  simh shape s t /\ proper t /\ in_range t.
Proof.
  intros G Rg P He Nsp Ar Hf. set (e1 := set_pos _ e). cbv zeta.
  assert (S : simh shape s (put_ex s v e1)) by (apply (simh_put _ _ _ e); [exact He|reflexivity]).
  pose proof (simh_weaken _ _ _ _ shape_pos S) as S'.
  assert (Rv : forall k, in_reg (put_ex s v e1) v k -> k = r).
  { intros k (e' & He' & _ & _ & E). rewrite put_ex_eq in He'. injection He' as <-. cbn in E. auto. }
  split; [exact S|]. split.
  - intros a b k A Ia Ib. apply (adjacent_sim _ _ _ _ _ but_pos_adj S') in A.
    destruct (Nat.eq_dec a v) as [->|Da]; destruct (Nat.eq_dec b v) as [->|Db].
    + apply (g_irr s G v A).
    + apply Rv in Ia. subst k. apply in_reg_put_ne in Ib; [|exact Db]. apply (Hf b A Ib).
    + apply Rv in Ib. subst k. apply in_reg_put_ne in Ia; [|exact Da]. apply (Hf a (g_sym s G _ _ A) Ia).
    + apply in_reg_put_ne in Ia; [|exact Da]. apply in_reg_put_ne in Ib; [|exact Db]. eapply P; eassumption.
  - intros w k Nw Iw. cbn [c_sp put_ex with_ex] in Nw. destruct (Nat.eq_dec w v) as [->|Dw].
    + apply Rv in Iw. subst. exact Ar.
    + apply in_reg_put_ne in Iw; [|exact Dw]. eapply Rg; eassumption.
Qed.
Lemma change_reg_ok s v e r : c_ex s v = Some e ->
  change_reg s v r = Ok (put_ex s v (set_pos (mkPos (vp_alloc (x_pos e)) (vp_size (x_pos e)) r (vp_spilled (x_pos e))) e)).
Proof. intros H. unfold change_reg, get_ex. rewrite H. reflexivity. Qed.

Lemma coalesce_ok s v1 v2 :
  graph_ok s -> in_range s -> proper s ->
  (forall a b, adjacent s a b -> allocated s b) ->
  allocated s v1 -> allocated s v2 -> v1 <> c_sp s -> v2 <> c_sp s ->
  fixed s v1 \/ fixed s v2 \/ ~ adjacent s v1 v2 ->
  exists t, coalesce s v1 v2 = Ok t /\ simh shape s t /\ c_seo t = c_seo s /\ proper t /\ in_range t /\
    (forall u, fixed s u -> u <> v1 -> u <> v2 -> c_ex t u = c_ex s u) /\
    (fixed s v1 -> c_ex t v1 = c_ex s v1) /\ (fixed s v2 -> ~ fixed s v1 -> c_ex t v2 = c_ex s v2).
Proof.
  intros G Rg P Al (e1 & H1 & Al1) (e2 & H2 & Al2) N1 N2 C.
  unfold coalesce. rewrite (proj2 (get_ex_ok s v1 e1) H1), (proj2 (get_ex_ok s v2 e2) H2). cbn [bind].
  assert (Same : exists t, Ok s = Ok t /\ simh shape s t /\ c_seo t = c_seo s /\ proper t /\ in_range t /\
    (forall u, fixed s u -> u <> v1 -> u <> v2 -> c_ex t u = c_ex s u) /\
    (fixed s v1 -> c_ex t v1 = c_ex s v1) /\ (fixed s v2 -> ~ fixed s v1 -> c_ex t v2 = c_ex s v2)).
  { exists s. split; [reflexivity|]. split; [apply simh_refl|]. auto 10. }
  destruct ((vp_spilled (x_pos e1) =? 0)%Z && (vp_spilled (x_pos e2) =? 0)%Z &&
            negb (vp_reg (x_pos e2) =? vp_reg (x_pos e1))%Z) eqn:E; [|exact Same].
  apply andb_prop in E. destruct E as (E & Er). apply andb_prop in E. destruct E as (Es1 & Es2).
  apply Z.eqb_eq in Es1. apply Z.eqb_eq in Es2. apply negb_true_iff, Z.eqb_neq in Er.
  assert (I1 : in_reg s v1 (vp_reg (x_pos e1))) by (exists e1; auto).
  assert (I2 : in_reg s v2 (vp_reg (x_pos e2))) by (exists e2; auto).
  pose proof (Rg _ _ N1 I1) as A1. pose proof (Rg _ _ N2 I2) as A2.
  assert (Nb : forall v e, c_ex s v = Some e -> forall c, In c (x_adj e) -> allocated s c /\ forall r, in_reg s c r -> assignable r).
  { intros v e He c Hc. assert (A : adjacent s v c) by (exists e; auto). split; [eapply Al; exact A|].
    intros r Hr. eapply Rg; [|exact Hr]. intros ->. apply (g_sp s G _ A). }
  destruct (mark_alloc_ok s (x_adj e1) [] (Nb _ _ H1)) as (u1 & R1 & _ & M1 & _). rewrite R1. cbn [bind].
  destruct (mark_alloc_ok s (x_adj e2) u1 (Nb _ _ H2)) as (u & R2 & I & M2 & _). rewrite R2. cbn [bind].
  assert (F1 : forall r, ~ In r u -> forall c, adjacent s v1 c -> ~ in_reg s c r).
  { intros r Nr c (e' & He' & Hc) Ic. rewrite H1 in He'. injection He' as <-. apply Nr, I. eapply M1; eassumption. }
  assert (F2 : forall r, ~ In r u -> forall c, adjacent s v2 c -> ~ in_reg s c r).
  { intros r Nr c (e' & He' & Hc) Ic. rewrite H2 in He'. injection He' as <-. apply Nr. eapply M2; eassumption. }
  assert (V12 : v1 <> v2) by (intros ->; rewrite H1 in H2; injection H2 as <-; congruence).
  assert (Cu : forall r, assignable r -> color_used u r = Ok (existsb (Z.eqb r) u)).
  { intros r Ar. unfold color_used. unfold assignable in Ar.
    assert ((r <? 10)%Z = true) as -> by (apply Z.ltb_lt; lia). reflexivity. }
  assert (Nin : forall r, existsb (Z.eqb r) u = false -> ~ In r u).
  { intros r Eb Ir. assert (existsb (Z.eqb r) u = true); [|congruence]. apply existsb_exists.
    exists r. split; [exact Ir|apply Z.eqb_refl]. }
  destruct (x_fin e1) eqn:Fn1.
  - rewrite (Cu _ A1). cbn [bind]. destruct (existsb _ u) eqn:Eb; [exact Same|].
    rewrite (change_reg_ok s v2 e2 _ H2). eexists. split; [reflexivity|].
    destruct (move_ok s v2 e2 _ G Rg P H2 N2 A1 (F2 _ (Nin _ Eb))) as (X1 & X2 & X3).
    split; [exact X1|]. split; [reflexivity|]. split; [exact X2|]. split; [exact X3|]. split; [|split].
    + intros w _ _ D. apply put_ex_ne, D.
    + intros _. apply put_ex_ne, V12.
    + intros _ Nf. destruct Nf. exists e1. auto.
  - destruct (x_fin e2) eqn:Fn2.
    + rewrite (Cu _ A2). cbn [bind]. destruct (existsb _ u) eqn:Eb; [exact Same|].
      rewrite (change_reg_ok s v1 e1 _ H1). eexists. split; [reflexivity|].
      destruct (move_ok s v1 e1 _ G Rg P H1 N1 A2 (F1 _ (Nin _ Eb))) as (X1 & X2 & X3).
      split; [exact X1|]. split; [reflexivity|]. split; [exact X2|]. split; [exact X3|]. split; [|split].
      * intros w _ D _. apply put_ex_ne, D.
      * intros (e' & He' & Ff). congruence.
      * intros _ _. apply put_ex_ne. congruence.
    + destruct (free_color u) as [c|] eqn:Fc; [|exact Same].
      destruct (free_color_some u c Fc) as (Ac & Nc).
      rewrite (change_reg_ok s v1 e1 _ H1). cbn [bind].
      destruct (move_ok s v1 e1 c G Rg P H1 N1 Ac (F1 _ Nc)) as (X1 & X2 & X3).
      set (s1 := put_ex s v1 _) in *.
      assert (H2' : c_ex s1 v2 = Some e2) by (unfold s1; rewrite put_ex_ne by congruence; exact H2).
      rewrite (change_reg_ok s1 v2 e2 _ H2').
      pose proof (simh_weaken _ _ _ _ shape_pos X1) as X1'.
      destruct C as [(e' & He' & Ff)|[(e' & He' & Ff)|C]]; [congruence|congruence|].
      destruct (move_ok s1 v2 e2 c (graph_sim _ _ X1' G) X3 X2 H2' N2 Ac) as (Y1 & Y2 & Y3).
      { intros w A Iw. apply (adjacent_sim _ _ _ _ _ but_pos_adj X1') in A.
        destruct (Nat.eq_dec w v1) as [->|D]; [apply C, (g_sym s G), A|].
        apply (in_reg_put_ne s) in Iw; [|exact D]. eapply F2; eassumption. }
      eexists. split; [reflexivity|]. split; [eapply simh_trans; eassumption|]. split; [reflexivity|].
      split; [exact Y2|]. split; [exact Y3|]. split; [|split].
      * intros w _ D1 D2. rewrite put_ex_ne by exact D2. apply put_ex_ne, D1.
      * intros (e' & He' & Ff). congruence.
      * intros (e' & He' & Ff). congruence.
Qed.
