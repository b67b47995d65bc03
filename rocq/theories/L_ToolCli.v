(** Proofs about the command line. *)
From Coq Require Import Lia ZArith List Bool Arith.
From Verif Require Import M_Base SpecWord SpecIsa M_Opts SpecOpts L_Opts M_Tool SpecTool.
Import ListNotations.
Open Scope list_scope.
Open Scope nat_scope.

(** what one item does *)
Definition act (u : uopts) (i : item) : outcome uopts :=
  match i with
  | I_gopt v => do s <- strcpy64 v; Ok (set_gopt s u)
  | I_popt v => do s <- strcpy64 v; Ok (set_popt s u)
  | I_sec v => do s <- strcpy64 v; Ok (set_sec s u)
  | I_out v => do s <- strcpy64 v; Ok (set_out s u)
  | I_fmt f => Ok (set_fmt f u)
  | I_pass_only => Ok (set_nc u)
  | I_file v => match u_prog u with [] => do s <- strcpy64 v; Ok (set_prog s u) | _ => Err end
  end.
Definition final (u : uopts) : outcome uopts := match u_prog u with [] => Err | _ => Ok u end.
Definition full_of (m : umode) : bool := match m with U_READ => true | U_PRINT => false end.

Lemma str_eqb_ne a b : a <> b -> str_eqb a b = false.
Proof. intros H. unfold str_eqb. destruct (list_eq_dec ascii_dec a b); congruence. Qed.
Lemma str_eqb_eq a b : str_eqb a b = true -> a = b.
Proof. unfold str_eqb. destruct (list_eq_dec ascii_dec a b); congruence. Qed.

Ltac seq w x := let e := eval vm_compute in (str_eqb (lit w) (lit x)) in change (str_eqb (lit w) (lit x)) with e.
Ltac seqs w :=
  repeat match goal with |- context [str_eqb (lit w) (lit ?x)] => seq w x end; cbn [andb orb].
Lemma bind_bind {A B C} (o : outcome A) (f : A -> outcome B) (g : B -> outcome C) :
  bind (bind o f) g = bind o (fun a => bind (f a) g).
Proof. destruct o; reflexivity. Qed.

Lemma loop_one m w i ws u : one m w i -> cli_loop (full_of m) (w ++ ws) u = bind (act u i) (fun u' => cli_loop (full_of m) ws u').
Proof.
  intros [m' v|m' v|m' v|m' v|v| | | | |m' v N]; cbn [app cli_loop act]; cbv zeta.
  - destruct m'; cbn [full_of]; seqs "--gopt"%string; rewrite bind_bind; reflexivity.
  - destruct m'; cbn [full_of]; seqs "--popt"%string; rewrite bind_bind; reflexivity.
  - destruct m'; cbn [full_of]; seqs "--sec"%string; rewrite bind_bind; reflexivity.
  - destruct m'; cbn [full_of]; seqs "-s"%string; rewrite bind_bind; reflexivity.
  - cbn [full_of]; seqs "-o"%string; rewrite bind_bind; reflexivity.
  - cbn [full_of]; seqs "-F"%string; seqs "sec"%string; reflexivity.
  - cbn [full_of]; seqs "-F"%string; seqs "log"%string; reflexivity.
  - cbn [full_of]; seqs "--pass-only"%string; reflexivity.
  - cbn [full_of]; seqs "-P"%string; reflexivity.
  - destruct m'; cbn [full_of words_all words_print andb orb] in *;
      rewrite !str_eqb_ne by (apply N; cbn; tauto); cbn [andb orb]; destruct (u_prog u); [rewrite bind_bind; reflexivity|reflexivity| |];
      [rewrite bind_bind|]; reflexivity.
Qed.
Lemma loop_says m ws l : says m ws l -> forall u, cli_loop (full_of m) ws u = bind (ofold act u l) final.
Proof.
  induction 1 as [|w i ws l O S IH]; intros u.
  - cbn. reflexivity.
  - rewrite (loop_one _ _ _ _ _ O). cbn [ofold]. rewrite bind_bind. destruct (act u i); cbn [bind]; auto.
Qed.

(** accepted command lines are made of items *)
Lemma one_app m w i ws l : one m w i -> says m ws l -> exists l', says m (w ++ ws) l'.
Proof. intros O S. eexists. eapply sy_cons; eauto. Qed.
Lemma loop_says_inv m ws : forall u u', cli_loop (full_of m) ws u = Ok u' -> exists l, says m ws l.
Proof.
  remember (List.length ws) as n eqn:N. revert ws N.
  induction n as [n IH] using lt_wf_ind. intros ws -> u u' H. destruct ws as [|a r]; [exists []; constructor|].
  assert (K1 : forall w i u1, one m (a :: w) i -> r = w ++ skipn (List.length w) r ->
     cli_loop (full_of m) (skipn (List.length w) r) u1 = Ok u' -> exists l, says m (a :: r) l).
  { intros w i u1 O E C. destruct (IH (List.length (skipn (List.length w) r))) with (ws := skipn (List.length w) r) (u := u1) (u' := u') as (l & L); auto.
    - cbn [List.length]. rewrite skipn_length. lia.
    - exists (i :: l). rewrite E. exact (sy_cons m (a :: w) i _ l O L). }
  cbn [cli_loop] in H. cbv zeta in H.
  destruct (full_of m && _) eqn:E1.
  { apply andb_true_iff in E1 as [M E1]. destruct m; [|discriminate]. apply orb_true_iff in E1 as [E1|E1]; apply str_eqb_eq in E1; subst a;
      eapply (K1 [] I_pass_only); try constructor; exact H. }
  destruct (str_eqb a (lit "--gopt")) eqn:E2.
  { apply str_eqb_eq in E2; subst a. destruct r as [|v r]; [discriminate|]. destruct (strcpy64 v) eqn:SV; try discriminate. cbn [bind] in H.
    eapply (K1 [v]); [constructor|reflexivity|exact H]. }
  destruct (str_eqb a (lit "--popt")) eqn:E3.
  { apply str_eqb_eq in E3; subst a. destruct r as [|v r]; [discriminate|]. destruct (strcpy64 v) eqn:SV; try discriminate. cbn [bind] in H.
    eapply (K1 [v]); [constructor|reflexivity|exact H]. }
  destruct (str_eqb a (lit "--sec") || str_eqb a (lit "-s")) eqn:E4.
  { destruct r as [|v r]; [discriminate|]. destruct (strcpy64 v) eqn:SV; try discriminate. cbn [bind] in H.
    apply orb_true_iff in E4 as [E4|E4]; apply str_eqb_eq in E4; subst a; (eapply (K1 [v]); [constructor|reflexivity|exact H]). }
  destruct (full_of m && str_eqb a (lit "-o")) eqn:E5.
  { apply andb_true_iff in E5 as [M E5]. destruct m; [|discriminate]. apply str_eqb_eq in E5; subst a.
    destruct r as [|v r]; [discriminate|]. destruct (strcpy64 v) eqn:SV; try discriminate. cbn [bind] in H.
    eapply (K1 [v]); [constructor|reflexivity|exact H]. }
  destruct (full_of m && str_eqb a (lit "-F")) eqn:E6.
  { apply andb_true_iff in E6 as [M E6]. destruct m; [|discriminate]. apply str_eqb_eq in E6; subst a.
    destruct r as [|v r]; [discriminate|]. destruct (str_eqb v (lit "sec")) eqn:V1.
    - apply str_eqb_eq in V1; subst v. eapply (K1 [lit "sec"]); [constructor|reflexivity|exact H].
    - destruct (str_eqb v (lit "log")) eqn:V2; [|discriminate]. apply str_eqb_eq in V2; subst v.
      eapply (K1 [lit "log"]); [constructor|reflexivity|exact H]. }
  destruct (u_prog u); [|discriminate]. destruct (strcpy64 a) eqn:SA; try discriminate. cbn [bind] in H.
  eapply (K1 [] (I_file a)); [|reflexivity|exact H]. constructor.
  assert (NE : forall x, str_eqb a (lit x) = false -> a <> lit x).
  { intros x X ->. unfold str_eqb in X. destruct (list_eq_dec ascii_dec (lit x) (lit x)); congruence. }
  apply orb_false_iff in E4 as [E4 E4'].
  destruct m; cbn [full_of andb] in *.
  - apply orb_false_iff in E1 as [E1 E1']. intros w I. cbn [words_all In] in I. repeat destruct I as [I|I]; try (subst w; apply NE; assumption); contradiction.
  - intros w I. cbn [words_print In] in I. repeat destruct I as [I|I]; try (subst w; apply NE; assumption); contradiction.
Qed.

(** the fold *)
Definition described (m : umode) (l : list item) (u : uopts) : Prop :=
  u_mode u = m /\ (files l = [] /\ u_prog u = [] \/ exists e, files l = e ++ [u_prog u] /\ Forall (fun v => v = []) e) /\
  u_gopt u = last_of gopts_in l [] /\ u_popt u = last_of popts_in l [] /\
  u_sec u = last_of secs_in l [] /\ u_out u = last_of outs_in l [] /\ u_fmt u = last_of fmts_in l F_LOG /\
  (u_no_compile u = true <-> In I_pass_only l) /\ (u_auto u = false <-> exists v, In (I_sec v) l).
Lemma files_app a b : files (a ++ b) = files a ++ files b. Proof. apply flat_map_app. Qed.
Lemma last_of_app {A} (sel : item -> option A) a i d : last_of sel (a ++ [i]) d = match sel i with Some b => b | None => last_of sel a d end.
Proof. unfold last_of. now rewrite fold_left_app. Qed.
Lemma ofold_app {A B} (f : A -> B -> outcome A) a b s : ofold f s (a ++ b) = bind (ofold f s a) (fun s' => ofold f s' b).
Proof. revert s. induction a as [|x a IH]; intros s; cbn [app ofold bind]; auto. destruct (f s x); cbn [bind]; auto. Qed.
Lemma copy_short v : List.length v < 64 -> strcpy64 v = Ok v.
Proof. intros H. unfold strcpy64. now rewrite (proj2 (Nat.ltb_lt _ _) H). Qed.
Lemma in_snoc (l : list item) i j : In j (l ++ [i]) <-> In j l \/ i = j.
Proof. rewrite in_app_iff. cbn. tauto. Qed.
Lemma act_described m l u i u' : described m l u -> act u i = Ok u' -> described m (l ++ [i]) u'.
Proof.
  intros (A & B & C & D & E & F & G & H & K) X.
  unfold described. rewrite !last_of_app, files_app, in_snoc.
  assert (SEC : forall P : Prop, (exists v, In (I_sec v) (l ++ [i])) <-> (exists v, In (I_sec v) l) \/ (exists v, i = I_sec v)).
  { intros _. setoid_rewrite in_snoc. firstorder. }
  specialize (SEC True). rewrite SEC. clear SEC.
  assert (NC : forall j, j <> I_pass_only -> u_no_compile u = true <-> In I_pass_only l \/ j = I_pass_only) by (intros j J; rewrite H; tauto).
  assert (AU : forall j, (forall v, j <> I_sec v) -> u_auto u = false <-> (exists v, In (I_sec v) l) \/ exists v, j = I_sec v).
  { intros j J. rewrite K. split; auto. intros [Y|(z & Y)]; auto. exfalso. eapply J; eauto. }
  assert (CP : forall v s, strcpy64 v = Ok s -> s = v).
  { intros v s. unfold strcpy64. destruct (List.length v <? 64); [now intros [= <-]|discriminate]. }
  destruct i as [v|v|v|v|f| |v]; cbn [act] in X;
    cbn [gopts_in popts_in secs_in outs_in fmts_in files flat_map app]; rewrite ?app_nil_r.
  1, 2, 3, 4: destruct (strcpy64 v) as [s| | | |] eqn:SV; try discriminate; apply CP in SV; subst s; cbn [bind] in X.
  1, 2, 3, 4, 5, 6: injection X as <-; cbn [u_mode u_prog u_gopt u_popt u_sec u_out u_fmt u_no_compile u_auto set_gopt set_popt set_sec set_out set_fmt set_nc];
    split; [exact A|]; split; [exact B|]; do 5 (split; [first [assumption|reflexivity]|]); split.
  all: try (apply NC; discriminate).
  all: try (apply AU; discriminate).
  - split; auto. intros _. right. eauto.
  - split; auto.
  - destruct (u_prog u) as [|c r] eqn:EP; [|discriminate]. destruct (strcpy64 v) as [s| | | |] eqn:SV; try discriminate. apply CP in SV. subst s.
    cbn [bind] in X. injection X as <-.
    cbn [u_mode u_prog u_gopt u_popt u_sec u_out u_fmt u_no_compile u_auto set_prog].
    split; [assumption|]. split; [|do 5 (split; [assumption|]); split; [apply NC; discriminate|apply AU; discriminate]].
    right. destruct B as [(B & _)|(e & B & FE)].
    + exists []. rewrite B. auto.
    + exists (files l). split; auto. rewrite B. apply Forall_app. auto.
Qed.
Lemma init_described m : described m [] (u_init m).
Proof.
  unfold described. cbn. split; [reflexivity|]. split; [left; auto|]. do 5 (split; [reflexivity|]).
  split; split; try discriminate; [intros []|intros (v & [])].
Qed.
Lemma fold_described m l u : ofold act (u_init m) l = Ok u -> described m l u.
Proof.
  revert u. induction l as [|i l IH] using rev_ind; intros u H.
  - injection H as <-. apply init_described.
  - rewrite ofold_app in H. destruct (ofold act (u_init m) l) as [u1| | | |] eqn:E; try discriminate. cbn [bind ofold] in H.
    destruct (act u1 i) eqn:A; try discriminate. cbn [bind] in H. injection H as <-. eapply act_described; eauto.
Qed.
Lemma fold_safe m l : Forall short l -> (exists u, ofold act (u_init m) l = Ok u) \/
  ofold act (u_init m) l = Err /\ forall f, ~ one_file l f.
Proof.
  induction l as [|i l IH] using rev_ind; intros S; [left; eexists; reflexivity|]. apply Forall_app in S as [S1 S2].
  inversion S2 as [|? ? SI _]; subst. rewrite ofold_app. destruct (IH S1) as [(u & E)|(E & N)]; rewrite E; cbn [bind ofold].
  - destruct i as [v|v|v|v|f| |v]; cbn [act short] in *; try rewrite copy_short by auto; cbn [bind]; eauto.
    destruct (u_prog u) as [|c r] eqn:EP; [cbn [bind]; eauto|]. right. cbn [bind]. split; auto.
    intros f (NE & e & FE & FA). apply fold_described in E as (_ & [(_ & B)|(e' & B & _)] & _); [congruence|].
    rewrite files_app in FE. cbn [files flat_map app] in FE. apply app_inj_tail in FE as [FE _].
    rewrite B, EP in FE. subst e. apply Forall_app in FA as [_ FA]. inversion FA. discriminate.
  - right. split; auto. intros f (NE & e & FE & FA). rewrite files_app in FE.
    destruct i as [v|v|v|v|g| |v]; cbn [files flat_map app] in FE; try (rewrite app_nil_r in FE; eapply N; split; eauto; fail).
    apply app_inj_tail in FE as [FE ->]. clear IH.
    (* no file before this one: the fold cannot have failed *)
    clear N. rename FE into FE0. assert (FB : Forall (fun v => v = []) (files l)) by (rewrite FE0; auto). clear FE0 FA.
    assert (X : exists u, ofold act (u_init m) l = Ok u); [|destruct X as (u & X); congruence].
    clear E SI S2. induction l as [|j l IHl] using rev_ind; [eexists; reflexivity|].
    apply Forall_app in S1 as [S1 S3]. inversion S3 as [|? ? SJ _]; subst. rewrite files_app in FB. apply Forall_app in FB as [FB FJ].
    destruct (IHl S1 FB) as (u & E). rewrite ofold_app, E. cbn [bind ofold].
    destruct j as [v|v|v|v|f0| |v]; cbn [act short] in *; try rewrite copy_short by auto; cbn [bind]; eauto.
    apply fold_described in E as (_ & [(_ & B)|(e' & B & _)] & _).
    + rewrite B. cbn [bind]. eauto.
    + rewrite B in FB. apply Forall_app in FB as [_ FB]. inversion FB as [|? ? Y _]; subst. rewrite Y. cbn [bind]. eauto.
Qed.
Lemma describes_described m l u : describes m l u <-> described m l u /\ u_prog u <> [].
Proof.
  unfold describes, described, one_file. split.
  - intros (A & (B & e & C & D) & R). split; auto. split; auto. split; auto. right. eauto.
  - intros ((A & [(_ & B)|(e & C & D)] & R) & NE); [congruence|]. split; auto. split; auto. split; auto. eauto.
Qed.
Lemma described_fun m l u v : described m l u -> described m l v -> u = v.
Proof.
  intros (A & B & C & D & E & F & G & H & K) (A' & B' & C' & D' & E' & F' & G' & H' & K').
  assert (P : u_prog u = u_prog v).
  { destruct B as [(X & Y)|(e & X & Y)], B' as [(X' & Y')|(e' & X' & Y')]; try congruence.
    - rewrite X in X'. destruct e'; discriminate.
    - rewrite X in X'. destruct e; discriminate.
    - rewrite X in X'. apply app_inj_tail in X'. tauto. }
  destruct u, v; cbn in *. subst. f_equal; auto.
  - destruct u_no_compile, u_no_compile0; auto; [symmetry; apply H'; apply H; auto|apply H; apply H'; auto].
  - destruct u_auto, u_auto0; auto; [apply K; apply K'; auto|symmetry; apply K'; apply K; auto].
Qed.
Lemma parse_mode m ws : parse_cli (mode_word m :: ws) = cli_loop (full_of m) ws (u_init m).
Proof. destruct m; reflexivity. Qed.

Lemma cli_spec m ws l : says m ws l -> Forall short l ->
  ((exists u, parse_cli (mode_word m :: ws) = Ok u) \/ parse_cli (mode_word m :: ws) = Err) /\
  forall u, parse_cli (mode_word m :: ws) = Ok u <-> describes m l u.
Proof.
  intros S SH. rewrite parse_mode, (loop_says _ _ _ S). destruct (fold_safe m l SH) as [(u & E)|(E & N)]; rewrite E; cbn [bind].
  - pose proof (fold_described _ _ _ E) as D. unfold final. destruct (u_prog u) eqn:EP.
    + split; [right; reflexivity|]. intros v. split; [discriminate|]. intros X. apply describes_described in X as (X & Y).
      rewrite (described_fun _ _ _ _ X D) in Y. congruence.
    + split; [left; eauto|]. intros v. rewrite describes_described. split.
      * intros [= <-]. split; auto. congruence.
      * intros (X & _). f_equal. eapply described_fun; eauto.
  - split; [right; reflexivity|]. intros v. split; [discriminate|]. intros (_ & X & _). exfalso. eapply N; eauto.
Qed.
Lemma cli_inv args u : parse_cli args = Ok u -> exists m ws l, args = mode_word m :: ws /\ says m ws l /\ Forall short l /\ describes m l u.
Proof.
  intros H. assert (X : exists m ws, args = mode_word m :: ws).
  { destruct args as [|a r]; [discriminate|]. cbn [parse_cli] in H. destruct (str_eqb a (lit "read")) eqn:E1.
    - apply str_eqb_eq in E1. exists U_READ, r. subst. auto.
    - destruct (str_eqb a (lit "print")) eqn:E2; [|discriminate]. apply str_eqb_eq in E2. exists U_PRINT, r. subst. auto. }
  destruct X as (m & ws & ->). rewrite parse_mode in H. destruct (loop_says_inv _ _ _ _ H) as (l & S).
  rewrite (loop_says _ _ _ S) in H. destruct (ofold act (u_init m) l) as [u1| | | |] eqn:E; try discriminate. cbn [bind] in H.
  pose proof (fold_described _ _ _ E) as D. assert (SH : Forall short l).
  { clear - E. revert u1 E. induction l as [|i l IH] using rev_ind; intros u E; auto. rewrite ofold_app in E.
    destruct (ofold act (u_init m) l) as [u2| | | |] eqn:E1; try discriminate. cbn [bind ofold] in E.
    apply Forall_app. split; [eapply IH; eauto|]. constructor; auto.
    destruct i as [v|v|v|v|f| |v]; cbn [act short] in *; auto; unfold strcpy64 in E;
      try (destruct (u_prog u2); try discriminate); destruct (Nat.ltb_spec (List.length v) 64); try discriminate; auto. }
  exists m, ws, l. repeat (split; auto). all: unfold final in H; destruct (u_prog u1) eqn:EP; try discriminate; injection H as <-.
  all: assert (DD : describes m l u1) by (apply describes_described; split; [auto|congruence]); apply DD.
Qed.
(** a value of 64 characters or more overruns its buffer *)
Lemma fold_ok m l : Forall short l -> files l = [] \/ (exists f, one_file l f) -> exists u, ofold act (u_init m) l = Ok u.
Proof.
  intros SH [F|(f & F)].
  - assert (S2 : Forall short (l ++ [I_file ["a"%char]])).
    { apply Forall_app. split; auto. constructor; auto. cbn. lia. }
    destruct (fold_safe m _ S2) as [(u & E)|(_ & N)].
    + rewrite ofold_app in E. destruct (ofold act (u_init m) l); try discriminate. eauto.
    + exfalso. apply (N ["a"%char]). split; [discriminate|]. exists []. rewrite files_app, F. auto.
  - destruct (fold_safe m l SH) as [E|(_ & N)]; auto. exfalso. eapply N; eauto.
Qed.
Lemma cli_overrun m ws l w i ws' : says m ws l -> Forall short l -> one m w i -> ~ short i ->
  files l = [] \/ (exists f, one_file l f) /\ (forall v, i <> I_file v) ->
  parse_cli (mode_word m :: ws ++ w ++ ws') = UB.
Proof.
  intros S SH O NS NF. rewrite parse_mode.
  assert (APP : forall ws l, says m ws l -> forall r u, cli_loop (full_of m) (ws ++ r) u = bind (ofold act u l) (fun u' => cli_loop (full_of m) r u')).
  { clear. induction 1 as [|w i ws l O S IH]; intros r u; [reflexivity|]. rewrite <- app_assoc, (loop_one _ _ _ _ _ O). cbn [ofold].
    rewrite bind_bind. destruct (act u i); cbn [bind]; auto. }
  rewrite (APP _ _ S). destruct (fold_ok m l SH) as (u & E); [tauto|]. rewrite E. cbn [bind].
  rewrite (loop_one _ _ _ _ _ O). pose proof (fold_described _ _ _ E) as (_ & B & _).
  destruct i as [v|v|v|v|g| |v]; cbn [act short] in *; try tauto; unfold strcpy64;
    try (rewrite (proj2 (Nat.ltb_ge _ _)) by lia; reflexivity).
  destruct NF as [F|(_ & NF)]; [|exfalso; eapply NF; reflexivity].
  destruct B as [(_ & B)|(e & B & _)]; [|rewrite F in B; destruct e; discriminate].
  rewrite B, (proj2 (Nat.ltb_ge _ _)) by lia. reflexivity.
Qed.

(** pass options of the tool *)
Lemma first_names {P} (l : list (ocfg P)) nm l1 c l2 : first_named l nm l1 c l2 -> oc_name c = nm.
Proof. now intros (_ & H & _). Qed.
Definition skel {P} (o : popts P) : list cstr := map oc_name (po_builtin o).
Lemma pstep_skel {P} (o o' : popts P) p : pstep o p o' -> skel o' = skel o /\ map oc_name (po_custom o') = map oc_name (po_custom o).
Proof.
  unfold skel. intros [nm pr l1 c l2 v S (E & N & F) L|nm pr l1 c l2 v S NB (E & N & F) L]; cbn [po_builtin po_custom]; split; auto;
    rewrite E, !map_app; cbn [map oc_name]; now rewrite N.
Qed.
Lemma steps_skel {P} (o o' : popts P) l : steps pstep o l o' -> skel o' = skel o /\ map oc_name (po_custom o') = map oc_name (po_custom o).
Proof. induction 1 as [|s p s1 l s2 A B (C & D)]; auto. apply pstep_skel in A as (A1 & A2). split; congruence. Qed.

Definition on {P} (c : ocfg P) : bool := oc_on c || oc_run c.
Lemma named_unique {P} (l : list (ocfg P)) k c nm l1 d l2 : NoDup (map oc_name l) -> nth_error l k = Some c -> oc_name c = nm ->
  first_named l nm l1 d l2 -> k = List.length l1 /\ c = d.
Proof.
  intros ND K N (E & N' & _). assert (X : nth_error l (List.length l1) = Some d).
  { rewrite E, nth_error_app2, Nat.sub_diag by auto. reflexivity. }
  assert (k = List.length l1); [|subst k; split; congruence].
  apply (proj1 (NoDup_nth_error (map oc_name l)) ND).
  - rewrite map_length. apply nth_error_Some. congruence.
  - rewrite !(map_nth_error oc_name _ _ K), (map_nth_error oc_name _ _ X). congruence.
Qed.
Lemma pstep_on {P} (o o' : popts P) p k c : NoDup (skel o) -> pstep o p o' -> nth_error (po_builtin o) k = Some c ->
  exists c', nth_error (po_builtin o') k = Some c' /\ oc_name c' = oc_name c /\
    (on c' = true <-> on c = true \/ exists pr, pass_syntax p (oc_name c) pr).
Proof.
  intros ND H K. assert (UQ : forall nm1 pr1 nm2 pr2, pass_syntax p nm1 pr1 -> pass_syntax p nm2 pr2 -> nm1 = nm2).
  { clear. intros nm1 pr1 nm2 pr2 A B.
    assert (SP : forall (x a y b : cstr), x ++ "("%char :: a = y ++ "("%char :: b -> ~ In "("%char x -> ~ In "("%char y -> x = y).
    { induction x as [|c x IH]; intros a [|d y] b E N1 N2; cbn in E; auto.
      - injection E as E _. exfalso. apply N2. left. auto.
      - injection E as E _. exfalso. apply N1. left. auto.
      - injection E as <- E. f_equal. eapply IH; eauto; [intros I; apply N1; now right|intros I; apply N2; now right]. }
    inversion A as [? N1 E1 E2|? a1 N1 M1 E1]; inversion B as [? N2 E3 E4|? a2 N2 M2 E3]; subst.
    - reflexivity.
    - exfalso. apply N1. apply in_or_app. right. left. auto.
    - exfalso. apply N2. apply in_or_app. right. left. auto.
    - symmetry. eapply SP; eauto. }
  destruct H as [nm pr l1 d l2 v S FN L|nm pr l1 d l2 v S NB FN L]; cbn [po_builtin].
  - destruct (list_eq_dec ascii_dec (oc_name c) nm) as [E|E].
    + destruct (named_unique _ _ _ _ _ _ _ ND K E FN) as [-> ->]. eexists. split.
      * rewrite nth_error_app2, Nat.sub_diag by auto. reflexivity.
      * cbn. split; auto. split; auto. intros _. right. exists pr. now rewrite E.
    + destruct FN as (EL & N & F). exists c. split; [|split; auto].
      * rewrite EL in K. destruct (lt_dec k (List.length l1)).
        -- rewrite nth_error_app1 in * by auto. auto.
        -- rewrite nth_error_app2 in * by lia. destruct (k - List.length l1) as [|n0]; [injection K as ->; congruence|exact K].
      * split; [auto|]. intros [X|(pr' & X)]; auto. exfalso. apply E. eapply UQ; eauto.
  - exists c. split; auto. split; auto. split; auto. intros [X|(pr' & X)]; auto. exfalso.
    eapply (NB c); [eapply nth_error_In; eauto|]. eapply UQ; eauto.
Qed.
Lemma steps_on {P} l : forall (o o' : popts P) k c, NoDup (skel o) -> steps pstep o l o' -> nth_error (po_builtin o) k = Some c ->
  exists c', nth_error (po_builtin o') k = Some c' /\ oc_name c' = oc_name c /\
    (on c' = true <-> on c = true \/ exists p pr, In p l /\ pass_syntax p (oc_name c) pr).
Proof.
  induction l as [|p l IH]; intros o o' k c ND H K; inversion H as [|? ? s1 ? ? A B]; subst.
  - exists c. split; auto. split; auto. firstorder.
  - destruct (pstep_on _ _ _ _ _ ND A K) as (c1 & K1 & N1 & O1). pose proof (pstep_skel _ _ _ A) as (SK & _).
    destruct (IH s1 o' k c1) as (c2 & K2 & N2 & O2); auto; [now rewrite SK|].
    exists c2. split; auto. split; [congruence|]. rewrite O2, O1, N1. cbn [In]. split.
    + intros [[X|(pr & X)]|(q & pr & I & X)]; eauto 8.
    + intros [X|(q & pr & [->|I] & X)]; eauto 8.
Qed.
Lemma enabled_asked {P} l (o o' : popts P) k c : NoDup (map oc_name (po_builtin o)) -> steps pstep o l o' ->
  nth_error (po_builtin o) k = Some c ->
  exists c', nth_error (po_builtin (enable_builtin o')) k = Some c' /\ oc_name c' = oc_name c /\ (oc_run c' = true <-> asked l c).
Proof.
  intros ND H K. destruct (steps_on l o o' k c ND H K) as (c1 & K1 & N1 & O1).
  cbn [enable_builtin po_builtin]. rewrite (map_nth_error _ _ _ K1). eexists. split; [reflexivity|].
  unfold asked, on in *. rewrite orb_true_iff in O1. rewrite orb_true_iff in O1.
  destruct (oc_on c1) eqn:E1; cbn [oc_name oc_run]; split; auto.
  - split; auto. intros _. destruct (proj1 O1 (or_introl eq_refl)) as [[X|X]|X]; auto.
  - split.
    + intros X. destruct (proj1 O1 (or_intror X)) as [[Y|Y]|Y]; auto.
    + intros X. assert (Y : false = true \/ oc_run c1 = true) by (apply O1; tauto). destruct Y; congruence.
Qed.
Lemma tool_names {P} a b : NoDup (map oc_name (po_builtin (@tool_opts P a b))).
Proof. cbn. repeat constructor; cbn; intuition discriminate. Qed.
Lemma tool_no_div {P} a b (o' : popts P) l : steps pstep (tool_opts a b) l o' ->
  forall c, In c (po_builtin (enable_builtin o') ++ po_custom (enable_builtin o')) -> oc_name c <> lit "div_by_zero".
Proof.
  intros H c I. apply steps_skel in H as (H1 & H2).
  assert (X : In (oc_name c) (skel (enable_builtin o') ++ map oc_name (po_custom (enable_builtin o')))).
  { apply in_app_iff in I. apply in_app_iff. unfold skel. destruct I; [left|right]; now apply in_map. }
  assert (E : skel (enable_builtin o') = skel o').
  { unfold skel. cbn [enable_builtin po_builtin]. rewrite map_map. apply map_ext. intros d. destruct (oc_on d); reflexivity. }
  rewrite E, H1 in X. cbn [enable_builtin po_custom] in X. rewrite H2 in X. intros Y. rewrite Y in X. cbn in X.
  repeat destruct X as [X|X]; try discriminate; auto.
Qed.
Lemma tool_div_rejected {P} a b nm pr p : pass_syntax p nm pr -> nm = lit "div_by_zero" -> forall o', ~ pstep (@tool_opts P a b) p o'.
Proof.
  intros S -> o' H.
  assert (K : exists nm2 pr2, pass_syntax p nm2 pr2 /\ In nm2 (map oc_name (po_builtin (tool_opts a b)) ++ map oc_name (po_custom (tool_opts a b)))).
  { destruct H as [nm pr0 l1 d l2 v S' (E & N & _) L|nm pr0 l1 d l2 v S' NB (E & N & _) L]; exists nm, pr0; split; auto; apply in_or_app;
      [left|right]; rewrite E, map_app; apply in_or_app; right; left; auto. }
  destruct K as (nm2 & pr2 & S2 & I).
  assert (HD : hd_error p = Some "d"%char).
  { remember (lit "div_by_zero") as w. destruct S as [nm N|nm x N M]; subst nm; reflexivity. }
  assert (HN : hd_error p = hd_error nm2 \/ nm2 = []).
  { destruct S2 as [nm N|nm x N M]; destruct nm; cbn; auto. }
  cbn in I. repeat destruct I as [I|I]; subst; try contradiction; destruct HN as [HN|HN]; rewrite ?HD in HN; cbn in HN; discriminate.
Qed.
