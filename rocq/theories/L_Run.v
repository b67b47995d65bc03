From Verif Require Import M_Base M_Run SpecRun.
From Coq Require Import Lia.

#[local] Hint Unfold extra : core.
Section run.
Context {F P : Type}.
Implicit Types (p : pass F P) (s : rst F P) (post : F -> F * bool).

Lemma find_cfg_some cfgs (n : string) (c : pcfg P) : find_cfg cfgs n = Some c ->
  exists l1 l2, cfgs = l1 ++ c :: l2 /\ (forall d, In d l1 -> cf_name d <> n) /\ cf_name c = n.
Proof.
  induction cfgs as [|d r IH]; cbn; [discriminate|]. destruct (String.eqb_spec (cf_name d) n) as [E|E].
  - intros H. injection H as <-. exists [], r. split; [auto|split; [intros ? []|auto]].
  - intros H. destruct (IH H) as (l1 & l2 & -> & A & B). exists (d :: l1), l2. repeat split; auto.
    intros x [<-|I]; auto.
Qed.
Lemma find_cfg_none cfgs (n : string) : find_cfg (P:=P) cfgs n = None -> forall d, In d cfgs -> cf_name d <> n.
Proof.
  induction cfgs as [|d r IH]; cbn; [intros _ ? []|]. destruct (String.eqb_spec (cf_name d) n) as [E|E]; [discriminate|].
  intros H x [<-|I]; auto.
Qed.
Lemma first_unique {A} (Q : A -> Prop) l1 c l2 m1 d m2 : l1 ++ c :: l2 = m1 ++ d :: m2 ->
  (forall x, In x l1 -> ~ Q x) -> Q c -> (forall x, In x m1 -> ~ Q x) -> Q d -> c = d.
Proof.
  revert m1. induction l1 as [|a l1 IH]; intros [|b m1] E A0 B C D; cbn in E; injection E; intros; subst; auto.
  - exfalso. apply (C b); cbn; auto.
  - exfalso. apply (A0 d); cbn; auto.
  - eapply IH; eauto; intros; [apply A0|apply C]; cbn; auto.
Qed.

(** what [run_one] does: the pass is selected with a parameter, or is not *)
Lemma sel_dec cfgs p : force_default p ->
  (exists q, selected cfgs p q /\ (forall post s, run_one cfgs post p s = run_single post p q s) /\ forall q', selected cfgs p q' -> q' = q) \/
  ((forall q, ~ selected cfgs p q) /\ forall post s, run_one cfgs post p s = s).
Proof.
  intros FD. unfold run_one. destruct (find_cfg cfgs (pa_name p)) as [c|] eqn:E.
  - apply find_cfg_some in E as (l1 & l2 & -> & A & B).
    assert (U : forall q', selected (l1 ++ c :: l2) p q' -> q' = cf_param c /\ (pa_force p || cf_enable c = true)).
    { intros q' S. inversion S as [m1 d m2 E1 A1 B1 C1|A1 B1]; subst.
      - assert (c = d) by (eapply (first_unique (fun d => cf_name d = pa_name p)); eauto). subst d.
        split; auto. destruct C1 as [->| ->]; auto using orb_true_r.
      - exfalso. apply (A1 c); auto. apply in_or_app; cbn; auto. }
    destruct (pa_force p || cf_enable c) eqn:Q.
    + left. exists (cf_param c). split; [|split; auto].
      * econstructor; eauto. apply orb_true_iff; auto.
      * intros q' S. apply U in S. tauto.
    + right. split; auto. intros q S. apply U in S as [_ S]. discriminate.
  - pose proof (find_cfg_none _ _ E) as N. destruct (pa_enabled p) eqn:Q.
    + left. exists None. split; [apply sel_default; auto|split; auto].
      intros q' S. inversion S as [m1 d m2 E1 A1 B1 C1|]; subst; auto.
      exfalso. apply (N d); auto. apply in_or_app; cbn; auto.
    + right. split; auto. intros q S. inversion S as [m1 d m2 E1 A1 B1 C1|A1 B1]; subst.
      * apply (N d); auto. apply in_or_app; cbn; auto.
      * destruct B1 as [B1|B1]; [apply FD in B1|]; congruence.
Qed.

Lemma run_one_spec cfgs post p s : force_default p ->
  (exists q, selected cfgs p q /\ run_one cfgs post p s = run_single post p q s /\ forall q', selected cfgs p q' -> q' = q) \/
  ((forall q, ~ selected cfgs p q) /\ run_one cfgs post p s = s).
Proof.
  intros FD. destruct (sel_dec cfgs p FD) as [(q & A & B & C)|[A B]]; [left; exists q|right]; auto.
Qed.
Lemma plan_ex cfgs ps : Forall (@force_default F P) ps -> exists l, plan cfgs ps l.
Proof.
  induction ps as [|p ps IH]; intros FD; [exists []; constructor|]. inversion FD; subst.
  destruct IH as (l & H); auto.
  destruct (sel_dec cfgs p) as [(q & A & _)|[A _]]; auto; eexists; [eapply plan_run|eapply plan_skip]; eauto.
Qed.
Lemma planc_ex verr (cs : list (custom F P)) : exists l, plan_custom verr cs l.
Proof.
  induction cs as [|c cs (l & H)]; [exists []; constructor|].
  assert (D : selected_custom verr c \/ ~ selected_custom verr c).
  { unfold selected_custom. destruct (pa_enabled (cu_pass c)); [|right; intros [? _]; discriminate].
    destruct (cu_check c) as [f|]; [destruct (f verr) eqn:V|].
    - left. split; auto. intros ? [= <-]; auto.
    - right. intros [_ X]. specialize (X f eq_refl). congruence.
    - left. split; auto. discriminate. }
  destruct D; eexists; [eapply planc_run|eapply planc_skip]; eauto.
Qed.

Lemma run_single_spec post p q s : r_err s = false ->
  r_trace (run_single post p q s) = r_trace s ++ [EvPass (pa_name p) q] /\
  ((fails post p (r_fun s) q /\ r_err (run_single post p q s) = true) \/
   (~ fails post p (r_fun s) q /\ r_err (run_single post p q s) = false /\
    r_fun (run_single post p q s) = fst (post (fst (pa_fun p (r_fun s) q))))).
Proof.
  intros E. unfold run_single, fails. rewrite E. cbn [orb]. destruct (snd (pa_fun p (r_fun s) q)) eqn:A; cbn.
  - split; auto.
  - split; auto. destruct (snd (post (fst (pa_fun p (r_fun s) q)))) eqn:B; [left; auto|right].
    repeat split; auto. intros [?|?]; discriminate.
Qed.
Lemma run_single_err post p q s : r_err s = true ->
  r_trace (run_single post p q s) = r_trace s ++ [EvPass (pa_name p) q] /\ r_err (run_single post p q s) = true.
Proof. intros E. unfold run_single. rewrite E. cbn. auto. Qed.

Lemma run_passes_exec cfgs post ps : Forall force_default ps -> forall l s, plan cfgs ps l -> r_err s = false ->
  exists tr r, executes post (r_fun s) l tr r /\ reports (run_passes cfgs post ps s) (r_trace s ++ tr) r.
Proof.
  induction ps as [|p ps IH]; intros FD l s PL E.
  - inversion PL; subst. exists [], (Some (r_fun s)). split; [constructor|]. cbn. split; [now rewrite app_nil_r|now rewrite E].
  - inversion FD as [|? ? F1 F2]; subst. cbn. destruct (run_one_spec cfgs post p s F1) as [(q & S & R & U)|(N & R)].
    + inversion PL as [|? ? q' l' S' PL'|? ? ? S' PL']; subst; [|exfalso; eapply S'; eauto].
      apply U in S' as ->. rewrite R. destruct (run_single_spec post p q s E) as (T & [(X & Y)|(X & Y & Z)]).
      * rewrite Y. exists [EvPass (pa_name p) q], None. split; [constructor; auto|]. split; auto. now rewrite Y.
      * rewrite Y. destruct (IH F2 l' _ PL' Y) as (tr & r & A & B). rewrite Z in A.
        exists (EvPass (pa_name p) q :: tr), r. split; [constructor; auto|].
        rewrite T in B. rewrite <- app_assoc in B. exact B.
    + inversion PL as [|? ? q' l' S' PL'|? ? ? S' PL']; subst; [exfalso; eapply N; eauto|].
      rewrite R, E. apply IH; auto.
Qed.
Lemma run_passes_err cfgs post ps s : r_err s = true -> Forall force_default ps ->
  exists tl, r_trace (run_passes cfgs post ps s) = r_trace s ++ tl /\ extra tl /\ r_err (run_passes cfgs post ps s) = true.
Proof.
  intros E FD. destruct ps as [|p ps]; cbn.
  - exists []. rewrite app_nil_r. auto.
  - inversion FD; subst. destruct (run_one_spec cfgs post p s) as [(q & S & R & U)|(N & R)]; auto; rewrite R.
    + destruct (run_single_err post p q s E) as [T Y]. rewrite Y. eexists. split; [exact T|]. split; [right; eauto|auto].
    + rewrite E. exists []. rewrite app_nil_r. auto.
Qed.

Lemma run_custom_spec verr post c s : pa_enabled (cu_pass c) = true ->
  (selected_custom verr c /\ run_custom verr post c s = run_single post (cu_pass c) (cu_param c) s) \/
  (~ selected_custom verr c /\ run_custom verr post c s = s).
Proof.
  intros E. unfold run_custom, selected_custom. destruct (cu_check c) as [f|]; [destruct (f verr) eqn:V|].
  - left. split; auto. split; auto. intros ? [= <-]; auto.
  - right. split; auto. intros [_ H]. specialize (H f eq_refl). congruence.
  - left. split; auto. split; auto. discriminate.
Qed.
Lemma run_customs_exec verr post cs : forall l s, plan_custom verr cs l -> r_err s = false ->
  exists tr r, executes post (r_fun s) l tr r /\ reports (fst (run_customs verr post cs s)) (r_trace s ++ tr) r /\
    snd (run_customs verr post cs s) = match r with Some _ => true | None => false end.
Proof.
  induction cs as [|c cs IH]; intros l s PL E.
  - inversion PL; subst. exists [], (Some (r_fun s)). split; [constructor|]. cbn. split; [|auto]. split; [now rewrite app_nil_r|cbn; now rewrite E].
  - cbn. destruct (pa_enabled (cu_pass c)) eqn:EN.
    + destruct (run_custom_spec verr post c s EN) as [[S R]|[N R]].
      * inversion PL as [|? ? l' S' PL'|? ? l' S' PL']; subst; [|contradiction]. rewrite R.
        destruct (run_single_spec post (cu_pass c) (cu_param c) s E) as (T & [(X & Y)|(X & Y & Z)]).
        -- rewrite Y. cbn. eexists _, None. split; [apply ex_fail; auto|]. split; auto. split; auto. now rewrite Y.
        -- rewrite Y. destruct (IH l' _ PL' Y) as (tr & r & A & B & D). rewrite Z in A.
           eexists (_ :: tr), r. split; [apply ex_ok; eauto|]. split; auto.
           rewrite T in B. rewrite <- app_assoc in B. exact B.
      * inversion PL as [|? ? l' S' PL'|? ? l' S' PL']; subst; [contradiction|]. rewrite R, E. apply IH; auto.
    + inversion PL as [|? ? l' S' PL'|? ? l' S' PL']; subst; [destruct S'; congruence|]. apply IH; auto.
Qed.
Lemma run_customs_err verr post cs s : r_err s = true ->
  exists tl, r_trace (fst (run_customs verr post cs s)) = r_trace s ++ tl /\ extra tl /\
    r_err (fst (run_customs verr post cs s)) = true /\ (snd (run_customs verr post cs s) = true -> tl = []).
Proof.
  intros E. induction cs as [|c cs IH]; cbn.
  - exists []. rewrite app_nil_r. auto.
  - destruct (pa_enabled (cu_pass c)) eqn:EN; auto.
    destruct (run_custom_spec verr post c s EN) as [[S R]|[N R]]; rewrite R.
    + destruct (run_single_err post (cu_pass c) (cu_param c) s E) as [T Y]. rewrite Y. cbn.
      eexists. split; [exact T|]. split; [right; eauto|]. split; auto. discriminate.
    + rewrite E. cbn. exists []. rewrite app_nil_r. repeat split; auto.
Qed.

Lemma executes_app post a b : forall f tra r, executes (P:=P) post f a tra r ->
  match r with
  | None => executes post f (a ++ b) tra None
  | Some f' => forall trb r', executes post f' b trb r' -> executes post f (a ++ b) (tra ++ trb) r'
  end.
Proof.
  intros f tra r H. induction H as [f|f p q l X|f p q l tr r X H IH]; cbn; auto.
  - constructor; auto.
  - destruct r as [f'|]; [intros trb r' B|]; apply ex_ok; auto.
Qed.
Lemma executes_det post l : forall f tr r tr' r', executes (P:=P) post f l tr r -> executes post f l tr' r' -> tr = tr' /\ r = r'.
Proof.
  induction l as [|[p q] l IH]; intros f tr r tr' r' A B.
  - inversion A; inversion B; subst; auto.
  - inversion A; inversion B; subst; auto; try contradiction. match goal with X : executes _ _ l ?t ?r, Y : executes _ _ l ?t' ?r' |- _ => destruct (IH _ _ _ _ _ X Y) as [-> ->] end; auto.
Qed.

Lemma run_passes_rep cfgs post ps l s tr r : Forall force_default ps -> plan cfgs ps l -> r_err s = false ->
  executes post (r_fun s) l tr r -> reports (run_passes cfgs post ps s) (r_trace s ++ tr) r.
Proof.
  intros FD PL E X. destruct (run_passes_exec cfgs post ps FD l s PL E) as (tr' & r' & A & B).
  destruct (executes_det _ _ _ _ _ _ _ X A) as [-> ->]. auto.
Qed.
Lemma reports_some s tr (f : F) : reports s tr (Some f) -> r_trace s = tr /\ r_err s = false /\ r_fun s = f.
Proof. intros [A B]. destruct (r_err s); [discriminate|]. injection B as <-. auto. Qed.
Lemma reports_none s tr : reports s tr None -> r_trace s = tr /\ r_err s = true.
Proof. intros [A B]. destruct (r_err s); [auto|discriminate]. Qed.

Lemma run_ok (pl : pipeline F P) s a b c tra fa : Forall force_default (pl_pre pl) -> Forall force_default (pl_post pl) ->
  r_err s = false -> plan (pl_cfgs pl) (pl_pre pl) a -> plan_custom (pl_verr pl) (pl_custom pl) b ->
  plan (pl_cfgs pl) (pl_post pl) c -> executes (pl_postproc pl) (r_fun s) a tra (Some fa) ->
  exists tr r, executes (pl_postproc pl) (r_fun s) (a ++ b ++ c) tr r /\ reports (run pl s) (r_trace s ++ tr) r.
Proof.
  intros FD1 FD2 E PA PB PC X. unfold run.
  pose proof (run_passes_rep _ (pl_postproc pl) _ _ s _ _ FD1 PA E X) as R. apply reports_some in R as (R1 & R2 & R3).
  set (s1 := run_passes _ _ _ s) in *.
  destruct (run_customs_exec (pl_verr pl) (pl_postproc pl) (pl_custom pl) b s1 PB R2) as (tr & r & A & B & D).
  set (s2 := run_customs _ _ _ s1) in *. rewrite D. rewrite R3 in A. rewrite R1 in B.
  pose proof (executes_app _ _ (b ++ c) _ _ _ X) as XA. cbn in XA.
  pose proof (executes_app _ _ c _ _ _ A) as XB.
  destruct r as [f2|].
  - apply reports_some in B as (B1 & B2 & B3).
    destruct (run_passes_exec (pl_cfgs pl) (pl_postproc pl) (pl_post pl) FD2 c (fst s2) PC B2) as (tr' & r' & A' & B').
    rewrite B3 in A'. exists (tra ++ tr ++ tr'), r'. split.
    + apply XA. apply XB. auto.
    + rewrite B1 in B'. rewrite <- !app_assoc in B'. exact B'.
  - exists (tra ++ tr), None. split; [apply XA; auto|]. rewrite app_assoc. exact B.
Qed.
Lemma run_pre_fails (pl : pipeline F P) s a tra : Forall force_default (pl_pre pl) -> Forall force_default (pl_post pl) ->
  r_err s = false -> plan (pl_cfgs pl) (pl_pre pl) a -> executes (pl_postproc pl) (r_fun s) a tra None ->
  exists tl, extra tl /\ reports (run pl s) (r_trace s ++ tra ++ tl) None.
Proof.
  intros FD1 FD2 E PA X. unfold run.
  pose proof (run_passes_rep _ (pl_postproc pl) _ _ s _ _ FD1 PA E X) as R. apply reports_none in R as (R1 & R2).
  set (s1 := run_passes _ _ _ s) in *.
  destruct (run_customs_err (pl_verr pl) (pl_postproc pl) (pl_custom pl) s1 R2) as (tl & A & B & C & D).
  set (s2 := run_customs _ _ _ s1) in *. destruct (snd s2) eqn:Q.
  - rewrite (D eq_refl), app_nil_r in A.
    destruct (run_passes_err (pl_cfgs pl) (pl_postproc pl) (pl_post pl) (fst s2) C FD2) as (tl' & A' & B' & C').
    exists tl'. split; auto. split; [|now rewrite C']. rewrite A', A, R1. now rewrite app_assoc.
  - exists tl. split; auto. split; [|now rewrite C]. rewrite A, R1. now rewrite app_assoc.
Qed.


Lemma executes_ex post l : forall f, exists tr r, executes (F:=F) (P:=P) post f l tr r.
Proof.
  induction l as [|[p q] l IH]; intros f; [eexists _, _; constructor|].
  assert (D : fails post p f q \/ ~ fails post p f q).
  { unfold fails. destruct (snd (pa_fun p f q)); [auto|]. destruct (snd (post _)); [auto|right; intros [?|?]; discriminate]. }
  destruct D as [D|D]; [eexists _, _; apply ex_fail; auto|].
  destruct (IH (fst (post (fst (pa_fun p f q))))) as (tr & r & H). eexists _, _. apply ex_ok; eauto.
Qed.

(** the run as a whole *)
Lemma run_spec (pl : pipeline F P) s : Forall force_default (pl_pre pl) -> Forall force_default (pl_post pl) -> r_err s = false ->
  exists a b c tr r tl, plan (pl_cfgs pl) (pl_pre pl) a /\ plan_custom (pl_verr pl) (pl_custom pl) b /\
    plan (pl_cfgs pl) (pl_post pl) c /\ executes (pl_postproc pl) (r_fun s) (a ++ b ++ c) tr r /\
    reports (run pl s) (r_trace s ++ tr ++ tl) r /\ extra tl /\
    (tl <> [] -> executes (pl_postproc pl) (r_fun s) a tr None).
Proof.
  intros FD1 FD2 E. destruct (plan_ex (pl_cfgs pl) _ FD1) as (a & PA). destruct (planc_ex (pl_verr pl) (pl_custom pl)) as (b & PB).
  destruct (plan_ex (pl_cfgs pl) _ FD2) as (c & PC). destruct (executes_ex (pl_postproc pl) a (r_fun s)) as (tra & [fa|] & X).
  - destruct (run_ok pl s a b c tra fa FD1 FD2 E PA PB PC X) as (tr & r & A & B).
    exists a, b, c, tr, r, []. rewrite app_nil_r. repeat (split; [solve [auto]|]). congruence.
  - destruct (run_pre_fails pl s a tra FD1 FD2 E PA X) as (tl & A & B).
    exists a, b, c, tra, None, tl. split; [auto|]. split; [auto|]. split; [auto|].
    split; [exact (executes_app _ _ (b ++ c) _ _ _ X)|]. split; auto.
Qed.

Lemma plan_det cfgs ps : Forall (@force_default F P) ps -> forall l l', plan cfgs ps l -> plan cfgs ps l' -> l = l'.
Proof.
  induction ps as [|p ps IH]; intros FD l l' A B; [inversion A; inversion B; auto|]. inversion FD; subst.
  inversion A as [|? ? q1 l1 S1 P1|? ? l1 S1 P1]; inversion B as [|? ? q2 l2 S2 P2|? ? l2 S2 P2]; subst.
  - f_equal; [|eauto]. destruct (sel_dec cfgs p) as [(q & _ & _ & U)|[U _]]; auto.
    + apply U in S1, S2. congruence.
    + exfalso. eapply U; eauto.
  - exfalso. eapply S2; eauto.
  - exfalso. eapply S1; eauto.
  - eauto.
Qed.
Lemma planc_det verr (cs : list (custom F P)) : forall l l', plan_custom verr cs l -> plan_custom verr cs l' -> l = l'.
Proof.
  induction cs as [|c cs IH]; intros l l' A B; inversion A; inversion B; subst; auto; try contradiction. f_equal; auto.
Qed.
Lemma run_all (pl : pipeline F P) s a b c tr r : Forall force_default (pl_pre pl) -> Forall force_default (pl_post pl) ->
  r_err s = false -> plan (pl_cfgs pl) (pl_pre pl) a -> plan_custom (pl_verr pl) (pl_custom pl) b ->
  plan (pl_cfgs pl) (pl_post pl) c -> executes (pl_postproc pl) (r_fun s) (a ++ b ++ c) tr r ->
  exists tl, reports (run pl s) (r_trace s ++ tr ++ tl) r /\ extra tl /\
    (tl <> [] -> executes (pl_postproc pl) (r_fun s) a tr None).
Proof.
  intros FD1 FD2 E PA PB PC X.
  destruct (run_spec pl s FD1 FD2 E) as (a' & b' & c' & tr' & r' & tl & PA' & PB' & PC' & X' & R & LT & TL).
  rewrite (plan_det _ _ FD1 _ _ PA' PA) in *. rewrite (plan_det _ _ FD2 _ _ PC' PC) in *. rewrite (planc_det _ _ _ _ PB' PB) in *.
  destruct (executes_det _ _ _ _ _ _ _ X X') as [-> ->]. eauto.
Qed.

(** autorun *)
Context {I : Type}.
Implicit Types (e : env I) (o : opts) (lift : list I -> option F) (compile : F -> option (list I)).
Lemma autorun_keeps o (pl : pipeline F P) lift compile e : o_fake_run o = false ->
  e_err (fst (autorun o pl lift compile e)) = true \/ o_print_only o = true -> e_insns (fst (autorun o pl lift compile e)) = e_insns e.
Proof.
  intros FK. unfold autorun. destruct (_ && _); auto. destruct (o_print_only o); auto.
  destruct (if e_err e then None else lift (e_insns e)); auto. cbn [r_err].
  destruct (r_err (run pl _)); auto. destruct (compile _); auto. rewrite FK. cbn. intros [?|?]; discriminate.
Qed.
Lemma autorun_compiles o (pl : pipeline F P) lift compile e : Forall force_default (pl_pre pl) -> Forall force_default (pl_post pl) ->
  forall e' tr, autorun o pl lift compile e = (e', tr) -> In EvCompile tr \/ e_insns e' <> e_insns e ->
  exists f a b c trp f', lift (e_insns e) = Some f /\ plan (pl_cfgs pl) (pl_pre pl) a /\
    plan_custom (pl_verr pl) (pl_custom pl) b /\ plan (pl_cfgs pl) (pl_post pl) c /\
    executes (pl_postproc pl) f (a ++ b ++ c) trp (Some f') /\ tr = EvLift :: trp ++ [EvCompile] /\
    e_insns e' = match compile f' with Some code => code | None => e_insns e end /\
    e_err e' = match compile f' with Some _ => o_fake_run o | None => true end.
Proof.
  intros FD1 FD2 e' tr. unfold autorun. destruct (_ && _).
  { intros [= <- <-] [[]|X]. cbn in X; congruence. }
  destruct (o_print_only o).
  { intros [= <- <-] [[]|X]. congruence. }
  destruct (if e_err e then None else lift (e_insns e)) as [f|] eqn:LF.
  2:{ intros [= <- <-] [[X|[]]|X]; [discriminate|cbn in X; congruence]. }
  assert (L : lift (e_insns e) = Some f) by (destruct (e_err e); congruence).
  destruct (run_spec pl (mkR f false [EvLift]) FD1 FD2 eq_refl) as (a & b & c & trp & r & tl & PA & PB & PC & X & R & LT & TL).
  destruct R as [R1 R2]. cbn [r_trace r_fun] in *. cbn [r_err].
  set (s := run pl _) in *. destruct (r_err s).
  { intros [= <- <-] [Y|Y]; [|cbn in Y; congruence]. rewrite R1 in Y. exfalso.
    subst r. cbn in Y. destruct Y as [Y|Y]; [discriminate|]. 
    assert (NC : forall f0 l0 t0 (r0 : option F), executes (P:=P) (pl_postproc pl) f0 l0 t0 r0 -> ~ In EvCompile t0).
    { intros f0 l0 t0 r0 H. induction H; cbn; intuition discriminate. }
    apply in_app_or in Y as [Y|Y]; [eapply NC; eauto|].
    destruct LT as [->|(n & q & ->)]; [destruct Y|]. destruct Y as [Y|[]]. discriminate. }
  subst r. assert (tl = []) as ->.
  { destruct tl; auto. exfalso. assert (XA := TL ltac:(discriminate)).
    pose proof (executes_app _ _ (b ++ c) _ _ _ XA) as XB. cbn in XB.
    destruct (executes_det _ _ _ _ _ _ _ X XB). discriminate. }
  rewrite app_nil_r in R1. intros T _. exists f, a, b, c, trp, (r_fun s).
  repeat (split; [solve [auto]|]).
  destruct (compile (r_fun s)); injection T as <- <-; rewrite R1; cbn; auto.
Qed.
Lemma autorun_error o (pl : pipeline F P) lift compile e : Forall force_default (pl_pre pl) -> Forall force_default (pl_post pl) ->
  o_print_only o = false -> e_err e = false ->
  forall f a b c tr, lift (e_insns e) = Some f -> plan (pl_cfgs pl) (pl_pre pl) a ->
    plan_custom (pl_verr pl) (pl_custom pl) b -> plan (pl_cfgs pl) (pl_post pl) c ->
    executes (pl_postproc pl) f (a ++ b ++ c) tr None ->
    e_err (fst (autorun o pl lift compile e)) = true /\ ~ In EvCompile (snd (autorun o pl lift compile e)).
Proof.
  intros FD1 FD2 PO EE f a b c tr L PA PB PC X.
  destruct (run_all pl (mkR f false [EvLift]) a b c tr None FD1 FD2 eq_refl PA PB PC X) as (tl & R & LT & TL).
  apply reports_none in R as [R1 R2]. unfold autorun. rewrite EE, L, PO.
  destruct (_ && _); [cbn; auto|]. cbn [r_err]. rewrite R2. split; [reflexivity|]. cbn [snd]. rewrite R1. cbn.
  intros [Y|Y]; [discriminate|].
  assert (NC : forall f0 l0 t0 (r0 : option F), executes (P:=P) (pl_postproc pl) f0 l0 t0 r0 -> ~ In EvCompile t0).
  { intros f0 l0 t0 r0 H. induction H; cbn; intuition discriminate. }
  apply in_app_or in Y as [Y|Y]; [eapply NC; eauto|].
  destruct LT as [->|(n & q & ->)]; [destruct Y|]. destruct Y as [Y|[]]. discriminate.
Qed.
End run.
Lemma selection_exists F P (pl : pipeline F P) : Forall force_default (pl_pre pl) -> Forall force_default (pl_post pl) ->
  forall f, exists a b c tr r, plan (pl_cfgs pl) (pl_pre pl) a /\ plan_custom (pl_verr pl) (pl_custom pl) b /\
    plan (pl_cfgs pl) (pl_post pl) c /\ executes (pl_postproc pl) f (a ++ b ++ c) tr r.
Proof.
  intros FD1 FD2 f. destruct (plan_ex (pl_cfgs pl) _ FD1) as (a & PA). destruct (planc_ex (pl_verr pl) (pl_custom pl)) as (b & PB).
  destruct (plan_ex (pl_cfgs pl) _ FD2) as (c & PC). destruct (executes_ex (pl_postproc pl) (a ++ b ++ c) f) as (tr & r & X).
  exists a, b, c, tr, r. auto.
Qed.
