From Verif Require Import M_Base SpecWord M_Opts SpecOpts L_Word.
From Coq Require Import Lia.
Open Scope nat_scope.

Lemma str_eqb_spec a b : str_eqb a b = true <-> a = b.
Proof. unfold str_eqb. destruct (list_eq_dec ascii_dec a b); split; congruence. Qed.
Lemma str_eqb_refl a : str_eqb a a = true.
Proof. now apply str_eqb_spec. Qed.
Lemma str_eqb_no a b : str_eqb a b = false -> a <> b.
Proof. intros H ->. rewrite str_eqb_refl in H. discriminate. Qed.
Lemma strip_spec pre : forall s r, strip pre s = Some r <-> s = pre ++ r.
Proof.
  induction pre as [|a p IH]; intros s r; cbn; [split; congruence|].
  destruct s as [|b s]; [split; discriminate|]. destruct (ascii_dec a b) as [->|N].
  - rewrite IH. split; congruence.
  - split; [discriminate|]. congruence.
Qed.
Lemma strip_app pre s : strip pre (pre ++ s) = Some s.
Proof. now apply strip_spec. Qed.

(** pieces *)
Lemma get_opt_spec size p : ~ In ","%char p -> forall n r, r = [] \/ (exists t, r = ","%char :: t) ->
  get_opt size n (p ++ r) = if n + List.length p <? size then Ok (p, r) else UB.
Proof.
  induction p as [|c p IH]; intros NI n r R.
  - cbn [app List.length]. rewrite Nat.add_0_r. destruct R as [->|(t & ->)]; cbn; auto.
  - cbn [app]. cbn [get_opt]. destruct (ascii_dec c ","%char) as [->|NC]; [exfalso; apply NI; cbn; auto|].
    rewrite IH by (auto; intros X; apply NI; cbn; auto).
    cbn [List.length]. replace (S n + List.length p) with (n + S (List.length p)) by lia.
    destruct (Nat.ltb_spec (n + S (List.length p)) size); destruct (Nat.ltb_spec n size); cbn; auto; lia.
Qed.
Lemma pieces_ex s : exists l, pieces s l.
Proof.
  assert (W : forall n s, List.length s <= n -> exists l, pieces s l).
  { induction n as [|n IH]; intros t L.
    - destruct t; [|cbn in L; lia]. exists []. constructor.
    - destruct (in_dec ascii_dec ","%char t) as [I|I].
      + assert (D : exists p r, t = p ++ ","%char :: r /\ ~ In ","%char p).
        { clear -I. induction t as [|c t IH]; [destruct I|]. destruct (ascii_dec c ","%char) as [->|N].
          - exists [], t. split; auto.
          - destruct IH as (p & r & -> & H); [destruct I as [I|I]; [congruence|auto]|].
            exists (c :: p), r. split; auto. intros [X|X]; auto. }
        destruct D as (p & r & -> & NI). rewrite app_length in L. cbn in L.
        destruct (IH r) as (l & H); [lia|]. exists (p :: l). constructor; auto.
      + destruct t; [exists []; constructor|]. eexists. apply pc_last; [discriminate|auto]. }
  eauto.
Qed.
Lemma opt_parse_ok {S} size (f : S -> cstr -> outcome S) src l : pieces src l -> Forall (fun p => List.length p < size) l ->
  forall s, opt_parse size f s src = ofold f s l.
Proof.
  unfold opt_parse. intros PC. 
  assert (W : forall fuel s, List.length src < fuel -> Forall (fun p => List.length p < size) l -> opt_loop fuel size f s src = ofold f s l).
  { induction PC as [|p NE NI|p r l NI PC IH]; intros fuel s LF FA; (destruct fuel as [|k]; [lia|]).
    - reflexivity.
    - inversion FA; subst. destruct p as [|c p]; [congruence|]. cbn [opt_loop].
      rewrite <- (app_nil_r (c :: p)) at 1. rewrite get_opt_spec by auto. cbn [Nat.add].
      rewrite (proj2 (Nat.ltb_lt _ _)) by auto. cbn. reflexivity.
    - inversion FA; subst. rewrite app_length in LF. cbn in LF. cbn [opt_loop].
      destruct (p ++ ","%char :: r) as [|c t] eqn:E; [destruct p; discriminate|]. rewrite <- E.
      rewrite get_opt_spec by eauto. cbn [Nat.add]. rewrite (proj2 (Nat.ltb_lt _ _)) by auto. cbn [bind fst snd ofold].
      destruct (f s p); cbn [bind]; auto. apply IH; auto. lia. }
  intros FA s. apply W; auto.
Qed.
Lemma opt_parse_ub {S} size (f : S -> cstr -> outcome S) src l1 p l2 : pieces src (l1 ++ p :: l2) ->
  Forall (fun p => List.length p < size) l1 -> size <= List.length p ->
  forall s s', ofold f s l1 = Ok s' -> opt_parse size f s src = UB.
Proof.
  unfold opt_parse. intros PC FA LP s s' OF.
  remember (l1 ++ p :: l2) as l eqn:EL.
  assert (W : forall fuel s, List.length src < fuel -> ofold f s l1 = Ok s' -> opt_loop fuel size f s src = UB); [|apply W; auto].
  clear s OF. revert l1 EL FA. induction PC as [|q NE NI|q r l NI PC IH]; intros l1 EL FA fuel s LF OF; (destruct fuel as [|k]; [lia|]).
  - destruct l1; discriminate.
  - destruct l1 as [|a [|b l1]]; [|discriminate|discriminate]. injection EL as -> <-. cbn [opt_loop].
    destruct p as [|c p']; [congruence|]. rewrite <- (app_nil_r (c :: p')) at 1.
    rewrite get_opt_spec by auto. cbn [Nat.add].
    rewrite (proj2 (Nat.ltb_ge _ _)) by auto. reflexivity.
  - cbn [opt_loop]. destruct (q ++ ","%char :: r) as [|c t] eqn:E; [destruct q; discriminate|]. rewrite <- E in *.
    rewrite get_opt_spec by eauto. cbn [Nat.add].
    destruct l1 as [|a l1]; cbn in EL; injection EL as -> ->.
    + rewrite (proj2 (Nat.ltb_ge _ _)) by auto. reflexivity.
    + inversion FA; subst. rewrite (proj2 (Nat.ltb_lt _ _)) by auto. cbn [bind fst snd].
      cbn [ofold] in OF. destruct (f s a); try discriminate. cbn [bind] in *.
      rewrite app_length in LF. cbn in LF. eapply IH; eauto. lia.
Qed.

(** numbers *)
Lemma digit_ascii c d : digit c = Some d <-> digit_is c d.
Proof.
  unfold digit, digit_is. split.
  - destruct (_ && _) eqn:E; [|discriminate]. apply andb_true_iff in E as [A B].
    apply Nat.leb_le in A, B. intros [= <-]. split; [lia|].
    replace (48 + Z.to_nat (Z.of_nat (nat_of_ascii c) - 48)) with (nat_of_ascii c) by lia.
    symmetry. apply ascii_nat_embedding.
  - intros (R & ->). rewrite nat_ascii_embedding by lia.
    destruct (_ && _) eqn:E; [f_equal; lia|]. apply andb_false_iff in E as [E|E]; apply Nat.leb_gt in E; lia.
Qed.
Lemma space_blank c : is_space c = true <-> blank c.
Proof.
  unfold is_space, blank. cbn [In]. rewrite orb_true_iff, andb_true_iff, Nat.eqb_eq, !Nat.leb_le. lia.
Qed.
Lemma digit_no_space c d : digit_is c d -> is_space c = false.
Proof.
  intros (R & ->). unfold is_space. rewrite nat_ascii_embedding by lia.
  apply orb_false_iff. split; [apply Nat.eqb_neq; lia|]. apply andb_false_iff. right. apply Nat.leb_gt. lia.
Qed.
Lemma digit_no_sign c d : digit_is c d -> c <> "-"%char /\ c <> "+"%char.
Proof.
  intros (R & E). split; intros ->; apply (f_equal nat_of_ascii) in E; rewrite nat_ascii_embedding in E by lia;
    cbn in E; lia.
Qed.
Definition all_digits (s : cstr) : Prop := Forall (fun c => exists d, digit_is c d) s.
Lemma digits_app s t : forall acc, all_digits s -> digits acc (s ++ t) = digits (fst (digits acc s)) t.
Proof.
  induction s as [|c s IH]; intros acc A; cbn; auto. inversion A as [|? ? (d & D) A']; subst.
  apply digit_ascii in D. rewrite D. apply IH; auto.
Qed.
Lemma decimal_digits s v : decimal s v -> all_digits s /\ s <> [] /\ digits 0 s = (v, []).
Proof.
  induction 1 as [c d D|s v c d H (A & B & C) D].
  - repeat split; [repeat constructor; eauto|discriminate|]. cbn. apply digit_ascii in D. rewrite D. f_equal; lia.
  - repeat split.
    + apply Forall_app. split; auto. repeat constructor; eauto.
    + destruct s; discriminate.
    + rewrite digits_app, C by auto. cbn. apply digit_ascii in D. rewrite D. reflexivity.
Qed.
Lemma digits_decimal s : all_digits s -> s <> [] -> exists v, decimal s v.
Proof.
  induction s as [|c s IH] using rev_ind; [congruence|]. intros A _. apply Forall_app in A as [A B].
  inversion B as [|? ? (d & D) _]; subst. destruct s as [|b s].
  - exists d. cbn. constructor; auto.
  - destruct IH as (v & V); auto; [discriminate|]. eexists. apply dec_snoc; eauto.
Qed.
Lemma digits_rest s : forall acc, snd (digits acc s) = [] -> all_digits s.
Proof.
  induction s as [|c s IH]; intros acc; cbn; [constructor|]. destruct (digit c) eqn:E; [|discriminate].
  intros H. constructor; [exists z; now apply digit_ascii|]. unfold all_digits in IH. eauto.
Qed.
Lemma skip_app b s : Forall blank b -> (forall c r, s = c :: r -> is_space c = false) -> skip_space (b ++ s) = s.
Proof.
  induction 1 as [|c b B F IH]; intros H; cbn.
  - destruct s; auto. cbn. now rewrite (H _ _ eq_refl).
  - apply space_blank in B. rewrite B. auto.
Qed.
Lemma skip_split s : exists b, Forall blank b /\ s = b ++ skip_space s.
Proof.
  induction s as [|c s (b & B & E)]; [exists []; auto|]. cbn. destruct (is_space c) eqn:S.
  - exists (c :: b). split; [constructor; auto; now apply space_blank|]. cbn. now rewrite <- E.
  - exists []. auto.
Qed.
Lemma head_digit s v : decimal s v -> exists c r d, s = c :: r /\ digit_is c d.
Proof.
  intros H. destruct (decimal_digits _ _ H) as (A & B & _). destruct s as [|c r]; [congruence|].
  inversion A as [|? ? (d & D) _]; subst. eauto 6.
Qed.
Lemma number_strtol s v : number s v -> strtol s = (clamp_long v, []).
Proof.
  intros H. unfold strtol. destruct H as [b s v B D|b s v B D|b s v B D];
    destruct (head_digit _ _ D) as (c & r & d & -> & DC); destruct (decimal_digits _ _ D) as (_ & _ & E);
    pose proof (proj2 (digit_ascii _ _) DC) as DD.
  - rewrite skip_app by (auto; intros ? ? [= <- <-]; eauto using digit_no_space).
    destruct (digit_no_sign _ _ DC) as [N1 N2].
    destruct (ascii_dec c "-"%char); [congruence|]. destruct (ascii_dec c "+"%char); [congruence|].
    rewrite DD, E. reflexivity.
  - rewrite skip_app by (auto; intros ? ? [= <- <-]; reflexivity).
    cbn [ascii_dec]. destruct (ascii_dec "+"%char "-"%char); [discriminate|]. destruct (ascii_dec "+"%char "+"%char); [|congruence].
    rewrite DD, E. reflexivity.
  - rewrite skip_app by (auto; intros ? ? [= <- <-]; reflexivity).
    destruct (ascii_dec "-"%char "-"%char); [|congruence]. rewrite DD, E. reflexivity.
Qed.
Lemma strtol_number s v : strtol s = (v, []) -> s <> [] -> exists w, number s w.
Proof.
  unfold strtol. intros H NE. destruct (skip_split s) as (b & B & E). set (s1 := skip_space s) in *.
  assert (K : forall s2 (neg : bool), (match s2 with
     | c :: _ => match digit c with
              | Some _ => let '(v, e) := digits 0 s2 in (clamp_long (if neg then - v else v)%Z, e)
              | None => (0%Z, s)
              end
     | [] => (0%Z, s) end) = (v, []) -> exists w, decimal s2 w).
  { intros s2 neg K. destruct s2 as [|c r]; [injection K; congruence|]. destruct (digit c) eqn:DC; [|injection K; congruence].
    destruct (digits 0 (c :: r)) as [v' e] eqn:ED. injection K as _ ->. apply digits_decimal; [|discriminate].
    apply (digits_rest _ 0). now rewrite ED. }
  destruct s1 as [|c r].
  - injection H. congruence.
  - destruct (ascii_dec c "-"%char) as [->|N1]; [|destruct (ascii_dec c "+"%char) as [->|N2]].
    + apply (K _ true) in H as (w & W). rewrite E. eexists. apply num_minus; eauto.
    + apply (K _ false) in H as (w & W). rewrite E. eexists. apply num_plus; eauto.
    + apply (K (c :: r) false) in H as (w & W). rewrite E. eexists. apply num_pos; eauto.
Qed.
Lemma parse_int_spec s :
  (exists v, number s v /\ parse_int s = Ok (s32 (clamp_long v))) \/ (s = [] /\ parse_int s = Ok 0%Z) \/
  ((forall v, ~ number s v) /\ s <> [] /\ parse_int s = Err).
Proof.
  unfold parse_int. destruct s as [|c r]; [right; left; auto|].
  destruct (strtol (c :: r)) as [v e] eqn:E. destruct e as [|x e].
  - destruct (strtol_number _ _ E) as (w & W); [discriminate|]. left. exists w. split; auto.
    apply number_strtol in W. rewrite W in E. injection E as <-. reflexivity.
  - right. right. split; [|split; [discriminate|auto]]. intros w W. apply number_strtol in W. congruence.
Qed.
Lemma number_fun s v w : number s v -> number s w -> (- 2 ^ 63 <= v < 2 ^ 63)%Z -> (- 2 ^ 63 <= w < 2 ^ 63)%Z -> v = w.
Proof.
  intros A B. apply number_strtol in A, B. rewrite A in B. injection B. unfold clamp_long. lia.
Qed.
Lemma parse_int_small s v : number s v -> (- 2 ^ 31 <= v < 2 ^ 31)%Z -> parse_int s = Ok v.
Proof.
  intros N R. unfold parse_int. rewrite (number_strtol _ _ N). f_equal. unfold clamp_long.
  rewrite Z.min_r, Z.max_r by lia. apply s32_small; lia.
Qed.
Lemma parse_int_plain s : s <> [] -> (forall v, number s v -> (- 2 ^ 31 <= v < 2 ^ 31)%Z) ->
  (exists v, number s v /\ (- 2 ^ 31 <= v < 2 ^ 31)%Z /\ parse_int s = Ok v /\ forall w, number s w -> w = v) \/
  ((forall v, ~ number s v) /\ parse_int s = Err).
Proof.
  intros NE R. destruct (parse_int_spec s) as [(v & V & E)|[(-> & _)|(N & _ & E)]]; [|congruence|auto].
  left. exists v. pose proof (R v V). split; auto. split; auto. split; [apply parse_int_small; auto|].
  intros w W. pose proof (R w W). eapply number_fun; eauto; lia.
Qed.

(** chains *)
Definition Safe {A} (o : outcome A) : Prop := (exists a, o = Ok a) \/ o = Err.
Lemma steps_fold {S} (f : S -> cstr -> outcome S) (step : S -> cstr -> S -> Prop) (Q : cstr -> Prop) (Inv : S -> Prop) :
  (forall s p, Q p -> Inv s -> Safe (f s p) /\ forall s', f s p = Ok s' -> Inv s') ->
  (forall s p s', Q p -> Inv s -> (f s p = Ok s' <-> step s p s')) ->
  forall l s, Forall Q l -> Inv s -> Safe (ofold f s l) /\ forall s', ofold f s l = Ok s' <-> steps step s l s'.
Proof.
  intros HS HF. induction l as [|p l IH]; intros s FA I; cbn.
  - split; [left; eauto|]. intros s'. split; [intros [= <-]; constructor|inversion 1; auto].
  - inversion FA; subst. destruct (HS s p) as [[(a & E)|E] I2]; auto; rewrite E; cbn.
    + destruct (IH a) as [A B]; auto. split; auto. intros s'. rewrite B. split.
      * intros X. eapply st_cons; eauto. apply HF; auto.
      * inversion 1 as [|? ? s1 ? ? X Y]; subst. apply HF in X; auto. rewrite E in X. injection X as <-. auto.
    + split; [right; auto|]. intros s'. split; [discriminate|].
      inversion 1 as [|? ? s1 ? ? X Y]; subst. apply HF in X; auto. congruence.
Qed.

(** global options *)
Ltac flagstep :=
  match goal with
  | |- context [str_eqb ?p ?q] =>
    let E := fresh "E" in destruct (str_eqb p q) eqn:E;
    [apply str_eqb_spec in E; subst p|apply str_eqb_no in E]
  end.
Ltac inv_flag :=
  split; [intros [= <-]; constructor|];
  inversion 1; subst; auto;
  try (match goal with X : _ = lit _ |- _ => discriminate X end);
  try (match goal with X : lit _ = lit _ |- _ => discriminate X end);
  try (match goal with X : _ ++ _ = lit _ |- _ => discriminate X end).
Ltac gdisc := match goal with X : lit _ = _ ++ _ |- _ => discriminate X | X : _ ++ _ = _ ++ _ |- _ => discriminate X end.
Lemma gstep_verbose o s o' : gstep o (lit "verbose=" ++ s) o' <-> exists v, number s v /\ (0 <= v <= 10)%Z /\ o' = g_set_verbose v o.
Proof.
  split; [|intros (v & A & B & ->); constructor; auto].
  inversion 1; subst; try gdisc; eauto.
Qed.
Lemma gstep_maxinsns o s o' : gstep o (lit "maxinsns=" ++ s) o' <-> exists v, number s v /\ (0 < v)%Z /\ o' = g_set_max_insns v o.
Proof.
  split; [|intros (v & A & B & ->); constructor; auto].
  inversion 1; subst; try gdisc; eauto.
Qed.
Lemma gstep_maxit o s o' : gstep o (lit "maxit=" ++ s) o' <-> exists v, number s v /\ (1 <= v <= 15)%Z /\ o' = g_set_maxit v o.
Proof.
  split; [|intros (v & A & B & ->); constructor; auto].
  inversion 1; subst; try gdisc; eauto.
Qed.
Lemma global_opt_spec o p : plain_num p -> Safe (apply_global_opt o p) /\ forall o', apply_global_opt o p = Ok o' <-> gstep o p o'.
Proof.
  intros PN. unfold apply_global_opt.
  do 11 (flagstep; [split; [left; eauto|]; intros o'; inv_flag|]).
  destruct (strip (lit "verbose=") p) as [r|] eqn:S1; [|destruct (strip (lit "maxinsns=") p) as [r|] eqn:S2;
    [|destruct (strip (lit "maxit=") p) as [r|] eqn:S3]].
  - apply strip_spec in S1. subst p. destruct (PN "verbose="%string r) as [NE RG]; cbn [In]; auto 10.
    destruct (parse_int_plain r NE RG) as [(v & V & R & -> & U)|(N & ->)]; cbn [bind].
    + destruct (_ || _) eqn:C; (split; [solve [right; auto|left; eauto]|]); intros o'; rewrite gstep_verbose; (split; [|intros (w & W & X & Y); apply U in W; subst w]).
      * discriminate.
      * lia.
      * intros [= <-]. exists v. repeat split; auto; lia.
      * congruence.
    + split; [right; auto|]. intros o'. rewrite gstep_verbose. split; [discriminate|]. intros (w & W & _). exfalso. eapply N; eauto.
  - apply strip_spec in S2. subst p. destruct (PN "maxinsns="%string r) as [NE RG]; cbn [In]; auto 10.
    destruct (parse_int_plain r NE RG) as [(v & V & R & -> & U)|(N & ->)]; cbn [bind].
    + destruct (_ <=? _)%Z eqn:C; (split; [solve [right; auto|left; eauto]|]); intros o'; rewrite gstep_maxinsns; (split; [|intros (w & W & X & Y); apply U in W; subst w]).
      * discriminate.
      * lia.
      * intros [= <-]. exists v. repeat split; auto; lia.
      * congruence.
    + split; [right; auto|]. intros o'. rewrite gstep_maxinsns. split; [discriminate|]. intros (w & W & _). exfalso. eapply N; eauto.
  - apply strip_spec in S3. subst p. destruct (PN "maxit="%string r) as [NE RG]; cbn [In]; auto 10.
    destruct (parse_int_plain r NE RG) as [(v & V & R & -> & U)|(N & ->)]; cbn [bind].
    + destruct (_ || _)%Z eqn:C; (split; [solve [right; auto|left; eauto]|]); intros o'; rewrite gstep_maxit; (split; [|intros (w & W & X & Y); apply U in W; subst w]).
      * discriminate.
      * lia.
      * intros [= <-]. exists v. repeat split; auto; lia.
      * congruence.
    + split; [right; auto|]. intros o'. rewrite gstep_maxit. split; [discriminate|]. intros (w & W & _). exfalso. eapply N; eauto.
  - split; [right; auto|]. intros o'. split; [discriminate|]. inversion 1; subst; try congruence.
    + rewrite strip_app in S1. discriminate.
    + rewrite strip_app in S2. discriminate.
    + rewrite strip_app in S3. discriminate.
Qed.
Lemma global_opts_spec src l o : pieces src l -> Forall (fun p => List.length p < 64) l -> Forall plain_num l ->
  Safe (opt_parse 64 apply_global_opt o src) /\ forall o', opt_parse 64 apply_global_opt o src = Ok o' <-> steps gstep o l o'.
Proof.
  intros PC SH PN. rewrite (opt_parse_ok _ _ _ _ PC SH).
  apply (steps_fold _ _ plain_num (fun _ => True)); auto.
  - intros s p Q _. split; [apply global_opt_spec; auto|auto].
  - intros s p s' Q _. apply global_opt_spec; auto.
Qed.

(** pass options *)
Lemma split_param a : ~ In ")"%char a -> forall r nm pr, List.length nm < 32 -> List.length (pr ++ a) < 64 ->
  split_pass (a ++ ")"%char :: r) true nm pr = Ok (nm, Some (pr ++ a)).
Proof.
  induction a as [|c a IH]; intros NI r nm pr L1 L2; rewrite app_length in L2; cbn [List.length] in L2; cbn [app split_pass].
  - rewrite app_nil_r. rewrite (proj2 (Nat.leb_gt _ _)) by lia.
    destruct (ascii_dec ")"%char "("%char); [discriminate|]. cbn [andb].
    destruct (ascii_dec ")"%char ")"%char); [|congruence].
    rewrite (proj2 (Nat.ltb_lt _ _)) by auto. rewrite (proj2 (Nat.ltb_lt _ _)) by lia. reflexivity.
  - rewrite (proj2 (Nat.leb_gt _ _)) by lia. cbn [negb]. rewrite andb_false_r.
    destruct (ascii_dec c ")"%char) as [->|N]; [exfalso; apply NI; cbn; auto|].
    rewrite (proj2 (Nat.ltb_lt _ _)) by lia. rewrite IH; auto.
    + now rewrite <- app_assoc.
    + intros X; apply NI; cbn; auto.
    + rewrite !app_length. cbn. lia.
Qed.
Lemma split_unclosed a : ~ In ")"%char a -> forall nm pr, split_pass a true nm pr = Err.
Proof.
  induction a as [|c a IH]; intros NI nm pr; cbn [split_pass]; auto.
  destruct (Nat.leb_spec 64 (List.length pr)); auto. cbn [negb]. rewrite andb_false_r.
  destruct (ascii_dec c ")"%char) as [->|N]; [exfalso; apply NI; cbn; auto|].
  rewrite (proj2 (Nat.ltb_lt _ _)) by lia. apply IH. intros X; apply NI; cbn; auto.
Qed.
Lemma split_name p : ~ In "("%char p -> forall r nm, List.length (nm ++ p) <= 32 ->
  split_pass (p ++ r) false nm [] = split_pass r false (nm ++ p) [].
Proof.
  induction p as [|c p IH]; intros NI r nm L; rewrite app_length in L; cbn [List.length] in L.
  - now rewrite app_nil_r.
  - cbn [app]. cbn [split_pass List.length Nat.leb]. destruct (ascii_dec c "("%char) as [->|N]; [exfalso; apply NI; cbn; auto|]. cbn [andb].
    rewrite (proj2 (Nat.ltb_lt _ _)) by lia. rewrite IH; auto.
    + now rewrite <- app_assoc.
    + intros X; apply NI; cbn; auto.
    + rewrite !app_length. cbn. lia.
Qed.
Lemma first_char (c : ascii) s : ~ In c s \/ exists a b, s = a ++ c :: b /\ ~ In c a.
Proof.
  induction s as [|x s [IH|(a & b & -> & NI)]]; [left; auto| |].
  - destruct (ascii_dec x c) as [->|N]; [right; exists [], s; auto|left]. intros [X|X]; auto.
  - right. destruct (ascii_dec x c) as [->|N]; [exists [], (a ++ c :: b); auto|].
    exists (x :: a), b. split; auto. intros [X|X]; auto.
Qed.
Lemma first_char_unique (c : ascii) : forall a b a' b', a ++ c :: b = a' ++ c :: b' -> ~ In c a -> ~ In c a' -> a = a' /\ b = b'.
Proof.
  induction a as [|x a IH]; intros b [|y a'] b' E N N'; cbn in E; injection E; intros; subst; auto.
  - exfalso. apply N'; cbn; auto.
  - exfalso. apply N; cbn; auto.
  - destruct (IH b a' b') as [-> ->]; auto; intros X; [apply N|apply N']; cbn; auto.
Qed.
Lemma split_pass_spec p : List.length p < 64 -> name_short p -> no_junk p ->
  (exists nm pr, pass_syntax p nm pr /\ split_pass p false [] [] = Ok (nm, pr) /\
     (forall a, pr = Some a -> List.length a < 64) /\ (forall nm' pr', pass_syntax p nm' pr' -> nm' = nm /\ pr' = pr)) \/
  ((forall nm pr, ~ pass_syntax p nm pr) /\ split_pass p false [] [] = Err).
Proof.
  intros LP NS NJ. destruct (first_char "("%char p) as [NI|(nm & rest & -> & NI)].
  - left. exists p, None. split; [constructor; auto|]. 
    pose proof (NS p [] ltac:(now rewrite app_nil_r) NI) as L32. split; [|split; [discriminate|]].
    + pose proof (split_name p NI [] [] ltac:(cbn [app]; lia)) as E. rewrite app_nil_r in E. rewrite E. cbn [split_pass app].
      rewrite (proj2 (Nat.ltb_lt _ _)) by auto. reflexivity.
    + intros nm' pr' S. inversion S; subst; auto. exfalso. apply NI. apply in_or_app. cbn. auto.
  - pose proof (NS nm _ eq_refl NI) as L32. rewrite app_length in LP. cbn [List.length] in LP.
    rewrite (split_name nm NI) by (cbn [app]; lia). cbn [app split_pass List.length Nat.leb].
    destruct (ascii_dec "("%char "("%char); [|congruence]. cbn [andb negb].
    destruct (first_char ")"%char rest) as [NI2|(a & r & -> & NI2)].
    + right. split; [|apply split_unclosed; auto]. intros nm' pr' S. inversion S as [? X|? a X Y E]; subst.
      * apply X. apply in_or_app. cbn. auto.
      * apply first_char_unique in E as [_ E]; auto. apply NI2. rewrite <- E. apply in_or_app. cbn. auto.
    + pose proof (NJ nm a r eq_refl NI NI2) as ->. left. exists nm, (Some a). split; [constructor; auto|].
      rewrite app_length in LP. cbn [List.length] in LP.
      split; [rewrite split_param; auto; cbn [app]; lia|]. split; [intros ? [= <-]; lia|].
      intros nm' pr' S. inversion S as [? X|? a' X Y E]; subst.
      * exfalso. apply X. apply in_or_app. cbn. auto.
      * apply first_char_unique in E as [E1 E]; auto. apply app_inj_tail in E as [E2 _]. now subst.
Qed.

Section pass.
Context {P : Type}.
Implicit Types (c d : ocfg P) (l : list (ocfg P)).
Lemma load_spec c pr : loader_safe c -> (forall a, pr = Some a -> List.length a < 64) ->
  Safe (load_cfg c pr) /\ forall v, load_cfg c pr = Ok v <-> loaded c pr v.
Proof.
  intros LS LA. unfold load_cfg. destruct pr as [a|]; [destruct (oc_load c) as [f|] eqn:F|].
  - destruct (LS f a F (LA _ eq_refl)) as [(v & E)|E]; rewrite E; cbn.
    + split; [left; eauto|]. intros w. split; [intros [= <-]; econstructor; eauto|].
      inversion 1; subst; congruence.
    + split; [right; auto|]. intros w. split; [discriminate|]. inversion 1; subst; congruence.
  - split; [left; eauto|]. intros w. split; [intros [= <-]; constructor; auto|]. inversion 1; subst; congruence.
  - split; [left; eauto|]. intros w. split; [intros [= <-]; constructor; auto|]. inversion 1; subst; congruence.
Qed.
Lemma apply_cfg_spec b l nm pr : Forall loader_safe l -> (forall a, pr = Some a -> List.length a < 64) ->
  ((forall d, In d l -> oc_name d <> nm) /\ apply_cfg b l nm pr = Ok None) \/
  (exists l1 c l2, first_named l nm l1 c l2 /\
     ((exists v, loaded c pr v /\ (forall w, loaded c pr w -> w = v) /\
        apply_cfg b l nm pr = Ok (Some (l1 ++ mkOc nm true (if b then false else oc_run c) v (oc_load c) :: l2))) \/
      ((forall v, ~ loaded c pr v) /\ apply_cfg b l nm pr = Err))).
Proof.
  intros LS LA. induction l as [|c l IH]; cbn [apply_cfg].
  - left. split; [intros d []|auto].
  - inversion LS; subst. destruct (str_eqb (oc_name c) nm) eqn:E.
    + apply str_eqb_spec in E. right. exists [], c, l. split; [split; [auto|split; [auto|intros d []]]|].
      destruct (load_spec c pr) as [[(v & V)|V] U]; auto.
      * left. exists v. split; [apply U; auto|]. split; [intros w W; apply U in W; congruence|]. rewrite V. cbn. now rewrite E.
      * right. split; [intros v W; apply U in W; congruence|]. now rewrite V.
    + apply str_eqb_no in E. destruct IH as [(N & IH)|(l1 & c1 & l2 & (F1 & F2 & F3) & IH)]; auto.
      * left. split; [intros d [<-|D]; auto|]. rewrite IH. reflexivity.
      * right. exists (c :: l1), c1, l2. split; [split; [now rewrite F1|split; [auto|intros d [<-|D]; auto]]|].
        destruct IH as [(v & V & U & IH)|(N & IH)]; [left; exists v|right]; rewrite IH; cbn; auto.
Qed.
Lemma first_named_unique l nm l1 c l2 m1 d m2 : first_named l nm l1 c l2 -> first_named l nm m1 d m2 -> l1 = m1 /\ c = d /\ l2 = m2.
Proof.
  intros (-> & A & B) (E & C & D). revert m1 E D. induction l1 as [|x l1 IH]; intros [|y m1] E D; cbn in E; injection E; intros; subst; auto.
  - exfalso. apply (D y); cbn; auto.
  - exfalso. apply (B d); cbn; auto.
  - destruct (IH ltac:(intros; apply B; cbn; auto) m1) as (-> & -> & ->); auto. intros; apply D; cbn; auto.
Qed.
Definition psafe (o : popts P) : Prop := Forall loader_safe (po_builtin o) /\ Forall loader_safe (po_custom o).
Lemma pass_opt_spec (o : popts P) p : List.length p < 64 -> name_short p -> no_junk p -> psafe o ->
  Safe (apply_pass_opt o p) /\ forall o', apply_pass_opt o p = Ok o' <-> pstep o p o'.
Proof.
  intros LP NS NJ [S1 S2]. unfold apply_pass_opt.
  destruct (split_pass_spec p LP NS NJ) as [(nm & pr & SY & -> & LA & U)|(N & ->)]; cbn [bind fst snd].
  2:{ split; [right; auto|]. intros o'. split; [discriminate|]. inversion 1; exfalso; eapply N; eauto. }
  destruct (apply_cfg_spec true (po_builtin o) nm pr S1 LA) as [(NB & ->)|(l1 & c & l2 & FN & X)]; cbn [bind].
  - destruct (apply_cfg_spec false (po_custom o) nm pr S2 LA) as [(NC & ->)|(l1 & c & l2 & FN & X)]; cbn [bind].
    + split; [right; auto|]. intros o'. split; [discriminate|].
      inversion 1 as [nm' pr' m1 d m2 v SY' F L|nm' pr' m1 d m2 v SY' NB' F L]; subst; destruct (U _ _ SY') as [-> ->];
        destruct F as (E & En & _); exfalso; [eapply NB|eapply NC]; eauto; rewrite E; apply in_or_app; cbn; auto.
    + destruct X as [(v & L & UL & ->)|(NL & ->)]; cbn [bind].
      * split; [left; eauto|]. intros o'. split; [intros [= <-]; eapply pst_custom; eauto|].
        inversion 1 as [nm' pr' m1 d m2 w SY' F L'|nm' pr' m1 d m2 w SY' NB' F L']; subst; destruct (U _ _ SY') as [-> ->].
        -- destruct F as (E & En & _). exfalso. eapply NB; eauto. rewrite E. apply in_or_app; cbn; auto.
        -- destruct (first_named_unique _ _ _ _ _ _ _ _ FN F) as (<- & <- & <-). now rewrite (UL _ L').
      * split; [right; auto|]. intros o'. split; [discriminate|].
        inversion 1 as [nm' pr' m1 d m2 w SY' F L'|nm' pr' m1 d m2 w SY' NB' F L']; subst; destruct (U _ _ SY') as [-> ->].
        -- destruct F as (E & En & _). exfalso. eapply NB; eauto. rewrite E. apply in_or_app; cbn; auto.
        -- destruct (first_named_unique _ _ _ _ _ _ _ _ FN F) as (<- & <- & <-). exfalso. eapply NL; eauto.
  - destruct X as [(v & L & UL & ->)|(NL & ->)]; cbn [bind].
    * split; [left; eauto|]. intros o'. split; [intros [= <-]; eapply pst_builtin; eauto|].
      inversion 1 as [nm' pr' m1 d m2 w SY' F L'|nm' pr' m1 d m2 w SY' NB' F L']; subst; destruct (U _ _ SY') as [-> ->].
      -- destruct (first_named_unique _ _ _ _ _ _ _ _ FN F) as (<- & <- & <-). now rewrite (UL _ L').
      -- destruct FN as (E & En & _). exfalso. eapply NB'; eauto. rewrite E. apply in_or_app; cbn; auto.
    * split; [right; auto|]. intros o'. split; [discriminate|].
      inversion 1 as [nm' pr' m1 d m2 w SY' F L'|nm' pr' m1 d m2 w SY' NB' F L']; subst; destruct (U _ _ SY') as [-> ->].
      -- destruct (first_named_unique _ _ _ _ _ _ _ _ FN F) as (<- & <- & <-). exfalso. eapply NL; eauto.
      -- destruct FN as (E & En & _). exfalso. eapply NB'; eauto. rewrite E. apply in_or_app; cbn; auto.
Qed.
Lemma pstep_safe (o : popts P) p o' : pstep o p o' -> psafe o -> psafe o'.
Proof.
  intros H [A B]. inversion H as [nm pr l1 c l2 v SY (E & _) L|nm pr l1 c l2 v SY N (E & _) L]; subst; split; cbn; auto;
    rewrite E in *; match goal with X : Forall _ (_ ++ _ :: _) |- _ => apply Forall_app in X as [X1 X2]; inversion X2; subst end;
    apply Forall_app; (split; [assumption|]); constructor; assumption.
Qed.
Lemma pass_opts_spec src (l : list cstr) (o : popts P) : pieces src l -> Forall (fun p => List.length p < 64) l -> Forall name_short l -> Forall no_junk l ->
  psafe o -> Safe (opt_parse 64 apply_pass_opt o src) /\ forall o', opt_parse 64 apply_pass_opt o src = Ok o' <-> steps pstep o l o'.
Proof.
  intros PC SH NS NJ S. rewrite (opt_parse_ok _ _ _ _ PC SH).
  apply (steps_fold _ _ (fun p => List.length p < 64 /\ name_short p /\ no_junk p) psafe); auto.
  - intros s p (Q1 & Q2 & Q3) I. destruct (pass_opt_spec s p) as [X Y]; auto. split; auto. intros s' E. apply Y in E. eapply pstep_safe; eauto.
  - intros s p s' (Q1 & Q2 & Q3) I. apply pass_opt_spec; auto.
  - rewrite Forall_forall in *. auto.
Qed.
End pass.
Lemma init_opts_spec P src1 l1 src2 l2 (g : gopts) (o : popts P) :
  pieces src1 l1 -> Forall (fun p => List.length p < 64) l1 -> Forall plain_num l1 ->
  pieces src2 l2 -> Forall (fun p => List.length p < 64) l2 -> Forall name_short l2 -> Forall no_junk l2 -> psafe o ->
  Safe (init_opts g o src1 src2) /\
  forall g' o', init_opts g o src1 src2 = Ok (g', o') <-> steps gstep g l1 g' /\ steps pstep o l2 o'.
Proof.
  intros A1 A2 A3 B1 B2 B3 B4 B5. unfold init_opts.
  destruct (global_opts_spec src1 l1 g A1 A2 A3) as [S1 U1]. destruct (pass_opts_spec src2 l2 o B1 B2 B3 B4 B5) as [S2 U2].
  destruct S1 as [(g1 & E1)|E1]; rewrite E1; cbn [bind].
  - destruct S2 as [(o1 & E2)|E2]; rewrite E2; cbn [bind].
    + split; [left; eauto|]. intros g' o'. rewrite <- U1, <- U2, E1, E2. split; [intros [= <- <-]; auto|intros [[= <-] [= <-]]; auto].
    + split; [right; auto|]. intros g' o'. rewrite <- U1, <- U2, E1, E2. split; [discriminate|intros [_ ?]; discriminate].
  - split; [right; auto|]. intros g' o'. rewrite <- U1, E1. split; [discriminate|intros [? _]; discriminate].
Qed.

(** the counter's parameters *)
Lemma counter_piece_spec r p : plain_num p -> Safe (counter_piece r p) /\ forall r', counter_piece r p = Ok r' <-> cstep r p r'.
Proof.
  intros PN. unfold counter_piece. destruct r as [l m]. cbn [fst snd].
  destruct (str_eqb p (lit "accurate")) eqn:E.
  - apply str_eqb_spec in E. subst p. cbn [strip]. assert (S : strip (lit "limit=") (lit "accurate") = None) by reflexivity. rewrite S.
    split; [left; eauto|]. intros r'. split; [intros [= <-]; constructor|]. inversion 1; subst; auto; congruence.
  - apply str_eqb_no in E. destruct (strip (lit "limit=") p) as [s|] eqn:S.
    + apply strip_spec in S. subst p. destruct (PN "limit="%string s) as [NE RG]; cbn [In]; auto 10.
      destruct (parse_int_plain s NE RG) as [(v & V & R & -> & U)|(N & ->)]; cbn [bind snd].
      * split; [left; eauto|]. intros r'. split; [intros [= <-]; constructor; auto|].
        inversion 1 as [| ? ? s' v' NV EE|? ? ? N1 N2]; subst; [|exfalso; eapply N2; eauto].
        assert (X := U v'); rewrite X; auto.
      * split; [right; auto|]. intros r'. split; [discriminate|].
        inversion 1 as [| ? ? s' v' NV EE|? ? ? N1 N2]; subst; [|exfalso; eapply N2; eauto]. exfalso; eapply N; eauto.
    + split; [left; eauto|]. intros r'. split; [intros [= <-]; apply cs_other; auto|].
      * intros s ->. rewrite strip_app in S. discriminate.
      * inversion 1; subst; auto; [congruence|]. rewrite strip_app in S. discriminate.
Qed.
Lemma counter_load_spec src l : pieces src l -> Forall (fun p => List.length p < 30) l -> Forall plain_num l ->
  Safe (counter_load src) /\
  forall r, counter_load src = Ok r <-> steps cstep (1000000%Z, false) l r /\ (fst r <= 1000000)%Z.
Proof.
  intros PC SH PN. unfold counter_load. rewrite (opt_parse_ok _ _ _ _ PC SH).
  destruct (steps_fold counter_piece cstep plain_num (fun _ => True)) with (l := l) (s := (1000000%Z, false)) as [S U]; auto.
  - intros s p Q _. split; [apply counter_piece_spec; auto|auto].
  - intros s p s' Q _. apply counter_piece_spec; auto.
  - destruct S as [(r1 & E)|E]; rewrite E; cbn [bind].
    + destruct (Z.ltb_spec 1000000 (fst r1)); (split; [solve [right; auto|left; eauto]|]); intros r; rewrite <- U, E.
      * split; [discriminate|]. intros [[= <-] ?]. lia.
      * split; [intros [= <-]; auto|]. intros [[= <-] ?]. auto.
    + split; [right; auto|]. intros r. rewrite <- U, E. split; [discriminate|intros [? _]; discriminate].
Qed.
