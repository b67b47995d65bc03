(** Proofs about the disassembler: whole programs. *)
From Coq Require Import Lia ZArith List Bool Arith.
From Verif Require Import M_Base SpecWord SpecIsa M_Opts M_Tool SpecTool M_Disasm L_Disasm.
Import ListNotations.
Open Scope list_scope.
Open Scope Z_scope.

(** ** lines *)
Definition quiet (p : piece) : Prop := ~ In nl (render p).
Lemma quiet_T s : existsb (Ascii.eqb nl) (lit s) = false -> quiet (T s).
Proof. intros H I. cbn [render] in I. assert (K : existsb (Ascii.eqb nl) (lit s) = true) by (apply existsb_exists; exists nl; split; [auto|apply Ascii.eqb_refl]). congruence. Qed.
Lemma quiet_dec n : ~ In nl (dec n).
Proof. apply digs_no; [reflexivity|apply dec_digits]. Qed.
Lemma quiet_hex n : ~ In nl (hex n).
Proof. apply digs_no; [reflexivity|apply showb_digits; [lia|constructor]]. Qed.
Lemma quiet_D z : quiet (D z).
Proof. unfold quiet. cbn [render]. destruct (z <? 0); [intros [I|I]; [discriminate|]|intros I]; now apply quiet_dec in I. Qed.
Lemma quiet_SD z : quiet (SD z).
Proof. unfold quiet. cbn [render]. destruct (z <? 0); (intros [I|I]; [discriminate|]); now apply quiet_dec in I. Qed.
Lemma quiet_X2 z : quiet (X2 z).
Proof. unfold quiet. cbn [render]. destruct (z <? 16); [intros [I|I]; [discriminate|]|intros I]; now apply quiet_hex in I. Qed.
Lemma quiet_X z : quiet (X z).
Proof. apply quiet_hex. Qed.
Lemma alu_nl z : nosp nl (alu_string z). Proof. tab. Qed.
Lemma alus_nl z : nosp nl (alu_sign_string z). Proof. tab. Qed.
Lemma mov_nl z : nosp nl (movsx_string z). Proof. tab. Qed.
Lemma atom_nl z : nosp nl (atomic_string z). Proof. tab. Qed.
Lemma ldst_nl z : nosp nl (ldst_string z). Proof. tab. Qed.
Lemma ldsx_nl z : nosp nl (ldsx_string z). Proof. tab. Qed.
Lemma jmp_nl z : nosp nl (jmp_string z). Proof. tab. Qed.
Lemma quiet_printf l : Forall quiet l -> ~ In nl (printf l).
Proof. induction 1 as [|p l Q F IH]; [auto|]. unfold printf. cbn [flat_map]. intros I. apply in_app_iff in I as [I|I]; [now apply Q|now apply IH]. Qed.
Lemma quiet_name x tmp : ~ In nl tmp -> ~ In nl (func_name x tmp).
Proof.
  intros T0. unfold func_name. destruct (_ && _); [apply quiet_printf; repeat constructor; [now apply quiet_T|apply quiet_SD]|].
  destruct (_ =? 1); [apply quiet_printf; repeat constructor; apply quiet_SD|]. destruct (_ =? 2); [now apply (quiet_T "kernel-function")|auto].
Qed.
Definition oneline (l : list piece) : Prop := exists k, l = k ++ [nlp] /\ Forall quiet k.
Lemma oneline_end : oneline [nlp].
Proof. exists []. split; [reflexivity|constructor]. Qed.
Lemma oneline_cons p l : quiet p -> oneline l -> oneline (p :: l).
Proof. intros Q (k & -> & F). exists (p :: k). split; [reflexivity|now constructor]. Qed.
Ltac word := match goal with U : str (if ?b then _ else _) = Ok ?u |- quiet (W ?u) => destruct b; word
  | U : str _ = Ok ?u |- quiet (W ?u) => revert U; apply nosp_in; first [apply alu_nl|apply alus_nl|apply mov_nl|apply atom_nl|apply ldst_nl|apply ldsx_nl|apply jmp_nl] end.
Ltac ln := cbn [app]; repeat (apply oneline_end || apply oneline_cons); try apply quiet_D; try apply quiet_SD; try apply quiet_X2; try apply quiet_X;
  try (apply quiet_T; reflexivity); try (apply quiet_T; match goal with |- context [if ?b then _ else _] => destruct b; reflexivity end); try word.
Lemma pieces_line x nx l : pieces x nx = Ok l -> oneline l.
Proof.
  unfold pieces. cbv zeta. intros E.
  repeat match type of E with
  | (if ?b then _ else _) = Ok _ => destruct b
  | bind (str ?o) _ = Ok _ => let U := fresh "U" in destruct (str o) eqn:U; try discriminate; cbn [bind] in E
  | bind (if ?b then _ else _) _ = Ok _ => destruct b
  | bind (Ok _) _ = Ok _ => cbn [bind] in E
  | (match nx with _ => _ end) = Ok _ => destruct nx; try discriminate
  end; apply (f_equal (fun o => match o with Ok a => a | _ => [] end)) in E; cbn beta iota in E; subst l; ln.
  - intros [].
  - apply quiet_name. intros [].
  - apply quiet_name. now apply (quiet_T "unknown").
Qed.
Lemma insn_line x nx t : print_insn x nx = Ok t -> exists b, t = b ++ [nl] /\ ~ In nl b.
Proof.
  unfold print_insn. destruct (pieces x nx) as [l| | | |] eqn:P; try discriminate. cbn [bind]. injection 1 as <-.
  destruct (pieces_line _ _ _ P) as (k & -> & F). exists (printf k). split; [unfold printf; now rewrite flat_map_app|now apply quiet_printf].
Qed.

(** ** entries *)
Fixpoint entries (i : Z) (p : list bpf_insn) : outcome (list (Z * cstr)) :=
  match p with
  | [] => Ok []
  | x :: r => if b_code x =? 0 then entries (i + 1) r else do t <- print_insn x (hd_error r); do u <- entries (i + 1) r; Ok ((i, t) :: u)
  end.
Definition shown (e : Z * cstr) : cstr := "["%char :: dec (fst e) ++ lit "] " ++ snd e.
Lemma listing_entries p : forall i t, 0 <= i -> listing i p = Ok t -> exists es, entries i p = Ok es /\ t = flat_map shown es.
Proof.
  induction p as [|x p IH]; intros i t I E; cbn [listing entries] in *.
  - injection E as <-. exists []. auto.
  - destruct (b_code x =? 0); [apply IH; auto; lia|]. destruct (print_insn x (hd_error p)) as [a| | | |]; try discriminate. cbn [bind] in *.
    destruct (listing (i + 1) p) as [u| | | |] eqn:L; try discriminate. cbn [bind] in E. destruct (IH (i + 1) u ltac:(lia) L) as (es & -> & ->). cbn [bind].
    exists ((i, a) :: es). split; auto. apply (f_equal (fun o => match o with Ok a => a | _ => [] end)) in E. cbn beta iota in E. subst t.
    change (flat_map shown ((i, a) :: es)) with (("["%char :: dec i ++ lit "] " ++ a) ++ flat_map shown es).
    generalize (flat_map shown es). intros v. unfold printf. cbn [flat_map render]. replace (i <? 0) with false by (symmetry; apply Z.ltb_ge; lia).
    cbn [lit list_ascii_of_string app]. rewrite <- !app_assoc. reflexivity.
Qed.
Lemma entries_at p : forall i es, entries i p = Ok es ->
  (forall k x, nth_error p k = Some x -> b_code x <> 0 -> exists t, print_insn x (nth_error p (S k)) = Ok t /\ In (i + Z.of_nat k, t) es) /\
  (forall j t, In (j, t) es -> i <= j < i + Z.of_nat (List.length p) /\ (exists b, t = b ++ [nl] /\ ~ In nl b) /\
     forall x, nth_error p (Z.to_nat (j - i)) = Some x -> print_insn x (nth_error p (S (Z.to_nat (j - i)))) = Ok t).
Proof.
  induction p as [|x p IH]; intros i es E; cbn [entries] in E.
  - injection E as <-. split; [intros [|k] x; discriminate|intros j t []].
  - assert (H0 : hd_error p = nth_error p 0) by (destruct p; reflexivity).
    destruct (Z.eqb_spec (b_code x) 0) as [Z0|NZ].
    + destruct (IH _ _ E) as (A & B). split.
      * intros [|k] y Y N; cbn [nth_error] in Y; [congruence|]. destruct (A k y Y N) as (t & P & I). exists t. split; auto. now replace (i + Z.of_nat (S k)) with (i + 1 + Z.of_nat k) by lia.
      * intros j t I. destruct (B j t I) as (R & L & Q). cbn [List.length]. split; [lia|]. split; auto. intros y.
        replace (Z.to_nat (j - i)) with (S (Z.to_nat (j - (i + 1)))) by lia. cbn [nth_error]. apply Q.
    + destruct (print_insn x (hd_error p)) as [a| | | |] eqn:P; try discriminate. cbn [bind] in E.
      destruct (entries (i + 1) p) as [u| | | |] eqn:U; try discriminate. injection E as <-. destruct (IH _ _ U) as (A & B). split.
      * intros [|k] y Y N; cbn [nth_error] in Y.
        -- injection Y as <-. exists a. rewrite Z.add_0_r. change (nth_error (x :: p) 1) with (nth_error p 0). rewrite <- H0. split; auto. now left.
        -- destruct (A k y Y N) as (t & P1 & I). exists t. split; auto. right. now replace (i + Z.of_nat (S k)) with (i + 1 + Z.of_nat k) by lia.
      * intros j t [I|I].
        -- injection I as <- <-. cbn [List.length]. split; [lia|]. split; [now apply insn_line in P|]. intros y. rewrite Z.sub_diag. change (Z.to_nat 0) with 0%nat. change (nth_error (x :: p) 1) with (nth_error p 0). intros K. change (Some x = Some y) in K. injection K as <-. now rewrite <- H0.
        -- destruct (B j t I) as (R & L & Q). cbn [List.length]. split; [lia|]. split; auto. intros y.
           replace (Z.to_nat (j - i)) with (S (Z.to_nat (j - (i + 1)))) by lia. cbn [nth_error]. apply Q.
Qed.
Lemma shown_inj : forall es fs, (forall e, In e (es ++ fs) -> 0 <= fst e < 10 ^ 20 /\ exists b, snd e = b ++ [nl] /\ ~ In nl b) ->
  flat_map shown es = flat_map shown fs -> es = fs.
Proof.
  induction es as [|(i, t) es IH]; intros [|(j, u) fs] H E; auto; try discriminate. 
  change (flat_map shown ((i, t) :: es)) with (("["%char :: dec i ++ lit "] " ++ t) ++ flat_map shown es) in E.
  change (flat_map shown ((j, u) :: fs)) with (("["%char :: dec j ++ lit "] " ++ u) ++ flat_map shown fs) in E. cbn [app] in E.
  apply (f_equal (@tl ascii)) in E. cbn [tl] in E. rewrite <- !app_assoc in E.
  destruct (H (i, t) (or_introl eq_refl)) as (RI & b & T0 & NB). destruct (H (j, u)) as (RJ & c & U0 & NC); [apply in_app_iff; right; now left|]. cbn [fst snd] in *.
  apply dec_inj in E; [|assumption|assumption|reflexivity|reflexivity]. destruct E as (-> & E). apply app_inv_head in E. subst t u. rewrite <- !app_assoc in E. cbn [app] in E.
  apply cut_at in E as (-> & E); auto. f_equal. apply IH; auto. intros e I. apply H. apply in_app_iff in I as [I|I]; [right; apply in_app_iff; now left|right; apply in_app_iff; right; now right].
Qed.
Lemma fetch_next {p pc} : 0 <= pc -> fetch p (pc + 1) = nth_error p (S (Z.to_nat pc)).
Proof. intros H. unfold fetch. replace (pc + 1 <? 0) with false by (symmetry; apply Z.ltb_ge; lia). f_equal. lia. Qed.
Lemma same_lines p q t pc x y : print_prog p = Ok t -> print_prog q = Ok t ->
  Z.of_nat (List.length p) < 2 ^ 64 -> Z.of_nat (List.length q) < 2 ^ 64 ->
  fetch p pc = Some x -> fetch q pc = Some y -> b_code x <> 0 -> exists s, print_insn x (fetch p (pc + 1)) = Ok s /\ print_insn y (fetch q (pc + 1)) = Ok s.
Proof.
  intros P Q LP LQ FX FY N. assert (R : 0 <= pc) by (unfold fetch in FX; destruct (Z.ltb_spec pc 0); [discriminate|auto]).
  destruct (listing_entries p 0 t ltac:(lia) P) as (es & E1 & T1). destruct (listing_entries q 0 t ltac:(lia) Q) as (fs & E2 & T2).
  apply entries_at in E1 as (A1 & B1). apply entries_at in E2 as (A2 & B2).
  assert (BIG : 2 ^ 64 < 10 ^ 20) by reflexivity.
  assert (EQ : es = fs).
  { apply shown_inj; [|congruence]. intros (j, u) I. apply in_app_iff in I as [I|I]; cbn [fst snd].
    - destruct (B1 _ _ I) as (K & L & _). split; auto. lia.
    - destruct (B2 _ _ I) as (K & L & _). split; auto. lia. }
  subst fs. rewrite !fetch_next by auto. unfold fetch in FX, FY. replace (pc <? 0) with false in * by (symmetry; apply Z.ltb_ge; lia).
  destruct (A1 _ _ FX N) as (s & S1 & I). exists s. split; auto. destruct (B2 _ _ I) as (_ & _ & K). specialize (K y).
  replace (Z.to_nat (0 + Z.of_nat (Z.to_nat pc) - 0)) with (Z.to_nat pc) in K by lia. auto.
Qed.
(** two programs with the same listing *)
Lemma same_listing p q t : print_prog p = Ok t -> print_prog q = Ok t -> Forall fits p -> Forall fits q ->
  Z.of_nat (List.length p) < 2 ^ 64 -> Z.of_nat (List.length q) < 2 ^ 64 ->
  (forall pc x y, fetch p pc = Some x -> fetch q pc = Some y -> b_code x = 24 -> b_src x = b_src y) ->
  forall w n pc s, isa_run w p n pc s <> IStuck -> isa_run w q n pc s <> IStuck -> isa_run w p n pc s = isa_run w q n pc s.
Proof.
  intros P Q FP FQ LP LQ SE w. induction n as [|n IH]; intros pc s HP HQ; [reflexivity|]. cbn [isa_run] in *.
  assert (NP : isa_step w p pc s <> IStuck) by (intros K; rewrite K in HP; now apply HP). assert (NQ : isa_step w q pc s <> IStuck) by (intros K; rewrite K in HQ; now apply HQ).
  assert (ST : isa_step w p pc s = isa_step w q pc s).
  { destruct (fetch p pc) as [x|] eqn:FX; [|elim NP; unfold isa_step; now rewrite FX]. destruct (fetch q pc) as [y|] eqn:FY; [|elim NQ; unfold isa_step; now rewrite FY].
    assert (IX : In x p) by (unfold fetch in FX; destruct (pc <? 0); [discriminate|now apply nth_error_In in FX]).
    assert (IY : In y q) by (unfold fetch in FY; destruct (pc <? 0); [discriminate|now apply nth_error_In in FY]).
    rewrite Forall_forall in FP, FQ. assert (NZ : b_code x <> 0). { intros K. destruct (runs_legal _ _ _ _ _ FX NP) as (L0 & _). rewrite K in L0. specialize (L0 eq_refl). discriminate. }
    destruct (same_lines p q t pc x y P Q LP LQ FX FY NZ) as (s' & S1 & S2). eapply same_line; eauto. }
  rewrite ST in *. destruct (isa_step w q pc s); auto.
Qed.
