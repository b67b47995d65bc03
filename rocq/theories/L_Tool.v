(** Proofs about the command line tool: writing and reading programs. *)
From Coq Require Import Lia ZArith List Bool Arith.
From Verif Require Import M_Base SpecWord SpecIsa M_Opts SpecOpts L_Opts M_Tool SpecTool.
Import ListNotations.
Open Scope list_scope.
Open Scope nat_scope.
Ltac Zify.zify_post_hook ::= Z.div_mod_to_equations.

Lemma sgn_small n x : (0 < n)%Z -> (- 2 ^ (n - 1) <= x < 2 ^ (n - 1))%Z -> sgn n x = x.
Proof.
  intros N R. unfold sgn. assert (E : (2 ^ n = 2 * 2 ^ (n - 1))%Z) by (rewrite <- Z.pow_succ_r by lia; f_equal; lia).
  rewrite E. set (h := (2 ^ (n - 1))%Z) in *. cbv zeta.
  destruct (Z_lt_le_dec x 0).
  - replace (x mod (2 * h))%Z with (x + 2 * h)%Z by (apply Z.mod_unique with (-1)%Z; lia).
    destruct (Z.ltb_spec (x + 2 * h) h); lia.
  - rewrite Z.mod_small by lia. destruct (Z.ltb_spec x h); lia.
Qed.
Lemma sgn_mod n x y : (x mod 2 ^ n = y mod 2 ^ n)%Z -> sgn n x = sgn n y.
Proof. unfold sgn. now intros ->. Qed.

(** the two views of an instruction *)
Lemma word_flat x : word_of x =
  (b_code x + 256 * b_dst x + 4096 * b_src x + 65536 * (b_off x mod 65536) + 4294967296 * (b_imm x mod 4294967296))%Z.
Proof. unfold word_of. rewrite !Z.shiftl_mul_pow2 by lia. lia. Qed.
Lemma byte_0 a r : (0 <= a < 256)%Z -> byte (a + 256 * r) 0 = a.
Proof. intros A. unfold byte. change (256 ^ 0)%Z with 1%Z. lia. Qed.
Lemma byte_S a r k : (0 <= a < 256)%Z -> (0 <= k)%Z -> byte (a + 256 * r) (k + 1) = byte r k.
Proof.
  intros A K. unfold byte. rewrite Z.add_1_r, Z.pow_succ_r, <- Z.div_div by (try apply Z.pow_pos_nonneg; lia).
  f_equal. f_equal. lia.
Qed.
Lemma byte_step w k : (0 <= k)%Z -> (w / 256 ^ k = byte w k + 256 * (w / 256 ^ (k + 1)))%Z.
Proof.
  intros K. unfold byte. assert (P : (0 < 256 ^ k)%Z) by (apply Z.pow_pos_nonneg; lia).
  assert (E : (w / 256 ^ (k + 1) = w / 256 ^ k / 256)%Z).
  { rewrite Z.add_1_r, Z.pow_succ_r by lia. rewrite (Z.mul_comm 256 (256 ^ k)). symmetry. apply Z.div_div; lia. }
  rewrite E. set (y := (w / 256 ^ k)%Z). clearbody y. lia.
Qed.
Lemma split2 o : (0 <= o < 65536 -> exists a b, 0 <= a < 256 /\ 0 <= b < 256 /\ o = a + 256 * b)%Z.
Proof. intros H. exists (o mod 256)%Z, (o / 256)%Z. lia. Qed.
Lemma split4 o : (0 <= o < 4294967296 -> exists a b c d, 0 <= a < 256 /\ 0 <= b < 256 /\ 0 <= c < 256 /\ 0 <= d < 256 /\
  o = a + 256 * b + 65536 * c + 16777216 * d)%Z.
Proof.
  intros H. destruct (split2 (o mod 65536)) as (a & b & A & B & E1); [lia|]. destruct (split2 (o / 65536)) as (c & d & C & D & E2); [lia|].
  exists a, b, c, d. lia.
Qed.
Lemma word_packed x : fits x -> packed x (word_of x).
Proof.
  intros (A & B & C & D & E). rewrite word_flat.
  destruct (split2 (b_off x mod 65536)) as (o1 & o2 & O1 & O2 & EO); [apply Z.mod_pos_bound; lia|].
  destruct (split4 (b_imm x mod 4294967296)) as (m1 & m2 & m3 & m4 & M1 & M2 & M3 & M4 & EM); [apply Z.mod_pos_bound; lia|].
  assert (W : (b_code x + 256 * b_dst x + 4096 * b_src x + 65536 * (b_off x mod 65536) + 4294967296 * (b_imm x mod 4294967296) =
    b_code x + 256 * ((b_dst x + 16 * b_src x) + 256 * (o1 + 256 * (o2 + 256 * (m1 + 256 * (m2 + 256 * (m3 + 256 * (m4 + 256 * 0))))))))%Z)
    by (rewrite EO, EM; lia).
  rewrite W. split; [lia|]. split; [apply byte_0; lia|].
  change 1%Z with (0 + 1)%Z at 1. rewrite byte_S by lia. split; [apply byte_0; lia|].
  split.
  - change 2%Z with (0 + 1 + 1)%Z at 1. change 3%Z with (0 + 1 + 1 + 1)%Z at 1.
    rewrite !byte_S, !byte_0 by lia. rewrite <- EO. rewrite <- (sgn_small 16 (b_off x)) at 2 by (cbn; lia).
    apply sgn_mod. change (2 ^ 16)%Z with 65536%Z. apply Z.mod_mod. lia.
  - change 4%Z with (0 + 1 + 1 + 1 + 1)%Z at 1. change 5%Z with (0 + 1 + 1 + 1 + 1 + 1)%Z at 1.
    change 6%Z with (0 + 1 + 1 + 1 + 1 + 1 + 1)%Z at 1. change 7%Z with (0 + 1 + 1 + 1 + 1 + 1 + 1 + 1)%Z at 1.
    rewrite !byte_S, !byte_0 by lia. rewrite <- EM. rewrite <- (sgn_small 32 (b_imm x)) at 2 by (cbn; lia).
    apply sgn_mod. change (2 ^ 32)%Z with 4294967296%Z. apply Z.mod_mod. lia.
Qed.
Lemma byte_range w k : (0 <= byte w k < 256)%Z.
Proof. apply Z.mod_pos_bound. lia. Qed.
Lemma packed_insn x w : packed x w -> fits x -> insn_of w = x.
Proof.
  intros (W & A & B & C & D) (F1 & F2 & F3 & _ & _). destruct x as [c d s o m]. cbn [b_code b_dst b_src b_off b_imm] in *.
  assert (S : forall k, (0 <= k)%Z -> (w / 256 ^ k = byte w k + 256 * (w / 256 ^ (k + 1)))%Z) by (intros; now apply byte_step).
  pose proof (S 0 ltac:(lia))%Z as S0. pose proof (S 1 ltac:(lia))%Z as S1. pose proof (S 2 ltac:(lia))%Z as S2.
  pose proof (S 3 ltac:(lia))%Z as S3. pose proof (S 4 ltac:(lia))%Z as S4. pose proof (S 5 ltac:(lia))%Z as S5.
  pose proof (S 6 ltac:(lia))%Z as S6. pose proof (S 7 ltac:(lia))%Z as S7. clear S.
  cbn [Z.add Pos.add Pos.succ] in S0, S1, S2, S3, S4, S5, S6, S7.
  pose proof (byte_range w) as R.
  change (256 ^ 0)%Z with 1%Z in *. rewrite Z.div_1_r in S0.
  unfold insn_of. f_equal.
  - rewrite S0, A. change (2 ^ 8)%Z with 256%Z. rewrite Z.mul_comm, Z.mod_add by lia. apply Z.mod_small. lia.
  - change (2 ^ 8)%Z with (256 ^ 1)%Z. rewrite S1, B. change (2 ^ 4)%Z with 16%Z.
    set (q := (w / 256 ^ 2)%Z). clearbody q. lia.
  - change (2 ^ 12)%Z with (256 ^ 1 * 16)%Z. rewrite <- Z.div_div by lia. rewrite S1, B. change (2 ^ 4)%Z with 16%Z.
    set (q := (w / 256 ^ 2)%Z). clearbody q. lia.
  - rewrite <- C. apply sgn_mod. change (2 ^ 16)%Z with (256 ^ 2)%Z at 1. rewrite S2, S3.
    set (q := (w / 256 ^ 4)%Z). replace (byte w 2 + 256 * (byte w 3 + 256 * q))%Z with (byte w 2 + 256 * byte w 3 + q * 2 ^ 16)%Z by lia.
    apply Z.mod_add. lia.
  - rewrite <- D. apply sgn_mod. change (2 ^ 32)%Z with (256 ^ 4)%Z at 1. rewrite S4, S5, S6, S7.
    set (q := (w / 256 ^ 8)%Z).
    replace (byte w 4 + 256 * (byte w 5 + 256 * (byte w 6 + 256 * (byte w 7 + 256 * q))))%Z
      with (byte w 4 + 256 * byte w 5 + 65536 * byte w 6 + 16777216 * byte w 7 + q * 2 ^ 32)%Z by lia.
    apply Z.mod_add. lia.
Qed.

(** decimal output *)
Lemma digit_char_is d : (0 <= d < 10)%Z -> digit_is (digit_char d) d.
Proof. intros R. split; auto. Qed.
Lemma show_spec k : forall n acc, (0 <= n < 10 ^ Z.of_nat k)%Z -> 0 < k ->
  exists s, show k n acc = s ++ acc /\ decimal s n /\ canonical s /\ List.length s <= k.
Proof.
  induction k as [|k IH]; intros n acc R P; [lia|]. cbn [show].
  pose proof (digit_char_is (n mod 10) (Z.mod_pos_bound n 10 eq_refl)) as D.
  destruct (Z.eqb_spec (n / 10) 0) as [E|E].
  - exists [digit_char (n mod 10)]. repeat split; cbn; try lia.
    + replace n with (n mod 10)%Z at 2 by lia. constructor. exact D.
    + intros r H. apply (f_equal (@tl ascii)) in H. exact (eq_sym H).
  - assert (PK : 0 < k). { destruct k; [|lia]. cbn in R. lia. }
    rewrite Nat2Z.inj_succ, Z.pow_succ_r in R by lia.
    destruct (IH (n / 10)%Z (digit_char (n mod 10) :: acc)) as (s & S1 & S2 & S3 & S4); [lia|auto|].
    exists (s ++ [digit_char (n mod 10)]). rewrite S1, <- app_assoc. repeat split.
    + replace n with (10 * (n / 10) + n mod 10)%Z at 2 by lia. constructor; auto.
    + intros r H. destruct (decimal_digits _ _ S2) as (_ & NE & DG). destruct s as [|c s]; [congruence|].
      assert (c = "0"%char) by exact (f_equal (hd "0"%char) H). subst c. assert (s = []) by (eapply S3; reflexivity). subst s. apply (f_equal fst) in DG. cbn [digits fst] in DG. change (0%Z = (n / 10)%Z) in DG. congruence.
    + rewrite app_length. cbn. lia.
Qed.
Lemma show_u64_spec n : (0 <= n < 2 ^ 64)%Z -> exists s, show_u64 n = s /\ decimal s n /\ canonical s /\ List.length s <= 20.
Proof.
  intros R. destruct (show_spec 20 n []) as (s & S1 & S2 & S3 & S4); [|lia|].
  - split; [lia|]. eapply Z.lt_trans; [apply R|]. reflexivity.
  - exists s. unfold show_u64. rewrite S1, app_nil_r. auto.
Qed.

(** writing *)
Lemma dump_spec p : Forall fits p -> (Z.of_nat (List.length p) < 2 ^ 32)%Z ->
  forall n i fuel, List.length p - i = n -> i <= List.length p -> n < fuel ->
  exists t, dump_from fuel (Z.of_nat i) p = Ok t /\ dumped (skipn i p) t.
Proof.
  intros F L. induction n as [|n IH]; intros i fuel N I K; (destruct fuel as [|fuel]; [lia|]); cbn [dump_from].
  - destruct (Z.ltb_spec (Z.of_nat i) (Z.of_nat (List.length p))); [lia|]. exists []. split; auto.
    rewrite skipn_all2 by lia. constructor.
  - destruct (Z.ltb_spec (Z.of_nat i) (Z.of_nat (List.length p))); [|lia]. rewrite Nat2Z.id.
    destruct (nth_error p i) as [x|] eqn:X; [|apply nth_error_None in X; lia].
    replace (u32 (Z.of_nat i + 1)) with (Z.of_nat (S i)) by (unfold u32; rewrite Z.mod_small; lia).
    destruct (IH (S i) fuel) as (t & T & D); try lia. rewrite T. cbn [bind]. eexists. split; [reflexivity|].
    assert (E : skipn i p = x :: skipn (S i) p).
    { clear - X. revert i X. induction p as [|y p IH]; intros [|i] X; cbn in *; try discriminate; [congruence|]. now apply IH. }
    rewrite E. assert (FX : fits x) by (rewrite Forall_forall in F; apply F; eapply nth_error_In; eauto).
    pose proof (word_packed x FX) as PW. destruct (show_u64_spec (word_of x)) as (s & S1 & S2 & S3 & _); [apply PW|].
    rewrite S1. econstructor; eauto.
Qed.
Lemma write_log p fuel : Forall fits p -> (Z.of_nat (List.length p) < 2 ^ 32)%Z -> List.length p < fuel ->
  exists t, write_prog fuel F_LOG p = Ok t /\ dumped p t.
Proof. intros F L K. exact (dump_spec p F L _ 0 fuel eq_refl (Nat.le_0_l _) ltac:(lia)). Qed.
Lemma write_endless p fuel : (2 ^ 32 <= Z.of_nat (List.length p))%Z -> write_prog fuel F_LOG p = NoFuel.
Proof.
  intros L. cbn [write_prog]. assert (H : forall i, (0 <= i < 2 ^ 32)%Z -> dump_from fuel i p = NoFuel).
  { induction fuel as [|k IH]; intros i I; cbn [dump_from]; auto.
    destruct (Z.ltb_spec i (Z.of_nat (List.length p))); [|lia].
    destruct (nth_error p (Z.to_nat i)) eqn:X; [|apply nth_error_None in X; lia].
    rewrite IH; auto. unfold u32. apply Z.mod_pos_bound. lia. }
  apply H. lia.
Qed.

(** reading *)
Lemma fgets_line s t k : ~ In newline s -> List.length s < k -> fgets_body k (s ++ newline :: t) = (s ++ [newline], t).
Proof.
  revert k. induction s as [|c s IH]; intros [|k] N L; cbn in L; try lia; cbn [fgets_body app].
  - destruct (ascii_dec newline nl) as [_|E]; [reflexivity|]. exfalso. now apply E.
  - destruct (ascii_dec c nl) as [->|E]; [exfalso; apply N; left; reflexivity|]. rewrite IH; auto; [|lia]. intros I. apply N. now right.
Qed.
Lemma fgets_rest s k : ~ In newline s -> List.length s <= k -> fgets_body k s = (s, []).
Proof.
  revert k. induction s as [|c s IH]; intros k N L; [destruct k; reflexivity|]. destruct k; cbn in L; [lia|]. cbn [fgets_body].
  destruct (ascii_dec c nl) as [->|E]; [exfalso; apply N; left; reflexivity|]. rewrite IH; auto; [|lia]. intros I. apply N. now right.
Qed.
Definition plain (c : ascii) : Prop := nat_of_ascii c <> 0 /\ nat_of_ascii c <> 127.
Lemma blank_plain c : blank c -> plain c.
Proof. unfold blank, plain. cbn [In]. lia. Qed.
Lemma digit_plain c d : digit_is c d -> plain c.
Proof. intros (R & ->). unfold plain. rewrite nat_ascii_embedding by lia. lia. Qed.
Lemma number_plain s v : number s v -> Forall plain s /\ s <> [].
Proof.
  assert (DP : forall s v, decimal s v -> Forall plain s /\ s <> []).
  { intros s0 v0 D. apply decimal_digits in D as (A & B & _). split; auto. eapply Forall_impl; [|exact A]. intros c (d & X). eapply digit_plain; eauto. }
  assert (BP : forall b, Forall blank b -> Forall plain b) by (intros b B; eapply Forall_impl; [|exact B]; apply blank_plain).
  intros [b t w B D|b t w B D|b t w B D]; apply DP in D as (D & NE); split; try (destruct b; try discriminate; exact NE);
    apply Forall_app; split; auto; constructor; auto; split; cbn; discriminate.
Qed.
Lemma c_str_plain s : Forall plain s -> c_str s = s.
Proof.
  induction 1 as [|c s (P & _) F IH]; cbn [c_str]; auto. destruct (ascii_dec c nul) as [->|_]; [exfalso; now apply P|]. now rewrite IH.
Qed.
Lemma decimal_prefix s v e : decimal s v -> Forall (fun c => digit c = None) e -> fst (digits 0 (s ++ e)) = v.
Proof.
  intros D E. apply decimal_digits in D as (A & _ & B). rewrite digits_app, B by auto. cbn [fst].
  destruct E as [|c e C E]; cbn [digits]; [reflexivity|]. now rewrite C.
Qed.
Lemma decimal_nonneg s v : decimal s v -> (0 <= v)%Z.
Proof. induction 1 as [c d (R & _)|s v c d H IH (R & _)]; lia. Qed.
Lemma number_strtoull s v e : number s v -> (- 2 ^ 64 < v < 2 ^ 64)%Z -> Forall (fun c => digit c = None) e ->
  strtoull (s ++ e) = (v mod 2 ^ 64)%Z.
Proof.
  intros H R E. unfold strtoull. destruct H as [b s v B D|b s v B D|b s v B D];
    destruct (head_digit _ _ D) as (c & r & d & ES & DC); pose proof (decimal_prefix _ _ _ D E) as DP;
    pose proof (decimal_nonneg _ _ D) as NN; rewrite <- app_assoc.
  - rewrite skip_app by (auto; subst s; intros ? ? [= <- <-]; eauto using digit_no_space).
    destruct (digit_no_sign _ _ DC) as [N1 N2]. subst s. cbn [app] in *.
    destruct (ascii_dec c "-"%char); [congruence|]. destruct (ascii_dec c "+"%char); [congruence|].
    rewrite DP. destruct (Z.ltb_spec v (2 ^ 64)); [|lia]. rewrite Z.mod_small; lia.
  - rewrite skip_app by (auto; intros ? ? [= <- <-]; reflexivity). cbn [app].
    destruct (ascii_dec "+"%char "-"%char); [discriminate|]. destruct (ascii_dec "+"%char "+"%char); [|congruence].
    rewrite DP. destruct (Z.ltb_spec v (2 ^ 64)); [|lia]. rewrite Z.mod_small; lia.
  - rewrite skip_app by (auto; intros ? ? [= <- <-]; reflexivity). cbn [app].
    destruct (ascii_dec "-"%char "-"%char); [|congruence]. rewrite DP.
    destruct (Z.ltb_spec v (2 ^ 64)); [|lia]. reflexivity.
Qed.
Lemma number_saturates s v : number s v -> (v <= - 2 ^ 64 \/ 2 ^ 64 <= v)%Z -> strtoull s = (2 ^ 64 - 1)%Z.
Proof.
  intros H R. unfold strtoull. destruct H as [b s v B D|b s v B D|b s v B D];
    destruct (head_digit _ _ D) as (c & r & d & ES & DC); pose proof (decimal_prefix _ _ [] D (Forall_nil _)) as DP; rewrite app_nil_r in DP;
    pose proof (decimal_nonneg _ _ D) as NN.
  - rewrite skip_app by (auto; subst s; intros ? ? [= <- <-]; eauto using digit_no_space).
    destruct (digit_no_sign _ _ DC) as [N1 N2]. subst s.
    destruct (ascii_dec c "-"%char); [congruence|]. destruct (ascii_dec c "+"%char); [congruence|].
    rewrite DP. destruct (Z.ltb_spec v (2 ^ 64)); [lia|reflexivity].
  - rewrite skip_app by (auto; intros ? ? [= <- <-]; reflexivity).
    destruct (ascii_dec "+"%char "-"%char); [discriminate|]. destruct (ascii_dec "+"%char "+"%char); [|congruence].
    rewrite DP. destruct (Z.ltb_spec v (2 ^ 64)); [lia|reflexivity].
  - rewrite skip_app by (auto; intros ? ? [= <- <-]; reflexivity).
    destruct (ascii_dec "-"%char "-"%char); [|congruence]. rewrite DP.
    destruct (Z.ltb_spec v (2 ^ 64)); [lia|reflexivity].
Qed.
Lemma nl_no_digit : digit newline = None. Proof. reflexivity. Qed.
Lemma nl_plain : plain newline. Proof. split; cbn; discriminate. Qed.

Lemma read_spec p t : logged p t -> Forall fits p -> forall fuel, List.length t < fuel -> readlog_from fuel t = Ok p.
Proof.
  induction 1 as [|t|x s (v & N & R & P & NI & L)|x s p t (v & N & R & P & NI & L) H IH]; intros F fuel K;
    (destruct fuel as [|fuel]; [cbn in K; lia|]); cbn [readlog_from].
  - reflexivity.
  - unfold fgets. rewrite (fgets_line [] t) by (auto; cbn; lia). cbn [app]. destruct (ascii_dec newline nl) as [_|E]; [reflexivity|]. exfalso; now apply E.
  - destruct (number_plain _ _ N) as [PL NE]. destruct s as [|c s]; [congruence|]. unfold fgets. rewrite fgets_rest by (auto; cbn [List.length Nat.sub] in *; lia).
    destruct (ascii_dec c nl) as [->|_]; [exfalso; apply NI; left; reflexivity|].
    destruct fuel as [|fuel]; [cbn in K; lia|]. cbn [readlog_from fgets bind]. rewrite c_str_plain by auto.
    pose proof (number_strtoull _ _ [] N R (Forall_nil _)) as S. rewrite app_nil_r in S. rewrite S. f_equal. f_equal.
    apply packed_insn; auto. now inversion F.
  - destruct (number_plain _ _ N) as [PL NE]. rewrite app_length in K. cbn [List.length] in K.
    assert (FG : fgets 256 (s ++ newline :: t) = Some (s ++ [newline], t)).
    { unfold fgets. rewrite fgets_line by (auto; cbn; lia). destruct s; reflexivity. }
    rewrite FG. rewrite c_str_plain by (apply Forall_app; split; [exact PL|constructor; [apply nl_plain|constructor]]).
    rewrite (number_strtoull _ _ [newline] N R) by (constructor; [apply nl_no_digit|constructor]).
    destruct s as [|c s]; [congruence|]. cbn [app].
    destruct (ascii_dec c nl) as [->|_]; [exfalso; apply NI; left; reflexivity|].
    inversion F; subst. rewrite IH by (auto; lia). cbn [bind]. f_equal. f_equal. apply packed_insn; auto.
Qed.
Lemma read_big s v : number s v -> (v <= - 2 ^ 64 \/ 2 ^ 64 <= v)%Z -> ~ In newline s -> List.length s <= 255 ->
  readlog s = Ok [mkBpf 255 15 15 (-1) (-1)].
Proof.
  intros N R NI L. destruct (number_plain _ _ N) as [PL NE]. pose proof (number_saturates _ _ N R) as S. destruct s as [|c s]; [congruence|].
  unfold readlog. cbn [readlog_from List.length]. unfold fgets. rewrite fgets_rest by (auto; cbn [List.length Nat.sub] in *; lia).
  destruct (ascii_dec c nl) as [->|_]; [exfalso; apply NI; left; reflexivity|].
  cbn [readlog_from fgets bind]. rewrite c_str_plain by auto. rewrite S. vm_compute. reflexivity.
Qed.
Lemma logged_no_elf p t : logged p t -> is_elf_file t = false.
Proof.
  assert (K : forall c r, nat_of_ascii c <> 127 -> is_elf_file (c :: r) = false).
  { intros c r H. unfold is_elf_file. destruct r as [|b [|d [|e r]]]; auto. rewrite (proj2 (Nat.eqb_neq _ _) H). reflexivity. }
  assert (KN : forall s v r, number s v -> is_elf_file (s ++ r) = false).
  { intros s v r N. destruct (number_plain _ _ N) as [PL NE]. destruct s as [|c s]; [congruence|]. inversion PL as [|? ? (_ & X) _]; subst. cbn [app]. auto. }
  intros [|t'|x s (v & N & _)|x s q t' (v & N & _) _].
  - reflexivity.
  - apply K. cbn. discriminate.
  - rewrite <- (app_nil_r s). eauto.
  - eauto.
Qed.
Lemma load_spec p t : logged p t -> Forall fits p -> load t = Some (Ok p).
Proof.
  intros H F. unfold load. rewrite (logged_no_elf _ _ H). f_equal. apply read_spec; auto.
Qed.
Lemma dumped_logged p t : dumped p t -> logged p t.
Proof.
  induction 1 as [|x w s p t P D C H IH]; [constructor|]. constructor; auto. exists w.
  pose proof P as (W & _). split; [apply (num_pos [] s w); auto|]. split; [lia|]. split; [now rewrite Z.mod_small|]. split.
  - intros I. apply decimal_digits in D as (A & _ & _). unfold all_digits in A. rewrite Forall_forall in A. destruct (A _ I) as (d & X).
    apply digit_ascii in X. now rewrite nl_no_digit in X.
  - (* a canonical numeral below 2^64 has at most 20 digits *)
    assert (B : forall s v, decimal s v -> canonical s -> (v < 1)%Z /\ List.length s = 1 \/ (10 ^ (Z.of_nat (List.length s) - 1) <= v)%Z).
    { clear. induction 1 as [c d D|s v c d H IH D]; intros C.
      - cbn [List.length]. destruct D as (R & ->). change (10 ^ (Z.of_nat 1 - 1))%Z with 1%Z. lia.
      - right. assert (NE : s <> []) by (apply decimal_digits in H; apply H).
        destruct IH as [(V & L)|B].
        + intros r ->. specialize (C (r ++ [c]) eq_refl). destruct r; discriminate.
        + exfalso. destruct s as [|a [|b s]]; try discriminate. inversion H as [c1 d1 D1|s1 v1 c1 d1 H1 D1]; subst.
          * destruct D1 as (R1 & ->). assert (v = 0%Z) by lia. subst v. discriminate (C [c] eq_refl).
          * apply decimal_digits in H1 as (_ & NE1 & _). destruct s1 as [|? [|]]; try discriminate. congruence.
        + rewrite app_length. cbn [List.length]. destruct D as (R & _).
          assert (LP : 0 < List.length s) by (destruct s; [congruence|cbn; lia]).
          replace (Z.of_nat (List.length s + 1) - 1)%Z with (Z.succ (Z.of_nat (List.length s) - 1)) by lia.
          rewrite Z.pow_succ_r by lia. lia. }
    destruct (B _ _ D C) as [(_ & L)|L]; [lia|]. destruct (le_gt_dec (List.length s) 254); auto. exfalso.
    assert (10 ^ 20 <= 10 ^ (Z.of_nat (List.length s) - 1))%Z by (apply Z.pow_le_mono_r; lia).
    assert (2 ^ 64 < 10 ^ 20)%Z by reflexivity. lia.
Qed.
Lemma round_trip p fuel : Forall fits p -> (Z.of_nat (List.length p) < 2 ^ 32)%Z -> List.length p < fuel ->
  exists t, write_prog fuel F_LOG p = Ok t /\ load t = Some (Ok p).
Proof.
  intros F L K. destruct (write_log p fuel F L K) as (t & T & D). exists t. split; auto.
  apply load_spec; auto. now apply dumped_logged.
Qed.

(** reading never fails *)
Lemma fgets_body_split k s : 0 < k -> s <> [] -> exists a l, fst (fgets_body k s) = a :: l /\ List.length (snd (fgets_body k s)) < List.length s.
Proof.
  intros P NE. destruct k as [|k]; [lia|]. destruct s as [|c s]; [congruence|]. cbn [fgets_body].
  destruct (ascii_dec c nl); [exists c, []; cbn; auto with arith|].
  assert (M : forall k s, List.length (snd (fgets_body k s)) <= List.length s).
  { clear. induction k as [|k IH]; intros [|c s]; cbn [fgets_body]; auto. destruct (ascii_dec c nl); [cbn; lia|].
    specialize (IH s). destruct (fgets_body k s). cbn in *. lia. }
  specialize (M k s). destruct (fgets_body k s) as [l t]. cbn in *. exists c, l. split; auto. lia.
Qed.
Lemma read_total t : exists p, readlog t = Ok p.
Proof.
  unfold readlog. assert (H : forall fuel t, List.length t < fuel -> exists p, readlog_from fuel t = Ok p).
  { clear. induction fuel as [|k IH]; intros t L; [lia|]. cbn [readlog_from]. destruct t as [|c t]; [cbn; eauto|].
    unfold fgets. change (256 - 1) with 255. destruct (fgets_body_split 255 (c :: t)) as (a & l & E1 & E2); [lia|discriminate|].
    destruct (fgets_body 255 (c :: t)) as [x r]. cbn [fst snd] in *. subst x. destruct (ascii_dec a nl); [eauto|].
    destruct (IH r) as (p & ->); [cbn [List.length] in *; lia|]. cbn [bind]. eauto. }
  apply H. lia.
Qed.

(** the raw format *)
Lemma bytes_length n w : List.length (bytes_of n w) = n.
Proof. revert w. induction n; intros; cbn; auto. Qed.
Lemma bytes_nth n : forall w k, k < n -> nth_error (bytes_of n w) k = Some (ascii_of_nat (Z.to_nat (byte w (Z.of_nat k)))).
Proof.
  induction n as [|n IH]; intros w k K; [lia|]. destruct k as [|k]; cbn [bytes_of nth_error].
  - unfold byte. change (256 ^ Z.of_nat 0)%Z with 1%Z. now rewrite Z.div_1_r.
  - rewrite IH by lia. do 3 f_equal. unfold byte. rewrite Nat2Z.inj_succ, Z.pow_succ_r by lia.
    rewrite <- Z.div_div by (try apply Z.pow_pos_nonneg; lia). reflexivity.
Qed.
Lemma raw_spec p : Forall fits p ->
  List.length (raw p) = 8 * List.length p /\
  forall i x, nth_error p i = Some x -> exists w, packed x w /\
    forall k, k < 8 -> nth_error (raw p) (8 * i + k) = Some (ascii_of_nat (Z.to_nat (byte w (Z.of_nat k)))).
Proof.
  induction 1 as [|y p F FA (IH1 & IH2)]; [split; [reflexivity|intros [|i]; discriminate]|]. unfold raw in *. cbn [flat_map List.length].
  split; [rewrite app_length, bytes_length, IH1; lia|]. intros [|i] x H; cbn [nth_error] in H.
  - injection H as ->. exists (word_of x). split; [now apply word_packed|]. intros k K.
    rewrite nth_error_app1 by (rewrite bytes_length; lia). now apply bytes_nth.
  - destruct (IH2 i x H) as (w & P & Q). exists w. split; auto. intros k K.
    rewrite nth_error_app2 by (rewrite bytes_length; lia). rewrite bytes_length. rewrite <- Q by auto. f_equal. lia.
Qed.
