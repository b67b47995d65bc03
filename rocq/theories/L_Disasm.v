(** Proofs about the disassembler. *)
From Coq Require Import Lia ZArith List Bool Arith.
From Verif Require Import M_Base SpecWord SpecIsa M_Opts M_Tool SpecTool M_Disasm.
Import ListNotations.
Open Scope list_scope.
Open Scope Z_scope.
Ltac Zify.zify_post_hook ::= Z.div_mod_to_equations.

(** ** numbers *)
Definition dig (c : ascii) : option Z :=
  let n := Z.of_nat (nat_of_ascii c) in
  if (48 <=? n) && (n <=? 57) then Some (n - 48) else if (97 <=? n) && (n <=? 102) then Some (n - 87) else None.
Fixpoint rd (b v : Z) (s : cstr) : Z * cstr :=
  match s with c :: r => match dig c with Some d => rd b (v * b + d) r | None => (v, s) end | [] => (v, []) end.
Definition clean (s : cstr) : Prop := match s with c :: _ => dig c = None | [] => True end.
Lemma rd_clean b v s : clean s -> rd b v s = (v, s).
Proof. destruct s as [|c s]; auto. cbn. now intros ->. Qed.
Lemma dig_hexd d : 0 <= d < 16 -> dig (hexd d) = Some d.
Proof.
  intros R. assert (K : In d (map Z.of_nat (seq 0 16))) by (replace d with (Z.of_nat (Z.to_nat d)) by lia; apply in_map, in_seq; lia).
  cbn in K. repeat (destruct K as [<-|K]; [reflexivity|]). destruct K.
Qed.
Lemma showb_app b k : forall n acc, showb k b n acc = showb k b n [] ++ acc.
Proof.
  induction k as [|k IH]; intros n acc; [reflexivity|]. cbn [showb]. destruct (n / b =? 0); [reflexivity|].
  rewrite IH, (IH _ [_]), <- app_assoc. reflexivity.
Qed.
Lemma rd_showb b k : 1 < b <= 16 -> forall n acc v, 0 <= n < b ^ Z.of_nat k -> (0 < k)%nat -> exists m, 0 <= m /\ rd b v (showb k b n acc) = rd b (v * b ^ m + n) acc.
Proof.
  intros B. induction k as [|k IH]; intros n acc v R P; [lia|]. cbn [showb].
  assert (DM : n = b * (n / b) + n mod b) by (apply Z.div_mod; lia). pose proof (Z.mod_pos_bound n b ltac:(lia)) as MB.
  assert (DG : dig (hexd (n mod b)) = Some (n mod b)) by (apply dig_hexd; lia).
  destruct (Z.eqb_spec (n / b) 0) as [E|E].
  - exists 1. split; [lia|]. cbn [rd]. rewrite DG. rewrite Z.pow_1_r. f_equal. rewrite E in DM. set (x := n mod b) in *. clearbody x. nia.
  - rewrite Nat2Z.inj_succ, Z.pow_succ_r in R by lia.
    assert (Q : 0 <= n / b < b ^ Z.of_nat k) by (split; [apply Z.div_pos; lia|apply Z.div_lt_upper_bound; lia]).
    assert (PK : (0 < k)%nat). { destruct k; [|lia]. cbn in Q. exfalso. apply E. set (x := n / b) in *. clearbody x. clear -Q. lia. }
    destruct (IH (n / b) (hexd (n mod b) :: acc) v Q PK) as (m & M & ->). exists (m + 1). split; [lia|]. cbn [rd]. rewrite DG. f_equal.
    rewrite Z.pow_add_r, Z.pow_1_r by lia. set (x := n mod b) in *. set (q := n / b) in *. clearbody x q. rewrite DM. ring.
Qed.
Lemma rd_dec n r : 0 <= n < 10 ^ 20 -> clean r -> rd 10 0 (dec n ++ r) = (n, r).
Proof.
  intros R C. unfold dec. rewrite <- showb_app. destruct (rd_showb 10 20 ltac:(lia) n r 0 R ltac:(lia)) as (m & _ & ->). now apply rd_clean.
Qed.
Lemma rd_hex n r : 0 <= n < 16 ^ 16 -> clean r -> rd 16 0 (hex n ++ r) = (n, r).
Proof.
  intros R C. unfold hex. rewrite <- showb_app. destruct (rd_showb 16 16 ltac:(lia) n r 0 R ltac:(lia)) as (m & _ & ->). now apply rd_clean.
Qed.
Lemma showb_digits b k : 1 < b <= 16 -> forall n acc, Forall (fun c => dig c <> None) acc -> Forall (fun c => dig c <> None) (showb k b n acc).
Proof.
  intros B. induction k as [|k IH]; intros n acc F; auto. cbn [showb].
  assert (DG : dig (hexd (n mod b)) = Some (n mod b)) by (apply dig_hexd; pose proof (Z.mod_pos_bound n b ltac:(lia)); lia).
  assert (F' : Forall (fun c => dig c <> None) (hexd (n mod b) :: acc)) by (constructor; auto; congruence).
  destruct (n / b =? 0); auto.
Qed.
Lemma dec_digits n : Forall (fun c => dig c <> None) (dec n).
Proof. apply showb_digits; [lia|constructor]. Qed.
Lemma showb_ne b k : forall n acc, (0 < k)%nat -> showb k b n acc <> [].
Proof. induction k as [|k IH]; intros n acc P; [lia|]. cbn [showb]. destruct (n / b =? 0); [discriminate|]. destruct k; [cbn; discriminate|apply IH; lia]. Qed.
Lemma dec_head n : exists c s, dec n = c :: s /\ dig c <> None.
Proof.
  pose proof (dec_digits n) as F. pose proof (showb_ne 10 20 n [] ltac:(lia)) as N. fold (dec n) in N. destruct (dec n) as [|c s]; [congruence|].
  inversion F; subst. eauto.
Qed.

(** ** reading a line back *)
Definition range (p : piece) : Prop :=
  match p with
  | T _ | W _ => True
  | D z | SD z => - 2 ^ 31 <= z < 2 ^ 31
  | X2 z => 0 <= z < 256
  | X z => 0 <= z < 2 ^ 64
  end.
Definition stops (s : cstr) (l : list piece) : Prop := exists c r, printf l = c :: r /\ ~ In c s.
Fixpoint alike (l m : list piece) : Prop :=
  match l, m with
  | [], [] => True
  | T s :: l, T t :: m => s = t /\ alike l m
  | W s :: l, W t :: m => (exists c, (exists r, printf l = c :: r) /\ (exists r, printf m = c :: r) /\ ~ In c s /\ ~ In c t) /\ alike l m
  | D a :: l, D b :: m | SD a :: l, SD b :: m => range (D a) /\ range (D b) /\ clean (printf l) /\ clean (printf m) /\ alike l m
  | X2 a :: l, X2 b :: m => range (X2 a) /\ range (X2 b) /\ clean (printf l) /\ clean (printf m) /\ alike l m
  | X a :: l, X b :: m => range (X a) /\ range (X b) /\ clean (printf l) /\ clean (printf m) /\ alike l m
  | _, _ => False
  end.
Lemma cut_at (c : ascii) : forall s t r q, s ++ c :: r = t ++ c :: q -> ~ In c s -> ~ In c t -> s = t /\ r = q.
Proof.
  induction s as [|a s IH]; intros [|b t] r q E N M; cbn in E.
  - injection E as ->. auto.
  - injection E as <- _. exfalso. apply M. now left.
  - injection E as -> _. exfalso. apply N. now left.
  - injection E as -> E. destruct (IH t r q E) as [-> ->]; [intros K; apply N; now right|intros K; apply M; now right|auto].
Qed.
Lemma dec_inj a b r q : 0 <= a < 10 ^ 20 -> 0 <= b < 10 ^ 20 -> clean r -> clean q -> dec a ++ r = dec b ++ q -> a = b /\ r = q.
Proof. intros A B C C' E. apply (f_equal (rd 10 0)) in E. rewrite !rd_dec in E by auto. injection E. auto. Qed.
Lemma hex_inj a b r q : 0 <= a < 16 ^ 16 -> 0 <= b < 16 ^ 16 -> clean r -> clean q -> hex a ++ r = hex b ++ q -> a = b /\ r = q.
Proof. intros A B C C' E. apply (f_equal (rd 16 0)) in E. rewrite !rd_hex in E by auto. injection E. auto. Qed.
Lemma x2_rd z r : 0 <= z < 256 -> clean r -> rd 16 0 (render (X2 z) ++ r) = (z, r).
Proof.
  intros R C. cbn [render]. destruct (z <? 16); [|apply rd_hex; auto; split; [lia|apply Z.lt_trans with 256; [lia|reflexivity]]].
  cbn [app rd]. change (dig "0") with (Some 0). apply rd_hex; auto; split; [lia|apply Z.lt_trans with 256; [lia|reflexivity]].
Qed.
Lemma printf_inj : forall l m, alike l m -> printf l = printf m -> l = m.
Proof.
  assert (BIG : forall z, 0 <= z < 2 ^ 32 -> 0 <= z < 10 ^ 20) by (intros z H; split; [lia|apply Z.lt_trans with (2 ^ 32); [lia|reflexivity]]).
  induction l as [|p l IH]; intros [|q m] A E; auto; [destruct q; destruct A|destruct p; destruct A|].
  unfold printf in E. cbn [flat_map] in E. fold (printf l) in E. fold (printf m) in E.
  destruct p, q; try (destruct A; fail); cbn [alike] in A.
  - destruct A as (-> & A). apply app_inv_head in E. f_equal. auto.
  - destruct A as ((c & (r1 & E1) & (r2 & E2) & N & M) & A). cbn [render] in E. rewrite E1, E2 in E. destruct (cut_at c _ _ _ _ E N M) as (-> & F).
    f_equal. apply IH; auto. now rewrite E1, E2, F.
  - destruct A as (R1 & R2 & C1 & C2 & A). cbn [render range] in *.
    assert (K : z = z0 /\ printf l = printf m).
    { destruct (Z.ltb_spec z 0), (Z.ltb_spec z0 0); cbn [app] in E.
      - injection E as E. apply dec_inj in E; auto; try (apply BIG; lia). destruct E as (E & F). split; [lia|exact F].
      - destruct (dec_head z0) as (c & s & H1 & H2). rewrite H1 in E. injection E as E _. subst c. now elim H2.
      - destruct (dec_head z) as (c & s & H1 & H2). rewrite H1 in E. injection E as E _. subst c. now elim H2.
      - apply dec_inj in E; auto; try (apply BIG; lia). }
    destruct K as (-> & K). f_equal. auto.
  - destruct A as (R1 & R2 & C1 & C2 & A). cbn [render range] in *.
    assert (K : z = z0 /\ printf l = printf m).
    { destruct (Z.ltb_spec z 0), (Z.ltb_spec z0 0); cbn [app] in E.
      - injection E as E. apply dec_inj in E; auto; try (apply BIG; lia). destruct E as (E & F). split; [lia|exact F].
      - discriminate.
      - discriminate.
      - injection E as E. apply dec_inj in E; auto; try (apply BIG; lia). }
    destruct K as (-> & K). f_equal. auto.
  - destruct A as (R1 & R2 & C1 & C2 & A). apply (f_equal (rd 16 0)) in E. rewrite !x2_rd in E by auto. injection E as -> E. f_equal. auto.
  - destruct A as (R1 & R2 & C1 & C2 & A). cbn [render range] in *. apply hex_inj in E; auto. destruct E as (-> & E). f_equal. auto.
Qed.

(** ** codes *)
Lemma code_bits c : 0 <= c < 256 -> Z.land c 7 = c mod 8 /\ Z.land c 240 = 16 * (c / 16) /\ Z.land c 224 = 32 * (c / 32) /\
  Z.land c 24 = 8 * ((c / 8) mod 4) /\ (Z.land c 8 =? 8) = Z.odd (c / 8).
Proof.
  intros R. assert (K : forallb (fun n => let c := Z.of_nat n in (Z.land c 7 =? c mod 8) && (Z.land c 240 =? 16 * (c / 16)) && (Z.land c 224 =? 32 * (c / 32)) &&
    (Z.land c 24 =? 8 * ((c / 8) mod 4)) && Bool.eqb (Z.land c 8 =? 8) (Z.odd (c / 8))) (seq 0 256) = true) by (vm_compute; reflexivity).
  rewrite forallb_forall in K. specialize (K (Z.to_nat c) ltac:(apply in_seq; lia)). cbv zeta in K. rewrite Z2Nat.id in K by lia.
  repeat (apply andb_true_iff in K; destruct K as (K & ?)). repeat match goal with H : (_ =? _) = true |- _ => apply Z.eqb_eq in H | H : Bool.eqb _ _ = true |- _ => apply Bool.eqb_prop in H end. auto.
Qed.
Lemma imm64_value a b : Z.lor (u64 (Z.shiftl (u64 a) 32)) (u32 b) = 2 ^ 32 * u32 a + u32 b.
Proof.
  assert (E : u64 (Z.shiftl (u64 a) 32) = Z.shiftl (u32 a) 32).
  { rewrite !Z.shiftl_mul_pow2 by lia. unfold u64, u32. change (2 ^ 64) with (2 ^ 32 * 2 ^ 32). rewrite Zmult_mod_distr_r. f_equal.
    rewrite Z.rem_mul_r by lia. rewrite Z.mul_comm, Z.mod_add by lia. apply Z.mod_mod. lia. }
  rewrite E. rewrite Z.shiftl_mul_pow2 by lia. rewrite (Z.mul_comm (2 ^ 32)).
  assert (N : Z.land (u32 a * 2 ^ 32) (u32 b) = 0).
  { apply Z.bits_inj. intros n. rewrite Z.land_spec, Z.bits_0. destruct (Z.lt_ge_cases n 32) as [L|G].
    - rewrite Z.mul_pow2_bits_low by lia. reflexivity.
    - unfold u32 at 2. rewrite Z.mod_pow2_bits_high by lia. apply andb_false_r. }
  rewrite <- Z.lxor_lor, <- Z.add_nocarry_lxor by exact N. reflexivity.
Qed.

(** ** which fields a line shows *)
Definition num (k : nat) (l : list piece) : Z := match nth_error l k with Some (D z) | Some (SD z) | Some (X2 z) | Some (X z) => z | _ => 0 end.
Definition wrd (k : nat) (l : list piece) : cstr := match nth_error l k with Some (W s) => s | _ => [] end.
Definition headed (c : Z) (l : list piece) : Prop := exists r, l = T "(" :: X2 c :: T ") " :: r.
Lemma headed_code c d l m : 0 <= c < 256 -> 0 <= d < 256 -> headed c l -> headed d m -> printf l = printf m -> c = d.
Proof.
  intros C D0 (r & ->) (q & ->) E. change (printf (T "(" :: X2 c :: T ") " :: r)) with ("("%char :: (render (X2 c) ++ printf (T ") " :: r))) in E.
  change (printf (T "(" :: X2 d :: T ") " :: q)) with ("("%char :: (render (X2 d) ++ printf (T ") " :: q))) in E.
  apply (f_equal (@tl ascii)) in E. cbn [tl] in E. apply (f_equal (fun s => fst (rd 16 0 s))) in E.
  rewrite !x2_rd in E; auto; reflexivity.
Qed.
Definition nosp (c : ascii) (o : option string) : Prop := match o with Some s => existsb (Ascii.eqb c) (lit s) = false | None => True end.
Lemma nosp_in c o s : nosp c o -> str o = Ok s -> ~ In c s.
Proof.
  destruct o as [t|]; [|discriminate]. cbn [nosp str]. intros N. injection 1 as <-. intros I.
  assert (K : existsb (Ascii.eqb c) (lit t) = true) by (apply existsb_exists; exists c; split; [auto|apply Ascii.eqb_refl]). congruence.
Qed.
Ltac tab := match goal with |- nosp _ (?f ?z) => unfold f; repeat match goal with |- nosp _ (match ?x with _ => _ end) => destruct x end; try exact I; reflexivity end.
Lemma alu_sp z : nosp " " (alu_string z). Proof. tab. Qed.
Lemma alus_sp z : nosp " " (alu_sign_string z). Proof. tab. Qed.
Lemma mov_r z : nosp "r" (movsx_string z). Proof. tab. Qed.
Lemma mov_w z : nosp "w" (movsx_string z). Proof. tab. Qed.
Lemma ldst_sp z : nosp " " (ldst_string z). Proof. tab. Qed.
Lemma ldsx_sp z : nosp " " (ldsx_string z). Proof. tab. Qed.
Lemma jmp_sp z : nosp " " (jmp_string z). Proof. tab. Qed.
Lemma fits_ranges x : fits x -> range (D (b_dst x)) /\ range (D (b_src x)) /\ range (D (b_off x)) /\ range (D (b_imm x)) /\ range (X2 (b_code x)).
Proof. intros (A & B & C & D0 & E). cbn [range]. lia. Qed.
Lemma word_alike c s t l m : (exists r, printf l = c :: r) -> (exists r, printf m = c :: r) -> ~ In c s -> ~ In c t -> alike l m -> alike (W s :: l) (W t :: m).
Proof. intros A B C D0 E. cbn [alike]. split; [exists c; auto|exact E]. Qed.
Ltac same tac :=
  repeat match goal with
  | |- alike [] [] => exact I
  | |- alike (T _ :: _) (T _ :: _) => split; [reflexivity|]
  | |- alike (nlp :: _) (nlp :: _) => split; [reflexivity|]
  | |- alike (D _ :: _) (D _ :: _) => split; [assumption|split; [assumption|split; [reflexivity|split; [reflexivity|]]]]
  | |- alike (SD _ :: _) (SD _ :: _) => split; [assumption|split; [assumption|split; [reflexivity|split; [reflexivity|]]]]
  | |- alike (X2 _ :: _) (X2 _ :: _) => split; [assumption|split; [assumption|split; [reflexivity|split; [reflexivity|]]]]
  | |- alike (X _ :: _) (X _ :: _) => split; [|split; [|split; [reflexivity|split; [reflexivity|]]]]
  | |- alike (W _ :: _) (W _ :: _) => tac
  end.
Ltac space := eapply (word_alike " "%char); [eexists; reflexivity|eexists; reflexivity|assumption|assumption|].
Ltac n k E H := pose proof (f_equal (num k) E) as H; unfold num in H; cbn [app nth_error] in H.
Ltac w k E H := pose proof (f_equal (wrd k) E) as H; unfold wrd in H; cbn [app nth_error] in H.

Definition alu_word (x : bpf_insn) : outcome cstr := str (if is_sdiv_smod x then alu_sign_string (Z.land (b_code x) 240) else alu_string (Z.land (b_code x) 240)).
Definition mov_word (x : bpf_insn) : outcome cstr := if is_movsx x then str (movsx_string (Z.shiftr (b_off x) 3 - 1)) else Ok [].
Lemma alu_word_sp x o : alu_word x = Ok o -> ~ In " "%char o.
Proof. unfold alu_word. destruct (is_sdiv_smod x); apply nosp_in; [apply alus_sp|apply alu_sp]. Qed.
Lemma mov_word_rw x o : mov_word x = Ok o -> ~ In "r"%char o /\ ~ In "w"%char o.
Proof.
  unfold mov_word. destruct (is_movsx x).
  - intros E. split; revert E; apply nosp_in; [apply mov_r|apply mov_w].
  - injection 1 as <-. split; intros [].
Qed.
Lemma alu_pieces x nx l : fits x -> (b_code x mod 8 = 4 \/ b_code x mod 8 = 7) -> pieces x nx = Ok l ->
  let c := b_code x in let rw := T (if c mod 8 =? 4 then "w" else "r") in let pre := [T "("; X2 c; T ") "] in
  if c / 16 =? 13 then
    if c mod 8 =? 7 then l = pre ++ [T "r"; D (b_dst x); T " = bswap"; D (b_imm x); T " r"; D (b_dst x); nlp]
    else l = pre ++ [T "r"; D (b_dst x); T " = "; T (if Z.odd (c / 8) then "be" else "le"); D (b_imm x); T " r"; D (b_dst x); nlp]
  else if c / 16 =? 8 then l = pre ++ [rw; D (b_dst x); T " = -"; rw; D (b_dst x); nlp]
  else exists o, alu_word x = Ok o /\
    if Z.odd (c / 8) then exists m, mov_word x = Ok m /\ l = pre ++ [rw; D (b_dst x); T " "; W o; T " "; W m; rw; D (b_src x); nlp]
    else l = pre ++ [rw; D (b_dst x); T " "; W o; T " "; D (b_imm x); nlp].
Proof.
  intros (F & _) K E. cbv zeta. destruct (code_bits _ F) as (B1 & B2 & _ & _ & B5). unfold pieces in E. fold (alu_word x) (mov_word x) in E. rewrite B1, B2, B5 in E.
  assert (CL : (b_code x mod 8 =? 4) || (b_code x mod 8 =? 7) = true) by (destruct K as [-> | ->]; reflexivity). rewrite CL in E. clear CL.
  replace (16 * (b_code x / 16) =? 208) with (b_code x / 16 =? 13) in E by (destruct (Z.eqb_spec (b_code x / 16) 13), (Z.eqb_spec (16 * (b_code x / 16)) 208); lia).
  replace (16 * (b_code x / 16) =? 128) with (b_code x / 16 =? 8) in E by (destruct (Z.eqb_spec (b_code x / 16) 8), (Z.eqb_spec (16 * (b_code x / 16)) 128); lia).
  destruct (b_code x / 16 =? 13).
  - destruct K as [K|K]; rewrite K in *; cbn [Z.eqb Pos.eqb] in *; injection E as <-; reflexivity.
  - destruct (b_code x / 16 =? 8); [injection E as <-; reflexivity|].
    destruct (alu_word x) as [o| | | |] eqn:O; try discriminate. cbn [bind] in E. exists o. split; auto.
    destruct (Z.odd (b_code x / 8)).
    + destruct (mov_word x) as [m| | | |] eqn:M; try discriminate. injection E as <-. eauto.
    + injection E as <-. reflexivity.
Qed.
Lemma alu_shown x y nx ny l m : fits x -> fits y -> b_code x = b_code y -> (b_code x mod 8 = 4 \/ b_code x mod 8 = 7) ->
  pieces x nx = Ok l -> pieces y ny = Ok m -> printf l = printf m ->
  b_dst x = b_dst y /\
  (b_code x / 16 = 13 -> b_imm x = b_imm y) /\
  (b_code x / 16 <> 13 -> b_code x / 16 <> 8 -> alu_word x = alu_word y /\
     if Z.odd (b_code x / 8) then b_src x = b_src y /\ mov_word x = mov_word y else b_imm x = b_imm y).
Proof.
  intros FX FY CE K PX PY E. destruct (fits_ranges x FX) as (X1 & X2 & X3 & X4 & X5). destruct (fits_ranges y FY) as (Y1 & Y2 & Y3 & Y4 & Y5).
  apply alu_pieces in PX; auto. apply alu_pieces in PY; [|auto|now rewrite <- CE]. cbv zeta in PX, PY. rewrite <- CE in *.
  set (c := b_code x) in *. destruct (Z.eqb_spec (c / 16) 13) as [N|N]; [|destruct (Z.eqb_spec (c / 16) 8) as [M|M]].
  - assert (G : b_dst x = b_dst y /\ b_imm x = b_imm y); [|destruct G; split; [assumption|split; [auto|intros G; contradiction]]].
    destruct (c mod 8 =? 7); subst l m; (apply printf_inj in E; [|cbn [app]; same idtac]); n 4%nat E H1.
    + n 6%nat E H2. auto.
    + n 7%nat E H2. auto.
  - subst. apply printf_inj in E; [|cbn [app]; same idtac]. n 4%nat E H1. split; [auto|split; [intros G; congruence|contradiction]].
  - destruct PX as (o & O & PX), PY as (o' & O' & PY). pose proof (alu_word_sp _ _ O) as S1. pose proof (alu_word_sp _ _ O') as S2.
    destruct (Z.odd (c / 8)).
    + destruct PX as (mx & MX & ->), PY as (my & MY & ->). destruct (mov_word_rw _ _ MX) as (R1 & R2). destruct (mov_word_rw _ _ MY) as (R3 & R4).
      apply printf_inj in E.
      * n 4%nat E H1. w 6%nat E H2. w 8%nat E H3. n 10%nat E H4. rewrite O, O', MX, MY. split; [auto|split; [contradiction|intros _ _; rewrite H2, H3, H4; auto]].
      * cbn [app]. destruct (c mod 8 =? 4); same ltac:(first [space|eapply (word_alike "w"%char); [eexists; reflexivity|eexists; reflexivity|assumption|assumption|]
          |eapply (word_alike "r"%char); [eexists; reflexivity|eexists; reflexivity|assumption|assumption|]]).
    + subst l m. apply printf_inj in E.
      * n 4%nat E H1. w 6%nat E H2. n 8%nat E H3. rewrite O, O'. split; [auto|split; [contradiction|intros _ _; rewrite H2, H3; auto]].
      * cbn [app]. same ltac:(space).
Qed.

(** ** the other classes *)
Lemma mem_pieces x nx l : fits x -> pieces x nx = Ok l ->
  let c := b_code x in let pre := [T "("; X2 c; T ") "] in
  (c mod 8 = 1 -> c / 32 = 3 \/ c / 32 = 4 -> exists u, ~ In " "%char u /\ l = pre ++ [T "r"; D (b_dst x); T " = *("; W u; T " *)(r"; D (b_src x); T " "; SD (b_off x); T ")"; nlp]) /\
  (c mod 8 = 2 -> c / 32 = 3 -> exists u, ~ In " "%char u /\ l = pre ++ [T "*("; W u; T " *)(r"; D (b_dst x); T " "; SD (b_off x); T ") = "; D (b_imm x); nlp]) /\
  (c mod 8 = 3 -> c / 32 = 3 -> exists u, ~ In " "%char u /\ l = pre ++ [T "*("; W u; T " *)(r"; D (b_dst x); T " "; SD (b_off x); T ") = r"; D (b_src x); nlp]) /\
  (c = 24 -> exists j, nx = Some j /\ l = pre ++ [T "r"; D (b_dst x); T " = 0x"; X (2 ^ 32 * u32 (b_imm j) + u32 (b_imm x)); T " (imm64 ld)"; nlp]).
Proof.
  intros (F & _) E. cbv zeta. destruct (code_bits _ F) as (B1 & _ & B3 & B4 & _). unfold pieces in E. rewrite B1, B3, B4 in E.
  split; [|split; [|split]].
  - intros K M. rewrite K in E. cbn [Z.eqb Pos.eqb orb] in E.
    destruct M as [M|M]; rewrite M in E; cbn [Z.mul Pos.mul Z.eqb Pos.eqb negb andb] in E.
    + destruct (str _) as [u| | | |] eqn:U in E; try discriminate. injection E as <-. exists u. split; auto. revert U. apply nosp_in, ldst_sp.
    + destruct (str _) as [u| | | |] eqn:U in E; try discriminate. injection E as <-. exists u. split; auto. revert U. apply nosp_in, ldsx_sp.
  - intros K M. rewrite K, M in E. cbn [Z.mul Pos.mul Z.eqb Pos.eqb orb negb andb] in E.
    destruct (str _) as [u| | | |] eqn:U in E; try discriminate. injection E as <-. exists u. split; auto. revert U. apply nosp_in, ldst_sp.
  - intros K M. rewrite K, M in E. cbn [Z.mul Pos.mul Z.eqb Pos.eqb orb negb andb] in E.
    destruct (str _) as [u| | | |] eqn:U in E; try discriminate. injection E as <-. exists u. split; auto. revert U. apply nosp_in, ldst_sp.
  - intros K. rewrite K in E |- *. change (24 mod 8) with 0 in E. change (24 / 32) with 0 in E. change (24 / 8 mod 4) with 3 in E.
    cbn [Z.mul Pos.mul Z.eqb Pos.eqb orb negb andb] in E. destruct nx as [j|]; [|discriminate]. injection E as <-. exists j. rewrite <- imm64_value. split; reflexivity.
Qed.
Lemma u32_range z : 0 <= u32 z < 2 ^ 32.
Proof. apply Z.mod_pos_bound. reflexivity. Qed.
Lemma imm64_range a b : range (X (2 ^ 32 * u32 a + u32 b)).
Proof. cbn [range]. pose proof (u32_range a). pose proof (u32_range b). lia. Qed.
Lemma mem_shown x y nx ny l m : fits x -> fits y -> b_code x = b_code y -> pieces x nx = Ok l -> pieces y ny = Ok m -> printf l = printf m ->
  let c := b_code x in
  (c mod 8 = 1 -> c / 32 = 3 \/ c / 32 = 4 -> b_dst x = b_dst y /\ b_src x = b_src y /\ b_off x = b_off y) /\
  (c mod 8 = 2 -> c / 32 = 3 -> b_dst x = b_dst y /\ b_imm x = b_imm y /\ b_off x = b_off y) /\
  (c mod 8 = 3 -> c / 32 = 3 -> b_dst x = b_dst y /\ b_src x = b_src y /\ b_off x = b_off y) /\
  (c = 24 -> b_dst x = b_dst y /\ u32 (b_imm x) = u32 (b_imm y) /\ exists i j, nx = Some i /\ ny = Some j /\ u32 (b_imm i) = u32 (b_imm j)).
Proof.
  intros FX FY CE PX PY E. cbv zeta. destruct (fits_ranges x FX) as (X1 & X2 & X3 & X4 & X5). destruct (fits_ranges y FY) as (Y1 & Y2 & Y3 & Y4 & Y5).
  apply mem_pieces in PX; auto. apply mem_pieces in PY; auto. cbv zeta in PX, PY. rewrite <- CE in PY, Y5.
  destruct PX as (A1 & A2 & A3 & A4), PY as (D1 & D2 & D3 & D4). set (c := b_code x) in *.
  split; [|split; [|split]].
  - intros K M. destruct (A1 K M) as (u & U & ->), (D1 K M) as (v & V & ->). apply printf_inj in E; [|cbn [app]; same ltac:(space)].
    n 4%nat E H1. n 8%nat E H2. n 10%nat E H3. auto.
  - intros K M. destruct (A2 K M) as (u & U & ->), (D2 K M) as (v & V & ->). apply printf_inj in E; [|cbn [app]; same ltac:(space)].
    n 6%nat E H1. n 8%nat E H2. n 10%nat E H3. auto.
  - intros K M. destruct (A3 K M) as (u & U & ->), (D3 K M) as (v & V & ->). apply printf_inj in E; [|cbn [app]; same ltac:(space)].
    n 6%nat E H1. n 8%nat E H2. n 10%nat E H3. auto.
  - intros K. destruct (A4 K) as (i & -> & ->), (D4 K) as (j & -> & ->). apply printf_inj in E; [|cbn [app]; same ltac:(idtac); apply imm64_range].
    n 4%nat E H1. n 6%nat E H2. pose proof (u32_range (b_imm x)). pose proof (u32_range (b_imm y)). split; auto. split; [lia|]. exists i, j. repeat split; auto. lia.
Qed.
Lemma jmp_pieces x nx l : fits x -> (b_code x mod 8 = 5 \/ b_code x mod 8 = 6) -> pieces x nx = Ok l ->
  let c := b_code x in let rw := T (if c mod 8 =? 6 then "w" else "r") in let pre := [T "("; X2 c; T ") "] in
  (c = 133 -> b_src x = 0 -> l = pre ++ [T "call "; W (func_name x (lit "unknown")); T "#"; D (b_imm x); nlp]) /\
  (c = 5 -> l = pre ++ [T "goto pc"; SD (b_off x); nlp]) /\
  (c / 16 <> 0 -> c / 16 <> 8 -> c / 16 <> 9 -> exists o, ~ In " "%char o /\
     if Z.odd (c / 8) then l = pre ++ [T "if "; rw; D (b_dst x); T " "; W o; T " "; rw; D (b_src x); T " goto pc"; SD (b_off x); nlp]
     else l = pre ++ [T "if "; rw; D (b_dst x); T " "; W o; T " 0x"; X (u32 (b_imm x)); T " goto pc"; SD (b_off x); nlp]).
Proof.
  intros (F & _) K E. cbv zeta. destruct (code_bits _ F) as (B1 & B2 & B3 & B4 & B5). unfold pieces in E. rewrite B1, B2, B5 in E.
  split; [|split].
  - intros C S. rewrite C, S in *. cbn in E. injection E as <-. reflexivity.
  - intros C. rewrite C in *. cbn in E. injection E as <-. reflexivity.
  - intros N0 N8 N9.
    assert (R : forall k, b_code x mod 8 = 5 \/ b_code x mod 8 = 6 -> k <> 5 -> k <> 6 -> (b_code x mod 8 =? k) = false) by (intros k H H1 H2; apply Z.eqb_neq; lia).
    rewrite (R 4 K), (R 7 K), (R 3 K), (R 2 K), (R 1 K), (R 0 K) in E by lia. cbn [orb] in E.
    replace (16 * (b_code x / 16) =? 128) with false in E by (symmetry; apply Z.eqb_neq; lia).
    replace (b_code x =? 5) with false in E by (symmetry; apply Z.eqb_neq; intros Q; rewrite Q in N0; now apply N0).
    replace (b_code x =? 6) with false in E by (symmetry; apply Z.eqb_neq; intros Q; rewrite Q in N0; now apply N0).
    replace (b_code x =? 149) with false in E by (symmetry; apply Z.eqb_neq; intros Q; rewrite Q in N9; now apply N9).
    destruct (str _) as [o| | | |] eqn:U in E; try discriminate. cbn [bind] in E. exists o. split; [revert U; apply nosp_in, jmp_sp|].
    destruct (Z.odd (b_code x / 8)); injection E as <-; reflexivity.
Qed.
Lemma digs_no c s : dig c = None -> Forall (fun a => dig a <> None) s -> ~ In c s.
Proof. intros D0 F I. rewrite Forall_forall in F. now apply (F c I). Qed.
Lemma name_hash x : b_src x = 0 -> ~ In "#"%char (func_name x (lit "unknown")).
Proof.
  intros S. unfold func_name. rewrite S. cbn [Z.eqb andb]. destruct ((0 <=? b_imm x) && (b_imm x <? 212)).
  - unfold printf. cbn [flat_map render]. rewrite app_nil_r. intros I. apply in_app_iff in I as [I|I]; [cbn in I; intuition discriminate|].
    destruct (b_imm x <? 0); destruct I as [I|I]; try discriminate; revert I; apply digs_no; [reflexivity|apply dec_digits|reflexivity|apply dec_digits].
  - cbn. intuition discriminate.
Qed.
Lemma jmp_shown x y nx ny l m : fits x -> fits y -> b_code x = b_code y -> (b_code x mod 8 = 5 \/ b_code x mod 8 = 6) ->
  pieces x nx = Ok l -> pieces y ny = Ok m -> printf l = printf m ->
  let c := b_code x in
  (c = 133 -> b_src x = 0 -> b_src y = 0 -> b_imm x = b_imm y) /\
  (c = 5 -> b_off x = b_off y) /\
  (c / 16 <> 0 -> c / 16 <> 8 -> c / 16 <> 9 -> b_dst x = b_dst y /\ b_off x = b_off y /\ if Z.odd (c / 8) then b_src x = b_src y else b_imm x = b_imm y).
Proof.
  intros FX FY CE K PX PY E. cbv zeta. destruct (fits_ranges x FX) as (X1 & X2 & X3 & X4 & X5). destruct (fits_ranges y FY) as (Y1 & Y2 & Y3 & Y4 & Y5).
  apply jmp_pieces in PX; auto. apply jmp_pieces in PY; [|auto|now rewrite <- CE]. cbv zeta in PX, PY. rewrite <- CE in PY, Y5.
  destruct PX as (A1 & A2 & A3), PY as (D1 & D2 & D3). set (c := b_code x) in *.
  split; [|split].
  - intros C S1 S2. rewrite (A1 C S1), (D1 C S2) in E. pose proof (name_hash x S1) as N1. pose proof (name_hash y S2) as N2.
    apply printf_inj in E; [|cbn [app]; same ltac:(eapply (word_alike "#"%char); [eexists; reflexivity|eexists; reflexivity|assumption|assumption|])].
    n 6%nat E H1. auto.
  - intros C. rewrite (A2 C), (D2 C) in E. apply printf_inj in E; [|cbn [app]; same ltac:(idtac)]. n 4%nat E H1. auto.
  - intros N0 N8 N9. destruct (A3 N0 N8 N9) as (o & O & PX), (D3 N0 N8 N9) as (o' & O' & PY). destruct (Z.odd (c / 8)); subst l m.
    + apply printf_inj in E; [|cbn [app]; same ltac:(space)]. n 5%nat E H1. n 10%nat E H2. n 12%nat E H3. auto.
    + apply printf_inj in E; [|cbn [app]; same ltac:(space); cbn [range]; [pose proof (u32_range (b_imm x))|pose proof (u32_range (b_imm y))]; lia].
      n 5%nat E H1. n 9%nat E H2. n 11%nat E H3. split; auto. split; auto. cbn [range] in X4, Y4. unfold u32 in H2. lia.
Qed.

(** ** what runs *)
Definition legal (x : bpf_insn) : Prop := let c := b_code x in
  (c mod 8 = 0 -> c = 24) /\ (c mod 8 = 1 -> c / 32 = 3 \/ c / 32 = 4) /\ (c mod 8 = 2 -> c / 32 = 3) /\ (c mod 8 = 3 -> c / 32 = 3) /\
  (c mod 8 = 5 \/ c mod 8 = 6 -> c = 5 \/ (c = 133 /\ b_src x = 0) \/ c = 149 \/ (c / 16 <> 0 /\ c / 16 <> 8 /\ c / 16 <> 9)).
Lemma class_cases c : 0 <= c -> c mod 8 = 0 \/ c mod 8 = 1 \/ c mod 8 = 2 \/ c mod 8 = 3 \/ c mod 8 = 4 \/ c mod 8 = 5 \/ c mod 8 = 6 \/ c mod 8 = 7.
Proof. intros H. pose proof (Z.mod_pos_bound c 8 eq_refl). lia. Qed.
Lemma odd_bit c : Z.odd (c / 8) = false -> (c / 8) mod 2 = 0.
Proof. intros O. rewrite Zmod_odd, O. reflexivity. Qed.
Lemma jmp_legal w wide x pc s : isa_jmp w wide x pc s <> IStuck -> b_code x mod 8 = (if wide then 5 else 6) ->
  b_code x = 5 \/ (b_code x = 133 /\ b_src x = 0) \/ b_code x = 149 \/ (b_code x / 16 <> 0 /\ b_code x / 16 <> 8 /\ b_code x / 16 <> 9).
Proof.
  intros H K. unfold isa_jmp in H.
  destruct (Z.eqb_spec (b_code x / 16) 0) as [E|N0].
  { destruct wide; cbn [andb] in H; [|congruence]. destruct (Z.odd (b_code x / 8)) eqn:O; cbn [negb] in H; [congruence|]. apply odd_bit in O. left. lia. }
  destruct (Z.eqb_spec (b_code x / 16) 8) as [E|N8].
  { destruct wide; cbn [andb] in H; [|congruence]. destruct (Z.odd (b_code x / 8)) eqn:O; cbn [negb andb] in H; [congruence|]. apply odd_bit in O.
    destruct (Z.eqb_spec (b_src x) 0); [|congruence]. right. left. split; [lia|auto]. }
  destruct (Z.eqb_spec (b_code x / 16) 9) as [E|N9].
  { destruct wide; cbn [andb] in H; [|congruence]. destruct (Z.odd (b_code x / 8)) eqn:O; cbn [negb andb] in H; [congruence|]. apply odd_bit in O. right. right. left. lia. }
  right. right. right. auto.
Qed.
Lemma runs_legal w p pc s x : fetch p pc = Some x -> isa_step w p pc s <> IStuck -> legal x.
Proof.
  intros F H. unfold isa_step in H. rewrite F in H. cbv zeta in H. unfold legal. cbv zeta.
  split; [|split; [|split; [|split]]].
  - intros K. rewrite K in H. destruct (Z.eq_dec (b_code x) 24) as [|N]; [auto|exfalso]. apply H.
    destruct (b_code x) as [|c|c]; auto. do 5 (destruct c as [c|c|]; auto). now elim N.
  - intros K. rewrite K in H. destruct (is_wreg (b_dst x) && is_reg (b_src x)); [|congruence].
    destruct (b_code x / 32) as [|c|c]; try congruence. do 4 (destruct c as [c|c|]; try congruence; try (left; reflexivity); try (right; reflexivity)).
  - intros K. rewrite K in H. destruct (Z.eqb_spec (b_code x / 32) 3); auto. rewrite andb_false_r in H. congruence.
  - intros K. rewrite K in H. destruct (Z.eqb_spec (b_code x / 32) 3); auto. rewrite andb_false_r in H. congruence.
  - intros [K|K]; rewrite K in H; [apply (jmp_legal w true x pc s)|apply (jmp_legal w false x pc s)]; auto.
Qed.
Lemma legal_headed x nx l : fits x -> legal x -> pieces x nx = Ok l -> headed (b_code x) l.
Proof.
  intros FX (L0 & L1 & L2 & L3 & L5) P. pose proof FX as (C & _).
  destruct (class_cases (b_code x)) as [K|[K|[K|[K|K]]]]; [lia|..].
  - apply mem_pieces in P as (_ & _ & _ & P); auto. destruct (P (L0 K)) as (j & _ & ->). eexists. reflexivity.
  - apply mem_pieces in P as (P & _); auto. destruct (P K (L1 K)) as (u & _ & ->). eexists. reflexivity.
  - apply mem_pieces in P as (_ & P & _); auto. destruct (P K (L2 K)) as (u & _ & ->). eexists. reflexivity.
  - apply mem_pieces in P as (_ & _ & P & _); auto. destruct (P K (L3 K)) as (u & _ & ->). eexists. reflexivity.
  - assert (K' : (b_code x mod 8 = 4 \/ b_code x mod 8 = 7) \/ (b_code x mod 8 = 5 \/ b_code x mod 8 = 6)) by tauto. clear K. destruct K' as [K|K].
    + apply alu_pieces in P; auto. cbv zeta in P. destruct (b_code x / 16 =? 13); [destruct (b_code x mod 8 =? 7); subst l; eexists; reflexivity|].
      destruct (b_code x / 16 =? 8); [subst l; eexists; reflexivity|]. destruct P as (o & _ & P). destruct (Z.odd (b_code x / 8)); [destruct P as (m & _ & P)|]; subst l; eexists; reflexivity.
    + destruct (L5 K) as [E|[(E & S)|[E|(N0 & N8 & N9)]]].
      * apply jmp_pieces in P as (_ & P & _); auto. rewrite (P E). eexists. reflexivity.
      * apply jmp_pieces in P as (P & _); auto. rewrite (P E S). eexists. reflexivity.
      * unfold pieces in P. rewrite E in *. cbn in P. injection P as <-. eexists. reflexivity.
      * apply jmp_pieces in P as (_ & _ & P); auto. destruct (P N0 N8 N9) as (o & _ & Q). destruct (Z.odd (b_code x / 8)); subst l; eexists; reflexivity.
Qed.
(** offsets of arithmetic *)
Lemma alu_off w x y pc s : b_code x = b_code y -> fits x -> isa_alu w x pc s <> IStuck -> isa_alu w y pc s <> IStuck ->
  b_code x / 16 <> 13 -> b_code x / 16 <> 8 -> alu_word x = alu_word y -> (Z.odd (b_code x / 8) = true -> mov_word x = mov_word y) -> b_off x = b_off y.
Proof.
  intros CE (F & _) HX HY N13 N8 AW MW. unfold isa_alu in HX, HY. rewrite <- CE in HY.
  destruct (_ || _) in HX; [congruence|]. destruct (_ || _) in HY; [congruence|].
  replace (b_code x / 16 =? 8) with false in * by (symmetry; now apply Z.eqb_neq). replace (b_code x / 16 =? 13) with false in * by (symmetry; now apply Z.eqb_neq).
  destruct (code_bits _ F) as (_ & B2 & _). unfold alu_word, is_sdiv_smod in AW. unfold mov_word, is_movsx in MW. rewrite <- CE in AW, MW. rewrite B2 in AW, MW.
  assert (R : 0 <= b_code x / 16 < 16) by lia. set (k := b_code x / 16) in *. set (ox := b_off x) in *. set (oy := b_off y) in *. clearbody k ox oy.
  assert (K : In k (map Z.of_nat (seq 0 16))) by (replace k with (Z.of_nat (Z.to_nat k)) by lia; apply in_map, in_seq; lia).
  assert (Z0 : forall (o : Z) (r : ires), match o with 0 => r | _ => IStuck end <> IStuck -> o = 0) by (intros [| |] r Q; auto; congruence).
  assert (Z1 : forall (o : Z) (r q : ires), match o with 0 => r | 1 => q | _ => IStuck end <> IStuck -> o = 0 \/ o = 1) by (intros [|[]|] r q Q; auto; congruence).
  destruct (Z.eq_dec k 11) as [->|N11].
  - cbn [Z.eqb Pos.eqb] in HX, HY. clear AW. destruct (Z.odd (b_code x / 8)).
    + specialize (MW eq_refl). cbn in MW.
      assert (Q : forall (o : Z) (a b : ires) (c : bool) (d : ires), match o with 0 => a | 8 => b | 16 => d | 32 => if c then d else IStuck | _ => IStuck end <> IStuck -> o = 0 \/ o = 8 \/ o = 16 \/ o = 32).
      { intros [|o|o] a b c d Q; auto; [|congruence]. do 6 (destruct o as [o|o|]; auto; try congruence). }
      cbn [andb] in HX, HY. assert (XO : ox = 0 \/ ox = 8 \/ ox = 16 \/ ox = 32). { destruct ox as [|o|o]; auto; [|congruence]. do 6 (destruct o as [o|o|]; auto; try congruence). }
      assert (YO : oy = 0 \/ oy = 8 \/ oy = 16 \/ oy = 32). { destruct oy as [|o|o]; auto; [|congruence]. do 6 (destruct o as [o|o|]; auto; try congruence). }
      clear -XO YO MW. destruct XO as [->|[->|[->| ->]]], YO as [->|[->|[->| ->]]]; try reflexivity; discriminate.
    + cbn [andb] in HX, HY. assert (ox = 0). { destruct ox as [|o|o]; auto; [|congruence]. do 6 (destruct o as [o|o|]; auto; try congruence). }
      assert (oy = 0). { destruct oy as [|o|o]; auto; [|congruence]. do 6 (destruct o as [o|o|]; auto; try congruence). } congruence.
  - replace (k =? 11) with false in * by (symmetry; now apply Z.eqb_neq). clear MW.
    cbn in K. repeat (destruct K as [<-|K]; [
      try contradiction; cbn [alu_of] in HX, HY; try congruence;
      first [ apply Z0 in HX; apply Z0 in HY; congruence
            | apply Z1 in HX; apply Z1 in HY; destruct HX as [->| ->], HY as [->| ->]; try reflexivity; discriminate ]|]). destruct K.
Qed.

Lemma alu_same w x y pc s : b_code x = b_code y -> fits x -> b_dst x = b_dst y -> (b_code x / 16 = 13 -> b_imm x = b_imm y) ->
  (b_code x / 16 <> 13 -> b_code x / 16 <> 8 -> alu_word x = alu_word y /\ if Z.odd (b_code x / 8) then b_src x = b_src y /\ mov_word x = mov_word y else b_imm x = b_imm y) ->
  isa_alu w x pc s <> IStuck -> isa_alu w y pc s <> IStuck -> isa_alu w x pc s = isa_alu w y pc s.
Proof.
  intros CE FX DE H13 HO HX HY.
  destruct (Z.eq_dec (b_code x / 16) 13) as [E|N13].
  - specialize (H13 E). clear HO. revert HX HY. unfold isa_alu. rewrite <- CE, <- DE, <- H13, E. cbn [Z.eqb Pos.eqb negb andb]. rewrite !andb_false_r. cbn [andb orb]. intros _ _.
    rewrite orb_false_r. reflexivity.
  - destruct (Z.eq_dec (b_code x / 16) 8) as [E|N8].
    + clear HO. revert HX HY. unfold isa_alu. rewrite <- CE, <- DE, E. cbn [Z.eqb Pos.eqb]. destruct (_ || _); [congruence|]. destruct (_ || _); [congruence|]. reflexivity.
    + destruct (HO N13 N8) as (AW & Q). assert (O : b_off x = b_off y). { apply (alu_off w x y pc s); auto. intros OD. rewrite OD in Q. apply Q. }
      clear HX HY HO H13 AW. destruct x as [cx dx sx ox ix], y as [cy dy sy oy iy]. cbn [b_code b_dst b_src b_off b_imm] in *. subst cy dy oy.
      unfold isa_alu. cbn [b_code b_dst b_src b_off b_imm]. replace (cx / 16 =? 13) with false by (symmetry; now apply Z.eqb_neq). destruct (Z.odd (cx / 8)).
      * destruct Q as (-> & _). reflexivity.
      * subst iy. cbn [andb]. reflexivity.
Qed.
Lemma jmp_same w (wide : bool) x y pc s : b_code x = b_code y -> b_code x mod 8 = (if wide then 5 else 6) ->
  (b_code x = 133 -> b_src x = 0 -> b_src y = 0 -> b_imm x = b_imm y) -> (b_code x = 5 -> b_off x = b_off y) ->
  (b_code x / 16 <> 0 -> b_code x / 16 <> 8 -> b_code x / 16 <> 9 -> b_dst x = b_dst y /\ b_off x = b_off y /\ if Z.odd (b_code x / 8) then b_src x = b_src y else b_imm x = b_imm y) ->
  isa_jmp w wide x pc s <> IStuck -> isa_jmp w wide y pc s <> IStuck -> isa_jmp w wide x pc s = isa_jmp w wide y pc s.
Proof.
  intros CE K H1 H2 H3 HX HY. pose proof (jmp_legal _ _ _ _ _ HX K) as LX. pose proof (jmp_legal _ _ _ _ _ HY ltac:(now rewrite <- CE)) as LY. rewrite <- CE in LY.
  destruct LX as [E|[(E & S)|[E|(N0 & N8 & N9)]]].
  - unfold isa_jmp. rewrite <- CE, E, (H2 E). reflexivity.
  - destruct LY as [E'|[(_ & S')|[E'|(_ & N8 & _)]]]; try (rewrite E in E'; discriminate); [|rewrite E in N8; now elim N8].
    unfold isa_jmp. rewrite <- CE, E, S, S', (H1 E S S'). reflexivity.
  - unfold isa_jmp. rewrite <- CE, E. reflexivity.
  - destruct (H3 N0 N8 N9) as (DE & OE & Q). unfold isa_jmp. rewrite <- CE, <- DE, <- OE.
    replace (b_code x / 16 =? 0) with false by (symmetry; now apply Z.eqb_neq). replace (b_code x / 16 =? 8) with false by (symmetry; now apply Z.eqb_neq).
    replace (b_code x / 16 =? 9) with false by (symmetry; now apply Z.eqb_neq).
    destruct (Z.odd (b_code x / 8)); rewrite <- Q; reflexivity.
Qed.
Lemma same_line w p q pc s x y t : fetch p pc = Some x -> fetch q pc = Some y -> fits x -> fits y ->
  print_insn x (fetch p (pc + 1)) = Ok t -> print_insn y (fetch q (pc + 1)) = Ok t ->
  (b_code x = 24 -> b_src x = b_src y) ->
  isa_step w p pc s <> IStuck -> isa_step w q pc s <> IStuck -> isa_step w p pc s = isa_step w q pc s.
Proof.
  intros GX GY FX FY PX PY SE HX HY. unfold print_insn in PX, PY.
  destruct (pieces x (fetch p (pc + 1))) as [l| | | |] eqn:LX; try discriminate. destruct (pieces y (fetch q (pc + 1))) as [m| | | |] eqn:LY; try discriminate.
  cbn [bind] in PX, PY. injection PX as PX. injection PY as PY. assert (E : printf l = printf m) by congruence. clear PX PY t.
  pose proof (runs_legal _ _ _ _ _ GX HX) as RX. pose proof (runs_legal _ _ _ _ _ GY HY) as RY.
  assert (CE : b_code x = b_code y). { apply (headed_code _ _ l m); [apply FX|apply FY|eapply legal_headed; eauto|eapply legal_headed; eauto|auto]. }
  destruct RX as (R0 & R1 & R2 & R3 & _). clear RY. revert HX HY. unfold isa_step. rewrite GX, GY. cbv zeta. rewrite <- CE.
  pose proof (mem_shown _ _ _ _ _ _ FX FY CE LX LY E) as (M1 & M2 & M3 & M4).
  destruct (class_cases (b_code x)) as [K|[K|[K|[K|[K|[K|[K|K]]]]]]]; [destruct FX; lia|..]; rewrite K.
  - specialize (R0 K). destruct (M4 R0) as (DE & IE & i & j & -> & -> & JE). rewrite R0, <- DE, <- (SE R0), <- IE, <- JE.
    destruct (_ && _); [|congruence]. destruct (_ && _); [|congruence]. reflexivity.
  - destruct (M1 K (R1 K)) as (-> & -> & ->). reflexivity.
  - destruct (M2 K (R2 K)) as (-> & -> & ->). reflexivity.
  - destruct (M3 K (R3 K)) as (-> & -> & ->). reflexivity.
  - destruct (alu_shown _ _ _ _ _ _ FX FY CE (or_introl K) LX LY E) as (A & B & C). now apply alu_same.
  - destruct (jmp_shown _ _ _ _ _ _ FX FY CE (or_introl K) LX LY E) as (A & B & C). now apply jmp_same.
  - destruct (jmp_shown _ _ _ _ _ _ FX FY CE (or_intror K) LX LY E) as (A & B & C). now apply jmp_same.
  - destruct (alu_shown _ _ _ _ _ _ FX FY CE (or_intror K) LX LY E) as (A & B & C). now apply alu_same.
Qed.

(** ** every instruction that runs can be printed *)
Lemma runs_prints w p pc s x : fetch p pc = Some x -> fits x -> isa_step w p pc s <> IStuck -> exists t, print_insn x (fetch p (pc + 1)) = Ok t.
Proof.
  intros G FX H. pose proof FX as (C & _). pose proof (runs_legal _ _ _ _ _ G H) as (L0 & L1 & L2 & L3 & L5).
  assert (Q : exists l, pieces x (fetch p (pc + 1)) = Ok l); [|destruct Q as (l & Q); unfold print_insn; rewrite Q; eexists; reflexivity].
  destruct (code_bits _ C) as (B1 & B2 & B3 & B4 & B5). unfold pieces. rewrite B1, B3, B4.
  unfold isa_step in H. rewrite G in H. cbv zeta in H.
  assert (LD : exists u, str (ldst_string (8 * (b_code x / 8 mod 4))) = Ok u).
  { unfold ldst_string. replace (8 * (b_code x / 8 mod 4) / 8) with (b_code x / 8 mod 4) by lia. assert (R : 0 <= b_code x / 8 mod 4 < 4) by (apply Z.mod_pos_bound; lia).
    assert (J : b_code x / 8 mod 4 = 0 \/ b_code x / 8 mod 4 = 1 \/ b_code x / 8 mod 4 = 2 \/ b_code x / 8 mod 4 = 3) by lia.
    destruct J as [->|[->|[->| ->]]]; eexists; reflexivity. }
  destruct (class_cases (b_code x)) as [K|[K|[K|[K|K]]]]; [lia|..].
  - specialize (L0 K). clear K. rewrite L0 in *. change (24 mod 8) with 0 in *. change (24 / 32) with 0. change (24 / 8 mod 4) with 3. change (32 * 0) with 0; change (8 * 3) with 24; cbn [Z.eqb Pos.eqb orb andb].
    destruct (fetch p (pc + 1)); [|congruence]. eexists. reflexivity.
  - specialize (L1 K). rewrite K in H |- *. cbn [Z.eqb Pos.eqb orb]. destruct L1 as [M|M]; rewrite M in *; change (32 * 3) with 96; change (32 * 4) with 128; cbn [Z.eqb Pos.eqb orb negb andb].
    + destruct LD as (u & ->). eexists. reflexivity.
    + unfold ldsx_string. replace (8 * (b_code x / 8 mod 4) / 8) with (b_code x / 8 mod 4) by lia. assert (R : 0 <= b_code x / 8 mod 4 < 4) by (apply Z.mod_pos_bound; lia).
      destruct (_ && _) in H; [|congruence].
      assert (J : b_code x / 8 mod 4 = 0 \/ b_code x / 8 mod 4 = 1 \/ b_code x / 8 mod 4 = 2 \/ b_code x / 8 mod 4 = 3) by lia.
      destruct J as [J|[J|[J|J]]]; rewrite J in *; try (eexists; reflexivity). now elim H.
  - rewrite K, (L2 K). change (32 * 3) with 96; cbn [Z.eqb Pos.eqb orb]. destruct LD as (u & ->). eexists. reflexivity.
  - rewrite K, (L3 K). change (32 * 3) with 96; cbn [Z.eqb Pos.eqb orb]. destruct LD as (u & ->). eexists. reflexivity.
  - clear LD B3 B4 L0 L1 L2 L3. rewrite B2, B5. assert (R : 0 <= b_code x / 16 < 16) by lia.
    assert (KN : In (b_code x / 16) (map Z.of_nat (seq 0 16))) by (replace (b_code x / 16) with (Z.of_nat (Z.to_nat (b_code x / 16))) by lia; apply in_map, in_seq; lia).
    assert (K' : (b_code x mod 8 = 4 \/ b_code x mod 8 = 7) \/ (b_code x mod 8 = 5 \/ b_code x mod 8 = 6)) by tauto. clear K. destruct K' as [K|K].
    + replace ((b_code x mod 8 =? 4) || (b_code x mod 8 =? 7)) with true by (destruct K as [-> | ->]; reflexivity).
      assert (HA : exists w', isa_alu w' x pc s <> IStuck) by (destruct K as [K|K]; rewrite K in H; eauto). clear H. destruct HA as (w' & H).
      assert (MV : exists m, (if is_movsx x then str (movsx_string (Z.shiftr (b_off x) 3 - 1)) else Ok []) = Ok m).
      { unfold is_movsx. destruct (_ =? 176); cbn [andb]; [|eauto].
        destruct (Z.eqb_spec (b_off x) 8) as [->|]; [eexists; reflexivity|]. destruct (Z.eqb_spec (b_off x) 16) as [->|]; [eexists; reflexivity|].
        destruct (Z.eqb_spec (b_off x) 32) as [->|]; [eexists; reflexivity|]. eexists; reflexivity. }
      destruct MV as (m & MV). rewrite MV. unfold is_sdiv_smod. rewrite B2. unfold isa_alu in H. destruct (_ || _) in H; [congruence|].
      destruct (b_code x mod 8 =? 7), (Z.odd (b_code x / 8)); cbn in KN; repeat (destruct KN as [KN|KN]; [rewrite <- KN in *; clear KN;
        first [now elim H | cbn; try destruct (b_off x =? 1); eexists; reflexivity]|]); destruct KN.
    + assert (RR : forall k, k <> 5 -> k <> 6 -> (b_code x mod 8 =? k) = false) by (intros k H1 H2; apply Z.eqb_neq; lia).
      rewrite (RR 4), (RR 7), (RR 3), (RR 2), (RR 1), (RR 0) by lia. cbn [orb].
      assert (HA : exists wd, isa_jmp w wd x pc s <> IStuck) by (destruct K as [K|K]; rewrite K in H; eauto). clear H RR. destruct HA as (wd & H).
      destruct (16 * (b_code x / 16) =? 128); [destruct (b_src x =? 6); [eauto|]; destruct (b_src x =? 1); eauto|].
      destruct (b_code x =? 5); [eauto|]. destruct (b_code x =? 6); [eauto|]. destruct (b_code x =? 149); [eauto|].
      assert (J : exists o, str (jmp_string (16 * (b_code x / 16))) = Ok o); [|destruct J as (o & ->); cbn [bind]; destruct (Z.odd (b_code x / 8)); eauto].
      unfold isa_jmp in H. cbn in KN. repeat (destruct KN as [KN|KN]; [rewrite <- KN in *; clear KN;
        first [eexists; reflexivity | cbn in H; destruct (_ || _) in H; now elim H]|]). destruct KN.
Qed.
