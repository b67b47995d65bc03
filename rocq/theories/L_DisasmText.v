(** Proofs about the disassembler: what the lines say. *)
From Coq Require Import Lia ZArith List Bool Arith.
From Verif Require Import M_Base SpecWord SpecIsa M_Opts M_Tool SpecTool M_Disasm SpecDisasm L_Disasm.
Import ListNotations.
Open Scope list_scope.
Open Scope Z_scope.
Ltac Zify.zify_post_hook ::= Z.div_mod_to_equations.

Lemma alu_of_inv k o : alu_of k = Some o -> alu_string (16 * k) = Some (alu_sym o) /\ k <> 11 /\ k <> 13 /\ k <> 8 /\ 0 <= k.
Proof.
  intros E. assert (R : 0 <= k < 13). { destruct k as [|k|k]; [lia| |discriminate]. do 4 (destruct k as [k|k|]; try discriminate; try lia). }
  assert (K : In k (map Z.of_nat (seq 0 13))) by (replace k with (Z.of_nat (Z.to_nat k)) by lia; apply in_map, in_seq; lia).
  cbn in K. repeat (destruct K as [<-|K]; [first [discriminate E|injection E as <-; split; [reflexivity|repeat split; lia]]|]). destruct K.
Qed.
Lemma alu_of_div k o : alu_of k = Some o -> (o = ADiv -> k = 3) /\ (o = AMod -> k = 9).
Proof.
  intros E. assert (R : 0 <= k < 13). { destruct k as [|k|k]; [lia| |discriminate]. do 4 (destruct k as [k|k|]; try discriminate; try lia). }
  assert (K : In k (map Z.of_nat (seq 0 13))) by (replace k with (Z.of_nat (Z.to_nat k)) by lia; apply in_map, in_seq; lia).
  cbn in K. repeat (destruct K as [<-|K]; [first [discriminate E|injection E as <-; split; intros Q; first [reflexivity|discriminate Q]]|]). destruct K.
Qed.
Lemma cmp_of_inv k o : cmp_of k = Some o -> jmp_string (16 * k) = Some (cmp_sym o) /\ k <> 0 /\ k <> 8 /\ k <> 9.
Proof.
  intros E. assert (R : 0 <= k < 14). { destruct k as [|k|k]; [lia| |discriminate]. do 4 (destruct k as [k|k|]; try discriminate; try lia). }
  assert (K : In k (map Z.of_nat (seq 0 14))) by (replace k with (Z.of_nat (Z.to_nat k)) by lia; apply in_map, in_seq; lia).
  cbn in K. repeat (destruct K as [<-|K]; [first [discriminate E|injection E as <-; split; [reflexivity|repeat split; lia]]|]). destruct K.
Qed.
Lemma printf_app a b : printf (a ++ b) = printf a ++ printf b.
Proof. apply flat_map_app. Qed.
Lemma line_pieces x nx l m : pieces x nx = Ok m -> printf m = printf ([T "("; X2 (b_code x); T ") "] ++ l ++ [nlp]) -> print_insn x nx = Ok (line_of x l).
Proof.
  intros P E. unfold print_insn. rewrite P. cbn [bind]. rewrite E. unfold line_of. rewrite app_assoc, printf_app. reflexivity.
Qed.
Ltac flat := unfold printf; cbn [app flat_map render]; rewrite <- ?app_assoc; cbn [app lit list_ascii_of_string]; rewrite <- ?app_assoc, ?app_nil_r; try reflexivity.
Lemma sizes z : 0 <= z < 4 -> exists s, ldst_string (8 * z) = Some s /\ lit s = render (T "u") ++ render (D (8 * Z.of_nat (size_of z))).
Proof. intros R. assert (J : z = 0 \/ z = 1 \/ z = 2 \/ z = 3) by lia. destruct J as [->|[->|[->| ->]]]; eexists; split; reflexivity. Qed.
Lemma ssizes z : 0 <= z < 4 -> size_of z <> 8%nat -> exists s, ldsx_string (8 * z) = Some s /\ lit s = render (T "s") ++ render (D (8 * Z.of_nat (size_of z))).
Proof. intros R N. assert (J : z = 0 \/ z = 1 \/ z = 2 \/ z = 3) by lia. destruct J as [->|[->|[->| ->]]]; try (eexists; split; reflexivity). now elim N. Qed.

Ltac no := symmetry; apply Z.eqb_neq; lia.
Lemma says_right x nx l : fits x -> describes x nx l -> print_insn x nx = Ok (line_of x l).
Proof.
  intros (C & _) H. destruct (code_bits _ C) as (B1 & B2 & B3 & B4 & B5).
  assert (SZ : 0 <= b_code x / 8 mod 4 < 4) by (apply Z.mod_pos_bound; lia).
  destruct H as [wide o K A O|wide o K A OO O|wide K A O|wide K A OD O|wide K A|K A|K M|K M N|K M|K M|j K J|K|K|K S R|wide o K A|wide K A].
  - destruct (alu_of_inv _ _ A) as (ST & N11 & N13 & N8 & P). unfold operand, reg_of.
    assert (Q : pieces x nx = pieces x nx) by reflexivity. unfold pieces in Q at 2. rewrite B1, B2, B5 in Q. rewrite K in Q.
    replace (16 * (b_code x / 16) =? 208) with false in Q by no. replace (16 * (b_code x / 16) =? 128) with false in Q by no.
    unfold is_sdiv_smod, is_movsx in Q. rewrite O, B2 in Q. cbn [Z.eqb andb orb] in Q. rewrite !andb_false_r, ST in Q. cbn [str bind] in Q.
    destruct wide, (Z.odd (b_code x / 8)); cbn [Z.eqb Pos.eqb orb] in Q; (eapply line_pieces; [exact Q|flat]).
  - destruct (alu_of_inv _ _ A) as (ST & N11 & N13 & N8 & P). unfold operand, reg_of.
    assert (NB : b_code x / 16 = 3 /\ o = ADiv \/ b_code x / 16 = 9 /\ o = AMod).
    { destruct (alu_of_div _ _ A) as (D3 & D9). destruct OO as [OO|OO]; [left|right]; auto. }
    assert (Q : pieces x nx = pieces x nx) by reflexivity. unfold pieces in Q at 2. rewrite B1, B2, B5 in Q. rewrite K in Q.
    unfold is_sdiv_smod, is_movsx in Q. rewrite O, B2 in Q. clear ST. cbn [Z.eqb Pos.eqb] in Q.
    destruct NB as [(NB & ->)|(NB & ->)]; rewrite NB in Q; cbn in Q;
    destruct wide, (Z.odd (b_code x / 8)); cbn in Q; (eapply line_pieces; [exact Q|flat]).
  - unfold operand, reg_of. assert (Q : pieces x nx = pieces x nx) by reflexivity. unfold pieces in Q at 2. rewrite B1, B2, B5 in Q. rewrite K in Q.
    unfold is_sdiv_smod, is_movsx in Q. rewrite O, B2, A in Q. cbn in Q.
    destruct wide, (Z.odd (b_code x / 8)); cbn in Q; (eapply line_pieces; [exact Q|flat]).
  - unfold reg_of. assert (Q : pieces x nx = pieces x nx) by reflexivity. unfold pieces in Q at 2. rewrite B1, B2, B5 in Q. rewrite K in Q.
    unfold is_sdiv_smod, is_movsx in Q. rewrite B2, A, OD in Q.
    destruct O as [O|[O|O]]; rewrite O in *; cbn in Q; destruct wide; cbn in Q; (eapply line_pieces; [exact Q|flat]).
  - unfold reg_of. assert (Q : pieces x nx = pieces x nx) by reflexivity. unfold pieces in Q at 2. rewrite B1, B2, B5 in Q. rewrite K, A in Q. cbn in Q.
    destruct wide; cbn in Q; (eapply line_pieces; [exact Q|flat]).
  - unfold reg_of. assert (Q : pieces x nx = pieces x nx) by reflexivity. unfold pieces in Q at 2. rewrite B1, B2, B5 in Q. rewrite K, A in Q. cbn in Q.
    destruct (Z.odd (b_code x / 8)); (eapply line_pieces; [exact Q|flat]).
  - unfold reg_of, place. destruct (sizes _ SZ) as (u & U & L). set (n := D (8 * Z.of_nat (size_of (b_code x / 8 mod 4)))) in *.
    assert (Q : pieces x nx = pieces x nx) by reflexivity. unfold pieces in Q at 2. rewrite B1, B3, B4 in Q. rewrite K, M, U in Q. cbn in Q.
    eapply line_pieces; [exact Q|]. flat. fold (lit u). rewrite L. flat.
  - unfold reg_of, place. destruct (ssizes _ SZ N) as (u & U & L). set (n := D (8 * Z.of_nat (size_of (b_code x / 8 mod 4)))) in *.
    assert (Q : pieces x nx = pieces x nx) by reflexivity. unfold pieces in Q at 2. rewrite B1, B3, B4 in Q. rewrite K, M, U in Q. cbn in Q.
    eapply line_pieces; [exact Q|]. flat. fold (lit u). rewrite L. flat.
  - unfold place. destruct (sizes _ SZ) as (u & U & L). set (n := D (8 * Z.of_nat (size_of (b_code x / 8 mod 4)))) in *.
    assert (Q : pieces x nx = pieces x nx) by reflexivity. unfold pieces in Q at 2. rewrite B1, B3, B4 in Q. rewrite K, M, U in Q. cbn in Q.
    eapply line_pieces; [exact Q|]. flat. fold (lit u). rewrite L. flat.
  - unfold reg_of, place. destruct (sizes _ SZ) as (u & U & L). set (n := D (8 * Z.of_nat (size_of (b_code x / 8 mod 4)))) in *.
    assert (Q : pieces x nx = pieces x nx) by reflexivity. unfold pieces in Q at 2. rewrite B1, B3, B4 in Q. rewrite K, M, U in Q. cbn in Q.
    eapply line_pieces; [exact Q|]. flat. fold (lit u). rewrite L. flat.
  - subst nx. unfold reg_of. assert (Q : pieces x (Some j) = pieces x (Some j)) by reflexivity. unfold pieces in Q at 2. rewrite imm64_value in Q. rewrite B1, B3, B4, K in Q.
    change (24 mod 8) with 0 in Q. change (24 / 32) with 0 in Q. change (24 / 8 mod 4) with 3 in Q. change (32 * 0) with 0 in Q. change (8 * 3) with 24 in Q. cbn [Z.eqb Pos.eqb orb andb] in Q.
    eapply line_pieces; [exact Q|]. rewrite K, (Z.add_comm (u32 (b_imm x))). flat.
  - assert (Q : pieces x nx = pieces x nx) by reflexivity. unfold pieces in Q at 2. rewrite K in Q. cbn in Q. eapply line_pieces; [exact Q|]. rewrite K. flat.
  - assert (Q : pieces x nx = pieces x nx) by reflexivity. unfold pieces in Q at 2. rewrite K in Q. cbn in Q. eapply line_pieces; [exact Q|]. rewrite K. flat.
  - assert (Q : pieces x nx = pieces x nx) by reflexivity. unfold pieces in Q at 2. rewrite K, S in Q. cbn in Q. eapply line_pieces; [exact Q|]. rewrite K.
    unfold func_name. rewrite S. replace (0 <=? b_imm x) with true by (symmetry; apply Z.leb_le; lia). replace (b_imm x <? 212) with true by (symmetry; apply Z.ltb_lt; lia).
    cbn [Z.eqb andb]. flat.
  - destruct (cmp_of_inv _ _ A) as (ST & N0 & N8 & N9). unfold reg_of.
    assert (Q : pieces x nx = pieces x nx) by reflexivity. unfold pieces in Q at 2. rewrite B1, B2, B5 in Q. rewrite K, ST in Q.
    replace (16 * (b_code x / 16) =? 128) with false in Q by no. replace (b_code x =? 5) with false in Q by no. replace (b_code x =? 6) with false in Q by no. replace (b_code x =? 149) with false in Q by no.
    cbn [str bind] in Q. destruct wide, (Z.odd (b_code x / 8)); cbn [Z.eqb Pos.eqb orb] in Q; (eapply line_pieces; [exact Q|flat]).
  - unfold reg_of. assert (Q : pieces x nx = pieces x nx) by reflexivity. unfold pieces in Q at 2. rewrite B1, B2, B5 in Q. rewrite K, A in Q.
    replace (b_code x =? 5) with false in Q by no. replace (b_code x =? 6) with false in Q by no. replace (b_code x =? 149) with false in Q by no.
    change (jmp_string (16 * 4)) with (Some "&"%string) in Q. change (16 * 4 =? 128) with false in Q. cbn [str bind] in Q.
    destruct wide, (Z.odd (b_code x / 8)); cbn [Z.eqb Pos.eqb orb] in Q; (eapply line_pieces; [exact Q|flat]).
Qed.
