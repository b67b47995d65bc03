(** The round trip of wide immediates. *)
From Coq Require Import ZArith List Bool Arith Lia.
From Verif Require Import M_Base SpecWord SpecIsa L_Word M_Ir M_Norm L_Norm L_Trans M_GenBB L_GenBB.
Import ListNotations.
Open Scope Z_scope.
Ltac Zify.zify_post_hook ::= Z.div_mod_to_equations.

Definition reg_pos (d : Z) : vrpos := mkPos true 0 d 0.

Lemma s32_id z : - 2 ^ 31 <= z < 2 ^ 31 -> s32 z = z.
Proof.
  intros H. unfold s32, sgn. change (2 ^ (32 - 1)) with 2147483648. change (2 ^ 32) with 4294967296.
  change (2 ^ 31) with 2147483648 in H. destruct (Z.ltb_spec (z mod 4294967296) 2147483648); lia.
Qed.
Lemma sgn_mod n x : 0 < n -> (sgn n x) mod 2 ^ n = x mod 2 ^ n.
Proof. intros H. apply (sgn_congr n x). auto. Qed.

Lemma wide_parts a b : - 2 ^ 31 <= a < 2 ^ 31 -> - 2 ^ 31 <= b < 2 ^ 31 ->
  let z := s64 (u32 a + 2 ^ 32 * b) in
  s32 z = a /\ s32 (Z.shiftr z 32) = b /\ u64 z = u32 a + 2 ^ 32 * u32 b.
Proof.
  intros Ha Hb z.
  assert (E : z = u32 a + 2 ^ 32 * b).
  { unfold z, s64, sgn, u32. change (2 ^ (64 - 1)) with 9223372036854775808.
    change (2 ^ 64) with 18446744073709551616. change (2 ^ 32) with 4294967296.
    change (2 ^ 31) with 2147483648 in *.
    destruct (Z.ltb_spec ((a mod 4294967296 + 4294967296 * b) mod 18446744073709551616) 9223372036854775808); lia. }
  rewrite E. split; [|split].
  - rewrite <- (s32_id a Ha) at 2. unfold s32, sgn. unfold u32.
    replace ((a mod 2 ^ 32 + 2 ^ 32 * b) mod 2 ^ 32) with (a mod 2 ^ 32); [reflexivity|].
    change (2 ^ 32) with 4294967296. lia.
  - rewrite Z.shiftr_div_pow2 by lia. replace ((u32 a + 2 ^ 32 * b) / 2 ^ 32) with b; [apply s32_id; auto|].
    unfold u32. change (2 ^ 32) with 4294967296. lia.
  - unfold u64, u32. change (2 ^ 64) with 18446744073709551616. change (2 ^ 32) with 4294967296.
    change (2 ^ 31) with 2147483648 in *. lia.
Qed.

Theorem wide_round_trip i j d :
  b_code i = 24 -> b_code j = 0 -> 0 <= b_src i <= 6 -> 0 <= d < 11 ->
  - 2 ^ 31 <= b_imm i < 2 ^ 31 -> - 2 ^ 31 <= b_imm j < 2 ^ 31 ->
  exists x t, decode [i; j] 2 0 2 = Ok [x] /\
    u64 (pi_imm64 x) = u32 (b_imm i) + 2 ^ 32 * u32 (b_imm j) /\
    tr_loadimm (mk_loadimm (reg_pos d) (pi_src x) (pi_imm64 x)) = Ok [t] /\
    synthesize 2 [t] = Ok [mkBpf 24 d (b_src i) 0 (b_imm i); mkBpf 0 0 0 0 (b_imm j)].
Proof.
  intros Ci Cj Hs Hd Hi Hj. eexists _, _. split.
  - cbn [decode Nat.leb Nat.add nth_error Nat.ltb]. rewrite Cj. cbn [Z.eqb bind]. reflexivity.
  - cbn [pi_imm64 pi_src]. rewrite to_s64_spec. destruct (wide_parts (b_imm i) (b_imm j) Hi Hj) as (A & B & C).
    split; [exact C|]. split.
    + unfold tr_loadimm, mk_loadimm. cbn -[Z.leb Z.pow s64]. replace (b_src i <=? 6) with true by (symmetry; apply Z.leb_le; lia).
      reflexivity.
    + unfold synthesize. cbn [synth_list synth_one p_wide p_op p_dst p_src p_off p_imm64].
      rewrite A, B. rewrite (Z.mod_small d 16), (Z.mod_small (b_src i) 16) by lia. reflexivity.
Qed.
