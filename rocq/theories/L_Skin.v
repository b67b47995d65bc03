(** Functions that differ in constants marked as stack offsets only. *)
From Coq Require Import ZArith List Bool Arith Lia Permutation.
From Verif Require Import M_Base M_Ir M_Edit M_Norm M_Ra M_Layout M_Pass SpecWord SpecIsa SpecFlat SpecNormCond SpecSsa SpecIr SpecEdit SpecPass SpecShift SpecInstr SpecVirt SpecStrict SpecPrep
  L_Edit L_PrepStr.
From Verif Require Import SpecIr SpecVirt SpecPrep SpecStrict SpecPass.
Import ListNotations.
Open Scope nat_scope.

Inductive sk (x : insn) : insn -> Prop :=
| sk_same : sk x x
| sk_mark v c k : i_op x = ADD -> i_alu x = A_64 -> i_vals x = [v; c] -> v_data c = VConst k -> v_bi c = B_NONE -> v_ct c = A_32 ->
    (- 2 ^ 31 + 2 ^ 15 <= k < 2 ^ 31 - 2 ^ 15)%Z -> sk x (set_vals [v; mkVal (VRawOff k) (v_ct c) (v_bi c)] x).
Record skin (g h : func) : Prop := {
  sn_insn : forall i, match f_insn g i, f_insn h i with Some x, Some y => sk x y | None, None => True | _, _ => False end;
  sn_block : forall b, f_block h b = f_block g b;
  sn_ni : f_ni h = f_ni g; sn_nb : f_nb h = f_nb g; sn_all : f_all h = f_all g; sn_entry : f_entry h = f_entry g }.

Lemma sk_keeps x y : sk x y -> i_op y = i_op x /\ i_alu y = i_alu x /\ i_bb1 y = i_bb1 x /\ i_bb2 y = i_bb2 x /\ i_phi y = i_phi x /\ i_addr y = i_addr x /\
  i_users y = i_users x /\ i_parent y = i_parent x /\ i_u y = i_u x.
Proof. intros [|v c k]; cbn; repeat split. Qed.
(** operands *)
Definition vk (v v' : value) : Prop := v' = v \/ exists c, v_data v = VConst c /\ v_data v' = VRawOff c /\ v_bi v' = B_NONE /\ v_ct v' = A_32 /\ (- 2 ^ 31 + 2 ^ 15 <= c < 2 ^ 31 - 2 ^ 15)%Z.
Lemma vk_refl l : Forall2 vk l l.
Proof. induction l; constructor; auto. now left. Qed.
Lemma sk_vals x y : sk x y -> Forall2 vk (i_vals x) (i_vals y).
Proof.
  intros [|v c k O A V D B C R]; [apply vk_refl|]. cbn. rewrite V. constructor; [now left|]. constructor; [|constructor]. right. exists k. cbn. rewrite B, C. auto.
Qed.
Lemma sk_ops x y : sk x y -> Forall2 vk (operand_values x) (operand_values y).
Proof.
  intros S. unfold operand_values. destruct (sk_keeps x y S) as (O & _ & _ & _ & P & A & _). rewrite O, P, A. apply Forall2_app; [now apply sk_vals|apply vk_refl].
Qed.
Lemma vk_insn v v' d : vk v v' -> v_data v' = VInsn d <-> v_data v = VInsn d.
Proof. intros [->|(c & A & B & _)]; [tauto|]. rewrite A, B. split; discriminate. Qed.
Lemma vk_use v v' d : vk v v' -> is_use_of d v' = is_use_of d v.
Proof. intros [->|(c & A & B & _)]; [reflexivity|]. unfold is_use_of. now rewrite A, B. Qed.
Lemma all_in {A} (P : A -> A -> Prop) l l' : Forall2 P l l' -> forall v', In v' l' -> exists v, In v l /\ P v v'.
Proof. induction 1 as [|a b l l' Q _ IH]; intros v' I; [destruct I|]. destruct I as [<-|I]; [exists a; split; [now left|exact Q]|]. destruct (IH v' I) as (v & J & K). exists v. split; [now right|exact K]. Qed.
Lemma all_nth {A} (P : A -> A -> Prop) l l' : Forall2 P l l' -> forall k v, nth_error l k = Some v -> exists v', nth_error l' k = Some v' /\ P v v'.
Proof. induction 1 as [|a b l l' Q _ IH]; intros [|k] v E; try discriminate E; cbn in E |- *; [injection E as <-; eauto|eauto]. Qed.

Lemma all_length {A} (P : A -> A -> Prop) l l' : Forall2 P l l' -> length l = length l'.
Proof. induction 1; cbn; congruence. Qed.

Section Skin.
Variables g h : func.
Hypothesis S : skin g h.
Lemma sn_get i y : f_insn h i = Some y -> exists x, f_insn g i = Some x /\ sk x y.
Proof. intros E. pose proof (sn_insn _ _ S i) as K. rewrite E in K. destruct (f_insn g i) as [x|]; [eauto|destruct K]. Qed.
Lemma sn_put i x : f_insn g i = Some x -> exists y, f_insn h i = Some y /\ sk x y.
Proof. intros E. pose proof (sn_insn _ _ S i) as K. rewrite E in K. destruct (f_insn h i) as [y|]; [eauto|destruct K]. Qed.
Lemma sn_insns b : insns_of h b = insns_of g b.
Proof. unfold insns_of. now rewrite (sn_block _ _ S). Qed.
Lemma sn_succs b : succs_of h b = succs_of g b.
Proof. unfold succs_of. now rewrite (sn_block _ _ S). Qed.
Lemma sn_preds b : preds_of h b = preds_of g b.
Proof. unfold preds_of. now rewrite (sn_block _ _ S). Qed.
Lemma sn_placed L i : placed_in h L i <-> placed_in g L i.
Proof. split; intros (b & A & B); exists b; rewrite sn_insns in *; auto. Qed.
Lemma sn_uses u d : uses h u d = uses g u d.
Proof.
  unfold uses. pose proof (sn_insn _ _ S u) as K. destruct (f_insn g u) as [x|], (f_insn h u) as [y|]; try contradiction; [|reflexivity].
  apply sk_ops in K. induction K as [|a b l l' Q _ IH]; [reflexivity|]. cbn [filter]. rewrite (vk_use _ _ d Q). destruct (is_use_of d a); cbn [length]; now rewrite IH.
Qed.
Lemma sn_users d : users_of h d = users_of g d.
Proof. unfold users_of. pose proof (sn_insn _ _ S d) as K. destruct (f_insn g d) as [x|], (f_insn h d) as [y|]; try contradiction; [|reflexivity]. apply sk_keeps in K as (_ & _ & _ & _ & _ & _ & K & _). exact K. Qed.
Lemma sn_phi i : is_phi h i <-> is_phi g i.
Proof.
  split; intros (x & X & O).
  - destruct (sn_get i x X) as (y & Y & K). exists y. split; [exact Y|]. apply sk_keeps in K as (K & _). congruence.
  - destruct (sn_put i x X) as (y & Y & K). exists y. split; [exact Y|]. apply sk_keeps in K as (K & _). congruence.
Qed.
Lemma sn_goes b c : goes h b c <-> goes g b c.
Proof.
  split.
  - intros [i x I X O|i x d I X O|i x d I X O|d l E].
    4: rewrite sn_succs in E; eapply go_next; exact E.
    all: rewrite sn_insns in I; destruct (sn_get i x X) as (y & Y & K); apply sk_keeps in K as (K1 & _ & K2 & K3 & _); rewrite ?K2, ?K3; rewrite K1 in O.
    + eapply go_ja; eassumption.
    + eapply go_c1; eassumption.
    + eapply go_c2; eassumption.
  - intros [i x I X O|i x d I X O|i x d I X O|d l E].
    4: rewrite <- sn_succs in E; eapply go_next; exact E.
    all: rewrite <- sn_insns in I; destruct (sn_put i x X) as (y & Y & K); apply sk_keeps in K as (K1 & _ & K2 & K3 & _); rewrite <- ?K2, <- ?K3; rewrite <- K1 in O.
    + eapply go_ja; eassumption.
    + eapply go_c1; eassumption.
    + eapply go_c2; eassumption.
Qed.
Lemma sn_rpath l : rpath h l <-> rpath g l.
Proof.
  split.
  - induction 1 as [|b l c _ IH G]; [rewrite (sn_entry _ _ S); constructor|constructor; [exact IH|now apply sn_goes]].
  - induction 1 as [|b l c _ IH G]; [rewrite <- (sn_entry _ _ S); constructor|constructor; [exact IH|now apply sn_goes]].
Qed.
Lemma sn_few b d : few_empty g b d -> few_empty h b d.
Proof. induction 1 as [b d H|b d _ IH]; [apply fe_full; now rewrite sn_insns|apply fe_empty; intros p; rewrite sn_preds; apply IH]. Qed.

(** ** The layout *)
Lemma sn_last x : match last_of g x, last_of h x with
  | Ok None, Ok None => True | Ok (Some y), Ok (Some y') => sk y y' | Ok _, Ok _ => False | Ok _, _ => False | _, Ok _ => False | a, b => a = b end.
Proof.
  unfold last_of. destruct (rev (b_insns x)) as [|i r]; [exact I|]. unfold get_insn. pose proof (sn_insn _ _ S i) as K.
  destruct (f_insn g i), (f_insn h i); try contradiction; cbn; [exact K|reflexivity].
Qed.
Lemma sn_getb b : get_block h b = get_block g b.
Proof. unfold get_block. now rewrite (sn_block _ _ S). Qed.
Lemma sn_scan bb : forall ps pred, scan_preds h bb ps pred = scan_preds g bb ps pred.
Proof.
  induction ps as [|p ps IH]; intros pred; cbn [scan_preds]; [reflexivity|]. rewrite sn_getb. destruct (get_block g p) as [x| | | |]; try reflexivity. cbn [bind].
  destruct (b_succs x) as [|a [|b [|]]]; try reflexivity.
  - pose proof (sn_last x) as K. destruct (last_of g x) as [[y|]| | | |], (last_of h x) as [[y'|]| | | |]; try contradiction; try congruence; try reflexivity; cbn [bind].
    + replace (ends_ja (Some y')) with (ends_ja (Some y)) by (cbn; now rewrite (proj1 (sk_keeps _ _ K))). rewrite IH. destruct (ends_ja (Some y)); [reflexivity|]. destruct pred; [reflexivity|apply IH].
    + rewrite IH. destruct (ends_ja None); [reflexivity|]. destruct pred; [reflexivity|apply IH].
  - rewrite !IH. destruct (a =? bb); [|reflexivity]. destruct pred; rewrite ?IH; reflexivity.
Qed.
Lemma sn_head : forall n bb, find_chain_head n h bb = find_chain_head n g bb.
Proof.
  induction n as [|n IH]; intros bb; cbn [find_chain_head]; [reflexivity|]. rewrite sn_getb. destruct (get_block g bb) as [x| | | |]; try reflexivity. cbn [bind]. rewrite sn_scan.
  destruct (scan_preds g bb (b_preds x) None) as [[[p|]|]| | | |]; try reflexivity. cbn [bind]. apply IH.
Qed.
Lemma sn_walk : forall n bb acc todo, walk n h bb acc todo = walk n g bb acc todo.
Proof.
  induction n as [|n IH]; intros bb acc todo; cbn [walk]; [reflexivity|]. rewrite sn_getb. destruct (get_block g bb) as [x| | | |]; try reflexivity. cbn [bind].
  destruct (b_succs x) as [|a [|b [|]]]; try reflexivity; [|apply IH].
  pose proof (sn_last x) as K. destruct (last_of g x) as [[y|]| | | |], (last_of h x) as [[y'|]| | | |]; try contradiction; try congruence; try reflexivity; cbn [bind]; [|apply IH].
  destruct (sk_keeps _ _ K) as (K1 & _ & K2 & _). rewrite K1, K2. destruct (iop_eqb (i_op y) JA); [reflexivity|apply IH].
Qed.
Lemma sn_reach : forall n acc todo, add_reach n h acc todo = add_reach n g acc todo.
Proof.
  induction n as [|n IH]; intros acc todo; cbn [add_reach]; [reflexivity|]. destruct todo as [|bb r]; [reflexivity|]. destruct (existsb (Nat.eqb bb) acc); [apply IH|].
  rewrite sn_head. destruct (find_chain_head (Datatypes.S n) g bb) as [[p|]| | | |]; try reflexivity. cbn [bind]. destruct (existsb (Nat.eqb p) acc); [reflexivity|]. rewrite sn_walk.
  destruct (walk (Datatypes.S n) g p acc r) as [w| | | |]; try reflexivity. cbn [bind]. apply IH.
Qed.
Lemma sn_gend : forall l, gen_end h l = gen_end g l.
Proof. induction l as [|b l IH]; cbn [gen_end]; [reflexivity|]. rewrite sn_getb, IH. reflexivity. Qed.
End Skin.
Lemma skin_fix g h b h' : skin g h -> fix_succs h b = Ok h' -> exists g', fix_succs g b = Ok g' /\ skin g' h'.
Proof.
  intros S E. unfold fix_succs in *. rewrite (sn_getb g h S) in E. destruct (get_block g b) as [x| | | |] eqn:X; try discriminate E. cbn [bind] in *.
  pose proof (sn_last g h S x) as K. destruct (last_of g x) as [[y|]| | | |], (last_of h x) as [[y'|]| | | |]; try contradiction; try discriminate E; cbn [bind] in *.
  - destruct (sk_keeps _ _ K) as (K1 & _ & K2 & K3 & _). rewrite K1, K2, K3 in E.
    assert (Q : forall l, skin (with_block (upd (f_block g) b (Some (set_succs l x))) g) (with_block (upd (f_block h) b (Some (set_succs l x))) h)).
    { intros l. destruct S as [A B C D F G]. constructor; cbn; auto. intros c. unfold upd. destruct (c =? b); auto. }
    destruct (is_cond_jmp_op (i_op y)); [destruct (_ =? 2); [|discriminate E]; injection E as <-; eauto|].
    destruct (iop_eqb (i_op y) JA); [destruct (_ =? 1); [|discriminate E]; injection E as <-; eauto|]. injection E as <-. eauto.
  - injection E as <-. eauto.
Qed.
Lemma skin_fixes : forall l g h h', skin g h -> ofold fix_succs h l = Ok h' -> exists g', ofold fix_succs g l = Ok g' /\ skin g' h'.
Proof.
  induction l as [|b l IH]; intros g h h' S E; cbn [ofold] in *; [injection E as <-; eauto|]. destruct (fix_succs h b) as [h1| | | |] eqn:E1; try discriminate E. cbn [bind] in E.
  destruct (skin_fix _ _ _ _ S E1) as (g1 & -> & S1). cbn [bind]. exact (IH _ _ _ S1 E).
Qed.
Lemma skin_layout k g h h' le : skin g h -> layout k h = Ok (h', le) -> exists g', layout k g = Ok (g', le) /\ skin g' h'.
Proof.
  intros S E. unfold layout in *. bo E h1 E1. bo E l E2. bo E e E3. injection E as <- <-. unfold gen_bb_succ in *. rewrite (sn_all _ _ S) in E1.
  destruct (skin_fixes _ _ _ _ S E1) as (g1 & -> & S1). cbn [bind]. unfold gen_reachable in *. rewrite (sn_reach _ _ S1), (sn_entry _ _ S1) in E2. rewrite E2. cbn [bind]. rewrite (sn_gend _ _ S1) in E3. rewrite E3. cbn [bind]. eauto.
Qed.

(** ** Being fit for code generation *)
Theorem skin_compilable g h L sp args d : skin g h -> compilable g L sp args d -> compilable h L sp args d.
Proof.
  intros S [A B C D E F G H J K M]. pose proof (sn_insns g h S) as SI. pose proof (sn_succs g h S) as SS. pose proof (sn_preds g h S) as SP. pose proof (sn_placed g h S) as PL. pose proof (sn_goes g h S) as GO.
  pose proof (sn_uses g h S) as SU. pose proof (sn_entry _ _ S) as EN. constructor.
  - destruct A as [A1 A2 A3 A4 A5 A6 A7 A8 A9 A10 A11 A12 A13]. constructor.
    + destruct A1 as (X & Y). split; [intros i I|intros b I].
      * rewrite (sn_ni _ _ S) in I. pose proof (sn_insn _ _ S i) as Q. rewrite (X i I) in Q. destruct (f_insn h i); [destruct Q|reflexivity].
      * rewrite (sn_block _ _ S). apply Y. now rewrite <- (sn_nb _ _ S).
    + destruct A2 as [T1 T2 T3 T4]. constructor.
      * intros u v. rewrite SU, (sn_users g h S). apply T1.
      * intros b i I. rewrite SI in I. destruct (T2 b i I) as (x & X & Px). destruct (sn_put g h S i x X) as (y & Y & Q). exists y. split; [exact Y|]. apply sk_keeps in Q. destruct Q as (_ & _ & _ & _ & _ & _ & _ & Q & _). congruence.
      * intros b. rewrite SI. apply T3.
      * intros u v. rewrite SU. intros U. destruct (T4 u v U) as (x & X & I). destruct (sn_put g h S u x X) as (y & Y & Q). exists y. split; [exact Y|]. apply sk_keeps in Q. destruct Q as (_ & _ & _ & _ & _ & _ & _ & Q & _). rewrite SI, Q. exact I.
    + destruct A3 as (X & Y & Z). split; [exact X|]. split; [intros b I; rewrite (sn_block _ _ S); now apply Y|]. intros b i I. rewrite SI in I. now apply Z in I.
    + destruct A4 as (X & x & Y & Z). split; [now rewrite PL|]. destruct (sn_put g h S sp x Y) as (y & Y' & Q). exists y. split; [exact Y'|]. now rewrite (proj1 (sk_keeps _ _ Q)).
    + destruct A5 as (X & Y & Z & T). split; [exact X|]. split; [exact Y|]. split; [exact Z|]. intros a I. destruct (T a I) as (T1 & x & Tx & To). split; [now rewrite PL|].
      destruct (sn_put g h S a x Tx) as (y & Y' & Q). exists y. split; [exact Y'|]. now rewrite (proj1 (sk_keeps _ _ Q)).
    + intros u y v' Pu Y V. rewrite PL in Pu. destruct (sn_get g h S u y Y) as (x & X & Q). destruct (all_in _ _ _ (sk_ops _ _ Q) v' V) as (v & Iv & Kv). specialize (A6 u x v Pu X Iv).
      destruct Kv as [->|(c & _ & Kc & _)]; [|now rewrite Kc]. unfold operand_fits in *. destruct (v_data v) as [| | |t| |]; auto. destruct A6 as [A6|[A6|(A6 & z & Z1 & Z2)]]; auto. right. right. split; [now rewrite PL|].
      destruct (sn_put g h S t z Z1) as (z' & Z' & Q'). exists z'. split; [exact Z'|]. now rewrite (proj1 (sk_keeps _ _ Q')).
    + intros b c I Gc. rewrite GO in Gc. rewrite EN, SP. now apply A7.
    + intros b p I Ip. rewrite SP in Ip. now apply (A8 b).
    + intros b l1 i l2 y E1 Y O. rewrite SI in E1. destruct (sn_get g h S i y Y) as (x & X & Q). rewrite (proj1 (sk_keeps _ _ Q)) in O. exact (A9 b l1 i l2 x E1 X O).
    + intros i y Pi Y O. rewrite PL in Pi. destruct (sn_get g h S i y Y) as (x & X & Q). pose proof (sk_keeps _ _ Q) as (O1 & _ & _ & _ & Ph & _). rewrite O1 in O. rewrite Ph. destruct (A10 i x Pi X O) as (V & Rr). split; [|exact Rr].
      pose proof (sk_vals _ _ Q) as W. rewrite V in W. inversion W. reflexivity.
    + intros i y Pi Y O. rewrite PL in Pi. destruct (sn_get g h S i y Y) as (x & X & Q). rewrite (proj1 (sk_keeps _ _ Q)) in O. rewrite <- (all_length _ _ _ (sk_vals _ _ Q)). exact (A11 i x Pi X O).
    + intros i y Pi Y. rewrite PL in Pi. destruct (sn_get g h S i y Y) as (x & X & Q). rewrite (proj1 (sk_keeps _ _ Q)). exact (A12 i x Pi X).
    + rewrite EN. destruct A13 as (X & Z). split; [exact X|]. intros i l El. rewrite SI in El. intros Ph. apply (Z i l El). now apply (sn_phi g h S).
  - destruct B as [B1 B2]. constructor.
    + intros i y Pi Y. rewrite PL in Pi. destruct (sn_get g h S i y Y) as (x & X & Q). rewrite (proj1 (sk_keeps _ _ Q)). exact (B1 i x Pi X).
    + intros i y v' Pi Y V. rewrite PL in Pi. destruct (sn_get g h S i y Y) as (x & X & Q). destruct (all_in _ _ _ (sk_ops _ _ Q) v' V) as (v & Iv & [->|(c & _ & _ & Kb & _)]); [exact (B2 i x v Pi X Iv)|exact Kb].
  - intros i y Pi Y O. rewrite PL in Pi. destruct (sn_get g h S i y Y) as (x & X & Q). rewrite (proj1 (sk_keeps _ _ Q)) in O. destruct (C i x Pi X O) as (v & Nv & Kv).
    destruct (all_nth _ _ _ (sk_vals _ _ Q) 1 v Nv) as (v' & Nv' & W). exists v'. split; [exact Nv'|]. intros t T. apply (vk_insn _ _ t W) in T. now apply Kv.
  - pose proof (sn_rpath g h S) as RP. destruct D as [D1 D2 D3 D4 D5 D6]. constructor.
    + intros b. rewrite SI. destruct (D1 b) as (phs & ids & K1 & K2 & K3). exists phs, ids. split; [exact K1|]. split; intros i I; rewrite (sn_phi g h S); auto.
    + intros i. rewrite EN, SI, (sn_phi g h S). apply D2.
    + intros b i y q l I Y O R Gq. rewrite SI in I. destruct (sn_get g h S i y Y) as (x & X & Q). pose proof (sk_keeps _ _ Q) as (O1 & _ & _ & _ & Ph & _). rewrite O1 in O. rewrite Ph. rewrite RP in R. rewrite GO in Gq. exact (D3 b i x q l I X O R Gq).
    + intros b u y t c I Y O U Ic. rewrite !SI in *. destruct (sn_get g h S u y Y) as (x & X & Q). rewrite (proj1 (sk_keeps _ _ Q)) in O. rewrite SU in U. destruct (D4 b u x t c I X O U Ic) as [W|W]; [now left|right]. intros l R. apply W. now apply RP.
    + intros b u y v q t c I Y O V Dv Ic l R. rewrite !SI in *. destruct (sn_get g h S u y Y) as (x & X & Q). pose proof (sk_keeps _ _ Q) as (O1 & _ & _ & _ & Ph & _). rewrite O1 in O. rewrite Ph in V. rewrite RP in R. exact (D5 b u x v q t c I X O V Dv Ic l R).
    + intros u y v r a Y O V Dv. destruct (sn_get g h S u y Y) as (x & X & Q). rewrite (proj1 (sk_keeps _ _ Q)) in O.
      destruct Q as [|v0 c0 k0 O0]; [|congruence]. destruct (D6 u x v r a X O V Dv) as (z & Z & Oz). destruct (sn_put g h S a z Z) as (z' & Z' & Q'). exists z'. split; [exact Z'|]. now rewrite (proj1 (sk_keeps _ _ Q')).
  - destruct E as [E1 E2]. constructor.
    + intros b p I Ip. rewrite SP in Ip. apply GO. now apply E1.
    + intros b I. destruct (E2 b I) as (l & R). exists l. now apply (sn_rpath g h S).
  - intros i y Pi Y. rewrite PL in Pi. destruct (sn_get g h S i y Y) as (x & X & Q). rewrite (proj1 (sk_keeps _ _ Q)). exact (F i x Pi X).
  - intros i y Pi Y. rewrite PL in Pi. destruct (sn_get g h S i y Y) as (x & X & Q). destruct (G i x Pi X) as [G1 G2 G3 G4 G5 G6 G7]. pose proof (sk_keeps _ _ Q) as (O1 & Al & _ & _ & Ph & Ad & _). constructor.
    + intros v' c V Dc. destruct (all_in _ _ _ (sk_ops _ _ Q) v' V) as (v & Iv & [->|(c' & _ & Kc & _)]); [exact (G1 v c Iv Dc)|congruence].
    + intros v' V. destruct (all_in _ _ _ (sk_ops _ _ Q) v' V) as (v & Iv & [->|(c' & _ & Kc & Kb & Kt & Kr)]); [exact (G2 v Iv)|]. unfold hole_ok. rewrite Kc. auto.
    + rewrite O1. intros O v' V. destruct Q as [|v0 c0 k0 O0]; [exact (G3 O v' V)|]. destruct O; congruence.
    + rewrite O1, Al. exact G4.
    + rewrite O1, Al. intros O A32. destruct Q as [|v0 c0 k0 O0 A0]; [exact (G5 O A32)|congruence].
    + rewrite O1, Ad. exact G6.
    + rewrite O1, Ad. exact G7.
  - intros i y v' Pi Y O V Dv. rewrite PL in Pi. destruct (sn_get g h S i y Y) as (x & X & Q). rewrite (proj1 (sk_keeps _ _ Q)) in O. destruct (all_in _ _ _ (sk_vals _ _ Q) v' V) as (v & Iv & W). apply (vk_insn _ _ sp W) in Dv. exact (H i x v Pi X O Iv Dv).
  - destruct J as [J1 J2 J3]. constructor.
    + rewrite EN. exact J1.
    + intros b i y I Y O. rewrite SI in I. destruct (sn_get g h S i y Y) as (x & X & Q). pose proof (sk_keeps _ _ Q) as (O1 & _ & B1 & _). rewrite O1 in O. rewrite B1. exact (J2 b i x I X O).
    + intros b c I NJ Hd. rewrite SS in Hd. apply (J3 b c I); [|exact Hd]. intros i x Ii X. destruct (sn_put g h S i x X) as (y & Y & Q). rewrite <- (proj1 (sk_keeps _ _ Q)). apply (NJ i y); [now rewrite SI|exact Y].
  - intros b I. apply (sn_few g h S). now apply K.
  - intros i y Pi Y. rewrite PL in Pi. destruct (sn_get g h S i y Y) as (x & X & Q). rewrite (proj1 (sk_keeps _ _ Q)). exact (M i x Pi X).
Qed.
Lemma skin_enough ar g h L : skin g h -> enough_args ar g L -> enough_args ar h L.
Proof.
  intros S E i y Pi Y O. rewrite (sn_placed g h S) in Pi. destruct (sn_get g h S i y Y) as (x & X & Q). pose proof (sk_keeps _ _ Q) as (O1 & _ & _ & _ & _ & _ & _ & _ & U). rewrite O1 in O. rewrite U, <- (all_length _ _ _ (sk_vals _ _ Q)). exact (E i x Pi X O).
Qed.
Lemma head_part {A} (P : A -> Prop) (i : A) : P i -> forall l1 l2 phs ids, l1 ++ i :: l2 = phs ++ ids -> (forall k, In k ids -> ~ P k) -> exists r, phs = l1 ++ r.
Proof.
  intros Pi. induction l1 as [|a l1 IH]; intros l2 phs ids E B; [now exists phs|]. destruct phs as [|c phs].
  - exfalso. cbn in E. apply (B i); [|exact Pi]. rewrite <- E. right. apply in_or_app. right. now left.
  - cbn in E. injection E as -> E. destruct (IH l2 phs ids E B) as (r & ->). now exists r.
Qed.
Lemma strict_first f : SpecStrict.strict f -> phis_first f.
Proof.
  intros S b l1 i l2 E Ph k Ik. destruct (st_first _ S b) as (phs & ids & E2 & A & B). rewrite E in E2.
  destruct (head_part (is_phi f) i Ph _ _ _ _ E2 B) as (r & ->). apply A. apply in_or_app. now left.
Qed.
