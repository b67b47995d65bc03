(** Instruction-set facts and witnesses for the block properties. *)
From Coq Require Import ZArith List Bool Arith Lia.
From Verif Require Import M_Base SpecWord SpecIsa L_Word M_GenBB SpecCfg L_GenBB.
Import ListNotations.
Open Scope nat_scope.
Ltac Zify.zify_post_hook ::= Z.div_mod_to_equations.

(** The successor relation covers every step of the instruction set. *)
Lemma next_pcs_sound w p pc s pc' s' i : fetch p pc = Some i -> isa_step w p pc s = INext pc' s' ->
  (0 <= b_code i < 256)%Z -> In pc' (next_pcs i pc).
Proof.
  intros F X R. unfold isa_step in X. rewrite F in X. unfold next_pcs.
  assert (Cd : forall n : Z, (b_code i mod 8 = 5 \/ b_code i mod 8 = 6)%Z -> (b_code i / 16 = n)%Z ->
     two_way (b_code i) = ((1 <=? n) && (n <=? 7) || (10 <=? n) && (n <=? 13))%Z).
  { intros n H E. unfold two_way. cbv zeta. rewrite E. destruct H as [H | H]; rewrite H; reflexivity. }
  assert (Jm : forall wide : bool, (b_code i mod 8 = (if wide then 5 else 6))%Z -> isa_jmp w wide i pc s = INext pc' s' ->
     In pc' (if (b_code i =? 5)%Z then [(pc + 1 + b_off i)%Z] else if two_way (b_code i) then [(pc + 1 + b_off i)%Z; (pc + 1)%Z]
        else if (b_code i =? 0x95)%Z then [] else if (b_code i =? 24)%Z then [(pc + 2)%Z] else [(pc + 1)%Z])).
  { intros wide Hc Y. unfold isa_jmp in Y. cbv zeta in Y.
    assert (Hc' : (b_code i mod 8 = 5 \/ b_code i mod 8 = 6)%Z) by (destruct wide; auto).
    specialize (Cd _ Hc' eq_refl).
    destruct (Z.eqb_spec (b_code i / 16) 0) as [E|E].
    - destruct wide; simpl in Y; [|discriminate]. destruct (Z.odd (b_code i / 8)) eqn:O; simpl in Y; [discriminate|].
      injection Y as <- _. assert (b_code i = 5%Z).
      { assert (b_code i / 8 mod 2 = 0)%Z by (rewrite Zmod_odd, O; reflexivity). lia. }
      rewrite H. left. reflexivity.
    - destruct (Z.eqb_spec (b_code i / 16) 8) as [E8|E8].
      { rewrite Cd, E8. cbn. destruct (wide && negb (Z.odd (b_code i / 8)) && (b_src i =? 0)%Z); [|discriminate].
        injection Y as <- _. destruct (Z.eqb_spec (b_code i) 5); [lia|]. destruct (Z.eqb_spec (b_code i) 149); [lia|].
        destruct (Z.eqb_spec (b_code i) 24); [lia|]. left. reflexivity. }
      destruct (Z.eqb_spec (b_code i / 16) 9) as [E9|E9].
      { destruct (wide && negb (Z.odd (b_code i / 8))); discriminate. }
      match type of Y with (if ?b then _ else _) = _ => destruct b; [discriminate|] end.
      match type of Y with match ?c with _ => _ end = _ => destruct c as [tk|] eqn:T; [|discriminate] end.
      assert (Tw : two_way (b_code i) = true).
      { rewrite Cd. destruct (Z.eqb_spec (b_code i / 16) 4) as [E4|E4]; [rewrite E4; reflexivity|].
        destruct (cmp_of (b_code i / 16)) eqn:Q; [|discriminate]. clear - Q.
        revert Q. unfold cmp_of. generalize (b_code i / 16)%Z. intros z Q.
        destruct z as [|q|q]; try discriminate. do 4 (try destruct q as [q|q|]; try discriminate; try reflexivity). }
      rewrite Tw. destruct (Z.eqb_spec (b_code i) 5); [lia|]. injection Y as <- _. destruct tk; simpl; auto. }
  assert (Ot : (b_code i mod 8 <> 5 -> b_code i mod 8 <> 6 -> b_code i <> 24 -> pc' = pc + 1)%Z ->
     (b_code i mod 8 <> 5)%Z -> (b_code i mod 8 <> 6)%Z -> (b_code i <> 24)%Z ->
     In pc' (if (b_code i =? 5)%Z then [(pc + 1 + b_off i)%Z] else if two_way (b_code i) then [(pc + 1 + b_off i)%Z; (pc + 1)%Z]
        else if (b_code i =? 0x95)%Z then [] else if (b_code i =? 24)%Z then [(pc + 2)%Z] else [(pc + 1)%Z])).
  { intros H A B C. specialize (H A B C). subst pc'.
    destruct (Z.eqb_spec (b_code i) 5); [lia|]. destruct (two_way (b_code i)) eqn:T.
    { unfold two_way in T. lia. }
    destruct (Z.eqb_spec (b_code i) 149); [lia|]. destruct (Z.eqb_spec (b_code i) 24); [lia|]. left. reflexivity. }
  assert (Al : forall b, isa_alu b i pc s = INext pc' s' -> pc' = (pc + 1)%Z).
  { intros b Y. unfold isa_alu in Y. cbv zeta in Y.
    repeat match type of Y with
    | (if ?c then _ else _) = _ => destruct c
    | match ?c with _ => _ end = _ => destruct c
    end; try discriminate; injection Y as <- _; reflexivity. }
  assert (Mc : (0 <= b_code i mod 8 < 8)%Z) by lia. cbv zeta in X.
  destruct (b_code i mod 8)%Z as [|q|q] eqn:Mq; [| |lia].
  - destruct (Z.eq_dec (b_code i) 24) as [E24|E24].
    + rewrite E24 in *. destruct (fetch p (pc + 1)) as [j|]; [|discriminate].
      destruct (is_wreg (b_dst i) && (0 <=? b_src i)%Z && (b_src i <=? 6)%Z && (b_code j =? 0)%Z); [|discriminate].
      injection X as <- _. left. reflexivity.
    + exfalso. destruct (b_code i) as [|r|r]; try discriminate.
      do 5 (try destruct r as [r|r|]; try discriminate; try congruence).
  - do 3 (try destruct q as [q|q|]; try lia); try (apply Jm with (wide := true); [reflexivity | exact X]);
      try (apply Jm with (wide := false); [reflexivity | exact X]); apply Ot; try lia; intros _ _ _.
    all: try (eapply Al; exact X).
    all: repeat match type of X with
    | (if ?c then _ else _) = _ => destruct c
    | match ?c with _ => _ end = _ => destruct c
    end; try discriminate; injection X as <- _; reflexivity.
Qed.

(** ** Checking well-formedness of concrete programs *)
Definition in_prog (p : list bpf_insn) (t : Z) : bool :=
  (0 <=? t)%Z && match nth_error p (Z.to_nat t) with Some i => negb (b_code i =? 0)%Z | None => false end.
Definition wf_at (p : list bpf_insn) (j : nat) (i : bpf_insn) : bool :=
  let c := b_code i in
  (negb ((c mod 8 =? 5) || (c mod 8 =? 6)) || (c =? 5) || (c =? 0x85) || (c =? 0x95) || two_way c)%Z &&
  (negb (c =? 24)%Z || match nth_error p (S j) with Some i2 => (b_code i2 =? 0)%Z | None => false end) &&
  (negb (c =? 0)%Z || match j with O => false | S j' => match nth_error p j' with Some i' => (b_code i' =? 24)%Z | None => false end end) &&
  ((c =? 0)%Z || forallb (in_prog p) (next_pcs i (Z.of_nat j))).
Fixpoint wf_from (p : list bpf_insn) (j : nat) (l : list bpf_insn) : bool :=
  match l with
  | [] => true
  | i :: r => wf_at p j i && wf_from p (S j) r
  end.
Definition wf_chk (p : list bpf_insn) : bool := negb (length p =? 0) && wf_from p 0 p.

Lemma wf_from_at p : forall l j k i, wf_from p j l = true -> nth_error l k = Some i -> wf_at p (j + k) i = true.
Proof.
  induction l as [|x r IH]; intros j k i H N; [destruct k; discriminate|].
  cbn [wf_from] in H. apply andb_true_iff in H. destruct H as [A B]. destruct k; simpl in N.
  - injection N as <-. rewrite Nat.add_0_r. auto.
  - rewrite <- Nat.add_succ_comm. apply IH; auto.
Qed.
Lemma wf_at_ok p : p <> [] -> (forall j i, at_pos p j i -> wf_at p j i = true) -> wf_prog p.
Proof.
  intros Np H. constructor; auto.
  - intros j i A B. specialize (H j i A). unfold wf_at in H. rewrite !andb_true_iff in H. destruct H as [[[H _] _] _].
    rewrite !orb_true_iff, !Z.eqb_eq, negb_true_iff, orb_false_iff, !Z.eqb_neq in H. lia || (destruct (two_way (b_code i)); auto; intuition).
  - intros j i A B. specialize (H j i A). unfold wf_at in H. rewrite !andb_true_iff in H. destruct H as [[[_ H] _] _].
    rewrite B in H. change (24 =? 24)%Z with true in H. cbn [negb orb] in H. unfold at_pos. destruct (nth_error p (S j)) as [i2|] eqn:Q; [|discriminate]. exists i2. split; auto. apply Z.eqb_eq. auto.
  - intros j i A B. specialize (H j i A). unfold wf_at in H. rewrite !andb_true_iff in H. destruct H as [[_ H] _].
    rewrite B in H. change (0 =? 0)%Z with true in H. cbn [negb orb] in H. destruct j as [|j']; [discriminate|]. destruct (nth_error p j') as [i2|] eqn:Q; [|discriminate].
    exists j', i2. split; auto. split; auto. apply Z.eqb_eq. auto.
  - intros j i t A B T. specialize (H j i A). unfold wf_at in H. rewrite !andb_true_iff in H. destruct H as [_ H].
    apply orb_true_iff in H. destruct H as [H | H]; [apply Z.eqb_eq in H; congruence|].
    rewrite forallb_forall in H. specialize (H t T). unfold in_prog in H. apply andb_true_iff in H. destruct H as [H1 H2].
    apply Z.leb_le in H1. destruct (nth_error p (Z.to_nat t)) as [i'|] eqn:Q; [|discriminate].
    exists (Z.to_nat t), i'. split; [lia|]. split; auto. apply negb_true_iff, Z.eqb_neq in H2. auto.
Qed.
Lemma wf_chk_ok p : wf_chk p = true -> wf_prog p.
Proof.
  unfold wf_chk. rewrite andb_true_iff, negb_true_iff, Nat.eqb_neq. intros [A B]. apply wf_at_ok.
  - intros ->. apply A. reflexivity.
  - intros j i N. apply (wf_from_at p p 0 j i B N).
Qed.

Definition jt_chk (p : list bpf_insn) (t : Z) : bool :=
  existsb (fun j => match nth_error p j with
                    | Some i => ((b_code i =? 5)%Z || two_way (b_code i)) && (t =? Z.of_nat j + 1 + b_off i)%Z
                    | None => false end) (seq 0 (length p)).
Lemma jt_chk_ok p t : jt_chk p t = false -> ~ jump_target p t.
Proof.
  intros H (j & i & A & B & C). rewrite <- not_true_iff_false in H. apply H. apply existsb_exists. exists j.
  split; [apply in_seq; assert (j < length p) by (apply nth_error_Some; unfold at_pos in A; congruence); lia|].
  unfold at_pos in A. rewrite A. apply andb_true_iff. split; [|apply Z.eqb_eq; auto].
  apply orb_true_iff. rewrite Z.eqb_eq. auto.
Qed.

(** ** A jump to the first instruction *)
Definition loop0 : list bpf_insn := [mkBpf 0xb7 0 0 0 0; mkBpf 5 0 0 (-2) 0].
Lemma loop0_witness : exists p bs A i, wf_prog p /\ (length p <= 10) /\ gen_bb p = Ok bs /\ nth_error bs 0 = Some A /\
  at_pos p 0 i /\ next_pcs i 0 = [1%Z] /\ pb_insns A = [] /\ pb_succs A = [] /\ pb_end A = 0.
Proof.
  exists loop0, (get_ok [] (gen_bb loop0)), (mkPB 0 0 [] [1] []), (mkBpf 0xb7 0 0 0 0).
  split; [apply wf_chk_ok; vm_compute; reflexivity|]. split; [simpl; lia|].
  split; [apply get_ok_spec; vm_compute; reflexivity|]. split; [vm_compute; reflexivity|].
  repeat split.
Qed.

(** ** Jumps beyond position 32767 *)
Definition mov0 : bpf_insn := mkBpf 0xb7 0 0 0 0.
Definition far (k : nat) : list bpf_insn := repeat mov0 k ++ [mkBpf 5 0 0 0 0; mkBpf 0x95 0 0 0 0].

Lemma nth_repeat {A} (x : A) k j : j < k -> nth_error (repeat x k) j = Some x.
Proof. revert j. induction k; intros [|j] H; simpl; auto; try lia. apply IHk. lia. Qed.
Lemma far_at k j i : at_pos (far k) j i <-> (j < k /\ i = mov0) \/ (j = k /\ i = mkBpf 5 0 0 0 0) \/ (j = S k /\ i = mkBpf 0x95 0 0 0 0).
Proof.
  unfold at_pos, far. destruct (Nat.lt_ge_cases j k).
  - rewrite nth_error_app1 by (rewrite repeat_length; auto). rewrite nth_repeat by auto. split.
    + intros [= <-]. auto.
    + intros [[_ ->] | [[? _] | [? _]]]; auto; lia.
  - rewrite nth_error_app2 by (rewrite repeat_length; auto). rewrite repeat_length.
    destruct (Nat.eq_dec j k) as [-> |]; [|destruct (Nat.eq_dec j (S k)) as [-> |]].
    + rewrite Nat.sub_diag. simpl. split; [intros [= <-]; auto|]. intros [[? _] | [[_ ->] | [? _]]]; auto; lia.
    + replace (S k - k) with 1 by lia. simpl. split; [intros [= <-]; auto|]. intros [[? _] | [[? _] | [_ ->]]]; auto; lia.
    + destruct (j - k) as [|[|[|m]]] eqn:D; try lia; simpl; (split; [discriminate | intros; lia]).
Qed.
Lemma far_len k : length (far k) = k + 2.
Proof. unfold far. rewrite app_length, repeat_length. reflexivity. Qed.
Lemma far_fix k : map fix_pc0 (far k) = far k.
Proof.
  unfold far. rewrite map_app. f_equal. induction k; [reflexivity|]. cbn [repeat map]. rewrite IHk. reflexivity.
Qed.
Lemma far_wf k : wf_prog (far k).
Proof.
  assert (Ip : forall n, n < k + 2 -> in_prog (far k) (Z.of_nat n) = true).
  { intros n L. unfold in_prog. apply andb_true_iff. split; [apply Z.leb_le; lia|]. rewrite Nat2Z.id.
    destruct (nth_error (far k) n) as [i|] eqn:N.
    - apply far_at in N. destruct N as [[_ ->] | [[_ ->] | [_ ->]]]; reflexivity.
    - apply nth_error_None in N. rewrite far_len in N. lia. }
  apply wf_at_ok.
  - intros E. apply (f_equal (@length _)) in E. rewrite far_len in E. simpl in E. lia.
  - intros j i A. apply far_at in A. unfold wf_at. destruct A as [[L ->] | [[-> ->] | [-> ->]]].
    + change (next_pcs mov0 (Z.of_nat j)) with [(Z.of_nat j + 1)%Z]. cbn [forallb].
      replace (Z.of_nat j + 1)%Z with (Z.of_nat (S j)) by lia. rewrite Ip by lia. reflexivity.
    + change (next_pcs (mkBpf 5 0 0 0 0) (Z.of_nat k)) with [(Z.of_nat k + 1 + 0)%Z]. cbn [forallb].
      replace (Z.of_nat k + 1 + 0)%Z with (Z.of_nat (S k)) by lia. rewrite Ip by lia. reflexivity.
    + reflexivity.
Qed.
Lemma far_scan p : forall k es n r, scan p es n (repeat mov0 k ++ r) = scan p es (n + k) r.
Proof.
  induction k; intros es n r; simpl.
  - rewrite Nat.add_0_r. reflexivity.
  - rewrite IHk. f_equal. lia.
Qed.

Lemma far_ub k : Z.of_nat k = 32768%Z -> gen_bb (far k) = UB.
Proof.
  intros K. unfold gen_bb. rewrite far_fix. unfold far at 2. rewrite far_scan. cbn [scan].
  change (scan_insn (far k) [] (0 + k) (mkBpf 5 0 0 0 0)) with (add_entrance (far k) [] (raw_target (mkBpf 5 0 0 0 0) k) k).
  unfold raw_target. rewrite K. reflexivity.
Qed.

Lemma decode_total p : forall n s e, e <= length p -> exists l, decode p n s e = Ok l.
Proof.
  induction n; intros s e L; cbn [decode]; [eauto|]. destruct (Nat.leb_spec e s); [eauto|].
  destruct (nth_error p s) eqn:N; [|apply nth_error_None in N; lia].
  destruct (IHn (s + 1) e L) as (l1 & R1). destruct (IHn (s + 2) e L) as (l2 & R2).
  destruct (if s + 1 <? e then nth_error p (s + 1) else None); [destruct (b_code b0 =? 0)%Z|]; rewrite ?R1, ?R2; cbn [bind]; eauto.
Qed.

Lemma far_wrong k : Z.of_nat k = 65536%Z -> exists bs, gen_bb (far k) = Ok bs /\ map pb_start bs = [0; 1].
Proof.
  intros K. unfold gen_bb. rewrite far_fix. unfold far at 2. rewrite far_scan. cbn [scan].
  change (scan_insn (far k) [] (0 + k) (mkBpf 5 0 0 0 0)) with (add_entrance (far k) [] (raw_target (mkBpf 5 0 0 0 0) k) k).
  unfold raw_target. rewrite K.
  assert (N0 : nth_error (far k) 0 = Some mov0) by (apply far_at; left; split; auto; lia).
  change (add_entrance (far k) [] (s16 65536 + b_off (mkBpf 5 0 0 0 0) + 1) k) with
    (match nth_error (far k) 0 with
     | None => UB
     | Some i => Ok ([] ++ [mkEnt 1 (push_uniq (if breakpoint i then [] else push_uniq [] 0) k)])
     end).
  rewrite N0. cbn [bind]. replace (push_uniq (if breakpoint mov0 then [] else push_uniq [] 0) k) with [0; k]
    by (unfold push_uniq; cbn; destruct k; [lia|reflexivity]).
  cbn [app]. unfold scan_insn. rewrite far_len. cbn -[Nat.ltb far ranges edges]. 
  replace (k + 1 + 1 <? k + 2) with false by (symmetry; apply Nat.ltb_ge; lia). cbn [bind].
  change (sort_ents ([mkEnt 1 [0; k]] ++ [mkEnt 0 []])) with [mkEnt 0 []; mkEnt 1 [0; k]].
  destruct (find_end_ok (far k) 1 0) as (e0 & R0 & B0 & C0 & _); [rewrite far_len; lia|].
  destruct (find_end_ok (far k) (length (far k) - 1) 1) as (e1 & R1 & B1 & _); [rewrite far_len; lia|].
  cbn [ranges e_pos]. change (1 - 0) with 1. rewrite R0. cbn [bind]. rewrite R1. cbn [bind].
  assert (e0 = 1) by lia. subst e0. rewrite far_len in B1.
  set (ed := edges _ _ _).
  destruct (mk_blocks_ok (far k) ed [(0, 1); (1, e1)] 0) as (bs & Rb & Lb & Pb).
  { intros s e [[= <- <-] | [[= <- <-] | []]]; apply decode_total; rewrite far_len; lia. }
  exists bs. split; auto. destruct bs as [|b0 [|b1 [|]]]; try discriminate Lb.
  destruct (Pb 0 b0 eq_refl) as (? & ? & ? & [= <- <-] & _ & ->).
  destruct (Pb 1 b1 eq_refl) as (? & ? & ? & [= <- <-] & _ & ->). reflexivity.
Qed.

Lemma far_witness : exists p bs k, wf_prog p /\ ~ jump_target p 0 /\ gen_bb p = Ok bs /\ boundary p k /\ ~ In k (map pb_start bs).
Proof.
  set (k := Z.to_nat 65536). assert (K : Z.of_nat k = 65536%Z) by (apply Z2Nat.id; lia).
  destruct (far_wrong k K) as (bs & R & M). exists (far k), bs, (S k).
  split; [apply far_wf|]. split; [|split; auto; split].
  - intros (j & i & A & B & C). apply far_at in A. destruct A as [[L ->] | [[-> ->] | [-> ->]]]; cbn in C.
    + destruct B; discriminate.
    + lia.
    + destruct B; discriminate.
  - right; left. exists k, (mkBpf 5 0 0 0 0). split; [apply far_at; auto|]. split; [left; reflexivity|]. cbn [b_off]. lia.
  - rewrite M. cbn. intros [Y | [Y | []]]; lia.
Qed.
Lemma far_ub_witness : exists p, wf_prog p /\ ~ jump_target p 0 /\ gen_bb p = UB.
Proof.
  set (k := Z.to_nat 32768). assert (K : Z.of_nat k = 32768%Z) by (apply Z2Nat.id; lia).
  exists (far k). split; [apply far_wf|]. split; [|apply far_ub; auto].
  intros (j & i & A & B & C). apply far_at in A. destruct A as [[L ->] | [[-> ->] | [-> ->]]]; cbn in C.
  - destruct B; discriminate.
  - lia.
  - destruct B; discriminate.
Qed.

(** Every jump inside a block resolves to the block at its target. *)
Lemma jump_resolved p bs : wf_prog p -> blocks_of p bs -> edges_of p bs -> forall A j i a,
  nth_error bs a = Some A -> (pb_start A <= j < pb_end A) -> at_pos p j i ->
  b_code i = 5%Z \/ two_way (b_code i) = true ->
  exists b B, nth_error bs b = Some B /\ Z.of_nat (pb_start B) = (Z.of_nat j + 1 + b_off i)%Z /\ In b (pb_succs A).
Proof.
  intros W B E A j i a N R Hi J. assert (HA : In A bs) by (eapply nth_error_In; eauto).
  assert (Sj : S j = pb_end A). { apply (bo_last p bs B A j i HA Hi R). tauto. }
  destruct (bo_code p bs B A HA) as [C _].
  assert (Jn : b_code i <> 0%Z) by (apply jumpy_nz; auto).
  assert (Lp : last_pos A j).
  { destruct (code_of_last p _ _ _ C) as (l0 & x & i0 & L1 & L2 & L3 & L4 & L5); [lia|].
    exists l0, x. split; auto. destruct L5 as [[L5 L6] | [L5 L6]]; [lia|]. exfalso.
    destruct (wf_wide p W _ _ L2 L5) as (j2 & M1 & M2). assert (S (pi_pos x) = j) by lia. rewrite H in M1.
    unfold at_pos in *. rewrite Hi in M1. injection M1 as <-. congruence. }
  assert (T : In (Z.of_nat j + 1 + b_off i)%Z (next_pcs i (Z.of_nat j))) by (apply next_target; auto).
  destruct (eo_total p bs E A j i _ HA Lp Hi T) as (B' & HB & Eq). apply In_nth_error in HB. destruct HB as (b & Nb).
  exists b, B'. split; auto. split; auto. apply (eo_succ p bs E a b A B' j i N Nb Lp Hi). rewrite <- Eq. auto.
Qed.

Theorem gen_bb_blocks p : wf_prog p -> (Z.of_nat (length p) <= 32768)%Z -> ~ jump_target p 0 ->
  exists bs, gen_bb p = Ok bs /\ blocks_of p bs.
Proof. intros W L N. destruct (gen_bb_ok p W L N) as (bs & A & B & C). eauto. Qed.
Theorem gen_bb_edges p : wf_prog p -> (Z.of_nat (length p) <= 32768)%Z -> ~ jump_target p 0 ->
  exists bs, gen_bb p = Ok bs /\ edges_of p bs.
Proof. intros W L N. destruct (gen_bb_ok p W L N) as (bs & A & B & C). eauto. Qed.
Theorem gen_bb_targets p : wf_prog p -> (Z.of_nat (length p) <= 32768)%Z -> ~ jump_target p 0 ->
  exists bs, gen_bb p = Ok bs /\ forall A j i a,
    nth_error bs a = Some A -> (pb_start A <= j < pb_end A) -> at_pos p j i ->
    b_code i = 5%Z \/ two_way (b_code i) = true ->
    exists b B, nth_error bs b = Some B /\ Z.of_nat (pb_start B) = (Z.of_nat j + 1 + b_off i)%Z /\ In b (pb_succs A).
Proof.
  intros W L N. destruct (gen_bb_ok p W L N) as (bs & A & B & C). exists bs. split; auto.
  apply jump_resolved; auto.
Qed.
