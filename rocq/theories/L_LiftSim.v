(** The instructions the lifter emits behave like the instruction they come from. *)
From Coq Require Import ZArith List Bool Arith Lia.
From Verif Require Import M_Base M_Ir M_Edit SpecWord SpecIsa SpecFlat M_GenBB SpecCfg M_Lift SpecSsa SpecLift SpecGuard
  L_Word L_Edit L_Lift L_LiftRead.
Import ListNotations.
Open Scope Z_scope.
Ltac Zify.zify_post_hook ::= Z.div_mod_to_equations.

Lemma sexec_sim w bi f i x y s : sim_i y x -> sexec w bi f i y s = sexec w bi f i x s.
Proof.
  unfold sim_i. destruct x, y. unfold set_users; cbn. intros E; injection E; intros; subst. reflexivity.
Qed.
Lemma sexec_bin w bi f i x s o a v1 v2 : i_op x = o -> i_vals x = [v1; v2] -> alu_op_of o = Some a ->
  sexec w bi f i x s = (let? wd := width_of (i_alu x) in let? p := seval bi (s_env s) v1 in
    let? q := seval bi (s_env s) v2 in Some (SNext (sres_ s i (alu_fn a wd p q)))).
Proof.
  intros E1 E2 E3. unfold sexec. rewrite E1, E2. destruct o; try discriminate E3; cbn in E3; injection E3 as <-; reflexivity.
Qed.
Lemma sexec_cond w bi f i x s o a v1 v2 : i_op x = o -> i_vals x = [v1; v2] -> cmp_op_of o = Some a ->
  sexec w bi f i x s = (let? wd := width_of (i_alu x) in let? p := seval bi (s_env s) v1 in
    let? q := seval bi (s_env s) v2 in Some (SJmp (if cmp_fn a wd p q then i_bb2 x else i_bb1 x) s)).
Proof.
  intros E1 E2 E3. unfold sexec. rewrite E1, E2. destruct o; try discriminate E3; cbn in E3; injection E3 as <-; reflexivity.
Qed.

Lemma bin_alu n o : bin_of n = Some o -> exists a, alu_of n = Some a /\ alu_op_of o = Some a /\ n <> 8 /\ n <> 11 /\ n <> 13.
Proof.
  unfold bin_of.
  repeat match goal with |- context [Z.eqb n ?k] => destruct (Z.eqb_spec n k) as [->|?];
    [intros H; injection H as <-; eexists; repeat split; try reflexivity; lia|] end.
  discriminate.
Qed.
Lemma cond_cmp n o : cond_of n = Some o -> exists a, cmp_of n = Some a /\ cmp_op_of o = Some a /\ n <> 0 /\ n <> 8 /\ n <> 9 /\ n <> 4.
Proof.
  unfold cond_of.
  repeat match goal with |- context [Z.eqb n ?k] => destruct (Z.eqb_spec n k) as [->|?];
    [intros H; injection H as <-; eexists; repeat split; try reflexivity; lia|] end.
  discriminate.
Qed.
Lemma ld_size c : exists k, vr_bytes (ld_vrt c) = Some k /\ k = size_of (c / 8 mod 4) /\ (k <= 8)%nat.
Proof.
  unfold ld_vrt, szf, size_of. assert (0 <= c / 8 mod 4 < 4) by (apply Z.mod_pos_bound; lia).
  set (z := c / 8 mod 4) in *. assert (K : z = 0 \/ z = 1 \/ z = 2 \/ z = 3) by (clear -H; lia).
  destruct K as [->|[->|[->| ->]]]; eexists; (split; [reflexivity|]); split; try reflexivity; cbn; lia.
Qed.
Lemma ldx_size c : exists k, (k = 1 \/ k = 2 \/ k = 4 \/ k = 8)%nat /\ size_of (c / 8 mod 4) = k.
Proof.
  unfold size_of. assert (0 <= c / 8 mod 4 < 4) by (apply Z.mod_pos_bound; lia).
  set (z := c / 8 mod 4) in *. assert (K : z = 0 \/ z = 1 \/ z = 2 \/ z = 3) by (clear -H; lia).
  destruct K as [->|[->|[->| ->]]]; eexists; (split; [|reflexivity]); tauto.
Qed.

Section One.
Variables (Rg : SpecGs.addrs) (w : world) (bi : bconst -> Z) (ar : arity_table) (p : list bpf_insn) (bs : list pblock).
Hypothesis Har : forall id k, ar id = Some k -> nth_error helper_args (Z.to_nat id) = Some (Z.of_nat k).
Hypothesis Hw : respects w ar.

Record rel (m : regmap) (t : sst) (s : st) (d : dirty) : Prop := {
  rl_val : forall r v, regok r -> m r = Some v -> exists x, seval bi (s_env t) v = Some x /\ 0 <= x < 2 ^ 64 /\
             (d r = false -> x = rget s r);
  rl_sp : s_env t sp_id = Some (rget s 10);
  rl_mem : s_mem t = mem s;
  rl_nc : s_nc t = ncall s;
  rl_ok : st_ok s
}.

Lemma reg_cases r : is_reg r = true -> r = 10 \/ regok r.
Proof. rewrite is_reg_range. unfold regok. lia. Qed.
Lemma read_any m t s d r v : rel m t s d -> is_reg r = true -> regv m r = Some v ->
  exists x, seval bi (s_env t) v = Some x /\ 0 <= x < 2 ^ 64 /\ (d r = false -> x = rget s r).
Proof.
  intros R Hr. unfold regv. destruct (reg_cases r Hr) as [->|K].
  - cbn [Z.eqb]. intros H; injection H as <-. exists (rget s 10). split; [exact (rl_sp _ _ _ _ R)|].
    split; [apply rget_range; exact (rl_ok _ _ _ _ R) | reflexivity].
  - destruct (Z.eqb_spec r 10) as [->|_]; [unfold regok in K; lia|]. intros H. exact (rl_val _ _ _ _ R r v K H).
Qed.
Lemma read_reg m t s d r v : rel m t s d -> is_reg r = true -> regv m r = Some v -> d r = false ->
  seval bi (s_env t) v = Some (rget s r).
Proof.
  intros R Hr H D. destruct (read_any _ _ _ _ _ _ R Hr H) as (x & E & _ & G). rewrite E, (G D). reflexivity.
Qed.

Definition fresh (m : regmap) (i : nat) : Prop := (7 <= i)%nat /\ forall r v, m r = Some v -> v_data v <> VInsn i.

Lemma seval_upd e i x v : v_data v <> VInsn i -> seval bi (eupd e i x) v = seval bi e v.
Proof.
  intros H. unfold seval, eupd. destruct (v_data v); try reflexivity.
  match goal with |- (if (?j =? i)%nat then _ else _) = _ => destruct (Nat.eqb_spec j i); [subst; congruence | reflexivity] end.
Qed.

Lemma rel_ext m m' t s d d' : rel m t s d -> (forall r, m' r = m r) -> (forall r, regok r -> d' r = d r) -> rel m' t s d'.
Proof.
  intros [A B C D E] H G. constructor; try assumption. intros r v Hr Hv. rewrite H in Hv. rewrite (G r Hr). now apply A.
Qed.

(** a result is written to a register *)
Lemma rel_write m m' t s d d' i r x : rel m t s d -> is_wreg r = true -> fresh m i ->
  (forall q, m' q = wrote m r (val_insn i) q) -> (forall q, q <> r -> d' q = d q) ->
  rel m' (sres_ t i x) (rset s r x) d'.
Proof.
  intros R Hr [Fg F] M D. pose proof (rl_ok _ _ _ _ R) as O. constructor.
  - intros q v Hq. rewrite M. unfold wrote. destruct (Z.eqb_spec q r) as [->|N].
    + intros H; injection H as <-. exists (u64 x). split; [cbn [sres_ s_env seval val_insn v_data]; unfold eupd; now rewrite Nat.eqb_refl|].
      split; [apply u64_range|]. intros _. now rewrite rget_rset_same.
    + intros H. destruct (rl_val _ _ _ _ R q v Hq H) as (y & E & G & K). exists y.
      split; [cbn [sres_ s_env]; rewrite seval_upd; [exact E | exact (F q v H)]|]. split; [exact G|].
      intros Hd. rewrite rget_rset_other; auto; [apply K; now rewrite <- D | unfold regok in Hq; lia].
  - cbn [sres_ s_env]. unfold eupd. destruct (Nat.eqb_spec sp_id i) as [E|_]; [unfold sp_id in E; lia|].
    rewrite rget_rset_other; auto; [exact (rl_sp _ _ _ _ R) | lia|]. apply is_wreg_range in Hr. lia.
  - exact (rl_mem _ _ _ _ R).
  - exact (rl_nc _ _ _ _ R).
  - now apply rset_ok.
Qed.

(** a register is renamed *)
Lemma rel_move m m' t s d d' r v x : rel m t s d -> is_wreg r = true ->
  seval bi (s_env t) v = Some x -> u64 x = x ->
  (forall q, m' q = wrote m r v q) -> (forall q, q <> r -> d' q = d q) ->
  rel m' t (rset s r x) d'.
Proof.
  intros R Hr Hv Hx M D. pose proof (rl_ok _ _ _ _ R) as O. constructor.
  - intros q v' Hq. rewrite M. unfold wrote. destruct (Z.eqb_spec q r) as [->|N].
    + intros H; injection H as <-. exists x. split; [exact Hv|].
      split; [rewrite <- Hx; apply u64_range|]. intros _. now rewrite rget_rset_same.
    + intros H. destruct (rl_val _ _ _ _ R q v' Hq H) as (y & E & G & K). exists y.
      split; [exact E|]. split; [exact G|].
      intros Hd. rewrite rget_rset_other; auto; [apply K; now rewrite <- D | unfold regok in Hq; lia].
  - rewrite rget_rset_other; auto; [exact (rl_sp _ _ _ _ R) | lia|]. apply is_wreg_range in Hr. lia.
  - exact (rl_mem _ _ _ _ R).
  - exact (rl_nc _ _ _ _ R).
  - now apply rset_ok.
Qed.

(** memory is written *)
Lemma rel_store m m' t s d d' mm : rel m t s d -> (forall q, m' q = m q) -> (forall q, d' q = d q) ->
  rel m' (smem t mm) (mset s mm) d'.
Proof.
  intros [A B C D E] M Dd. constructor; cbn; try assumption; auto.
  intros r v Hr. rewrite M, Dd. intros H. exact (A r v Hr H).
Qed.

Lemma call_rget id s r : st_ok s -> 6 <= r <= 10 -> rget (call_helper w id s) r = rget s r.
Proof.
  intros [L _] H. unfold call_helper. destruct (helper _ _ _ _ _) as [q mm]. unfold rget; cbn [regs].
  destruct (regs s) as [|a0 [|a1 [|a2 [|a3 [|a4 [|a5 t]]]]]]; try discriminate L.
  cbn [map app skipn]. assert (K : exists k, Z.to_nat r = S (S (S (S (S (S k)))))) by (exists (Z.to_nat (r - 6)); lia).
  destruct K as [k ->]. reflexivity.
Qed.

Lemma argv_len m : forall k j vs, argv m j k = Some vs -> length vs = k.
Proof.
  induction k as [|k IH]; intros j vs; cbn [argv]; [intros H; injection H as <-; reflexivity|].
  destruct (regv _ _); [|discriminate]. destruct (argv m (S j) k) eqn:E; [|discriminate].
  intros H; injection H as <-. cbn. now rewrite (IH _ _ E).
Qed.
Lemma argv_eval m t s d : rel m t s d -> forall k j vs, argv m j k = Some vs -> (j + k <= 5)%nat ->
  (forall q, (j < q <= j + k)%nat -> d (Z.of_nat q) = false) ->
  sevals bi (s_env t) vs = Some (map (fun q => rget s (Z.of_nat q)) (seq (S j) k)).
Proof.
  intros R. induction k as [|k IH]; intros j vs; cbn [argv]; [intros H; injection H as <-; reflexivity|].
  destruct (regv m _) as [v|] eqn:Ev; [|discriminate]. destruct (argv m (S j) k) as [l|] eqn:E; [|discriminate].
  intros H L D; injection H as <-. cbn [sevals seq map].
  rewrite (read_reg _ _ _ _ (Z.of_nat (S j)) v R); [|apply is_reg_range; lia | exact Ev | apply D; lia].
  rewrite (IH _ _ E); [reflexivity | lia | intros; apply D; lia].
Qed.

Lemma args_all_len : forall k id, nth_error helper_args id = Some (Z.of_nat k) -> (k <= 5)%nat.
Proof.
  intros k id H. apply nth_error_In in H.
  assert (F : Forall (fun z => z <= 5) helper_args) by (apply Forall_forall; intros z Hz; repeat (destruct Hz as [<-|Hz]; [lia|]); destruct Hz).
  rewrite Forall_forall in F. apply F in H. lia.
Qed.

Definition pre_of (q : nat) (i : bpf_insn) (e : nat) (pi : pre_insn) : Prop :=
  (exists i', at_pos p q i /\ same_insn i i' /\ b_code i <> 24 /\ b_code i <> 0 /\ e = S q /\
     pi = mkPre (b_code i') (b_dst i') (b_src i') (b_off i') false (b_imm i') (u32 (b_imm i')) q) \/
  (exists j, at_pos p q i /\ b_code i = 24 /\ at_pos p (S q) j /\ b_code j = 0 /\ e = S (S q) /\
     pi = mkPre 24 (b_dst i) (b_src i) (b_off i) true (b_imm i) (s64 (u32 (b_imm i) + 2 ^ 32 * b_imm j)) q).

Definition is_jump (i : bpf_insn) : Prop := b_code i = 5 \/ two_way (b_code i) = true.

Definition goes (f : func) (ids : list nat) (m' : regmap) (i : bpf_insn) (q e : nat) (t : sst) (d : dirty) (o : ires) : Prop :=
  match o with
  | IStuck => True
  | IExit r s' => exists t', (forall l, gsbody Rg w bi f t (ids ++ l) = Some (SRet r t')) /\
      s_mem t' = mem s' /\ s_nc t' = ncall s' /\ b_code i = 0x95
  | INext pc s' =>
    (exists t', (forall l, gsbody Rg w bi f t (ids ++ l) = gsbody Rg w bi f t' l) /\ rel m' t' s' (dirty_after i d) /\
       pc = Z.of_nat e /\ ~ is_jump i /\ b_code i <> 0x95) \/
    (exists B t', is_jump i /\ (forall l, gsbody Rg w bi f t (ids ++ l) = Some (SJmp B t')) /\
       rel m' t' s' (dirty_after i d) /\ e = S q /\ In pc (next_pcs i (Z.of_nat q)) /\
       exists pb, blk bs B = Some pb /\ pc = Z.of_nat (pb_start pb))
  end.

Lemma squiet_sim x y t : sim_i y x -> squiet Rg bi y t = squiet Rg bi x t.
Proof.
  unfold sim_i. destruct x, y. unfold set_users; cbn. intros E; injection E; intros; subst. reflexivity.
Qed.
Lemma sb_one f i x t : like f i x -> squiet Rg bi x t = true -> forall r, sexec w bi f i x t = Some r ->
  forall l, gsbody Rg w bi f t ([i] ++ l) = match r with SNext t' => gsbody Rg w bi f t' l | _ => Some r end.
Proof.
  intros (y & E & S) Q r H l. cbn [app gsbody]. rewrite E. cbn [obind]. unfold gsexec. rewrite (squiet_sim _ _ _ S), Q, (sexec_sim _ _ _ _ _ _ _ S), H. reflexivity.
Qed.

Lemma bb_at_ok pos : forall l k B, bb_at l k pos = Ok B -> exists j pb, B = (k + j)%nat /\ nth_error l j = Some pb /\ Z.of_nat (pb_start pb) = pos.
Proof.
  induction l as [|a l IH]; intros k B; cbn [bb_at]; [discriminate|].
  destruct (Z.eqb_spec (Z.of_nat (pb_start a)) pos) as [E|_].
  - intros H; injection H as <-. exists 0%nat, a. repeat split; auto; lia.
  - intros H. destruct (IH _ _ H) as (j & pb & -> & E & G). exists (S j), pb. repeat split; auto; lia.
Qed.
Lemma bb_from_ok pos B : bb_from bs pos = Ok B -> exists pb, blk bs B = Some pb /\ Z.of_nat (pb_start pb) = pos.
Proof.
  intros H. apply bb_at_ok in H as (j & pb & -> & E & G). exists pb. split; [exact E | exact G].
Qed.

(** ** Facts about opcodes *)
Lemma reads_alu d i : (b_code i mod 8 = 4 \/ b_code i mod 8 = 7) -> existsb d (reads ar i) = false ->
  (b_code i / 16 <> 11 -> d (b_dst i) = false) /\
  (src_x (b_code i) = true -> b_code i / 16 <> 13 -> d (b_src i) = false).
Proof.
  intros C. unfold reads, src_x.
  assert (E : match b_code i mod 8 with 1 => [b_src i] | 2 => [b_dst i] | 3 => [b_dst i; b_src i]
    | 4 | 7 => (if b_code i / 16 =? 11 then [] else [b_dst i]) ++ (if Z.odd (b_code i / 8) && negb (b_code i / 16 =? 13) then [b_src i] else [])
    | 5 | 6 => if b_code i / 16 =? 0 then []
    else if b_code i / 16 =? 9 then [0]
    else if b_code i / 16 =? 8 then match ar (b_imm i) with Some k => firstn k [1; 2; 3; 4; 5] | None => [1; 2; 3; 4; 5] end
    else b_dst i :: (if Z.odd (b_code i / 8) then [b_src i] else [])
    | _ => [] end = (if b_code i / 16 =? 11 then [] else [b_dst i]) ++ (if Z.odd (b_code i / 8) && negb (b_code i / 16 =? 13) then [b_src i] else [])).
  { destruct C as [-> | ->]; reflexivity. }
  rewrite E, existsb_app. intros H. apply orb_false_iff in H as [H1 H2]. split.
  - intros N. apply Z.eqb_neq in N. rewrite N in H1. cbn in H1. now rewrite orb_false_r in H1.
  - intros X N. apply Z.eqb_neq in N. rewrite X, N in H2. cbn in H2. now rewrite orb_false_r in H2.
Qed.
Lemma reads_jmp d i : (b_code i mod 8 = 5 \/ b_code i mod 8 = 6) -> b_code i / 16 <> 0 -> b_code i / 16 <> 8 -> b_code i / 16 <> 9 ->
  existsb d (reads ar i) = false ->
  d (b_dst i) = false /\ (src_x (b_code i) = true -> d (b_src i) = false).
Proof.
  intros C N0 N8 N9. unfold reads, src_x. apply Z.eqb_neq in N0, N8, N9. rewrite N0, N8, N9.
  assert (E : forall A (a b c e g : A), match b_code i mod 8 with 1 => a | 2 => b | 3 => c | 4 | 7 => e | 5 | 6 => g | _ => a end = g).
  { intros. destruct C as [-> | ->]; reflexivity. }
  intros H. assert (K : existsb d (b_dst i :: (if Z.odd (b_code i / 8) then [b_src i] else [])) = false).
  { destruct C as [C|C]; rewrite C in H; exact H. }
  cbn [existsb] in K. apply orb_false_iff in K as [K1 K2]. split; [exact K1|].
  intros X. rewrite X in K2. cbn in K2. now rewrite orb_false_r in K2.
Qed.
Lemma dirty_dst i d q : (b_code i mod 8 = 0 \/ b_code i mod 8 = 1 \/ b_code i mod 8 = 4 \/ b_code i mod 8 = 7) -> q <> b_dst i ->
  dirty_after i d q = d q.
Proof.
  intros C N. unfold dirty_after. destruct (Z.eqb_spec (b_code i) 0x85) as [E|_]; [rewrite E in C; cbn in C; lia|].
  assert (E : writes i = [b_dst i]) by (unfold writes; destruct C as [-> |[-> |[-> | ->]]]; reflexivity).
  rewrite E. cbn [existsb]. apply Z.eqb_neq in N. rewrite N. cbn. apply andb_true_r.
Qed.
Lemma dirty_none i d q : (b_code i mod 8 = 2 \/ b_code i mod 8 = 3 \/ b_code i mod 8 = 5 \/ b_code i mod 8 = 6) -> b_code i <> 0x85 ->
  dirty_after i d q = d q.
Proof.
  intros C N. unfold dirty_after. apply Z.eqb_neq in N. rewrite N.
  assert (E : writes i = []) by (unfold writes; destruct C as [-> |[-> |[-> | ->]]]; reflexivity).
  rewrite E. cbn. apply andb_true_r.
Qed.
Lemma not_jump i : b_code i mod 8 <> 5 -> b_code i mod 8 <> 6 -> ~ is_jump i /\ b_code i <> 0x95.
Proof.
  intros A B. split.
  - intros [E|E]; [rewrite E in A; cbn in A; lia|]. unfold two_way in E. apply andb_true_iff in E as [E _].
    apply orb_true_iff in E as [E|E]; apply Z.eqb_eq in E; contradiction.
  - intros E; rewrite E in A; cbn in A; lia.
Qed.
Lemma call_not_jump i : b_code i = 0x85 -> ~ is_jump i /\ b_code i <> 0x95.
Proof. intros E. split; [|lia]. intros [K|K]; [lia|]. rewrite E in K. discriminate K. Qed.

Lemma alu_split c : is_alu c = true -> (c mod 8 = 4 /\ alu_w c = A_32) \/ (c mod 8 = 7 /\ alu_w c = A_64).
Proof.
  unfold is_alu, alu_w, cls. destruct (Z.eqb_spec (c mod 8) 4); [auto|]. destruct (Z.eqb_spec (c mod 8) 7); [auto | discriminate].
Qed.
Lemma alu_width c : is_alu c = true -> width_of (alu_w c) = Some (c mod 8 =? 7).
Proof. intros H. destruct (alu_split c H) as [[A ->]|[A ->]]; rewrite A; reflexivity. Qed.
Lemma jmp_split c : jmp_cls c = true -> (c mod 8 = 5 /\ jmp_w c = A_64) \/ (c mod 8 = 6 /\ jmp_w c = A_32).
Proof.
  unfold jmp_cls, jmp_w, cls. destruct (Z.eqb_spec (c mod 8) 5); [auto|]. destruct (Z.eqb_spec (c mod 8) 6); [auto | discriminate].
Qed.

Lemma seval_const t c : seval bi (s_env t) (val_const32 c) = Some (u64 c).
Proof. reflexivity. Qed.

Lemma step_at q i : at_pos p q i -> fetch p (Z.of_nat q) = Some i.
Proof.
  intros H. unfold fetch. destruct (Z.ltb_spec (Z.of_nat q) 0); [lia|]. now rewrite Nat2Z.id.
Qed.

Definition srcm (i : bpf_insn) (s : st) : Z := if src_x (b_code i) then rget s (b_src i) else b_imm i.
Lemma isa_alu_bin wd i pc s a : alu_of (b_code i / 16) = Some a -> b_code i / 16 <> 8 -> b_code i / 16 <> 11 -> b_code i / 16 <> 13 ->
  b_off i = 0 ->
  isa_alu wd i pc s = if negb (is_wreg (b_dst i)) || (src_x (b_code i) && negb (is_reg (b_src i))) then IStuck
    else INext (pc + 1) (rset s (b_dst i) (alu_fn a wd (rget s (b_dst i)) (srcm i s))).
Proof.
  intros A1 N8 N11 N13 Co0. unfold isa_alu, srcm. fold (src_x (b_code i)).
  rewrite (proj2 (Z.eqb_neq _ _) N8), (proj2 (Z.eqb_neq _ _) N11), (proj2 (Z.eqb_neq _ _) N13), A1, Co0.
  cbn [negb]. rewrite andb_true_r. destruct (_ || _); [reflexivity|]. destruct a; reflexivity.
Qed.

Ltac qt := first [reflexivity | match goal with
  | A : alu_op_of ?o = Some _ |- _ => destruct o; try discriminate A; reflexivity
  | A : cmp_op_of ?o = Some _ |- _ => destruct o; try discriminate A; reflexivity end].

(** ** One instruction *)
Lemma sim_bin f b m i o v1 v2 m' q s d t z :
  at_pos p q i -> rel m t s d -> fresh m z -> existsb d (reads ar i) = false ->
  is_alu (b_code i) = true -> bin_of (opn (b_code i)) = Some o -> b_off i = 0 ->
  regv m (b_dst i) = Some v1 ->
  (if src_x (b_code i) then regv m (b_src i) else Some (val_const32 (b_imm i))) = Some v2 ->
  like f z (set_alu (alu_w (b_code i)) (set_vals [v1; v2] (set_op o (insn0 b)))) ->
  (forall r, m' r = wrote m (b_dst i) (val_insn z) r) ->
  goes f [z] m' i q (S q) t d (isa_step w p (Z.of_nat q) s).
Proof.
  intros P R F D Ca Co Co0 E1 E2 L M.
  destruct (bin_alu _ _ Co) as (a & A1 & A2 & N8 & N11 & N13). unfold opn in *.
  pose proof (alu_split _ Ca) as Sp.
  assert (C47 : b_code i mod 8 = 4 \/ b_code i mod 8 = 7) by (clear -Sp; tauto).
  destruct (reads_alu d i C47 D) as [Rd Rs]. specialize (Rd N11).
  assert (St : isa_step w p (Z.of_nat q) s = isa_alu (b_code i mod 8 =? 7) i (Z.of_nat q) s).
  { unfold isa_step. rewrite (step_at _ _ P). destruct C47 as [-> | ->]; reflexivity. }
  rewrite St, (isa_alu_bin _ _ _ _ a) by assumption.
  destruct (negb (is_wreg (b_dst i)) || (src_x (b_code i) && negb (is_reg (b_src i)))) eqn:G; [exact I|].
  apply orb_false_iff in G as [G1 G2]. apply negb_false_iff in G1.
  assert (V1 : seval bi (s_env t) v1 = Some (rget s (b_dst i))) by (eapply read_reg; eauto using wreg_reg).
  assert (V2 : exists y, seval bi (s_env t) v2 = Some y /\ forall o ww x, alu_fn o ww x y = alu_fn o ww x (srcm i s)).
  { unfold srcm. destruct (src_x (b_code i)) eqn:X.
    - cbn in G2. apply negb_false_iff in G2. exists (rget s (b_src i)). split; [eapply read_reg; eauto | reflexivity].
    - injection E2 as <-. exists (u64 (b_imm i)). split; [reflexivity|]. intros; apply alu_fn_u64_r. }
  destruct V2 as (y & V2 & Vy).
  unfold goes. cbv beta iota zeta. left. eexists. split; [|split; [|split; [lia | apply not_jump; destruct C47 as [-> | ->]; lia]]].
  - intros l. erewrite sb_one; [|exact L|qt|].
    2:{ erewrite (sexec_bin _ _ _ _ _ _ o a v1 v2); [|reflexivity|reflexivity|exact A2]. cbn [i_alu set_alu].
        rewrite (alu_width _ Ca); cbn [obind]; rewrite V1; cbn [obind]; rewrite V2; cbn [obind]; reflexivity. }
    reflexivity.
  - rewrite Vy; eapply rel_write; eauto; intros; apply dirty_dst; auto; lia.
Qed.

Lemma alu_step q i s : at_pos p q i -> is_alu (b_code i) = true ->
  isa_step w p (Z.of_nat q) s = isa_alu (b_code i mod 8 =? 7) i (Z.of_nat q) s /\
  (b_code i mod 8 = 4 \/ b_code i mod 8 = 7).
Proof.
  intros P Ca. assert (C47 : b_code i mod 8 = 4 \/ b_code i mod 8 = 7) by (destruct (alu_split _ Ca) as [[A _]|[A _]]; auto).
  split; [|exact C47]. unfold isa_step. rewrite (step_at _ _ P). destruct C47 as [-> | ->]; reflexivity.
Qed.

Lemma sim_mov f m i v m' q s d t :
  at_pos p q i -> rel m t s d -> plain ar i -> existsb d (reads ar i) = false ->
  is_alu (b_code i) = true -> opn (b_code i) = 11 -> b_off i = 0 ->
  (if src_x (b_code i) then regv m (b_src i) else Some (val_const32 (b_imm i))) = Some v ->
  (forall r, m' r = wrote m (b_dst i) v r) ->
  goes f [] m' i q (S q) t d (isa_step w p (Z.of_nat q) s).
Proof.
  intros P R Pl D Ca Co Co0 E2 M. unfold opn in Co.
  destruct (alu_step q i s P Ca) as [St C47]. destruct (reads_alu d i C47 D) as [_ Rs].
  rewrite St. unfold isa_alu. fold (src_x (b_code i)). rewrite Co, Co0. cbn [Z.eqb Pos.eqb negb]. rewrite andb_true_r.
  destruct (negb (is_wreg (b_dst i)) || (src_x (b_code i) && negb (is_reg (b_src i)))) eqn:G; [exact I|].
  apply orb_false_iff in G as [G1 G2]. apply negb_false_iff in G1.
  assert (V2 : exists x, seval bi (s_env t) v = Some x /\ u64 x = x /\
    trunc (b_code i mod 8 =? 7) (if src_x (b_code i) then rget s (b_src i) else b_imm i) = x).
  { destruct Pl as (Pl1 & Pl2 & _). destruct (src_x (b_code i)) eqn:X.
    - cbn in G2. apply negb_false_iff in G2. exists (rget s (b_src i)).
      pose proof (u64_rget s (b_src i) (rl_ok _ _ _ _ R)) as U.
      split; [eapply read_reg; eauto; apply Rs; auto; lia|]. split; [exact U|].
      destruct C47 as [C|C]; rewrite C; cbn [Z.eqb Pos.eqb]; [|exact U].
      exfalso. apply Pl1. unfold src_x in X. apply Z.odd_spec in X. destruct X as [k X]. clear -C Co X. lia.
    - injection E2 as <-. exists (u64 (b_imm i)). split; [reflexivity|]. split; [apply u64_u64|].
      destruct C47 as [C|C]; rewrite C; cbn [Z.eqb Pos.eqb]; [|reflexivity].
      assert (K : 0 <= b_imm i < 2 ^ 31).
      { apply Pl2. unfold src_x in X. assert (Ev : Z.even (b_code i / 8) = true) by (rewrite <- Z.negb_odd, X; reflexivity).
        apply Z.even_spec in Ev. destruct Ev as [k Ev]. clear -C Co Ev. lia. }
      rewrite u64_small by lia. unfold trunc; cbn [bits]. apply Z.mod_small. lia. }
  destruct V2 as (x & V1 & V2 & V3).
  unfold goes. cbv beta iota zeta. left. exists t. split; [reflexivity|].
  split; [|split; [lia | apply not_jump; destruct C47 as [-> | ->]; lia]].
  rewrite V3. eapply rel_move; eauto. intros; apply dirty_dst; tauto.
Qed.

Lemma sim_un f b m i o a u v m' q s d t z :
  at_pos p q i -> rel m t s d -> fresh m z -> existsb d (reads ar i) = false ->
  is_alu (b_code i) = true ->
  (opn (b_code i) = 13 /\ cls (b_code i) = 4 /\ o = (if src_x (b_code i) then HTOBE else HTOLE) /\ a = A_32 /\ u = b_imm i \/
   opn (b_code i) = 8 /\ src_x (b_code i) = false /\ o = NEG /\ a = alu_w (b_code i) /\ u = 0) ->
  b_off i = 0 -> regv m (b_dst i) = Some v ->
  like f z (set_u u (set_alu a (set_vals [v] (set_op o (insn0 b))))) ->
  (forall r, m' r = wrote m (b_dst i) (val_insn z) r) ->
  goes f [z] m' i q (S q) t d (isa_step w p (Z.of_nat q) s).
Proof.
  intros P R F D Ca Co Co0 E1 L M. unfold opn, cls in Co.
  destruct (alu_step q i s P Ca) as [St C47]. destruct (reads_alu d i C47 D) as [Rd _].
  rewrite St. unfold isa_alu. fold (src_x (b_code i)).
  destruct Co as [(C1 & C2 & -> & -> & ->)|(C1 & C2 & -> & -> & ->)]; rewrite C1 in *; specialize (Rd ltac:(discriminate)).
  - cbn [Z.eqb Pos.eqb negb]. rewrite andb_false_r. cbn [andb]. rewrite orb_false_r.
    destruct (is_wreg (b_dst i)) eqn:G; [|exact I]. cbn [negb]. rewrite C2. cbn [Z.eqb Pos.eqb].
    assert (V1 : seval bi (s_env t) v = Some (rget s (b_dst i))) by (eapply read_reg; eauto using wreg_reg).
    destruct ((b_imm i =? 16) || (b_imm i =? 32) || (b_imm i =? 64)) eqn:Gi; [|exact I].
    unfold goes. left. destruct (src_x (b_code i)); eexists; (split; [|split; [|split; [lia | apply not_jump; rewrite C2; lia]]]).
    1,3: intros l; erewrite sb_one; [|exact L|qt|];
      [|unfold sexec; cbn [i_op i_vals i_u set_op set_vals set_alu set_u insn0]; rewrite Gi, V1; cbn [obind]; reflexivity];
      reflexivity.
    all: cbn [iop_eqb]; eapply rel_write; eauto; intros; apply dirty_dst; auto; lia.
  - cbn [Z.eqb Pos.eqb negb]. rewrite C2. cbn [andb]. rewrite orb_false_r.
    destruct (is_wreg (b_dst i)) eqn:G; [|exact I]. cbn [negb].
    assert (V1 : seval bi (s_env t) v = Some (rget s (b_dst i))) by (eapply read_reg; eauto using wreg_reg).
    unfold goes. left. eexists. split; [|split; [|split; [lia | apply not_jump; destruct C47 as [-> | ->]; lia]]].
    + intros l. erewrite sb_one; [|exact L|qt|].
      2:{ unfold sexec. cbn [i_op i_vals i_alu set_op set_vals set_alu set_u insn0]. rewrite (alu_width _ Ca). cbn [obind].
          rewrite V1. cbn [obind]. reflexivity. }
      reflexivity.
    + eapply rel_write; eauto; intros; apply dirty_dst; auto; lia.
Qed.

Lemma wide_val a b : u64 (s64 (u32 a + 2 ^ 32 * b)) = u32 a + 2 ^ 32 * u32 b.
Proof.
  assert (E : forall x, u64 (s64 x) = u64 x) by (intros; unfold u64, s64; apply sgn_congr; lia).
  rewrite E. unfold u64, u32. change (2 ^ 64) with 18446744073709551616. change (2 ^ 32) with 4294967296. lia.
Qed.

Lemma sim_imm f b m i j m' q s d t z :
  at_pos p q i -> at_pos p (S q) j -> b_code i = 24 -> b_code j = 0 -> rel m t s d -> fresh m z ->
  like f z (set_imm (b_src i) (s64 (u32 (b_imm i) + 2 ^ 32 * b_imm j)) (set_op LOADIMM_EXTRA (insn0 b))) ->
  (forall r, m' r = wrote m (b_dst i) (val_insn z) r) ->
  goes f [z] m' i q (S (S q)) t d (isa_step w p (Z.of_nat q) s).
Proof.
  intros P P2 C C2 R F L M. unfold isa_step. rewrite (step_at _ _ P).
  replace (Z.of_nat q + 1) with (Z.of_nat (S q)) by lia. rewrite (step_at _ _ P2), C, C2.
  change (24 mod 8) with 0. cbv iota beta zeta. cbn [Z.eqb]. rewrite andb_true_r.
  destruct (is_wreg (b_dst i) && (0 <=? b_src i) && (b_src i <=? 6)) eqn:G; [|exact I].
  apply andb_true_iff in G as [G G3]. apply andb_true_iff in G as [G1 G2].
  unfold goes. left. eexists. split; [|split; [|split; [lia | apply not_jump; rewrite C; discriminate]]].
  - intros l. erewrite sb_one; [|exact L|qt|].
    2:{ unfold sexec. cbn [i_op i_vals i_ity i_imm64 set_op set_imm insn0]. rewrite G2, G3. cbn [andb]. reflexivity. }
    reflexivity.
  - rewrite wide_val. eapply rel_write; eauto. intros; apply dirty_dst; auto. left. rewrite C. reflexivity.
Qed.

Lemma sim_ldx f b m i v m' q s d t z :
  at_pos p q i -> rel m t s d -> fresh m z -> plain ar i -> existsb d (reads ar i) = false -> iquiet Rg i s = true ->
  cls (b_code i) = 1 -> (mode (b_code i) = 4 \/ mode (b_code i) = 3) ->
  regv m (b_src i) = Some v ->
  like f z (set_addr (mem_addr v (b_src i) (b_off i)) (set_vrt (ld_vrt (b_code i)) (set_op LOADRAW (insn0 b)))) ->
  (forall r, m' r = wrote m (b_dst i) (val_insn z) r) ->
  goes f [z] m' i q (S q) t d (isa_step w p (Z.of_nat q) s).
Proof.
  intros P R F Pl D Q C Cm E L M. unfold cls, mode in *. destruct Pl as (_ & _ & Pl & _).
  assert (Cm3 : b_code i / 32 = 3) by (clear -C Cm Pl; tauto).
  assert (Ds : d (b_src i) = false).
  { unfold reads in D. rewrite C in D. cbn [existsb] in D. now rewrite orb_false_r in D. }
  unfold isa_step. rewrite (step_at _ _ P), C, Cm3.
  destruct (is_wreg (b_dst i) && is_reg (b_src i)) eqn:G; [|exact I]. apply andb_true_iff in G as [G1 G2].
  assert (V1 : seval bi (s_env t) v = Some (rget s (b_src i))) by (eapply read_reg; eauto).
  destruct (ld_size (b_code i)) as (k & K1 & K2 & _). rewrite <- K2.
  unfold goes. left. eexists. split; [|split; [|split; [lia | apply not_jump; rewrite C; lia]]].
  - intros l. erewrite sb_one; [|exact L|unfold squiet; cbn [i_op i_vrt i_addr set_op set_addr set_vrt insn0 mem_addr a_val a_off]; rewrite K1, V1; unfold iquiet in Q; rewrite C, <- K2 in Q; exact Q|].
    2:{ unfold sexec. cbn [i_op i_vals i_vrt i_addr set_op set_addr set_vrt insn0 mem_addr a_val a_off]. rewrite K1. cbn [obind].
        rewrite V1. cbn [obind]. rewrite (rl_mem _ _ _ _ R). reflexivity. }
    reflexivity.
  - eapply rel_write; eauto. intros; apply dirty_dst; auto.
Qed.

Lemma sim_st f b m i v1 v2 m' q s d t z :
  at_pos p q i -> rel m t s d -> existsb d (reads ar i) = false -> iquiet Rg i s = true ->
  mode (b_code i) = 3 ->
  (cls (b_code i) = 2 /\ v2 = val_const32 (b_imm i) \/ cls (b_code i) = 3 /\ regv m (b_src i) = Some v2) ->
  regv m (b_dst i) = Some v1 ->
  like f z (set_vals [v2] (set_addr (mem_addr v1 (b_dst i) (b_off i))
               (set_vrt (ld_vrt (b_code i)) (set_op STORERAW (insn0 b))))) ->
  (forall r, m' r = m r) ->
  goes f [z] m' i q (S q) t d (isa_step w p (Z.of_nat q) s).
Proof.
  intros P R D Q Cm C E L M. unfold cls, mode in *.
  destruct (ld_size (b_code i)) as (k & K1 & K2 & K3).
  assert (C23 : b_code i mod 8 = 2 \/ b_code i mod 8 = 3) by (clear -C; tauto).
  assert (N85 : b_code i <> 0x85) by (intros X; rewrite X in C23; cbn in C23; lia).
  assert (Fin : forall y z0, seval bi (s_env t) v2 = Some y -> seval bi (s_env t) v1 = Some (rget s (b_dst i)) ->
    store (mem s) (rget s (b_dst i) + b_off i) k y = store (mem s) (rget s (b_dst i) + b_off i) k z0 ->
    goes f [z] m' i q (S q) t d (INext (Z.of_nat q + 1) (mset s (store (mem s) (rget s (b_dst i) + b_off i) k z0)))).
  { intros y z0 V2 V1 Es. unfold goes. left. eexists.
    split; [|split; [|split; [lia | apply not_jump; destruct C23 as [-> | ->]; lia]]].
    - intros l. erewrite sb_one; [|exact L|unfold squiet; cbn [i_op i_vrt i_addr set_op set_vals set_addr set_vrt insn0 mem_addr a_val a_off]; rewrite K1, V1; unfold iquiet in Q; destruct C23 as [C2|C2]; rewrite C2, <- K2 in Q; exact Q|].
      2:{ unfold sexec. cbn [i_op i_vals i_vrt i_addr set_op set_vals set_addr set_vrt insn0 mem_addr a_val a_off]. rewrite K1. cbn [obind].
          rewrite V1. cbn [obind]. rewrite V2. cbn [obind]. rewrite (rl_mem _ _ _ _ R). reflexivity. }
      reflexivity.
    - rewrite Es. eapply rel_store; eauto. intros. apply dirty_none; auto. clear -C23; tauto. }
  unfold isa_step. rewrite (step_at _ _ P), Cm, <- K2. destruct C as [[C ->]|[C E2]]; rewrite C; cbv iota beta zeta.
  - cbn [Z.eqb Pos.eqb]. rewrite andb_true_r. destruct (is_reg (b_dst i)) eqn:G; [|exact I].
    apply Fin with (u64 (b_imm i)); [reflexivity| |now apply store_u64].
    eapply read_reg; eauto. unfold reads in D. rewrite C in D. cbn [existsb] in D. now rewrite orb_false_r in D.
  - cbn [Z.eqb Pos.eqb]. rewrite andb_true_r. destruct (is_reg (b_dst i) && is_reg (b_src i)) eqn:G; [|exact I].
    apply andb_true_iff in G as [G1 G2]. unfold reads in D. rewrite C in D. cbn [existsb] in D. rewrite orb_false_r in D.
    apply orb_false_iff in D as [D1 D2].
    apply Fin with (rget s (b_src i)); [eapply read_reg; eauto | eapply read_reg; eauto | reflexivity].
Qed.

Lemma jmp_step q i s : at_pos p q i -> jmp_cls (b_code i) = true ->
  isa_step w p (Z.of_nat q) s = isa_jmp w (b_code i mod 8 =? 5) i (Z.of_nat q) s /\
  (b_code i mod 8 = 5 \/ b_code i mod 8 = 6) /\ width_of (jmp_w (b_code i)) = Some (b_code i mod 8 =? 5).
Proof.
  intros P Ca. destruct (jmp_split _ Ca) as [[A B]|[A B]]; rewrite B; (split; [|split; [auto | rewrite A; reflexivity]]);
    unfold isa_step; rewrite (step_at _ _ P), A; reflexivity.
Qed.

Lemma sim_ja f b m i B m' q s d t z :
  at_pos p q i -> rel m t s d ->
  jmp_cls (b_code i) = true -> opn (b_code i) = 0 ->
  bb_from bs (Z.of_nat q + b_off i + 1) = Ok B ->
  like f z (set_bb1 B (set_op JA (insn0 b))) -> (forall r, m' r = m r) ->
  goes f [z] m' i q (S q) t d (isa_step w p (Z.of_nat q) s).
Proof.
  intros P R Cj Co Hb L M. unfold opn in Co. destruct (jmp_step q i s P Cj) as (St & C & _).
  rewrite St. unfold isa_jmp. fold (src_x (b_code i)). rewrite Co. cbn [Z.eqb].
  destruct ((b_code i mod 8 =? 5) && negb (src_x (b_code i))) eqn:G; [|exact I].
  apply andb_true_iff in G as [G1 G2]. apply Z.eqb_eq in G1. apply negb_true_iff in G2.
  assert (C5 : b_code i = 5).
  { unfold src_x in G2. assert (Ev : Z.even (b_code i / 8) = true) by (rewrite <- Z.negb_odd, G2; reflexivity).
    apply Z.even_spec in Ev. destruct Ev as [k Ev]. clear -G1 Co Ev. lia. }
  unfold goes. right. exists B. eexists. split; [left; exact C5|]. split; [|split].
  - intros l. erewrite sb_one; [|exact L|qt|reflexivity]. cbn [i_bb1 set_bb1 set_op insn0]. reflexivity.
  - eapply rel_ext; eauto. intros. apply dirty_none; [tauto | lia].
  - split; [reflexivity|]. split; [unfold next_pcs; rewrite C5; now left|].
    destruct (bb_from_ok _ _ Hb) as (pb & Q1 & Q2). exists pb. split; [exact Q1 | lia].
Qed.

(** a conditional jump to the next instruction *)
Lemma sim_ja0 f b m i B m' q s d t z :
  at_pos p q i -> rel m t s d -> two_way (b_code i) = true -> b_off i = 0 ->
  bb_from bs (Z.of_nat q + 1) = Ok B ->
  like f z (set_bb1 B (set_op JA (insn0 b))) -> (forall r, m' r = m r) ->
  goes f [z] m' i q (S q) t d (isa_step w p (Z.of_nat q) s).
Proof.
  intros P R Tw O0 Hb L M. assert (Tw' := Tw). unfold two_way in Tw'. apply andb_true_iff in Tw' as [Cj Tn]. cbv zeta in Tn.
  destruct (jmp_step q i s P Cj) as (St & C & _).
  assert (K : isa_step w p (Z.of_nat q) s = IStuck \/ isa_step w p (Z.of_nat q) s = INext (Z.of_nat q + 1) s).
  { rewrite St. unfold isa_jmp.
    destruct (Z.eqb_spec (b_code i / 16) 0) as [X|_]; [rewrite X in Tn; discriminate Tn|].
    destruct (Z.eqb_spec (b_code i / 16) 8) as [X|_]; [rewrite X in Tn; discriminate Tn|].
    destruct (Z.eqb_spec (b_code i / 16) 9) as [X|_]; [rewrite X in Tn; discriminate Tn|].
    rewrite O0, Z.add_0_r. destruct (negb (is_reg (b_dst i)) || (Z.odd (b_code i / 8) && negb (is_reg (b_src i)))); [auto|]. cbv zeta.
    match goal with |- context [match ?x with Some _ => _ | None => IStuck end] => destruct x as [[|]|]; auto end. }
  destruct K as [-> | ->]; [exact I|].
  unfold goes. right. exists B. eexists. split; [right; exact Tw|]. split; [|split].
  - intros l. erewrite sb_one; [|exact L|qt|reflexivity]. cbn [i_bb1 set_bb1 set_op insn0]. reflexivity.
  - eapply rel_ext; eauto. intros. apply dirty_none; [tauto|]. intros X. rewrite X in Tw. discriminate Tw.
  - split; [reflexivity|]. split; [|destruct (bb_from_ok _ _ Hb) as (pb & Q1 & Q2); exists pb; split; [exact Q1 | lia]].
    unfold next_pcs. destruct (Z.eqb_spec (b_code i) 5) as [X|_]; [rewrite X in Tw; discriminate Tw|]. rewrite Tw. right; now left.
Qed.

Lemma sim_ret f b m i v m' q s d t z :
  at_pos p q i -> rel m t s d -> existsb d (reads ar i) = false ->
  jmp_cls (b_code i) = true -> opn (b_code i) = 9 -> regv m 0 = Some v ->
  like f z (set_vals [v] (set_op RET (insn0 b))) ->
  goes f [z] m' i q (S q) t d (isa_step w p (Z.of_nat q) s).
Proof.
  intros P R D Cj Co E L. unfold opn in Co. destruct (jmp_step q i s P Cj) as (St & C & _).
  rewrite St. unfold isa_jmp. fold (src_x (b_code i)). rewrite Co. cbn [Z.eqb Pos.eqb].
  destruct ((b_code i mod 8 =? 5) && negb (src_x (b_code i))) eqn:G; [|exact I].
  apply andb_true_iff in G as [G1 G2]. apply Z.eqb_eq in G1. apply negb_true_iff in G2.
  assert (C5 : b_code i = 0x95).
  { unfold src_x in G2. assert (Ev : Z.even (b_code i / 8) = true) by (rewrite <- Z.negb_odd, G2; reflexivity).
    apply Z.even_spec in Ev. destruct Ev as [k Ev]. clear -G1 Co Ev. lia. }
  assert (D0 : d 0 = false).
  { unfold reads in D. rewrite C5 in D. cbn in D. now rewrite orb_false_r in D. }
  assert (V : seval bi (s_env t) v = Some (rget s 0)) by (eapply read_reg; eauto).
  unfold goes. eexists. split; [|split; [exact (rl_mem _ _ _ _ R) | split; [exact (rl_nc _ _ _ _ R) | exact C5]]].
  intros l. erewrite sb_one; [|exact L|qt|]. 2:{ unfold sexec. cbn [i_op i_vals set_vals set_op insn0]. rewrite V. cbn [obind]. reflexivity. }
  reflexivity.
Qed.

Lemma two_way_of c o : jmp_cls c = true -> cond_of (opn c) = Some o -> two_way c = true.
Proof.
  unfold jmp_cls, two_way, cls, opn. intros -> H. cbn [andb]. unfold cond_of in H. cbv zeta.
  destruct (Z.leb_spec 1 (c / 16)), (Z.leb_spec (c / 16) 7), (Z.leb_spec 10 (c / 16)), (Z.leb_spec (c / 16) 13); cbn [andb orb]; try reflexivity; exfalso;
    repeat match type of H with context [Z.eqb (c / 16) ?k] => destruct (Z.eqb_spec (c / 16) k); [lia|] end; discriminate.
Qed.

Lemma sim_cond f b m i o v1 v2 t1 t2 m' q s d t z :
  at_pos p q i -> rel m t s d -> existsb d (reads ar i) = false ->
  jmp_cls (b_code i) = true -> cond_of (opn (b_code i)) = Some o ->
  regv m (b_dst i) = Some v1 ->
  (if src_x (b_code i) then regv m (b_src i) else Some (val_const32 (b_imm i))) = Some v2 ->
  bb_from bs (Z.of_nat q + 1) = Ok t1 ->
  bb_from bs (Z.of_nat q + b_off i + 1) = Ok t2 ->
  like f z (set_bb2 t2 (set_bb1 t1 (set_alu (jmp_w (b_code i)) (set_vals [v1; v2] (set_op o (insn0 b)))))) ->
  (forall r, m' r = m r) ->
  goes f [z] m' i q (S q) t d (isa_step w p (Z.of_nat q) s).
Proof.
  intros P R D Cj Co E1 E2 B1 B2 L M. pose proof (two_way_of _ _ Cj Co) as Tw.
  destruct (jmp_step q i s P Cj) as (St & C & Wd). unfold opn in Co.
  destruct (cond_cmp _ _ Co) as (a & A1 & A2 & N0 & N8 & N9 & N4).
  destruct (reads_jmp d i C N0 N8 N9 D) as [Rd Rs].
  rewrite St. unfold isa_jmp. fold (src_x (b_code i)).
  rewrite (proj2 (Z.eqb_neq _ _) N0), (proj2 (Z.eqb_neq _ _) N8), (proj2 (Z.eqb_neq _ _) N9), (proj2 (Z.eqb_neq _ _) N4), A1.
  destruct (negb (is_reg (b_dst i)) || (src_x (b_code i) && negb (is_reg (b_src i)))) eqn:G; [exact I|].
  apply orb_false_iff in G as [G1 G2]. apply negb_false_iff in G1. cbn [option_map].
  assert (V1 : seval bi (s_env t) v1 = Some (rget s (b_dst i))) by (eapply read_reg; eauto).
  assert (V2 : exists y, seval bi (s_env t) v2 = Some y /\ forall o ww x, cmp_fn o ww x y = cmp_fn o ww x (if src_x (b_code i) then rget s (b_src i) else b_imm i)).
  { destruct (src_x (b_code i)) eqn:X.
    - cbn in G2. apply negb_false_iff in G2. exists (rget s (b_src i)). split; [eapply read_reg; eauto | reflexivity].
    - injection E2 as <-. exists (u64 (b_imm i)). split; [reflexivity|]. intros; apply cmp_fn_u64_r. }
  destruct V2 as (y & V2 & Vy).
  unfold goes. right. do 2 eexists. split; [right; exact Tw|]. split; [|split].
  - intros l. erewrite sb_one; [|exact L|qt|].
    2:{ erewrite (sexec_cond _ _ _ _ _ _ o a v1 v2); [|reflexivity|reflexivity|exact A2]. cbn [i_alu set_alu set_bb1 set_bb2].
        rewrite Wd; cbn [obind]; rewrite V1; cbn [obind]; rewrite V2; cbn [obind]. reflexivity. }
    reflexivity.
  - eapply rel_ext; eauto. intros. apply dirty_none; [tauto|]. intros X. rewrite X in Tw. discriminate Tw.
  - split; [reflexivity|]. split.
    { unfold next_pcs. destruct (Z.eqb_spec (b_code i) 5) as [X|_]; [rewrite X in Tw; discriminate Tw|]. rewrite Tw.
      destruct (cmp_fn _ _ _ _); [now left | right; now left]. }
    cbn [i_bb1 i_bb2 set_bb1 set_bb2]. rewrite Vy. destruct (cmp_fn _ _ _ _).
    + destruct (bb_from_ok _ _ B2) as (pb & Q1 & Q2). exists pb. split; [exact Q1 | lia].
    + destruct (bb_from_ok _ _ B1) as (pb & Q1 & Q2). exists pb. split; [exact Q1 | lia].
Qed.

Lemma firstn_args (s : st) k : (k <= 5)%nat ->
  firstn k (args5 (map (fun q => rget s (Z.of_nat q)) (seq 1 k))) = firstn k [rget s 1; rget s 2; rget s 3; rget s 4; rget s 5].
Proof.
  intros H. do 6 (destruct k as [|k]; [reflexivity|]). lia.
Qed.

Lemma sim_call f b m i o k vs m' q s d t z :
  at_pos p q i -> rel m t s d -> fresh m z -> plain ar i -> existsb d (reads ar i) = false ->
  jmp_cls (b_code i) = true -> opn (b_code i) = 8 -> 0 <= b_imm i ->
  (o = ECALL /\ b_src i = 6 \/
     o = CALL /\ b_src i <> 6 /\ exists a, nth_error helper_args (Z.to_nat (b_imm i)) = Some a /\
       (b_imm i = 6 \/ a = Z.of_nat k)) ->
  argv m 0 k = Some vs ->
  like f z (set_u (b_imm i) (set_vals vs (set_op o (insn0 b)))) ->
  (forall r, m' r = wrote m 0 (val_insn z) r) ->
  goes f [z] m' i q (S q) t d (isa_step w p (Z.of_nat q) s).
Proof.
  intros P R F Pl D Cj Co Hi Ho Ha L M. unfold opn in Co. destruct (jmp_step q i s P Cj) as (St & C & _).
  rewrite St. unfold isa_jmp. fold (src_x (b_code i)). rewrite Co. cbn [Z.eqb Pos.eqb].
  destruct ((b_code i mod 8 =? 5) && negb (src_x (b_code i)) && (b_src i =? 0)) eqn:G; [|exact I].
  apply andb_true_iff in G as [G G3]. apply andb_true_iff in G as [G1 G2]. apply Z.eqb_eq in G1, G3. apply negb_true_iff in G2.
  assert (C5 : b_code i = 0x85).
  { unfold src_x in G2. assert (Ev : Z.even (b_code i / 8) = true) by (rewrite <- Z.negb_odd, G2; reflexivity).
    apply Z.even_spec in Ev. destruct Ev as [j Ev]. clear -G1 Co Ev. lia. }
  destruct Ho as [[-> Ho]|(-> & _ & a & N & Ho)]; [rewrite G3 in Ho; discriminate Ho|].
  destruct Pl as (_ & _ & _ & Pl). specialize (Pl C5). destruct (ar (b_imm i)) as [k'|] eqn:Ea; [|congruence].
  pose proof (Har _ _ Ea) as N'. rewrite N in N'. injection N' as ->.
  assert (Ek : k' = k).
  { destruct Ho as [Ho|Ho]; [|lia]. rewrite Ho in N. cbn in N. injection N as N. lia. }
  subst k'. pose proof (args_all_len _ _ N) as K5.
  assert (Dk : forall j, (0 < j <= 0 + k)%nat -> d (Z.of_nat j) = false).
  { intros j Hj. unfold reads in D. rewrite C5, Ea in D. cbn in D. clear -D Hj K5.
    do 6 (destruct k as [|k]; [cbn in D; repeat (apply orb_false_iff in D as [? D]);
      do 6 (destruct j as [|j]; [cbn; (assumption || lia)|]); lia |]). lia. }
  pose proof (argv_eval _ _ _ _ R _ _ _ Ha ltac:(lia) Dk) as Ev.
  unfold goes. left. eexists. split; [|split; [|split; [lia | apply call_not_jump; exact C5]]].
  - intros l. erewrite sb_one; [|exact L|qt|].
    2:{ unfold sexec. cbn [i_op i_vals i_u set_op set_vals set_u insn0]. rewrite Ev. cbn [obind].
        rewrite (Hw (b_imm i) k _ [rget s 1; rget s 2; rget s 3; rget s 4; rget s 5] _ _ Ea); [|now apply firstn_args| |reflexivity].
        2:{ unfold args5. rewrite firstn_length, app_length. cbn [length]. lia. }
        rewrite (rl_mem _ _ _ _ R), (rl_nc _ _ _ _ R). rewrite (surjective_pairing (helper _ _ _ _ _)). reflexivity. }
    reflexivity.
  - pose proof (rl_ok _ _ _ _ R) as O. constructor.
    + intros r v Hr. rewrite M. unfold wrote. cbn [s_env]. destruct (Z.eqb_spec r 0) as [->|Nr].
      * intros H; injection H as <-. eexists. split; [cbn [seval val_insn v_data]; unfold eupd; rewrite Nat.eqb_refl; reflexivity|].
        split; [apply u64_range|]. intros _. unfold call_helper. rewrite (surjective_pairing (helper _ _ _ _ _)). reflexivity.
      * intros H. destruct (rl_val _ _ _ _ R r v Hr H) as (y & Ey & Gy & Ky). exists y.
        destruct F as [Fg F]. split; [rewrite seval_upd; [exact Ey | exact (F r v H)]|]. split; [exact Gy|].
        unfold dirty_after. rewrite C5. cbn [Z.eqb Pos.eqb]. intros Hd. apply orb_false_iff in Hd as [Hd1 Hd2].
        assert (R6 : 6 <= r <= 10).
        { unfold regok in Hr. destruct (Z.leb_spec 1 r); [|lia]. destruct (Z.leb_spec r 5); [discriminate Hd1 | lia]. }
        rewrite call_rget by auto. apply Ky. apply Z.eqb_neq in Nr. rewrite Nr in Hd2. now rewrite andb_true_r in Hd2.
    + cbn [s_env]. destruct F as [Fg F]. unfold eupd. destruct (Nat.eqb_spec sp_id z) as [X|_]; [unfold sp_id in X; lia|].
      rewrite call_rget by (auto; lia). exact (rl_sp _ _ _ _ R).
    + cbn [s_mem]. unfold call_helper. rewrite (surjective_pairing (helper _ _ _ _ _)). reflexivity.
    + cbn [s_nc]. unfold call_helper. rewrite (surjective_pairing (helper _ _ _ _ _)). cbn [ncall]. reflexivity.
    + now apply call_ok.
Qed.

Lemma insn_sim f b m pi ids m' q i e s d t :
  lifts f bs b m pi ids m' -> pre_of q i e pi -> rel m t s d -> (forall z, In z ids -> fresh m z) -> plain ar i ->
  existsb d (reads ar i) = false -> iquiet Rg i s = true ->
  goes f ids m' i q e t d (isa_step w p (Z.of_nat q) s).
Proof.
  intros H Pr R F Pl D Q. destruct Pr as [(i' & P & Sm & N24 & N0 & -> & ->)|(j & P & C & P2 & C2 & -> & ->)].
  - destruct Sm as [->|(Tw & O0 & ->)].
    + inversion H; subst; unfold srcv in *; cbn [pi_code pi_dst pi_src pi_off pi_imm pi_imm64 pi_pos] in *.
      * eapply sim_bin; eauto. apply F; now left.
      * eapply sim_mov; eauto.
      * eapply sim_un; eauto. apply F; now left.
      * exfalso. apply N24. unfold cls, mode, szf in *. clear -H0 H1 H2. lia.
      * eapply sim_ldx; eauto. apply F; now left.
      * eapply sim_st; eauto.
      * eapply sim_ja; eauto.
      * eapply sim_ret; eauto.
      * eapply sim_cond; eauto.
      * eapply sim_call; eauto. apply F; now left.
    + cbn [b_code b_dst b_src b_off b_imm] in H. inversion H; subst; cbn [pi_code pi_dst pi_src pi_off pi_imm pi_imm64 pi_pos] in *; try discriminate.
      rewrite Z.add_0_r in *. eapply sim_ja0; eauto.
  - inversion H; subst; cbn [pi_code pi_dst pi_src pi_off pi_imm pi_imm64 pi_pos] in *; try discriminate.
    eapply sim_imm; eauto. apply F; now left.
Qed.
End One.
