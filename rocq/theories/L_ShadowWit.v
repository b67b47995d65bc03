(** The memory sanitizer pass: programs. *)
From Coq Require Import ZArith List Bool Arith Lia.
From Verif Require Import SpecWord SpecIsa SpecFlat SpecCfg SpecLift SpecIr SpecEdit SpecSsa M_Base M_Ir M_Edit M_GenBB M_Lift M_Layout M_Norm M_Pass M_Check M_Ecall M_Pipe
  L_GenBBEx L_LiftMain L_LiftSafe L_LiftProp L_LiftEx L_LiftWit L_RaCheck L_VirtCheck L_RaWit L_VirtWit M_Ra L_EndWit L_RoundWit SpecPrep L_Ecall L_PipeWit L_EcallWit
  SpecRa SpecFrame L_RaLive L_Frame L_FrameWit SpecInstr SpecWeave SpecShadow L_InstrWit L_Ins L_Weave L_Shadow L_ShadowRun.
From Verif Require Import SpecIr.
Import ListNotations.
Open Scope nat_scope.

(** ** What is not in any block keeps its value *)
Definition res_st (q : sres) : sst := match q with SNext s | SJmp _ s | SRet _ s | SThrow s => s end.
Lemma sexec_env w bi f i x s q d : sexec w bi f i x s = Some q -> d <> i -> s_env (res_st q) d = s_env s d.
Proof.
  intros E N. unfold sexec, obind in E. revert E. destruct (i_op x); cbn [alu_op_of cmp_op_of];
    repeat match goal with |- match ?e with _ => _ end = _ -> _ => destruct e end; intros E; try discriminate E; injection E as <-; cbn; unfold eupd;
    try (destruct (Nat.eqb_spec d i); [contradiction|]); reflexivity.
Qed.
Lemma sbody_env w bi f d : forall l s q, sbody w bi f s l = Some q -> ~ In d l -> s_env (res_st q) d = s_env s d.
Proof.
  induction l as [|i l IH]; intros s q E N; cbn [sbody] in E. { injection E as <-. reflexivity. }
  destruct (f_insn f i) as [x|]; cbn [obind] in E; [|discriminate]. destruct (sexec w bi f i x s) as [t|] eqn:X; cbn [obind] in E; [|discriminate].
  assert (K : s_env (res_st t) d = s_env s d) by (eapply sexec_env; eauto; intros ->; apply N; now left).
  destruct t; try (injection E as <-; exact K). cbn in K. rewrite <- K. eapply IH; eauto. intros I. apply N. now right.
Qed.
Lemma sphis_env bi f prev t0 d : forall l t r t1, sphis bi f prev t0 t l = Some (r, t1) -> ~ In d l -> s_env t1 d = s_env t d.
Proof.
  induction l as [|i l IH]; intros t r t1 E N; cbn [sphis] in E. { injection E as _ <-. reflexivity. }
  destruct (f_insn f i) as [x|]; cbn [obind] in E; [|discriminate]. destruct (iop_eqb (i_op x) PHI); [|injection E as _ <-; reflexivity].
  destruct (incoming x prev) as [v|]; cbn [obind] in E; [|discriminate]. destruct (seval bi (s_env t0) v) as [z|]; cbn [obind] in E; [|discriminate].
  rewrite (IH _ _ _ E) by (intros I; apply N; now right). cbn. unfold eupd. destruct (Nat.eqb_spec d i) as [->|]; [exfalso; apply N; now left|reflexivity].
Qed.
Lemma sblock_env w bi f prev b s q d : sblock w bi f prev b s = Some q -> ~ In d (insns_of f b) -> s_env (res_st q) d = s_env s d.
Proof.
  unfold sblock, insns_of. intros E N. destruct (f_block f b) as [k|]; cbn [obind] in E; [|discriminate].
  destruct (sphis bi f prev s s (b_insns k)) as [[r s1]|] eqn:P; cbn [obind] in E; [|discriminate]. assert (NR : ~ In d r) by (intros I; apply N; eapply sphis_incl; eauto).
  destruct (sbody w bi f s1 r) as [t|] eqn:B; cbn [obind] in E; [|discriminate]. apply sbody_env with (d := d) in B; auto. rewrite (sphis_env _ _ _ _ _ _ _ _ _ P N) in B.
  destruct t; [destruct (b_succs k); [discriminate|]|..]; injection E as <-; exact B.
Qed.
Lemma srun_env w bi f d : (forall b, ~ In d (insns_of f b)) -> forall n prev b s p c t, srun w bi f n prev b s = Some (OAt p c t) -> s_env t d = s_env s d.
Proof.
  intros N. induction n as [|n IH]; intros prev b s p c t E; cbn [srun] in E. { injection E as <- <- <-. reflexivity. }
  destruct (sblock w bi f prev b s) as [q|] eqn:B; cbn [obind] in E; [|discriminate]. apply sblock_env with (d := d) in B; [|apply N]. destruct q; try discriminate E. cbn in B. rewrite <- B. eapply IH; eauto.
Qed.
Lemma reaches_env w bi f s0 i s d : (forall b, ~ In d (insns_of f b)) -> reaches w bi f s0 i s -> s_env s d = s_env s0 d.
Proof.
  intros N (n & prev & b & s1 & l1 & l2 & rest & s2 & R & L & P & B). assert (N1 : ~ In d l1). { intros I. apply (N b). rewrite L. apply in_or_app. auto. }
  apply sbody_env with (d := d) in B. 2:{ intros I. apply N1. eapply sphis_incl; eauto. } cbn in B. rewrite B, (sphis_env _ _ _ _ _ _ _ _ _ P N1). eapply srun_env; eauto.
Qed.

(** ** Programs: stores and loads relative to r10 *)
(** stores 0 .. 9 at r10 - 8, then reads the last one *)
Definition w_slot : list bpf_insn := [Bk 6 0; Bs 10 6 (-8); Bak 6 1; Bne 6 (-3) 10; Bl 0 10 (-8); Bexit]%Z.
(** 1 at r10 - 8, 2 at r10 - 264; reads the former *)
Definition w_far : list bpf_insn := [Bk 6 1; Bs 10 6 (-8); Bk 7 2; Bs 10 7 (-264); Bl 0 10 (-8); Bexit]%Z.
(** reads a slot that was never written *)
Definition w_raw : list bpf_insn := [Bl 0 10 (-8); Bexit]%Z.
(** ten values at the same time; a store at r10 - 256 *)
Definition w_wide : list bpf_insn :=
  [Bst 1; Bs 10 1 (-256); Bld 0; Bld 1; Bld 2; Bld 3; Bld 4; Bld 5; Bld 6; Bld 7; Bld 8; Bld 9;
   Badd 0 1; Badd 0 2; Badd 0 3; Badd 0 4; Badd 0 5; Badd 0 6; Badd 0 7; Badd 0 8; Badd 0 9; Bexit]%Z.
Definition msan_of p reach := after (msan 20 sp_id reach (lift_of p)).
(** r10 = 1000, the array (instruction [a]) at 5000 *)
Definition s_at (a : nat) : sst := mkS (fun i => if i =? sp_id then Some 1000%Z else if i =? a then Some 5000%Z else None) (fun _ => None) (fun _ => 0xaa%Z) 0.
Definition w_mem : world := mkWorld (fun _ _ _ m => ([], m)) (fun _ _ => 0%Z).

Definition msan_chk (p : list bpf_insn) (reach : list nat) (a : nat) : bool :=
  let f := lift_of p in
  lift_chk p && is_ok (lift pk pk p) && forallb (fun i => match f_insn f i with Some x => onceb (operand_values x) | None => true end) (seq 0 (f_ni f)) &&
  cfgb f && liveb f && negb (existsb (Nat.eqb sp_id) (flat_map (insns_of f) (seq 0 (f_nb f)))) && okb (msan 20 sp_id reach f) &&
  forallb (fun i => match f_insn (msan_of p reach) i with Some x => negb (iop_eqb (i_op x) ALLOCARRAY) || (i =? a) | None => true end) (seq 0 (f_ni (msan_of p reach))).
Lemma msan_chk_ok p reach a : msan_chk p reach a = true -> NoDup reach ->
  cfg_ok (lift_of p) /\ operands_live (lift_of p) /\ (forall b, ~ In sp_id (insns_of (lift_of p) b)) /\
  msan 20 sp_id reach (lift_of p) = Ok (msan_of p reach) /\ shadows (lift_of p) (msan_of p reach) sp_id reach a.
Proof.
  intros E N. unfold msan_chk in E. rewrite !andb_true_iff in E. destruct E as (((((((E1 & E2) & E3) & E4) & E5) & E6) & E7) & E8).
  assert (W : wf_func (lift_of p)) by (apply (single_wf p pk pk); [now apply lift_chk_ok|now apply get_ok_spec|exact E3]).
  assert (C := cfgb_ok _ W E4). assert (OL := liveb_ok _ (cf_fresh _ C) E5). assert (M := after_ok _ E7). split; [exact C|]. split; [exact OL|]. split.
  - intros b I. assert (B : b < f_nb (lift_of p)). { destruct (Nat.lt_ge_cases b (f_nb (lift_of p))) as [|G]; auto. exfalso. apply (in_block _ _ _ I). now apply (cf_fresh _ C). }
    apply negb_true_iff in E6. assert (K : existsb (Nat.eqb sp_id) (flat_map (insns_of (lift_of p)) (seq 0 (f_nb (lift_of p)))) = true); [|congruence].
    apply existsb_exists. exists sp_id. split; [|apply Nat.eqb_refl]. apply in_flat_map. exists b. split; [apply in_seq; lia|exact I].
  - split; [exact M|]. destruct (msan_shape 20 sp_id reach (lift_of p) (msan_of p reach) C OL N M) as (a' & S). replace a with a'; [exact S|].
    destruct (sw_array _ _ _ _ _ S) as (_ & y & Y & O & _). rewrite forallb_forall in E8. assert (L : a' < f_ni (msan_of p reach)).
    { destruct (Nat.lt_ge_cases a' (f_ni (msan_of p reach))) as [|G]; auto. exfalso. rewrite (proj1 (cf_fresh _ (sw_cfg _ _ _ _ _ S))) in Y by assumption. discriminate. }
    specialize (E8 a' ltac:(apply in_seq; lia)). rewrite Y, O in E8. cbn [negb] in E8. apply Nat.eqb_eq. destruct (a' =? a); [reflexivity|]. unfold iop_eqb in E8. destruct (iop_eq_dec ALLOCARRAY ALLOCARRAY); [discriminate E8|congruence].
Qed.
Definition ret_b (f : func) (s : sst) (r : Z) : bool := match srun w_mem bi0 f 50 0 (f_entry f) s with Some (ORet r' _) => (r' =? r)%Z | _ => false end.
Lemma ret_b_ok f s r : ret_b f s r = true -> exists m k, returns_in w_mem bi0 f 50 s r m k.
Proof.
  unfold ret_b. intros E. destruct (srun w_mem bi0 f 50 0 (f_entry f) s) as [[|r' t|]|] eqn:R; try discriminate. apply Z.eqb_eq in E. subst r'. exists (s_mem t), (s_nc t), t. auto.
Qed.

Definition opsb (P : iop -> bool) (f : func) : bool := forallb (fun i => match f_insn f i with Some x => P (i_op x) | None => true end) (seq 0 (f_ni f)).
Lemma opsb_ok P f : fresh_ok f -> opsb P f = true -> forall i x, f_insn f i = Some x -> P (i_op x) = true.
Proof.
  intros F K i x X. unfold opsb in K. rewrite forallb_forall in K. specialize (K i). rewrite X in K. apply K. apply in_seq.
  destruct (Nat.lt_ge_cases i (f_ni f)); [lia|]. rewrite (proj1 F) in X by assumption. discriminate.
Qed.
(** all raw accesses are words at r10 - 8 *)
Definition slotb (f : func) : bool := forallb (fun i => match f_insn f i with
  | Some x => if iop_eqb (i_op x) LOADRAW || iop_eqb (i_op x) STORERAW
              then match v_data (a_val (i_addr x)), i_vrt x with VInsn d, VR_64 => (d =? sp_id) && (a_off (i_addr x) =? -8)%Z | _, _ => false end else true
  | None => true end) (seq 0 (f_ni f)).
Definition shadow_area (p : Z) : Prop := (1000 <= p < 1256 \/ 5000 <= p < 5256)%Z.
Lemma slot_keeps f a : fresh_ok f -> a <> sp_id -> (forall b, ~ In sp_id (insns_of f b)) -> slotb f = true -> keeps_off w_mem bi0 f sp_id (s_at a) shadow_area 5000.
Proof.
  intros F NA NS E. unfold slotb in E. rewrite forallb_forall in E.
  assert (K : forall i s x k p, reaches w_mem bi0 f (s_at a) i s -> f_insn f i = Some x -> i_op x = LOADRAW \/ i_op x = STORERAW -> vr_bytes (i_vrt x) = Some k ->
    seval bi0 (s_env s) (a_val (i_addr x)) = Some p -> k = 8 /\ p = 1000%Z /\ a_off (i_addr x) = (-8)%Z).
  { intros i s x k p R X O VK P. specialize (E i). rewrite X in E. assert (L : In i (seq 0 (f_ni f))).
    { apply in_seq. destruct (Nat.lt_ge_cases i (f_ni f)); [lia|]. rewrite (proj1 F) in X by assumption. discriminate. }
    apply E in L. assert (Q : iop_eqb (i_op x) LOADRAW || iop_eqb (i_op x) STORERAW = true) by (destruct O as [-> | ->]; reflexivity). rewrite Q in L.
    destruct (v_data (a_val (i_addr x))) as [z|z|z|d|z|] eqn:D; try discriminate L. destruct (i_vrt x); try discriminate L. apply andb_prop in L as (L1 & L2).
    apply Nat.eqb_eq in L1. apply Z.eqb_eq in L2. cbn in VK. injection VK as <-. unfold seval in P. rewrite D, L1 in P. rewrite (reaches_env _ _ _ _ _ _ _ NS R) in P. injection P as <-. auto. }
  assert (U : forall z, (0 <= z < 6000)%Z -> u64 z = z). { intros z Z. unfold u64. apply Z.mod_small. lia. }
  constructor.
  - intros i s x k p j R X O VK P J. destruct (K i s x k p R X O VK P) as (-> & -> & ->). rewrite U by lia. unfold shadow_area. lia.
  - intros i s x k p j R (X & O & _) VK P J. destruct (K i s x k p R X O VK P) as (-> & -> & ->). change (s16 (-8 + 256)) with 248%Z. rewrite U by lia. unfold shadow_area. lia.
  - intros j J. rewrite U by lia. unfold shadow_area. lia.
  - intros n c l m m' S. split; [reflexivity|exact S].
Qed.

Lemma msan_applies : exists fuel reach f g a s0 D base m k,
  (cfg_ok f /\ operands_live f /\ NoDup reach /\ (forall b, ~ In sp_id (insns_of f b)) /\ msan fuel sp_id reach f = Ok g /\ shadows f g sp_id reach a) /\
  s_env s0 a = Some base /\ keeps_off w_mem bi0 f sp_id s0 D base /\ returns_in w_mem bi0 f 50 s0 9 m k /\
  (exists b, preds_of f b <> [] /\ In b (succs_of f b)) /\ (exists b i x, In b reach /\ In i (insns_of f b) /\ stack_access f sp_id i x /\ i_op x = STORERAW) /\
  (forall b i x, In i (insns_of f b) -> f_insn f i = Some x -> i_op x <> THROW).
Proof.
  assert (N : NoDup [1; 2; 3]) by (repeat constructor; cbn; intuition discriminate).
  destruct (msan_chk_ok w_slot [1; 2; 3] 13 ltac:(vm_compute; reflexivity) N) as (C & OL & NS & M & SW).
  destruct (ret_b_ok (lift_of w_slot) (s_at 13) 9 ltac:(vm_compute; reflexivity)) as (m & k & R).
  exists 20, [1; 2; 3], (lift_of w_slot), (msan_of w_slot [1; 2; 3]), 13, (s_at 13), shadow_area, 5000%Z, m, k. split; [auto 10|]. split; [reflexivity|].
  split; [apply slot_keeps; [exact (cf_fresh _ C)|discriminate|exact NS|vm_compute; reflexivity]|]. split; [exact R|]. split; [|split].
  - exists 2. split; [vm_compute; discriminate|]. vm_compute. auto.
  - destruct (f_insn (lift_of w_slot) 8) as [x|] eqn:X; [|vm_compute in X; discriminate X]. exists 2, 8, x. split; [cbn; auto|]. split; [vm_compute; auto|].
    assert (Q : i_op x = STORERAW /\ v_data (a_val (i_addr x)) = VInsn sp_id) by (vm_compute in X; injection X as <-; split; reflexivity). destruct Q as (Q1 & Q2).
    split; [|exact Q1]. split; [exact X|]. split; [auto|]. exists sp_id. split; [exact Q2|constructor].
  - intros b i x _ X O. assert (K := opsb_ok (fun o => negb (iop_eqb o THROW)) _ (cf_fresh _ C) ltac:(vm_compute; reflexivity) i x X). rewrite O in K. discriminate K.
Qed.
(** the shadow of the second store is the first one's slot *)
Lemma msan_clobbers : exists fuel reach f g a s0 n,
  (cfg_ok f /\ operands_live f /\ NoDup reach /\ (forall b, ~ In sp_id (insns_of f b)) /\ msan fuel sp_id reach f = Ok g /\ shadows f g sp_id reach a) /\
  s_env s0 sp_id = Some 1000%Z /\ s_env s0 a = Some 5000%Z /\
  (exists m k, returns_in w_mem bi0 f n s0 1 m k) /\ (exists m k, returns_in w_mem bi0 (take_out a g) n s0 0 m k).
Proof.
  assert (N : NoDup [1]) by (repeat constructor; cbn; intuition discriminate).
  destruct (msan_chk_ok w_far [1] 11 ltac:(vm_compute; reflexivity) N) as (C & OL & NS & M & SW).
  exists 20, [1], (lift_of w_far), (msan_of w_far [1]), 11, (s_at 11), 50. split; [auto 10|]. split; [reflexivity|]. split; [reflexivity|].
  split; apply ret_b_ok; vm_compute; reflexivity.
Qed.
(** a slot that was never written is read, and nothing happens *)
Lemma msan_misses : exists fuel reach f g a s0 n,
  (cfg_ok f /\ operands_live f /\ NoDup reach /\ (forall b, ~ In sp_id (insns_of f b)) /\ msan fuel sp_id reach f = Ok g /\ shadows f g sp_id reach a) /\
  s_env s0 sp_id = Some 1000%Z /\ s_env s0 a = Some 5000%Z /\
  (exists b i x, In b reach /\ In i (insns_of f b) /\ stack_access f sp_id i x /\ i_op x = LOADRAW) /\
  (forall b i x, In i (insns_of f b) -> f_insn f i = Some x -> ~ In (i_op x) [STORERAW; STORE; CALL]) /\
  (exists r m k, returns_in w_mem bi0 (take_out a g) n s0 r m k).
Proof.
  assert (N : NoDup [1]) by (repeat constructor; cbn; intuition discriminate).
  destruct (msan_chk_ok w_raw [1] 9 ltac:(vm_compute; reflexivity) N) as (C & OL & NS & M & SW).
  exists 20, [1], (lift_of w_raw), (msan_of w_raw [1]), 9, (s_at 9), 50. split; [auto 10|]. split; [reflexivity|]. split; [reflexivity|]. split; [|split].
  - destruct (f_insn (lift_of w_raw) 7) as [x|] eqn:X; [|vm_compute in X; discriminate X]. exists 1, 7, x. split; [cbn; auto|]. split; [vm_compute; auto|].
    assert (Q : i_op x = LOADRAW /\ v_data (a_val (i_addr x)) = VInsn sp_id) by (vm_compute in X; injection X as <-; split; reflexivity). destruct Q as (Q1 & Q2).
    split; [|exact Q1]. split; [exact X|]. split; [auto|]. exists sp_id. split; [exact Q2|constructor].
  - intros b i x _ X O. assert (K := opsb_ok (fun o => negb (iop_eqb o STORERAW || iop_eqb o STORE || iop_eqb o CALL)) _ (cf_fresh _ C) ltac:(vm_compute; reflexivity) i x X).
    cbn beta in K. destruct O as [O|[O|[O|[]]]]; rewrite <- O in K; discriminate K.
  - exists 0xaaaaaaaaaaaaaaaa%Z. apply ret_b_ok. vm_compute. reflexivity.
Qed.

(** the shadow of a store at r10 - 256 is the place of a spilled value in the final frame *)
Definition wide_laid : func * list nat := get_ok (f0, []) (laid (msan_of w_wide [1])).
Definition storeb (s : cgs) (i : nat) (off : Z) : bool :=
  existsb (Nat.eqb i) (flat_map (insns_of (c_f s)) (c_reach s)) &&
  match f_insn (c_f s) i with Some x => iop_eqb (i_op x) STORERAW && (a_off (i_addr x) =? off)%Z && match i_vrt x with VR_64 => true | _ => false end | None => false end.
Lemma storeb_ok s i off : storeb s i off = true -> linked s i /\ exists x, f_insn (c_f s) i = Some x /\ i_op x = STORERAW /\ a_off (i_addr x) = off /\ i_vrt x = VR_64.
Proof.
  unfold storeb. intros H. apply andb_prop in H as [A B]. apply existsb_exists in A as (j & J & A). apply Nat.eqb_eq in A. subst j. split; [now apply flat_linked|].
  destruct (f_insn (c_f s) i) as [x|]; [|discriminate B]. exists x. rewrite !andb_true_iff in B. destruct B as ((B & C) & D). split; [reflexivity|].
  split; [unfold iop_eqb in B; destruct (iop_eq_dec (i_op x) STORERAW); congruence|]. split; [now apply Z.eqb_eq|]. destruct (i_vrt x); congruence.
Qed.
Lemma msan_slots : exists fuel reach f g a h l sc s3 s4 i x v o,
  (cfg_ok f /\ operands_live f /\ NoDup reach /\ (forall b, ~ In sp_id (insns_of f b)) /\ msan fuel sp_id reach f = Ok g /\ shadows f g sp_id reach a) /\
  laid g = Ok (h, l) /\ compiled h l sp_id [2;3;4;5;6] 100 (fun _ => ident) (fun _ => ident) Ok sc s3 s4 /\
  region s4 a = Some (-256, 256)%Z /\ v <> a /\ region s4 v = Some (o, 8%Z) /\
  f_insn f i = None /\ linked s4 i /\ f_insn (c_f s4) i = Some x /\ i_op x = STORERAW /\ i_vrt x = VR_64 /\ a_off (i_addr x) = o.
Proof.
  assert (N : NoDup [1]) by (repeat constructor; cbn; intuition discriminate).
  destruct (msan_chk_ok w_wide [1] 29 ltac:(vm_compute; reflexivity) N) as (C & OL & NS & M & SW).
  destruct (stages_ok wide_laid (fun sc s3 s4 => regionb s4 29 (-256) 256 && regionb s4 85 (-264) 8 && storeb s4 63 (-264))) as (sc & s3 & s4 & Hc & H); [vm_compute; reflexivity|].
  rewrite !andb_true_iff in H. destruct H as ((A & B) & D). apply regionb_ok in A, B. apply storeb_ok in D as (D1 & x & D2 & D3 & D4 & D5).
  exists 20, [1], (lift_of w_wide), (msan_of w_wide [1]), 29, (fst wide_laid), (snd wide_laid), sc, s3, s4, 63, x, 85, (-264)%Z.
  split; [auto 10|]. split; [rewrite <- surjective_pairing; apply get_ok_spec; vm_compute; reflexivity|]. split; [exact Hc|]. split; [exact A|]. split; [lia|].
  split; [exact B|]. split; [vm_compute; reflexivity|]. auto.
Qed.
