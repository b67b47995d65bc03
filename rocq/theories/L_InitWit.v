(** What the lifter accepts, put together, and programs on both sides. *)
From Coq Require Import ZArith List Bool Arith Lia.
From Verif Require Import SpecWord SpecIsa SpecFlat SpecCfg SpecLift SpecIr SpecEdit SpecSsa SpecNormCond SpecOut M_Base M_Ir M_Edit M_GenBB M_Lift M_Layout M_Norm M_Pass M_Check M_Ecall M_Pipe
  L_Layout L_LiftMain L_LiftSafe L_LiftProp L_LiftEx L_LiftWit SpecPass SpecStrict SpecPrep SpecAccept SpecCheck L_RaWit L_VirtWit L_EndWit L_RoundWit L_Pipe L_PipeWit L_EcallWit L_Accept L_AcceptPipe L_AcceptWit
  SpecInit L_InitFwd L_InitProg L_InitBwd.
From Verif Require Import SpecIr SpecVirt SpecPrep.
Import ListNotations.
Open Scope nat_scope.

Theorem lift_refuses p m n : liftable p -> (forall j i, at_pos p j i -> in_limits i) -> length p + 1 <= m -> (length p + 2) * (length p + 2) <= n ->
  lift m n p = Err <-> ~ ((forall j i, at_pos p j i -> b_code i <> 0%Z -> translatable i) /\ initialised p).
Proof.
  intros L Lim Lm Ln. rewrite <- (lift_exact p m n L Lim Lm Ln). split; [intros E (f & F); congruence|].
  intros N. destruct L as [W Len No0 Ra]. destruct (lift_total p W Len No0 m n Lim Lm Ln) as [E|E]; [exact E|contradiction].
Qed.

Theorem pipe_accepts ar p k nd no : liftable p -> (forall j i, at_pos p j i -> in_limits i) -> fields_fit p -> (forall j i, at_pos p j i -> SpecLift.plain ar i) -> agrees ar ->
  (forall j i, at_pos p j i -> b_code i = 0x85%Z -> b_src i <> 6%Z) ->
  (forall j i, at_pos p j i -> b_code i <> 0%Z -> translatable i) -> initialised p -> (forall j i, at_pos p j i -> unobjectionable i) ->
  (length p + 2) * (length p + 2) <= k ->
  exists f, lift k k p = Ok f /\
  (2 * length (f_all f) + 1 < k -> f_ni f < k ->
   exists g L, front k nd no p = Ok (g, L) /\ (tame g sp_id -> stack_tame g sp_id -> forall cap, exists h, cg_input k cap nd no p = Ok (h, L))).
Proof.
  intros Lb Lim Ff Pl Ag Ne Tr Ini Un Lk.
  assert (Lm : length p + 1 <= k) by nia.
  destruct (proj2 (lift_exact p k k Lb Lim Lm Lk) (conj Tr Ini)) as (f & E). exists f. split; [exact E|]. intros K1 K2.
  exact (pipe_total ar p k nd no f Lb Ff Pl Ag Ne E K1 K2 Un).
Qed.

(** deciders *)
Definition some_b {A} (o : option A) : bool := match o with Some _ => true | None => false end.
Definition trans_b (i : bpf_insn) : bool :=
  (let c := b_code i in
  let n := c / 16 in
  match c mod 8 with
  | 0 => (c =? 24) && (b_src i <=? 6)
  | 1 => (c / 32 =? 3) || (c / 32 =? 4)
  | 2 | 3 => c / 32 =? 3
  | 4 | 7 => (b_off i =? 0) && (some_b (alu_of n) || (n =? 11) || (n =? 8) && negb (Z.odd (c / 8)) || (n =? 13) && (c mod 8 =? 4))
  | _ => (c =? 5) || (c =? 0x95) || some_b (cmp_of n) || two_way c && (b_off i =? 0) ||
    (c =? 0x85) && negb (b_src i =? 1) && negb (b_src i =? 2) && (0 <=? b_imm i) && ((b_src i =? 6) || (b_imm i <=? 211))
  end)%Z.
Lemma some_ok A (o : option A) : some_b o = true <-> o <> None.
Proof. destruct o; cbn; intuition congruence. Qed.
Lemma trans_ok i : trans_b i = true <-> translatable i.
Proof.
  unfold trans_b, translatable. cbv zeta.
  destruct (b_code i mod 8)%Z as [|q|q]; [|do 3 (try destruct q as [q|q|])|];
    rewrite ?orb_true_iff, ?andb_true_iff, ?orb_true_iff, ?andb_true_iff, ?orb_true_iff, ?andb_true_iff, ?some_ok, ?negb_true_iff, ?Z.eqb_eq, ?Z.eqb_neq, ?Z.leb_le; try tauto.
Qed.
Lemma trans_all p : forallb (fun i => (b_code i =? 0)%Z || trans_b i) p = true <-> forall j i, at_pos p j i -> b_code i <> 0%Z -> translatable i.
Proof.
  rewrite forallb_forall. split.
  - intros H j i A N. apply trans_ok. unfold at_pos in A. apply nth_error_In in A. pose proof (H i A) as K. apply orb_true_iff in K. destruct K as [K|K]; [apply Z.eqb_eq in K; contradiction|exact K].
  - intros H i I. apply In_nth_error in I. destruct I as [j A]. destruct (Z.eqb_spec (b_code i) 0) as [E|N]; [reflexivity|]. cbn. apply trans_ok. exact (H j i A N).
Qed.

(** a table of the registers that may be unset at each instruction *)
Definition memz (r : Z) (l : list Z) : bool := existsb (Z.eqb r) l.
Lemma memz_ok r l : memz r l = true <-> In r l.
Proof. unfold memz. rewrite existsb_exists. split; [intros (x & I & E); apply Z.eqb_eq in E; now subst|intros I; exists r; split; [exact I|apply Z.eqb_refl]]. Qed.
Definition at_tab (u : list (list Z)) (t : Z) : list Z := nth (Z.to_nat t) u [].
Definition init_chk (p : list bpf_insn) (u : list (list Z)) : bool :=
  forallb (fun r => memz r (at_tab u 0)) [0; 6; 7; 8; 9]%Z &&
  forallb (fun k => match nth_error p k with
    | None => true
    | Some i =>
      forallb (fun r => negb (memz r (needs i)) && (memz r (sets i) || forallb (fun t => (0 <=? t)%Z && memz r (at_tab u t)) (next_pcs i (Z.of_nat k)))) (nth k u [])
    end) (seq 0 (length p)).
Lemma init_chk_ok p u : init_chk p u = true -> initialised p.
Proof.
  unfold init_chk. rewrite andb_true_iff, !forallb_forall. intros (A & B).
  assert (S : forall r pc i, In r (at_tab u pc) -> fetch p pc = Some i -> ~ In r (needs i) /\ (In r (sets i) \/ forall t, In t (next_pcs i pc) -> (0 <= t)%Z /\ In r (at_tab u t))).
  { intros r pc i I F. assert (Hp : (0 <= pc)%Z /\ nth_error p (Z.to_nat pc) = Some i) by (unfold fetch in F; destruct (Z.ltb_spec pc 0); [discriminate|split; [lia|exact F]]).
    destruct Hp as [P0 F']. assert (Lk : Z.to_nat pc < length p) by (apply nth_error_Some; congruence).
    assert (Is : In (Z.to_nat pc) (seq 0 (length p))) by (apply in_seq; lia).
    pose proof (B _ Is) as K. rewrite F', forallb_forall in K. pose proof (K r I) as Q. rewrite andb_true_iff, negb_true_iff, orb_true_iff, forallb_forall, memz_ok in Q.
    rewrite Z2Nat.id in Q by exact P0. destruct Q as [Q1 Q2]. split; [intros J; apply memz_ok in J; congruence|].
    destruct Q2 as [Q2|Q2]; [left; exact Q2|right]. intros t It. pose proof (Q2 t It) as M. rewrite andb_true_iff, memz_ok, Z.leb_le in M. exact M. }
  assert (U : forall r pc, unset p r pc -> In r (at_tab u pc)).
  { induction 1 as [r I | r pc i t Un IH F Ns It]; [apply memz_ok, A, I|]. destruct (S r pc i IH F) as [_ [Q|Q]]; [contradiction|apply Q, It]. }
  intros pc i r Un F. exact (proj1 (S r pc i (U r pc Un) F)).
Qed.
(** computing it *)
Definition unite (a b : list Z) : list Z := a ++ filter (fun r => negb (memz r a)) b.
Fixpoint upd (u : list (list Z)) (k : nat) (l : list Z) : list (list Z) := match u, k with [], _ => [] | x :: t, 0 => unite x l :: t | x :: t, S j => x :: upd t j l end.
Definition sweep (p : list bpf_insn) (u : list (list Z)) : list (list Z) :=
  fold_left (fun u k => match nth_error p k with None => u | Some i =>
    fold_left (fun u t => upd u (Z.to_nat t) (filter (fun r => negb (memz r (sets i))) (nth k u []))) (next_pcs i (Z.of_nat k)) u end) (seq 0 (length p)) u.
Definition unset_tab (p : list bpf_insn) : list (list Z) := Nat.iter 20 (sweep p) (upd (map (fun _ => []) p) 0 [0; 6; 7; 8; 9]%Z).
Definition limits_b (i : bpf_insn) : bool := ((0 <=? b_dst i) && (b_dst i <=? 10) && (0 <=? b_src i) && (b_src i <=? 10) && (negb (b_code i =? 0x85) || negb (b_src i =? 6) || (b_dst i <=? 5)))%Z.
Lemma limits_all p : forallb limits_b p = true -> forall j i, at_pos p j i -> in_limits i.
Proof.
  rewrite forallb_forall. intros H j i A. unfold at_pos in A. apply nth_error_In in A. pose proof (H i A) as K. unfold limits_b in K.
  rewrite !andb_true_iff, !orb_true_iff, !negb_true_iff, !Z.leb_le, !Z.eqb_neq in K. unfold in_limits. intuition lia.
Qed.
Definition meets_b p := lift_chk p && forallb limits_b p && forallb (fun i => (b_code i =? 0)%Z || trans_b i) p && init_chk p (unset_tab p).
Lemma meets_ok p : meets_b p = true -> liftable p /\ (forall j i, at_pos p j i -> in_limits i) /\ (forall j i, at_pos p j i -> b_code i <> 0%Z -> translatable i) /\ initialised p.
Proof.
  unfold meets_b. rewrite !andb_true_iff. intros (((A & B) & C) & D). exact (conj (lift_chk_ok p A) (conj (limits_all p B) (conj (proj1 (trans_all p) C) (init_chk_ok p _ D)))).
Qed.

(** a loop whose register is set on one way in and, from the second round on, in the loop *)
Definition w_init : list bpf_insn := [Bk 6 0; Bk 7 5; mkBpf 0x15 1 0 1 0; Bmov 7 1; Badd 6 7; Bmov 8 6; Bne 8 (-3) 30; Bcall 7; Badd 0 8; Bexit]%Z.
Lemma init_meets : liftable w_init /\ (forall j i, at_pos w_init j i -> in_limits i) /\ (forall j i, at_pos w_init j i -> b_code i <> 0%Z -> translatable i) /\ initialised w_init.
Proof. apply meets_ok. vm_compute. reflexivity. Qed.
Lemma pipe_meets_init : liftable w_pipe /\ (forall j i, at_pos w_pipe j i -> in_limits i) /\ (forall j i, at_pos w_pipe j i -> b_code i <> 0%Z -> translatable i) /\ initialised w_pipe.
Proof. apply meets_ok. vm_compute. reflexivity. Qed.
(** r7 is set on one of two ways *)
Definition w_unset : list bpf_insn := [mkBpf 0x15 1 0 1 0; Bk 7 5; Bmov 0 7; Bexit]%Z.
Lemma unset_limits : forall j i, at_pos w_unset j i -> in_limits i.
Proof. apply limits_all. vm_compute. reflexivity. Qed.
Lemma unset_liftable : liftable w_unset.
Proof. apply lift_chk_ok. vm_compute. reflexivity. Qed.
Lemma unset_trans : forall j i, at_pos w_unset j i -> b_code i <> 0%Z -> translatable i.
Proof. apply trans_all. vm_compute. reflexivity. Qed.
Lemma unset_not : ~ initialised w_unset.
Proof.
  intros H. apply (H 2%Z (Bmov 0 7) 7%Z); [|reflexivity|vm_compute; auto].
  apply (un_s w_unset 7%Z 0%Z (mkBpf 0x15 1 0 1 0)%Z 2%Z); [apply un_0; cbn; auto|reflexivity|vm_compute; tauto|vm_compute; auto].
Qed.
Lemma unset_err m n : 5 <= m -> 36 <= n -> lift m n w_unset = Err.
Proof.
  intros Lm Ln. apply lift_refuses; [exact unset_liftable|exact unset_limits|exact Lm|exact Ln|]. intros [_ K]. exact (unset_not K).
Qed.
(** the signed division of the newer instruction set *)
Definition w_sdiv : list bpf_insn := [Bmov 0 1; mkBpf 0x37 0 0 1 3; Bexit]%Z.
Lemma sdiv_rejected : liftable w_sdiv /\ initialised w_sdiv /\ lift pk pk w_sdiv = Err.
Proof. split; [apply lift_chk_ok; vm_compute; reflexivity|]. split; [apply (init_chk_ok _ (unset_tab w_sdiv)); vm_compute; reflexivity|vm_compute; reflexivity]. Qed.
(** the result is never set *)
Definition w_ret : list bpf_insn := [Bmov 6 1; Bexit]%Z.
Lemma ret_rejected : liftable w_ret /\ (forall j i, at_pos w_ret j i -> b_code i <> 0%Z -> translatable i) /\ lift pk pk w_ret = Err.
Proof. split; [apply lift_chk_ok; vm_compute; reflexivity|]. split; [apply trans_all; vm_compute; reflexivity|vm_compute; reflexivity]. Qed.
