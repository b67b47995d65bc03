(** From the virtual values to the generated code, and concrete functions. *)
From Coq Require Import ZArith List Bool Arith Lia.
From Verif Require Import SpecWord SpecIsa SpecSsa SpecLift M_Base M_Ir M_Edit M_Layout M_Norm M_GenBB M_Lift M_Ra
  SpecFlat SpecProg SpecNormCond SpecOut SpecIr SpecRa SpecPass SpecShift SpecVirt
  L_GenBBEx L_LiftEx L_LiftWit L_Norm L_Prog L_Out L_Edit L_Frame L_RaGraph L_RaCheck L_RaWit L_Virt L_SsaOut L_VirtSame L_VirtCheck.
From Verif Require Import M_Ra SpecVirt.
Import ListNotations.
Open Scope nat_scope.

(** ** The order of the blocks is kept *)
Lemma create_bb_reach s b k p c : cg_create_bb s b k p = Ok c -> c_reach (fst c) = c_reach s.
Proof. unfold cg_create_bb. intros H. bo H r E. oks H. reflexivity. Qed.
Lemma in_func_reach s r t : in_func s r = Ok t -> c_reach t = c_reach s.
Proof. unfold in_func. intros H. bo H f E. oks H. reflexivity. Qed.
Lemma ofold_reach {A} (g : cgs -> A -> outcome cgs) : (forall s a t, g s a = Ok t -> c_reach t = c_reach s) ->
  forall l s t, ofold g s l = Ok t -> c_reach t = c_reach s.
Proof.
  intros G. induction l as [|a r IH]; intros s t H; cbn [ofold] in H; [oks H; reflexivity|]. bo H s1 E. rewrite (IH _ _ H). exact (G _ _ _ E).
Qed.
Lemma ssa_out_reach u t : ssa_out u = Ok t -> c_reach t = c_reach u.
Proof.
  unfold ssa_out, add_stack_offset, remove_phi. intros H. bo H u1 E. bo E l El. bo H L EL. destruct (shift_keep _ _ _ _ E) as (K & _). rewrite <- K.
  refine (ofold_reach _ _ _ _ _ H). clear. intros s i t H. unfold remove_one_phi in H. bo H x X. bo H ei Ei. bo H s1 E1. bo H x1 X1. bo H r Er. bo H s3 E3.
  unfold erase_cg in H. bo H f Ef. oks H. cbn. apply in_func_reach in E3. rewrite E3. cbn. refine (ofold_reach _ _ _ _ _ E1). clear.
  intros s w t H. unfold phi_copy in H. bo H c C. bo H y Y. apply in_func_reach in H. rewrite H. cbn. exact (create_bb_reach _ _ _ _ _ C).
Qed.
Lemma flatten_entry t p b : flatten t = Ok p -> hd_error (c_reach t) = Some b -> entry p = b.
Proof.
  unfold flatten. intros H E. destruct (c_reach t) as [|c l]; [discriminate E|]. cbn in E. injection E as ->. cbn [omap] in H.
  bo H nb Eb. bo H r Er. oks H. cbn [entry]. unfold flat_block in Eb. bo Eb k Ek. bo Eb ln Eln. oks Eb. reflexivity.
Qed.

Theorem exit_code w ar s u t p p1 code bi fuel n prev b m z q : ready s -> shape s -> same_function s u -> sound_assignment s u -> apart ar s u ->
  few_args w ar -> all_fit s -> ssa_out u = Ok t -> flatten t = Ok p -> start s b -> phi_free s b -> hd_error (c_reach s) = Some b ->
  layout_ok (next_of s) p -> normalize p = Ok p1 -> counts p1 bi -> (forall k, In k p -> Forall (norm_ok (bi (nb_id k))) (nb_insns k)) ->
  cg_norm fuel p = Ok code -> (Z.of_nat (length code) <= 2 ^ 15)%Z -> st_ok m ->
  vrun w bi s (c_off s) n prev b (mkV (fun _ => None) m) = Some (VDone z q) ->
  exists m', code_returns w code m z m' /\ SpecWord.mem m' = SpecWord.mem (v_st q) /\ ncall m' = ncall (v_st q).
Proof.
  intros R Sh Sg Sa Ap Fw Ft H Hp Hs Hh He Ly No Ct Nk Hc Sz Ok' E.
  pose proof (exit_sim w ar s u t p bi n prev b (mkV (fun _ => None) m) _ R Sh Sg Sa Ap Fw Ft H Hp Hs Hh Ok' (fun _ => eq_refl) E) as (m' & K & Q).
  exists m'. split; [|exact Q]. apply (cg_norm_returns w bi (next_of s) fuel p p1 code m z m' Ly No Ct Nk Hc Sz Ok').
  exists n. rewrite (flatten_entry t p b Hp); [exact K|]. rewrite (ssa_out_reach _ _ H). destruct Sg as (_ & -> & _). exact He.
Qed.

(** ** Checking the conditions of the normaliser *)
Definition s16b (z : Z) : bool := ((- 2 ^ 15 <=? z) && (z <? 2 ^ 15))%Z.
Definition s32b (z : Z) : bool := ((- 2 ^ 31 <=? z) && (z <? 2 ^ 31))%Z.
Definition s64b (z : Z) : bool := ((- 2 ^ 63 <=? z) && (z <? 2 ^ 63))%Z.
Definition a32b (a : alut) : bool := match a with A_32 => true | _ => false end.
Definition a64b (a : alut) : bool := match a with A_64 => true | _ => false end.
Definition nobib (v : value) : bool := match v_bi v with B_NONE => true | _ => false end.
Definition const_okb (v : value) : bool :=
  match v_data v with
  | VConst c => nobib v && ((a32b (v_ct v) && s32b c) || (a64b (v_ct v) && s64b c))
  | VFlat p => s16b (vp_spilled p)
  | _ => true
  end.
Definition narrowb (v : value) : bool := negb (SpecNormCond.is_const v) || a32b (v_ct v).
Definition wideb (x : insn) : bool := match i_vrt x with VR_64 => true | _ => false end.
Definition ocb (x : insn) : bool := match a_ot (i_addr x) with O_CONST => true | _ => false end.
Definition assign_okb (x : insn) (d : vrpos) (v : value) : bool :=
  ocb x && negb (a32b (i_alu x)) && (negb (stack_pos d) || narrowb v) && (negb (SpecNormCond.on_stack v) || wideb x).
Definition nzb (v : value) : bool := match v_data v with VConst c => negb (const_val (fun _ => 0%Z) v c =? 0)%Z | _ => true end.
Definition offb (x : insn) : bool := match v_data (a_val (i_addr x)) with VFlat p => s16b (a_off (i_addr x) + vp_spilled p) | _ => true end.
Definition norm_okb (n : ninsn) : bool :=
  let x := n_i n in let d := n_pos n in
  forallb const_okb (i_vals x) && s16b (vp_spilled d) &&
  match i_op x, i_vals x with
  | GETELEMPTR, _ | STORE, _ => false
  | LOAD, [v] => wideb x && assign_okb x d v
  | ASSIGN, [v] => assign_okb x d v
  | SUB, [v0; v1] => negb (same_reg v0 d && same_reg v1 d) && negb (a32b (i_alu x))
  | ADD, [_; _] => negb (a32b (i_alu x))
  | RET, [v] => narrowb v
  | LOADRAW, _ => negb (SpecNormCond.is_const (a_val (i_addr x))) && offb x
  | STORERAW, [v] => (negb (wideb x) || narrowb v) && offb x
  | JNE, [v0; v1] => negb (SpecNormCond.is_const v0 && SpecNormCond.is_const v1)
  | _, _ => true
  end.
Lemma s16b_ok z : s16b z = true -> s16_range z.
Proof. unfold s16b, s16_range. rewrite andb_true_iff, Z.leb_le, Z.ltb_lt. auto. Qed.
Lemma a32b_ok a : negb (a32b a) = true -> a <> A_32.
Proof. now destruct a. Qed.
Lemma const_okb_ok bi v : const_okb v = true -> const_ok bi v.
Proof.
  unfold const_okb, const_ok, nobib. destruct (v_data v); auto; [|now apply s16b_ok]. rewrite andb_true_iff. destruct (v_bi v); intros [K H]; try discriminate K.
  destruct (v_ct v); cbn in H; try discriminate H; rewrite ?orb_false_r, ?orb_false_l in H; unfold s32b, s64b in H; rewrite ?andb_true_iff, ?Z.leb_le, ?Z.ltb_lt in H; exact H.
Qed.
Lemma narrowb_ok v : narrowb v = true -> narrow_const v.
Proof. unfold narrowb, narrow_const, a32b. intros H C. rewrite C in H. cbn in H. now destruct (v_ct v). Qed.
Lemma assign_okb_ok x d v : assign_okb x d v = true -> assign_ok x d v.
Proof.
  unfold assign_okb, assign_ok. rewrite !andb_true_iff. intros (((A & C) & D) & B). apply a32b_ok in C.
  unfold ocb in A. split; [intros _; now destruct (a_ot (i_addr x))|]. split.
  - intros K. rewrite K in D. split; [exact C|]. now apply narrowb_ok.
  - intros _. split; [auto|]. split; [auto|]. intros K. rewrite K in B. right. split; [exact C|]. cbn in B. unfold wideb in B. now destruct (i_vrt x).
Qed.
Lemma offb_ok x : offb x = true -> forall p, v_data (a_val (i_addr x)) = VFlat p -> s16_range (a_off (i_addr x) + vp_spilled p).
Proof. unfold offb. intros H p E. rewrite E in H. now apply s16b_ok. Qed.
Lemma norm_okb_ok bi n : norm_okb n = true -> norm_ok bi n.
Proof.
  unfold norm_okb, norm_ok. cbv zeta. rewrite !andb_true_iff. intros ((A & B) & C). split.
  { apply Forall_forall. rewrite forallb_forall in A. intros v Hv. apply const_okb_ok. auto. }
  split; [now apply s16b_ok|]. clear A B. set (x := n_i n) in *.
  destruct (i_op x); try exact I; try discriminate C; destruct (i_vals x) as [|v0 [|v1 [|]]]; try exact I;
    rewrite ?andb_true_iff, ?negb_true_iff in C.
  all: try lazymatch type of C with _ /\ _ => destruct C as [C1 C2] end.
  all: try (apply narrowb_ok; assumption).
  all: try (apply assign_okb_ok; assumption).
  all: try (split; [assumption || (intros W; apply narrowb_ok; rewrite W in C1; cbn in C1; unfold wideb in C1; now rewrite W in C1)|now apply offb_ok]).
  all: try (intros W; rewrite W in C; discriminate C).
  all: try (split; [intros [Q1 Q2]; rewrite Q1, Q2 in C1; discriminate C1|intros W; rewrite W in C2; discriminate C2]).
  all: try (intros Q1 Q2; rewrite Q1, Q2 in C; discriminate C).
  - split; [unfold wideb in C1; now destruct (i_vrt x)|]. split; [|now apply assign_okb_ok]. unfold assign_okb in C2. rewrite !andb_true_iff in C2. apply a32b_ok. tauto.
  - split; [|now apply offb_ok]. intros W. apply narrowb_ok. apply orb_true_iff in C1 as [C1|C1]; [|exact C1]. unfold wideb in C1. rewrite W in C1. discriminate C1.
Qed.
(** the built-in constants *)
Definition bi_of (p : nprog) (b : nat) (k : bconst) : Z :=
  match lookup p b, k with
  | Some n, B_INSN_COUNT => insn_cnt n
  | Some n, B_CRITICAL_INSN_COUNT => get_ok 0%Z (critical_cnt 100 p n)
  | _, _ => 0%Z
  end.

(** ** The functions *)
Definition trim (s : cgs) : cgs :=
  let f := c_f s in
  with_f (mkFunc (fun i => if i <? f_ni f then f_insn f i else None) (f_block f) (f_ni f) (f_nb f) (f_all f) (f_entry f)) (restrict s).
Definition Bk d k := mkBpf 0xb7 d 0 0 k.
Definition Bak d k := mkBpf 0x07 d 0 0 k.
Definition Bne d o k := mkBpf 0x55 d 0 o k.
Definition Beq d o k := mkBpf 0x15 d 0 o k.
Definition Bja o := mkBpf 0x05 0 0 o 0.
(** the function in front of the allocator, and after assigning registers *)
Definition virtual (p : list bpf_insn) : cgs := trim (prepd (get_ok f0 (lift 20 400 p))).
Definition round (s : cgs) : outcome cgs :=
  do s1 <- analysis 100 s; do r <- pre_spill 100 ident ident s1;
  match fst (snd r) with [] => assign (fst r) | _ => Err end.
Definition placed (s : cgs) : cgs := get_ok s_none (round s).
Lemma round_same s u : round s = Ok u -> same_function s u.
Proof.
  unfold round. intros H. bo H s1 A. bo H r B. destruct r as [s2 [[|v l] eps]]; cbn [fst snd] in H; [|discriminate H]. exact (sf_round _ _ _ _ _ _ _ _ A B H).
Qed.
Lemma trim_none s i : f_ni (c_f (trim s)) <= i -> f_insn (c_f (trim s)) i = None /\ c_ex (trim s) i = None.
Proof.
  unfold trim, with_f, restrict. cbn [c_f c_ex f_ni f_insn with_ex]. intros H. destruct (Nat.ltb_spec i (f_ni (c_f s))); [lia|]. auto.
Qed.

(** a loop that adds up the results of a helper; the sum is also stored on the stack *)
Definition w_loop : list bpf_insn := [Bk 6 0; Bk 7 0; Bmov 1 7; Bmov 2 6; Bcall 1; Badd 6 0; Bst 6; Bak 7 1; Bne 7 (-7) 10; Bld 0; Badd 0 6; Bexit]%Z.
(** two values are exchanged in each round *)
Definition w_swap : list bpf_insn := [Bk 6 1; Bk 7 2; Bk 8 0; Bmov 9 6; Bmov 6 7; Bmov 7 9; Bak 8 1; Bne 8 (-5) 3; Bmov 0 6; Bexit]%Z.
(** the value of the previous round is used after the loop *)
Definition w_lost : list bpf_insn := [Bk 6 0; Bmov 7 6; Bak 6 1; Bne 6 (-3) 3; Bmov 0 7; Bexit]%Z.
(** a conditional jump to a block with a phi, while the other way leads to another phi *)
Definition w_edge : list bpf_insn := [Bk 6 7; Bk 7 8; Beq 1 4 0; Bk 6 5; Bk 7 6; Beq 2 4 0; Bja 1; Beq 2 2 0; Bmov 0 7; Bexit; Bmov 0 6; Bexit]%Z.

Definition TL s := table s (vuse s) vpuse (vkill s) 100.
Definition TN s ar := table s (ruse s ar) (rpuse s) (rkill s) 100.
Definition fineb (s u : cgs) : bool :=
  readyb s && shapeb s && soundb s u (TL s) &&
  forallb (fun i => opt (f_insn (c_f s) i) (fitb (c_off s))) (linsns s) && s16b (c_off s) && is_ok (round s).
Definition headb (s : cgs) (b : nat) : bool :=
  M_Ra.mem b (c_reach s) && match preds_of (c_f s) b with [] => true | _ => false end &&
  match insns_of (c_f s) b with i :: _ => negb (phib s i) | [] => true end.
Lemma fine_ok p s u : s = virtual p -> u = placed s -> fineb s u = true ->
  round s = Ok u /\ ready s /\ shape s /\ same_function s u /\ sound_assignment s u /\ all_fit s.
Proof.
  intros Es -> H. unfold fineb in H. rewrite !andb_true_iff in H. destruct H as (((((A & B) & C) & D) & E) & F).
  assert (K : round s = Ok (placed s)) by (apply get_ok_spec; exact F).
  assert (N : forall i, f_ni (c_f s) <= i -> f_insn (c_f s) i = None /\ c_ex s i = None) by (rewrite Es; unfold virtual; intros i; apply trim_none).
  split; [exact K|]. split; [now apply readyb_ok|]. split; [apply shapeb_ok; [exact B|]; intros i Hi; destruct (N i Hi); auto|].
  split; [now apply round_same|]. split; [apply (sound_by s (placed s) (TL s)); [exact C|]; intros v Hv; now apply N|].
  split; [unfold s16b in E; rewrite andb_true_iff, Z.leb_le, Z.ltb_lt in E; exact E|].
  intros i x L X. rewrite forallb_forall in D. specialize (D i (proj2 (linsns_in s i) L)). rewrite X in D. now apply fitb_ok.
Qed.
Lemma headb_ok s b : headb s b = true -> start s b /\ phi_free s b.
Proof.
  unfold headb, start, phi_free. rewrite !andb_true_iff. intros ((A & B) & C). split.
  - split; [now apply mem_In|]. now destruct (preds_of (c_f s) b).
  - intros i l E (x & X & O). rewrite E in C. unfold phib in C. rewrite X in C. cbn in C. rewrite O in C. discriminate C.
Qed.
Definition w_count : world := mkWorld (fun k _ a m => ([Z.of_nat k + nth 0 a 0; 0; 0; 0; 0; 0]%Z, m)) (fun _ x => x).
Definition st_of (r1 r2 : Z) : st := mkSt [0; r1; r2; 0; 0; 0; 0; 0; 0; 0; 1000]%Z (fun _ => 0%Z) 0.
Definition leave (s : cgs) : outcome cgs := ssa_out (placed s).
Definition left (s : cgs) : cgs := get_ok s_none (leave s).
Definition flat (s : cgs) : nprog := get_ok [] (flatten (left s)).
Definition bic (s : cgs) : nat -> bconst -> Z := bi_of (get_ok [] (normalize (flat s))).
Definition vresult (s : cgs) (m : st) : option Z :=
  match vrun w_count (bic s) s (c_off s) 100 0 1 (mkV (fun _ => None) m) with Some (VDone z _) => Some z | _ => None end.
Definition presult (s : cgs) (m : st) : option Z :=
  match prun w_count (bic s) (next_of s) (flat s) 100 1 m with Some (PRet z _) => Some z | _ => None end.
Definition wrongb (s : cgs) (m : st) : bool :=
  fineb s (placed s) && headb s 1 && is_ok (leave s) && is_ok (flatten (left s)) &&
  (length (regs m) =? 11) && forallb (fun v => (0 <=? v)%Z && (v <? 2 ^ 64)%Z) (regs m) &&
  match vresult s m, presult s m with Some a, Some b => negb (a =? b)%Z | _, _ => false end.
Lemma wrong_ok p s m : s = virtual p -> wrongb s m = true ->
  exists w u, round s = Ok u /\ ready s /\ shape s /\ same_function s u /\ sound_assignment s u /\ all_fit s /\ exit_differs w s u.
Proof.
  intros Es H. unfold wrongb in H. rewrite !andb_true_iff in H. destruct H as ((((((A & B) & C) & D) & E) & F) & G).
  destruct (fine_ok p s (placed s) Es eq_refl A) as (K1 & K2 & K3 & K4 & K5 & K6). exists w_count, (placed s). repeat (split; [assumption|]).
  destruct (headb_ok s 1 B) as (Q1 & Q2). unfold vresult, presult in G.
  destruct (vrun w_count (bic s) s (c_off s) 100 0 1 (mkV (fun _ => None) m)) as [[|z1 q]|] eqn:V; try discriminate G.
  destruct (prun w_count (bic s) (next_of s) (flat s) 100 1 m) as [[|z2 m2]|] eqn:P; try discriminate G.
  exists (left s), (flat s), (bic s), 100, 1, m, z1, q, z2, m2. split; [unfold left; now apply get_ok_spec|]. split; [unfold flat; now apply get_ok_spec|].
  split; [exact Q1|]. split; [exact Q2|]. split.
  - split; [now apply Nat.eqb_eq|]. apply Forall_forall. rewrite forallb_forall in F. intros v Hv. specialize (F v Hv). rewrite andb_true_iff, Z.leb_le, Z.ltb_lt in F. exact F.
  - split; [exact V|]. split; [exact P|]. intros ->. rewrite Z.eqb_refl in G. discriminate G.
Qed.
Lemma swap_wrong : wrongb (virtual w_swap) (st_of 0 0) = true. Proof. vm_compute. reflexivity. Qed.
Lemma lost_wrong : wrongb (virtual w_lost) (st_of 0 0) = true. Proof. vm_compute. reflexivity. Qed.
Lemma edge_wrong : wrongb (virtual w_edge) (st_of 0 1) = true. Proof. vm_compute. reflexivity. Qed.

(** everything holds of the loop *)
Definition ar5 (_ : Z) : nat := 5.
Lemma few5 w : few_args w ar5.
Proof. intros id a a' n m H L L'. unfold ar5 in H. rewrite !firstn_all2 in H by lia. now rewrite H. Qed.
Definition rightb (s : cgs) : bool :=
  fineb s (placed s) && headb s 1 && is_ok (leave s) && is_ok (flatten (left s)) &&
  apartb s (placed s) ar5 (TL s) (TN s ar5) && match hd_error (c_reach s) with Some b => b =? 1 | None => false end &&
  L_Out.nodupb (map nb_id (flat s)) && layoutb (next_of s) (flat s) && is_ok (normalize (flat s)) &&
  L_Out.countsb 100 (get_ok [] (normalize (flat s))) (bic s) && forallb (fun b => forallb norm_okb (nb_insns b)) (flat s) &&
  is_ok (cg_norm 100 (flat s)) && (length (get_ok [] (cg_norm 100 (flat s))) <? 100).
Lemma right_ok p s : s = virtual p -> rightb s = true ->
  exists u t p p1 code bi, round s = Ok u /\ ready s /\ shape s /\ same_function s u /\ sound_assignment s u /\ apart ar5 s u /\ all_fit s /\
    ssa_out u = Ok t /\ flatten t = Ok p /\ start s 1 /\ phi_free s 1 /\ hd_error (c_reach s) = Some 1 /\
    layout_ok (next_of s) p /\ normalize p = Ok p1 /\ counts p1 bi /\ (forall k, In k p -> Forall (norm_ok (bi (nb_id k))) (nb_insns k)) /\
    cg_norm 100 p = Ok code /\ (Z.of_nat (length code) <= 2 ^ 15)%Z.
Proof.
  intros Es H. unfold rightb in H. rewrite !andb_true_iff in H. destruct H as ((((((((((((A & B) & C) & D) & E) & F) & G) & G') & I) & J) & K) & L) & M).
  destruct (fine_ok p s (placed s) Es eq_refl A) as (K1 & K2 & K3 & K4 & K5 & K6). destruct (headb_ok s 1 B) as (Q1 & Q2).
  exists (placed s), (left s), (flat s), (get_ok [] (normalize (flat s))), (get_ok [] (cg_norm 100 (flat s))), (bic s).
  do 5 (split; [assumption|]). split; [now apply (apart_by s (placed s) ar5 (TL s) (TN s ar5))|]. split; [assumption|].
  split; [unfold left; now apply get_ok_spec|]. split; [unfold flat; now apply get_ok_spec|]. split; [exact Q1|]. split; [exact Q2|].
  split; [destruct (hd_error (c_reach s)) as [h|]; [|discriminate F]; apply Nat.eqb_eq in F; now rewrite F|].
  split; [now apply layoutb_ok|]. split; [now apply get_ok_spec|]. split; [now apply (countsb_ok 100)|]. split.
  - intros k Hk. apply Forall_forall. rewrite forallb_forall in K. specialize (K k Hk). rewrite forallb_forall in K. intros n Hn. apply norm_okb_ok. auto.
  - split; [now apply get_ok_spec|]. apply Nat.ltb_lt in M. lia.
Qed.
Lemma loop_right : rightb (virtual w_loop) = true. Proof. vm_compute. reflexivity. Qed.
