(** Preparing a function for register allocation: the whole. *)
From Coq Require Import ZArith List Bool Arith Lia Permutation.
From Verif Require Import M_Base M_Ir M_Norm M_Edit M_Ra SpecWord SpecFlat SpecProg SpecNormCond SpecOut SpecSsa SpecIr SpecEdit SpecRa SpecPass SpecShift SpecVirt SpecSpill SpecPrep
  L_Edit L_Word L_RaProp L_Virt L_SsaOut L_VirtSame L_VirtWit L_Prep L_PrepStr L_PrepInv L_PrepAll L_PrepEnd L_PrepReady L_PrepInit L_PrepSsa.
From Verif Require Import L_Guard SpecGuard SpecSpill M_Ra SpecRa SpecVirt.
Import ListNotations.
Open Scope nat_scope.

(** a function is an edit of itself *)
Section Same.
Context (s : cgs).
Hypothesis V : inv s.
Lemma same_edit : edit s s (fun d => d) (f_ni (c_f s)) (fun j => [j]) [] 0.
Proof.
  assert (Nn : f_insn (c_f s) (f_ni (c_f s)) = None) by (apply (n_fresh _ V); lia).
  constructor; auto.
  - intros b _. destruct (b =? 0); cbn [app]; induction (insns_of (c_f s) b); cbn; congruence.
  - intros L. pose proof (linked_lt _ V _ L). lia.
  - intros x X. congruence.
  - apply (n_reach _ V).
  - intros j x _ X. exists x. split; [exact X|]. constructor; auto 10.
    + induction (i_vals x); constructor; auto. unfold vsim. destruct (v_data a); auto.
    + intros _. induction (i_phi x) as [|[v b] l IH]; constructor; auto. split; [|reflexivity]. unfold vsim. destruct (v_data (fst (v, b))); auto.
    + intros _. split; [|auto]. unfold vsim. destruct (v_data (a_val (i_addr x))); auto.
  - intros d e X. exists e. auto.
Qed.
Lemma self_dst j e d : linked s j -> c_ex s j = Some e -> x_dst e = Some d -> d = j.
Proof. intros L X D. destruct (live_linked _ V _ L) as (b & x & _ & _ & X' & _). destruct (dst_self s V j x e L X' X) as [Q|Q]; congruence. Qed.
End Same.

Section Main.
Context (f : func) (reach : list nat) (sp : nat) (args : list nat) (s0 s : cgs).
Hypothesis P : prepable f reach sp args.
Hypothesis I0 : init_cg f reach sp args = Ok s0.
Hypothesis Pr : prepare s0 = Ok s.

Lemma main_steps : stepped s0 s /\ calls_left s [] /\ args_left s [].
Proof. apply prepare_steps; [|exact Pr]. exact (init_inv _ _ _ _ _ P (init_spec _ _ _ _ _ P I0)). Qed.
Lemma main_ready : ready s /\ SpecRa.tidy s /\ shape s /\ (second_ok f reach sp -> operands_ok s).
Proof.
  destruct main_steps as (St & CL & AL). pose proof (sd_inv _ _ St) as V. split; [now apply prep_ready|]. split; [now apply prep_tidy|]. split; [now apply prep_shape|].
  intros H. apply prep_operands; auto. apply (sd_alu _ _ St). exact (init_alu _ _ _ _ _ P (init_spec _ _ _ _ _ P I0) H).
Qed.
Lemma main_head : c_reach s = reach /\ c_sp s = sp /\ c_args s = args /\ c_off s = 0%Z /\ f_entry (c_f s) = f_entry f.
Proof.
  destruct main_steps as (St & _). destruct (sd_head _ _ St) as (A & _ & B & C & D & _ & E). pose proof (init_spec _ _ _ _ _ P I0) as T.
  destruct (nt_rest _ _ _ _ _ T) as (A1 & A2 & A3 & A4 & _). destruct (nt_f _ _ _ _ _ T) as (_ & _ & E1 & _). repeat split; congruence.
Qed.
Lemma main_grun Rg w ar o bi bb n prev m t z t' : straight f reach -> few_args w ar -> enough_args ar f reach -> st_ok m -> begins sp args m t ->
  gsrun Rg w bi (fill o f) n prev (f_entry f) t = Some (ORet z t') ->
  exists q, grun Rg w bb s o n prev (f_entry f) (mkV (fun _ => None) m) = Some (VDone z q) /\ SpecWord.mem (v_st q) = s_mem t' /\ ncall (v_st q) = s_nc t'.
Proof.
  intros G FA EA Ok0 Bg H. pose proof (init_spec _ _ _ _ _ P I0) as T. destruct main_steps as (St & CL & AL). destruct main_head as (Hr & Hs & Ha & Ho & He).
  set (q := mkV (fun d => if in_dec Nat.eq_dec d args then s_env t d else None) m).
  assert (NI : ~ In sp args) by apply (pp_args _ _ _ _ P).
  assert (R : srel sp t q).
  { constructor; cbn [v_st v_env q].
    - apply (bg_mem _ _ _ _ Bg).
    - apply (bg_nc _ _ _ _ Bg).
    - exact Ok0.
    - intros z0 Z0. rewrite (bg_sp _ _ _ _ Bg) in Z0. congruence.
    - intros d z0 N Z0. destruct (in_dec Nat.eq_dec d args) as [I|I]; [exact Z0|]. rewrite (bg_none _ _ _ _ Bg d N I) in Z0. discriminate.
    - intros d z0 Z0. destruct (Nat.eq_dec d sp) as [->|N]; [rewrite (bg_sp _ _ _ _ Bg) in Z0; injection Z0 as <-; now apply u64_rget|].
      destruct (in_dec Nat.eq_dec d args) as [I|I]; [|rewrite (bg_none _ _ _ _ Bg d N I) in Z0; discriminate]. apply In_nth_error in I as (k & K). rewrite (bg_args _ _ _ _ Bg _ _ K) in Z0. injection Z0 as <-. now apply u64_rget. }
  destruct (run_s f reach sp args s0 Rg w ar o bi bb P T G FA EA n prev (f_entry f) t q z t' (proj1 (pp_entry _ _ _ _ P)) R H) as (q1 & R1 & S1).
  destruct (nt_f _ _ _ _ _ T) as (_ & _ & E0 & _). destruct (nt_rest _ _ _ _ _ T) as (_ & _ & A3 & _).
  assert (Sq : starts s0 q).
  { intros d z0. cbn. destruct (in_dec Nat.eq_dec d args) as [I|I]; [|discriminate]. intros Z0. apply In_nth_error in I as (k & K). exists k. rewrite A3. split; [exact K|]. rewrite (bg_args _ _ _ _ Bg _ _ K) in Z0. injection Z0 as <-. reflexivity. }
  rewrite <- E0 in R1. destruct (sd_runs _ _ St Rg w o bb n prev q z q1 Sq Ok0 R1) as (q2 & R2 & S2). rewrite He in R2.
  pose proof (sd_inv _ _ St) as V. assert (Ie : In (f_entry f) (c_reach s)) by (rewrite Hr; apply (pp_entry _ _ _ _ P)).
  assert (F : exists q3, hrun Rg w bb (aug s) o n prev (f_entry f) (mkV (fun _ => None) m) = Some (VDone z q3) /\ v_st q3 = v_st q2).
  { assert (Ed : edit (aug s) (aug s) (fun d => d) (f_ni (c_f s)) (fun j => [j]) [] 0).
    { destruct (same_edit s V) as [E1 E2 E3 E4 E5 E6 E7 E8 E9 E10 E11 E12]. constructor; auto. intros d e X. exists e. auto. }
    refine (run_h (aug s) (aug s) (fun d => d) (f_ni (c_f s)) (fun j => [j]) [] 0 Rg w o Ed _ _ _ _ bb n prev (f_entry f) q (mkV (fun _ => None) m) z q2 Ie (or_introl eq_refl) _ R2).
    - intros j e d L X D. change (linked s j) in L. rewrite aug_same in X by (apply (linked_not_arg _ V _ L)). exact (self_dst s V j e d L X D).
    - intros j L. change (linked s j) in L. destruct (live_linked _ V _ L) as (b' & x & _ & _ & X' & _). cbn. congruence.
    - intros bi0 x q0 q0' r L. change (linked s (f_ni (c_f s))) in L. pose proof (linked_lt _ V _ L). lia.
    - intros b' c Hb' Ld. split; [exact (proj1 (n_leads _ V b' c Hb' Ld))|now left].
    - constructor; [reflexivity|]. intros d z0 (u & x & v & L & X & Iv & D) Q. exfalso. cbn in Q. destruct (in_dec Nat.eq_dec d args) as [Id|Id]; [|discriminate Q].
      rewrite <- Ha in Id. exact (no_arg s AL u x v d L X Iv D Id). }
  destruct F as (q3 & R3 & S3). rewrite (run_end s V CL AL) in R3 by exact Ie. exists q3. split; [exact R3|]. rewrite S3, S2. split; symmetry; [apply (sr_mem _ _ _ S1)|apply (sr_nc _ _ _ S1)].
Qed.
Lemma main_run w ar o bi bb n prev m t z t' : straight f reach -> few_args w ar -> enough_args ar f reach -> st_ok m -> begins sp args m t ->
  srun w bi (fill o f) n prev (f_entry f) t = Some (ORet z t') ->
  exists q, vrun w bb s o n prev (f_entry f) (mkV (fun _ => None) m) = Some (VDone z q) /\ SpecWord.mem (v_st q) = s_mem t' /\ ncall (v_st q) = s_nc t'.
Proof.
  intros G FA EA Ok0 Bg H. rewrite <- gsrun_nowhere in H. destruct (main_grun nowhere w ar o bi bb n prev m t z t' G FA EA Ok0 Bg H) as (q & Q & A). exists q. rewrite grun_nowhere in Q. auto.
Qed.
End Main.
