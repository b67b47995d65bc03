(** Programs that use a heap: what the translation of ecalls makes of them. *)
From Coq Require Import ZArith List Bool Arith Lia.
From Verif Require Import SpecWord SpecIsa SpecFlat SpecCfg SpecLift SpecIr SpecEdit SpecSsa M_Base M_Ir M_Edit M_GenBB M_Lift M_Layout M_Norm M_Pass M_Check M_Ecall M_Pipe
  L_GenBBEx L_LiftMain L_LiftSafe L_LiftProp L_LiftEx L_LiftWit L_RaCheck L_VirtCheck L_RaWit L_VirtWit M_Ra L_EndWit L_RoundWit SpecPrep L_Ecall L_PipeWit.
From Verif Require Import SpecIr.
Import ListNotations.
Open Scope nat_scope.

(** ecall [k] with [n] arguments; the address of map 7 *)
Definition Becall n k := mkBpf 0x85 n 6 0 k.
Definition Bmap d := [mkBpf 0x18 d 1 0 7; mkBpf 0 0 0 0 0]%Z.
(** r6 is a number; heap of 64 bytes; store 42 there and read it back *)
Definition w_heap : list bpf_insn := ([Bl 6 1 0] ++ Bmap 1 ++ [Bk 2 64; Becall 2 0; Bk 3 42; Bs 6 3 0; Bl 0 6 0; Bexit])%Z.
(** the first access directly after the ecall *)
Definition w_walk : list bpf_insn := ([Bl 6 1 0] ++ Bmap 1 ++ [Bk 2 64; Becall 2 0; Bl 0 6 0; Bexit])%Z.
(** only a store *)
Definition w_store : list bpf_insn := ([Bl 6 1 0] ++ Bmap 1 ++ [Bk 2 64; Becall 2 0; Bk 3 42; Bs 6 3 0; Bk 0 0; Bexit])%Z.
(** a store through a number in one branch, the ecall in the other *)
Definition w_other : list bpf_insn := ([Bl 6 1 0; Bk 3 42; Beq 6 5 0] ++ Bmap 1 ++ [Bk 2 64; Becall 2 0; Bja 1; Bs 6 3 0; Bk 0 0; Bexit])%Z.
(** a number stored at itself *)
Definition w_self : list bpf_insn := ([Bl 6 1 0] ++ Bmap 1 ++ [Bk 2 64; Becall 2 0; Bs 6 6 0; Bk 0 0; Bexit])%Z.

Definition lift_chk (p : list bpf_insn) : bool := wf_chk p && negb (jt_chk p 0) && reach_chk p && (length p <? 100).
Lemma lift_chk_ok p : lift_chk p = true -> liftable p.
Proof.
  intros H. unfold lift_chk in H. rewrite !andb_true_iff in H. destruct H as (((A & B) & C) & J). apply Nat.ltb_lt in J.
  constructor; [now apply wf_chk_ok|lia|apply jt_chk_ok; now apply negb_true_iff|now apply reach_chk_ok].
Qed.
(** no instruction uses a value twice *)
Fixpoint onceb (l : list value) : bool :=
  match l with [] => true | v :: r => match v_data v with VInsn d => negb (existsb (is_use_of d) r) | _ => true end && onceb r end.
Lemma onceb_ok d : forall l, onceb l = true -> length (filter (is_use_of d) l) <= 1.
Proof.
  induction l as [|v r IH]; intros H; [cbn; lia|]. cbn [onceb] in H. apply andb_true_iff in H as (H1 & H2). specialize (IH H2). cbn [filter].
  destruct (is_use_of d v) eqn:E; [|exact IH]. assert (D : v_data v = VInsn d). { unfold is_use_of in E. destruct (v_data v); try discriminate E. apply Nat.eqb_eq in E. now subst. }
  rewrite D in H1. apply negb_true_iff in H1. cbn [length]. enough (F : filter (is_use_of d) r = []) by (rewrite F; cbn; lia).
  clear - H1. induction r as [|a r IH]; [reflexivity|]. cbn [existsb] in H1. apply orb_false_iff in H1 as (A & B). cbn [filter]. rewrite A. now apply IH.
Qed.
Lemma single_wf p m n f : liftable p -> lift m n p = Ok f -> forallb (fun i => match f_insn f i with Some x => onceb (operand_values x) | None => true end) (seq 0 (f_ni f)) = true -> wf_func f.
Proof.
  intros [W Len No0 Ra] Hl H. destruct (lift_struct p m n f W Len No0 Hl) as (_ & _ & _ & _ & Mi & Fr & LK & ND & _ & Us & Nd). constructor; auto.
  intros d u. assert (U1 : uses f u d <= 1).
  { unfold uses. destruct (f_insn f u) as [x|] eqn:X; [|lia]. rewrite forallb_forall in H. assert (Q : u < f_ni f). { destruct (Nat.lt_ge_cases u (f_ni f)) as [|G]; [assumption|]. rewrite (proj1 Fr u G) in X. discriminate. }
    specialize (H u). rewrite X in H. apply onceb_ok, H, in_seq. lia. }
  destruct (in_dec Nat.eq_dec u (users_of f d)) as [I|I].
  - pose proof (proj1 (NoDup_count_occ' Nat.eq_dec (users_of f d)) (Nd d) u I) as C. apply Us in I. lia.
  - pose proof (proj1 (count_occ_not_In Nat.eq_dec (users_of f d) u) I) as C. assert (~ uses f u d > 0) by (intros G; apply I, Us, G). lia.
Qed.
Lemma heap_wf : liftable w_heap /\ wf_func (lift_of w_heap) /\ exists g, handle_ecalls pk [1] (lift_of w_heap) = Ok g /\ length (f_all (lift_of w_heap)) = 1 /\ length (f_all g) = 3.
Proof.
  assert (P : liftable w_heap) by (apply lift_chk_ok; vm_compute; reflexivity). split; [exact P|]. split.
  - apply (single_wf w_heap pk pk); [exact P|apply get_ok_spec; vm_compute; reflexivity|vm_compute; reflexivity].
  - exists (get_ok f0 (handle_ecalls pk [1] (lift_of w_heap))). split; [apply get_ok_spec; vm_compute; reflexivity|]. split; vm_compute; reflexivity.
Qed.
Lemma idle_meets : let f := lift_of w_pipe in linked_ok f /\ (forall b, NoDup (insns_of f b)) /\ (forall b, In b [1; 2; 3] -> f_block f b <> None /\ length (insns_of f b) < 60) /\
  (forall b i, In b [1; 2; 3] -> In i (insns_of f b) -> ~ heap_init f i).
Proof.
  intros f. assert (P : liftable w_pipe) by (apply lift_chk_ok; vm_compute; reflexivity). destruct P as [W Len No0 _].
  destruct (lift_struct w_pipe pk pk f W Len No0) as (_ & _ & _ & _ & _ & _ & LK & ND & _); [apply get_ok_spec; vm_compute; reflexivity|]. split; [exact LK|]. split; [exact ND|].
  assert (N : forallb (fun b => match f_block f b with Some _ => true | None => false end && (length (insns_of f b) <? 60) &&
      forallb (fun i => match f_insn f i with Some x => negb (iop_eqb (i_op x) ECALL) | None => false end) (insns_of f b)) [1; 2; 3] = true) by (vm_compute; reflexivity).
  rewrite forallb_forall in N. split.
  - intros b B. specialize (N b B). rewrite !andb_true_iff in N. destruct N as ((N1 & N2) & _). apply Nat.ltb_lt in N2. split; [|exact N2]. intros E. rewrite E in N1. discriminate N1.
  - intros b i B I (x & X & O & _). specialize (N b B). rewrite !andb_true_iff, forallb_forall in N. destruct N as (_ & N). specialize (N i I). rewrite X, O in N. discriminate N.
Qed.
Lemma walk_ub : liftable w_walk /\ wf_func (lift_of w_walk) /\ lift pk pk w_walk = Ok (lift_of w_walk) /\ handle_ecalls pk [1] (lift_of w_walk) = UB /\ front pk false false w_walk = UB.
Proof.
  assert (P : liftable w_walk) by (apply lift_chk_ok; vm_compute; reflexivity). split; [exact P|]. assert (H : lift pk pk w_walk = Ok (lift_of w_walk)) by (apply get_ok_spec; vm_compute; reflexivity).
  split; [apply (single_wf w_walk pk pk); [exact P|exact H|vm_compute; reflexivity]|]. split; [exact H|]. split; vm_compute; reflexivity.
Qed.
(** map 7 is at address 5000; its elements are at 9000, 9008, ... *)
Definition w_map : world := mkWorld (fun _ id a m => if (id =? 1)%Z && (nth 0 a 0%Z =? 5000)%Z then
    (let key := load m (nth 1 a 0%Z) 8 in [if (key <? 64) then 9000 + 8 * key else 0; 0; 0; 0; 0; 0]%Z, m) else (a, m))
  (fun t v => if (t =? 1)%Z && (v =? 7)%Z then 5000%Z else v).
Definition st_num (z : Z) : st := mkSt [0; 64; 0; 0; 0; 0; 0; 0; 0; 0; 4096]%Z (store (fun _ => 0%Z) 64 8 z) 0.
Lemma store_out : liftable w_store /\ codegen pk ids ids Ok (fst (input_of w_store)) (snd (input_of w_store)) sp_id arg_ids = Ok (code3_of w_store) /\
  cg_input pk 4 false false w_store = Ok (fst (input_of w_store), snd (input_of w_store)) /\
  exists r q, isa_run w_map (code3_of w_store) 20 0 (st_num 1000) = IExit r q /\ SpecWord.mem q (5000 + 1000)%Z = 42%Z /\ SpecWord.mem (st_num 1000) (5000 + 1000)%Z = 0%Z.
Proof.
  split; [apply lift_chk_ok; vm_compute; reflexivity|]. split; [apply get_ok_spec; vm_compute; reflexivity|]. split; [rewrite <- surjective_pairing; apply get_ok_spec; vm_compute; reflexivity|].
  assert (E : match isa_run w_map (code3_of w_store) 20 0 (st_num 1000) with IExit r q => (SpecWord.mem q (5000 + 1000)%Z =? 42)%Z && (SpecWord.mem (st_num 1000) (5000 + 1000)%Z =? 0)%Z | _ => false end = true) by (vm_compute; reflexivity).
  destruct (isa_run w_map (code3_of w_store) 20 0 (st_num 1000)) as [|r q|]; try discriminate E. apply andb_true_iff in E as (A & B). exists r, q. split; [reflexivity|]. split; now apply Z.eqb_eq.
Qed.
Lemma heap_reads : liftable w_heap /\ codegen pk ids ids Ok (fst (input_of w_heap)) (snd (input_of w_heap)) sp_id arg_ids = Ok (code3_of w_heap) /\
  cg_input pk 4 false false w_heap = Ok (fst (input_of w_heap), snd (input_of w_heap)) /\
  exists q, isa_run w_map (code3_of w_heap) 20 0 (st_num 8) = IExit 0 q /\ ncall q = 1.
Proof.
  split; [apply lift_chk_ok; vm_compute; reflexivity|]. split; [apply get_ok_spec; vm_compute; reflexivity|]. split; [rewrite <- surjective_pairing; apply get_ok_spec; vm_compute; reflexivity|].
  assert (E : match isa_run w_map (code3_of w_heap) 20 0 (st_num 8) with IExit r q => (r =? 0)%Z && (ncall q =? 1) | _ => false end = true) by (vm_compute; reflexivity).
  destruct (isa_run w_map (code3_of w_heap) 20 0 (st_num 8)) as [|r q|]; try discriminate E. apply andb_true_iff in E as (A & B). apply Z.eqb_eq in A. apply Nat.eqb_eq in B. subst r. exists q. auto.
Qed.
Definition with_r0 (z : Z) : st := rset (st_num 0) 0 z.
Lemma two_exits a b x : (match a, b with IExit r q, IExit r' q' => (r =? 0)%Z && (r' =? 0)%Z && (SpecWord.mem q x =? 42)%Z && (SpecWord.mem q' x =? 0)%Z | _, _ => false end) = true ->
  exists q q', a = IExit 0 q /\ b = IExit 0 q' /\ SpecWord.mem q x = 42%Z /\ SpecWord.mem q' x = 0%Z.
Proof.
  destruct a as [|r q|], b as [|r' q'|]; try discriminate. intros E. rewrite !andb_true_iff, !Z.eqb_eq in E. destruct E as (((-> & ->) & A) & B). exists q, q'. auto.
Qed.
Lemma other_reads : liftable w_other /\ codegen pk ids ids Ok (fst (input_of w_other)) (snd (input_of w_other)) sp_id arg_ids = Ok (code3_of w_other) /\
  cg_input pk 4 false false w_other = Ok (fst (input_of w_other), snd (input_of w_other)) /\
  exists q q', isa_run w_map (code3_of w_other) 20 0 (with_r0 3000) = IExit 0 q /\ isa_run w_map (code3_of w_other) 20 0 (with_r0 2000) = IExit 0 q' /\ SpecWord.mem q 3000%Z = 42%Z /\ SpecWord.mem q' 3000%Z = 0%Z.
Proof.
  split; [apply lift_chk_ok; vm_compute; reflexivity|]. split; [apply get_ok_spec; vm_compute; reflexivity|]. split; [rewrite <- surjective_pairing; apply get_ok_spec; vm_compute; reflexivity|].
  apply two_exits. vm_compute. reflexivity.
Qed.
Lemma self_rejected : liftable w_self /\ lift pk pk w_self = Ok (lift_of w_self) /\ is_ok (handle_ecalls pk [1] (lift_of w_self)) = true /\ front pk false false w_self = Err.
Proof.
  split; [apply lift_chk_ok; vm_compute; reflexivity|]. split; [apply get_ok_spec; vm_compute; reflexivity|]. split; vm_compute; reflexivity.
Qed.
