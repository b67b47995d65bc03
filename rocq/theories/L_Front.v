(** The front end as a whole: lifting, phi removal, optimiser. *)
From Coq Require Import ZArith List Bool Arith Lia.
From Verif Require Import SpecWord SpecIsa SpecFlat SpecCfg SpecLift SpecIr SpecEdit SpecSsa M_Base M_Ir M_Edit M_GenBB M_Lift M_Ra M_Pass
  L_Word L_Sim L_PassDce L_PassAlloc L_PassWit L_PassPhi L_PhiRun L_PhiPass L_LiftEx L_LiftStrict SpecPass SpecStrict SpecLift L_LiftMain.
Import ListNotations.
Open Scope nat_scope.

Lemma gone_op rm h f g i y : phis_gone rm h f g -> f_insn g i = Some y -> exists x, f_insn f i = Some x /\ i_op y = i_op x.
Proof.
  intros G E. destruct (in_dec Nat.eq_dec i rm) as [I|I]; [destruct (gn_rm _ _ _ _ G i I) as [_ K]; congruence|].
  destruct (gn_keep _ _ _ _ G i I) as (l & K). rewrite K in E. destruct (f_insn f i) as [x|]; [|discriminate E]. injection E as <-. exists x. split; [reflexivity|].
  unfold map_ops. destruct x as [o ? ? ? ? ? ? ? ? ? ? ? ?]; cbn. destruct o; reflexivity.
Qed.
Lemma gone_size rm h f g : phis_gone rm h f g -> forall r, size_of g r <= size_of f r.
Proof.
  intros G. unfold size_of. induction r as [|b r IH]; cbn [map list_sum fold_right]; [lia|]. rewrite (gn_insns _ _ _ _ G b).
  pose proof (filter_length_le (fun j => negb (existsb (Nat.eqb j) rm)) (insns_of f b)). unfold list_sum in *. lia.
Qed.
Lemma no_alloc_optimize fuel nd no reach f : tidy f -> (forall i x, f_insn f i = Some x -> i_op x <> ALLOC /\ i_op x <> STORE) -> no_ecall f reach -> NoDup reach ->
  (forall b, In b reach -> f_block f b <> None) -> size_of f reach < fuel ->
  exists g, optimize_ir fuel nd no reach f = Ok g /\ tidy g /\ preserves f g /\ exists rm, without rm f g /\
    forall j, In j rm -> exists x, f_insn f j = Some x /\ i_op x <> CALL /\ is_jmp_op (i_op x) = false.
Proof.
  intros T NA NE ND X L.
  assert (CO : cells_ok f) by (intros u x a y Hx Hy O; destruct (NA a y Hy); contradiction).
  assert (K : exists g, optimize_ir fuel nd no reach f = Ok g).
  { unfold optimize_ir. destruct no; [eauto|].
    assert (Q : exists h rm, (if nd then Ok f else dce fuel reach f) = Ok h /\ tidy h /\ without rm f h).
    { destruct nd; [exists f, []; split; [reflexivity|split; [exact T|apply without_refl]]|].
      destruct (dce_ok fuel reach f T X L) as (h & rm & E & D & _). exists h, rm. split; [exact E|]. split; apply D. }
    destruct Q as (h & rm & -> & Th & Wh). cbn [bind].
    assert (NH : forall i x, f_insn h i = Some x -> i_op x <> ALLOC /\ i_op x <> STORE).
    { intros i x Hx. destruct (without_back _ _ _ _ _ Wh Hx) as (_ & x0 & l & Hx0 & ->). exact (NA i x0 Hx0). }
    apply remove_unused_total; auto.
    - intros u x a y Hx Hy O. destruct (NH a y Hy); contradiction.
    - intros u x v Hx O. destruct (NH u x Hx); contradiction.
    - intros b I K. apply (X b I). now apply (wo_blocks _ _ _ Wh).
    - intros a _ (y & Hy & O). destruct (NH a y Hy); contradiction. }
  destruct K as (g & E). exists g. split; [exact E|]. exact (optimize_ok fuel nd no reach f g T CO NE X E L).
Qed.

Section Front.
Variables (p : list bpf_insn) (m n : nat) (f : func) (reach : list nat) (fuel : nat).
Hypothesis W : wf_prog p.
Hypothesis Len : (Z.of_nat (length p) <= 32768)%Z.
Hypothesis No0 : ~ jump_target p 0.
Hypothesis Ra : all_reach p.
Hypothesis Hl : lift m n p = Ok f.
Hypothesis Hr : forall b, In b reach -> f_block f b <> None.
Hypothesis Hn : NoDup reach.
Hypothesis Hf : size_of f reach < fuel.
Lemma front_phi : tidy f /\ strict f /\ exists g rm h, remove_trivial_phi fuel reach f = Ok g /\ tidy g /\ strict g /\ preserves_run f g /\ phis_gone rm h f g /\
    forall b q x, In b reach -> In q (insns_of g b) -> f_insn g q = Some x -> i_op x = PHI -> two_values q x.
Proof.
  destruct (lifted_ok p m n f W Len No0 Ra Hl) as (T & S & R & _). split; [exact T|]. split; [exact S|]. apply phi_pass_ok; auto.
Qed.
Lemma front_opt nd no : (forall j i, at_pos p j i -> b_code i = 0x85%Z -> b_src i <> 6%Z) ->
  exists g h, remove_trivial_phi fuel reach f = Ok g /\ optimize_ir fuel nd no reach g = Ok h /\ tidy h /\ preserves_run f h /\ f_entry h = f_entry f.
Proof.
  intros NE. destruct front_phi as (_ & _ & g & rm & hh & E & T & S & P & G & _).
  destruct (lifted_ok p m n f W Len No0 Ra Hl) as (_ & _ & _ & OP & EC). specialize (EC NE).
  destruct (no_alloc_optimize fuel nd no reach g T) as (h & Eh & Th & Ph & rm2 & Wh & _); auto.
  - intros i y Hy. destruct (gone_op _ _ _ _ _ _ G Hy) as (x & Hx & ->). split; intros K; destruct (OP i x Hx) as [Q|[Q|[Q|Q]]]; rewrite K in Q; discriminate Q.
  - intros b i y _ _ Hy. destruct (gone_op _ _ _ _ _ _ G Hy) as (x & Hx & ->). exact (EC i x Hx).
  - intros b I K. apply (Hr b I). now apply (gn_blocks _ _ _ _ G).
  - pose proof (gone_size _ _ _ _ G reach). lia.
  - exists g, h. split; [exact E|]. split; [exact Eh|]. split; [exact Th|]. split.
    + intros Rg w bi k s o WS R. destruct (P Rg w bi k s o WS R) as (o1 & R1 & S1). destruct (Ph Rg w bi k 0 (f_entry g) s o1 R1) as (o2 & R2 & S2).
      exists o2. rewrite (wo_entry _ _ _ Wh). split; [exact R2|]. eapply same_effect_trans; eassumption.
    + rewrite (wo_entry _ _ _ Wh). apply (gn_entry _ _ _ _ G).
Qed.
Lemma front_exit w bi ar nd no st t k r st' d : (forall j i, at_pos p j i -> plain ar i) -> agrees ar -> respects w ar ->
  (forall j i, at_pos p j i -> b_code i = 0x85%Z -> b_src i <> 6%Z) ->
  st_ok st -> enters st t sp_id arg_id -> words t -> crun w ar p k 0 st clean = Some (IExit r st', d) ->
  exists g h k' t', remove_trivial_phi fuel reach f = Ok g /\ optimize_ir fuel nd no reach g = Ok h /\
    srun w bi h k' 0 (f_entry h) t = Some (ORet r t') /\ s_mem t' = SpecWord.mem st' /\ s_nc t' = ncall st'.
Proof.
  intros Pl Ag Re NE So En Wt R. destruct (front_opt nd no NE) as (g & h & E1 & E2 & _ & P & EN).
  destruct (lift_exit w bi ar p m n f st t k r st' d W Len No0 Ra Pl Ag Re Hl So En R) as (k' & t' & S & M & N).
  rewrite <- L_Gs.gsrun_nowhere in S. destruct (P _ w bi k' t _ Wt S) as (o & S' & SE). rewrite L_Gs.gsrun_nowhere in S'. inversion SE as [|? ? ? [SW1 SW2]|]; subst. exists g, h, k', t0. repeat split; auto; congruence.
Qed.
End Front.
