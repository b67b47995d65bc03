(** Example functions for the transparency of the inserted checks. *)
From Coq Require Import ZArith List Bool Arith Lia.
From Verif Require Import M_Base M_Ir M_Edit M_EditHist M_Pass SpecWord SpecFlat SpecSsa SpecIr SpecEdit SpecPass SpecStrict SpecInstr SpecWeave
  L_Edit L_Uses L_Hist L_PassWit L_Ins L_Div L_Count L_CountRun L_InstrWit L_Weave.
Import ListNotations.
Open Scope nat_scope.

Lemma no_phib_free f : fresh_ok f -> no_phib f = true -> forall b, phi_free f b.
Proof.
  intros F E b i _ P. unfold no_phib in E. rewrite forallb_forall in E. assert (P' := P). destruct P as (x & X & _).
  specialize (E i (live_below f i x F X)). apply op_phi in P'. rewrite P' in E. discriminate.
Qed.
Lemma free_divisions f : (forall b, phi_free f b) -> divisions_apart f.
Proof. intros H b i x a d r k c _ _ _ _ _ _. apply H. Qed.
Lemma free_after f P : (forall b, phi_free f b) -> apart_after f P.
Proof. intros H b i c _ _ _ _. apply H. Qed.
Definition phi_freeb (f : func) (b : nat) : bool := forallb (fun i => negb (iop_eqb (op_of f i) PHI)) (insns_of f b).
Lemma phi_freeb_ok f b : phi_freeb f b = true -> phi_free f b.
Proof. unfold phi_freeb. rewrite forallb_forall. intros H i I P. specialize (H i I). apply op_phi in P. rewrite P in H. discriminate. Qed.
Fixpoint firstb (f : func) (l : list nat) : bool :=
  match l with [] => true | i :: r => if iop_eqb (op_of f i) PHI then firstb f r else forallb (fun j => negb (iop_eqb (op_of f j) PHI)) r end.
Lemma firstb_ok f : forall l, firstb f l = true -> forall l1 i l2, l = l1 ++ i :: l2 -> is_phi f i -> forall j, In j l1 -> is_phi f j.
Proof.
  induction l as [|k l IH]; intros E l1 i l2 L P j I; [destruct l1; discriminate|]. destruct l1 as [|k1 l1]; [destruct I|]. injection L as <- L. cbn [firstb] in E.
  destruct (iop_eqb (op_of f k) PHI) eqn:O.
  - destruct I as [<-|I]; [apply op_phi; exact O|]. eapply IH; eauto.
  - exfalso. rewrite forallb_forall in E. assert (K : In i l) by (rewrite L; apply in_or_app; right; now left). specialize (E i K). apply op_phi in P. rewrite P in E. discriminate.
Qed.
Definition phis_firstb (f : func) : bool := forallb (fun b => firstb f (insns_of f b)) (seq 0 (f_nb f)).
Lemma phis_firstb_ok f : fresh_ok f -> phis_firstb f = true -> phis_first f.
Proof.
  intros F E b l1 i l2 L P. unfold phis_firstb in E. rewrite forallb_forall in E. refine (firstb_ok f _ (E b _) l1 i l2 L P).
  apply in_seq. split; [lia|]. destruct (Nat.lt_ge_cases b (f_nb f)) as [?|G]; [lia|]. apply (proj2 F) in G. unfold insns_of in L. rewrite G in L. destruct l1; discriminate.
Qed.
Definition ret_nc (o : option sout) : option (Z * nat) := match o with Some (ORet r t) => Some (r, s_nc t) | _ => None end.
Lemma ret_nc_in w bi f n s0 r k : ret_nc (srun w bi f n 0 (f_entry f) s0) = Some (r, k) -> exists m, returns_in w bi f n s0 r m k.
Proof.
  unfold ret_nc, returns_in. destruct (srun w bi f n 0 (f_entry f) s0) as [[| r' t|]|]; try discriminate. intros E. injection E as -> <-. exists (s_mem t), t. auto.
Qed.
Lemma end_stuck w bi g n : end_of w bi g n = 0 -> srun w bi g n 0 (f_entry g) s_zero = None.
Proof. unfold end_of. destruct (srun w bi g n 0 (f_entry g) s_zero) as [[| |]|]; try discriminate. reflexivity. Qed.
Lemma end_throw w bi g n : end_of w bi g n = 3 -> throws w bi g s_zero.
Proof. unfold end_of, throws. destruct (srun w bi g n 0 (f_entry g) s_zero) as [[| |]|] eqn:E; try discriminate. eauto. Qed.

(** the result of a division goes through a phi *)
Definition div_phi : func := run_get
  [ E_create_bb; E_connect 1 2;
    E_create_at_bb 1 (K_call 7) P_BACK;                                  (* 1 *)
    E_create_at_bb 1 (K_bin (val_const32 12) (reg 1) DIV A_64) P_BACK;   (* 2 *)
    E_create_at_bb 1 (K_ja 2) P_BACK;                                    (* 3 *)
    E_create_at_bb 2 K_phi P_BACK;                                       (* 4 *)
    E_phi_add 4 1 (reg 2);
    E_create_at_bb 2 (K_ret (reg 4)) P_BACK ].                           (* 5 *)
(** a loop with a variable *)
Definition loop_phi : func := run_get
  [ E_create_bb; E_create_bb; E_connect 1 2; E_connect 2 3; E_connect 2 2;
    E_create_at_bb 1 (K_ja 2) P_BACK;                                      (* 1 *)
    E_create_at_bb 2 K_phi P_BACK;                                         (* 2 *)
    E_create_at_bb 2 (K_call 7) P_BACK;                                    (* 3 *)
    E_phi_add 2 1 (val_const32 1);
    E_phi_add 2 2 (reg 3);
    E_create_at_bb 2 (K_jbin (reg 2) (val_const32 0) 2 3 JEQ A_64) P_BACK; (* 4 *)
    E_create_at_bb 3 (K_ret (reg 3)) P_BACK ].                             (* 5 *)
Lemma div_phi_ok : cfg_ok div_phi /\ phis_first div_phi /\ operands_live div_phi.
Proof.
  assert (W := built_wf _ : wf_func div_phi). split; [apply cfgb_ok; auto; vm_compute; reflexivity|]. split; [apply phis_firstb_ok; [exact (wf_fresh _ W)|vm_compute; reflexivity]|].
  apply liveb_ok; [exact (wf_fresh _ W)|vm_compute; reflexivity].
Qed.
Lemma loop_phi_ok : cfg_ok loop_phi /\ phis_first loop_phi /\ operands_live loop_phi /\ explored loop_phi [1; 2; 3] /\ unmarked loop_phi /\ phi_free loop_phi (f_entry loop_phi).
Proof.
  assert (W := built_wf _ : wf_func loop_phi). split; [apply cfgb_ok; auto; vm_compute; reflexivity|]. split; [apply phis_firstb_ok; [exact (wf_fresh _ W)|vm_compute; reflexivity]|].
  split; [apply liveb_ok; [exact (wf_fresh _ W)|vm_compute; reflexivity]|].
  split; [apply exploredb_ok; [repeat constructor; cbn; intuition discriminate|vm_compute; reflexivity]|].
  split; [apply unmarkedb_ok; [exact (wf_fresh _ W)|vm_compute; reflexivity]|]. apply phi_freeb_ok. vm_compute. reflexivity.
Qed.
Lemma loop_free : forall b, phi_free loop b.
Proof. assert (W := built_wf _ : wf_func loop). apply no_phib_free; [exact (wf_fresh _ W)|vm_compute; reflexivity]. Qed.
Definition dv : func := divide DIV A_64 (reg 1).
Lemma dv_ok : cfg_ok dv /\ phis_first dv /\ operands_live dv /\ divisions_apart dv.
Proof.
  assert (W := built_wf _ : wf_func dv). destruct (divide_cfg DIV A_64 (reg 1) _ eq_refl) as (A & B); [vm_compute; reflexivity|]. split; [exact A|]. split; [exact B|].
  split; [apply liveb_ok; [exact (wf_fresh _ W)|vm_compute; reflexivity]|]. apply free_divisions. apply no_phib_free; [exact (wf_fresh _ W)|vm_compute; reflexivity].
Qed.
