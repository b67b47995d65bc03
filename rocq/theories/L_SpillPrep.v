(** Spilling: prepared functions are spillable, and lifted functions have their phis first. *)
From Coq Require Import ZArith List Bool Arith Lia.
From Verif Require Import M_Base M_Ir M_Norm M_Edit M_Ra M_GenBB M_Lift M_Layout SpecWord SpecIsa SpecFlat SpecProg SpecSsa SpecIr SpecEdit SpecCfg SpecLift SpecPass SpecShift SpecInstr SpecFrame SpecLayout SpecRa SpecVirt SpecPrep SpecSpill
  L_Edit L_Layout L_LiftMain L_LiftEx L_LiftLay L_PrepInv L_PrepAll L_PrepEnd L_PrepReady L_PrepInit L_PrepMain.
From Verif Require Import SpecIr SpecRa SpecVirt.
Import ListNotations.
Open Scope nat_scope.

Section Prep.
Context (f : func) (reach : list nat) (sp : nat) (args : list nat) (s0 s : cgs).
Hypothesis P : prepable f reach sp args.
Hypothesis F : phis_first f.
Hypothesis I0 : init_cg f reach sp args = Ok s0.
Hypothesis Pr : prepare s0 = Ok s.

Lemma init_phis : phis_first (c_f s0).
Proof.
  pose proof (init_spec _ _ _ _ _ P I0) as T. intros b l1 i l2 Q (x & X & O) k K. rewrite (in_list _ _ _ _ _ T) in Q.
  assert (Pl : forall j, In j (insns_of f b) -> linked s0 j). { intros j J. apply (in_linked _ _ _ _ _ T). exists b. split; [|exact J]. apply (pp_reach _ _ _ _ P) in J. exact J. }
  assert (Ii : In i (insns_of f b)) by (rewrite Q; apply in_or_app; right; now left). destruct (linked_insn _ _ _ _ _ P T i x (Pl i Ii) X) as (Y & _).
  destruct (F b l1 i l2 Q ltac:(exists x; auto) k K) as (z & Z & Oz). exists z. split; [exact (old_insn _ _ _ _ _ P T _ _ Z)|exact Oz].
Qed.
Lemma prep_no_region v : region s v = None.
Proof.
  destruct (main_steps f reach sp args s0 s P I0 Pr) as (St & _). pose proof (sd_inv _ _ St) as V. unfold region. destruct (c_ex s v) as [e|] eqn:X; [|reflexivity].
  assert (Z0 : vp_spilled (x_pos e) = 0%Z); [|now rewrite Z0]. destruct (n_dom _ V _ _ X) as [I|[->|L]].
  - apply In_nth_error in I as (k & K). destruct (n_regs _ V) as (_ & _ & R). destruct (R _ _ K) as (X' & _). rewrite X' in X. injection X as <-. reflexivity.
  - rewrite (proj1 (n_sp _ V)) in X. injection X as <-. reflexivity.
  - destruct (live_linked _ V _ L) as (b & x & _ & _ & Xi & _). destruct (n_ex _ V _ _ L Xi) as (e' & X' & No). assert (e' = e) as -> by congruence.
    destruct (x_fin e) eqn:Fe; [destruct (no_fix _ _ _ No Fe) as (_ & k & _ & ->)|rewrite (no_free _ _ _ No Fe)]; reflexivity.
Qed.
Theorem prep_spillable : spillable s.
Proof.
  destruct (main_steps f reach sp args s0 s P I0 Pr) as (St & CL & AL). pose proof (sd_inv _ _ St) as V. destruct (main_ready f reach sp args s0 s P I0 Pr) as (Rd & _ & Sh & _).
  destruct (main_head f reach sp args s0 s P I0 Pr) as (_ & _ & _ & Ho & _). constructor.
  - exact (n_fresh _ V).
  - exact (n_tidy _ V).
  - exact Rd.
  - exact Sh.
  - exact (sd_phis _ _ St init_phis).
  - exact (n_all _ V).
  - destruct (n_sp _ V) as (X & _). exact (ex_lt _ V _ _ X).
  - exact (n_entry _ V).
  - rewrite Ho. split; [|split; reflexivity]. constructor; intros; rewrite prep_no_region in *; discriminate.
Qed.
(** every value of the function can be moved, when there are no variables *)
Lemma prep_movable v x : straight f reach -> placed_in f reach v -> f_insn f v = Some x -> is_void_op (i_op x) = false -> i_op x <> CALL -> i_op x <> ASSIGN -> movable s v.
Proof.
  intros G Pl X Vo Nc Na. pose proof (init_spec _ _ _ _ _ P I0) as T. destruct (main_steps f reach sp args s0 s P I0 Pr) as (St & CL & AL). pose proof (sd_inv _ _ St) as V.
  destruct (sd_same _ _ St v x (old_insn _ _ _ _ _ P T _ _ X)) as (y & Y & O & _). assert (L : linked s v) by (apply (sd_link _ _ St), (in_linked _ _ _ _ _ T), Pl).
  split; [apply (fin_op s V v y L Y); congruence|]. intros z Z Oz. exfalso. apply (proj1 (sg_ops _ _ G v x Pl X)). congruence.
Qed.
End Prep.

Section Lift.
Context (p : list bpf_insn) (m n : nat) (f : func).
Hypothesis P : liftable p.
Hypothesis Hl : lift m n p = Ok f.
Lemma split_phis (g : func) phs ids : (forall i, In i phs -> is_phi g i) -> (forall i, In i ids -> ~ is_phi g i) ->
  forall l1 i l2, phs ++ ids = l1 ++ i :: l2 -> is_phi g i -> forall k, In k l1 -> is_phi g k.
Proof.
  revert ids. induction phs as [|a phs IH]; intros ids A B l1 i l2 Q Ph k K; cbn [app] in Q.
  - destruct (B i); [|exact Ph]. rewrite Q. apply in_or_app. right. now left.
  - destruct l1 as [|c l1]; [destruct K|]. cbn [app] in Q. injection Q as <- Q. destruct K as [<-|K]; [apply A; now left|]. apply (IH ids ltac:(intros; apply A; now right) B l1 i l2 Q Ph k K).
Qed.
Theorem lift_phis_first : phis_first f.
Proof.
  destruct P as [W Len No0 Ra]. intros b l1 i l2 Q Ph k K. assert (N : f_block f b <> None). { intros N. unfold insns_of in Q. rewrite N in Q. destruct l1; discriminate Q. }
  destruct (lift_phis p m n f W Len No0 Ra Hl b N) as (phs & ids & E & A & B & _). rewrite E in Q. refine (split_phis f phs ids _ B l1 i l2 Q Ph k K). intros j J. destruct (A j J) as (x & X & O & _). exists x. auto.
Qed.
Theorem laid_phis_first g l e fuel : 2 * length (f_all f) + 1 < fuel -> layout fuel f = Ok (g, (l, e)) -> phis_first g.
Proof.
  intros Hf Hy. destruct (lay_res p m n f P Hl g l e fuel Hf Hy) as ((SI & _ & _ & SF) & _). intros b l1 i l2 Q Ph k K. rewrite (proj1 (SF b)) in Q. unfold is_phi in *. rewrite SI in *. exact (lift_phis_first b l1 i l2 Q Ph k K).
Qed.
End Lift.
