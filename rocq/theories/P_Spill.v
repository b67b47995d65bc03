(** Property C62: moving values to the stack. *)
From Coq Require Import ZArith List.
From Verif Require Import M_Base M_Ir M_Norm M_Ra M_GenBB M_Lift M_Layout SpecWord SpecIsa SpecFlat SpecSsa SpecIr SpecCfg SpecLift SpecPass SpecShift SpecInstr SpecFrame SpecPrep SpecSpill
  L_LiftEx L_LiftMain L_LiftLay L_LiftWit L_VirtWit L_SpillAll L_SpillPrep L_SpillWit SpecRa SpecVirt.
Import ListNotations.
Open Scope Z_scope.

(** Every value in the list gets eight bytes of the frame of its own.  What the function computes, returns
    and passes to helpers stays the same, for every execution that leaves these bytes alone: at every
    block that is reached the values of all other instructions are the same, and so is the memory outside
    these bytes. *)
Theorem C62_spilling_partial : forall l s t, spillable s -> NoDup l -> (forall v, In v l -> movable s v) ->
  spill s l = Ok t -> - 2 ^ 31 <= c_off s - 8 * Z.of_nat (length l) ->
  c_off t = c_off s - 8 * Z.of_nat (length l) /\
  forall R w o bi k c b m out, st_ok m -> phi_free s b ->
    let Rs := between (rget m 10 + c_off t) (rget m 10 + c_off s) in
    (forall x, Rs x = true -> R x = true) -> hidden w Rs ->
    grun R w bi s o k c b (mkV (fun _ => None) m) = Some out ->
    exists out', grun R w bi t o k c b (mkV (fun _ => None) m) = Some out' /\ same_end Rs (f_ni (c_f s)) l out out'.
Proof. intros l s t S N M H B. exact (proj2 (spill_run l s t S N M H B)). Qed.
Print Assumptions C62_spilling_partial.
(** Such executions are executions. *)
Theorem C62_guarded_runs : forall R w bi s o k c b q out, grun R w bi s o k c b q = Some out -> vrun w bi s o k c b q = Some out.
Proof. exact grun_vrun. Qed.
Print Assumptions C62_guarded_runs.
(** More values can be moved afterwards: control flow, registers and blocks without phis stay as they are. *)
Theorem C62_again : forall l s t, spillable s -> NoDup l -> (forall v, In v l -> movable s v) ->
  spill s l = Ok t -> - 2 ^ 31 <= c_off s - 8 * Z.of_nat (length l) ->
  spillable t /\ (forall u, ~ In u l -> movable s u -> movable t u) /\ (forall b, phi_free s b -> phi_free t b) /\
  c_reach t = c_reach s /\ c_regs t = c_regs s /\ c_sp t = c_sp s /\ f_entry (c_f t) = f_entry (c_f s) /\ forall b, preds_of (c_f t) b = preds_of (c_f s) b.
Proof.
  intros l s t S N M H B. destruct (spill_run l s t S N M H B) as ([M1 M2 (M3 & M4 & M5 & M6 & M7 & M8) M9 M10] & _).
  exact (conj M1 (conj M9 (conj M10 (conj M4 (conj M5 (conj M6 (conj M3 M8))))))).
Qed.
Print Assumptions C62_again.
(** Functions that have been prepared are of this kind, ... *)
Theorem C62_prepared : forall f reach sp args s0 s, prepable f reach sp args -> phis_first f ->
  init_cg f reach sp args = Ok s0 -> prepare s0 = Ok s -> spillable s.
Proof. exact prep_spillable. Qed.
Print Assumptions C62_prepared.
(** ... among them the lifted ones. *)
Theorem C62_lifted : forall p m n f, liftable p -> lift m n p = Ok f ->
  forall g l e fuel, (2 * length (f_all f) + 1 < fuel)%nat -> layout fuel f = Ok (g, (l, e)) -> phis_first g.
Proof. exact laid_phis_first. Qed.
Print Assumptions C62_lifted.

(** A loop in which a phi, its next value and the counter move to the stack. *)
Example C62_example : exists s t, spillable s /\ NoDup [8; 10; 11]%nat /\ (forall v, In v [8; 10; 11]%nat -> movable s v) /\
  spill s [8; 10; 11]%nat = Ok t /\ (- 2 ^ 31 <= c_off s - 8 * 3) /\
  (exists x, f_insn (c_f s) 8 = Some x /\ i_op x = PHI) /\ st_ok (L_VirtWit.st_of 0 0) /\ phi_free s (f_entry (c_f s)) /\ f_entry (c_f s) = 1%nat /\
  c_off s = 0 /\ hidden w_sum rec_slots /\
  exists q, run_rec s = Some (VDone 1013 q).
Proof. exact rec_applies. Qed.
