(** C76: code that prints a message. *)
From Verif Require Import M_Base M_Ir M_Edit SpecIr SpecEdit SpecInstr M_Opts SpecOpts SpecRelease M_Printk SpecPrintk L_ReleaseWit L_WeaveWit L_Printk.
Open Scope list_scope.
Open Scope nat_scope.

(** C76: at every place code that prints "exit" is added, and nothing else is changed.  The blocks stay
    consistent unless the place is behind the end of a block. *)
Theorem C76_prints_partial : forall f b i pos msg, cfg_ok f -> In i (insns_of f b) -> pos = P_FRONT \/ pos = P_BACK ->
  exists g ms l r, place f b i pos l r /\ printk_insns f i pos msg = Ok g /\ prints g ms /\ spliced f g b l ms r /\
    (pos = P_FRONT \/ ~ is_terminator f i -> cfg_ok g).
Proof. exact printk_spec. Qed.
Print Assumptions C76_prints_partial.
Example C76_applies : cfg_ok two_ways /\ In 7 (insns_of two_ways 4) /\ In 2 (insns_of two_ways 1) /\ ~ is_terminator two_ways 2.
Proof.
  split; [exact (proj1 two_ways_ok)|]. split; [vm_compute; tauto|]. split; [vm_compute; tauto|]. intros (x & X & T). vm_compute in X. injection X as <-. cbn in T.
  decompose [or] T; try discriminate; contradiction.
Qed.
(** The message asked for is not the one that is printed. *)
Theorem C76_message_refuted : exists f i msg g ms, cfg_ok f /\ msg <> lit "exit" /\ printk_insns f i P_FRONT msg = Ok g /\ prints g ms.
Proof.
  destruct C76_applies as (C & I & _). destruct (printk_spec two_ways 4 7 P_FRONT (lit "no") C I (or_introl eq_refl)) as (g & ms & l & r & _ & G & P & _).
  exists two_ways, 7, (lit "no"), g, ms. split; [exact C|]. split; [discriminate|]. split; [exact G|exact P].
Qed.
Print Assumptions C76_message_refuted.
Example C76_demo : match printk_insns two_ways 7 P_FRONT (lit "no") with
  | Ok g => insns_of g 4 = [8; 9; 10; 11; 12; 7] /\ prints g [8; 9; 10; 11; 12]
  | _ => False
  end.
Proof. vm_compute. split; [reflexivity|]. do 10 eexists. repeat split. Qed.
(** before a phi: the code goes behind it *)
Example C76_phi_demo : cfg_ok loop_phi /\ In 2 (insns_of loop_phi 2) /\ is_phi loop_phi 2 /\
  match printk_insns loop_phi 2 P_FRONT (lit "no") with
  | Ok g => insns_of g 2 = [2; 6; 7; 8; 9; 10; 3; 4] /\ prints g [6; 7; 8; 9; 10]
  | _ => False
  end.
Proof.
  split; [exact (proj1 loop_phi_ok)|]. split; [vm_compute; tauto|]. split; [eexists; split; [vm_compute; reflexivity|reflexivity]|].
  vm_compute. split; [reflexivity|]. do 10 eexists. repeat split.
Qed.
