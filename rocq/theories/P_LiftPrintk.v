(** C76 for programs. *)
From Verif Require Import M_Base M_Ir M_Edit SpecIr SpecEdit SpecInstr SpecLift M_Lift M_Opts SpecOpts SpecRelease M_Printk SpecPrintk L_PipeWit L_LiftCfg L_LiftPrintk.
Open Scope list_scope.
Open Scope nat_scope.

(** At every place of every program. *)
Theorem C76_lifted_partial : forall p m n f b i pos msg, liftable p -> lift m n p = Ok f -> In i (insns_of f b) -> pos = P_FRONT \/ pos = P_BACK ->
  exists g ms l r, place f b i pos l r /\ printk_insns f i pos msg = Ok g /\ prints g ms /\ spliced f g b l ms r /\
    (pos = P_FRONT \/ ~ is_terminator f i -> cfg_ok g).
Proof. exact lift_printk. Qed.
Print Assumptions C76_lifted_partial.
Example C76_lifted_applies : liftable w_loop /\ lift pk pk w_loop = Ok (lift_of w_loop) /\ In 7 (insns_of (lift_of w_loop) 2) /\ In 8 (insns_of (lift_of w_loop) 2).
Proof. destruct w_loop_ok as (P & L). split; [exact P|]. split; [exact L|]. split; vm_compute; tauto. Qed.
