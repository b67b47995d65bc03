(** Lifted functions and the printing helper. *)
From Verif Require Import M_Base M_Ir M_Edit SpecIr SpecEdit SpecInstr SpecLift M_Lift M_Opts SpecOpts SpecRelease M_Printk SpecPrintk L_Printk L_LiftCfg.
Open Scope list_scope.
Open Scope nat_scope.
Theorem lift_printk p m n f b i pos msg : liftable p -> lift m n p = Ok f -> In i (insns_of f b) -> pos = P_FRONT \/ pos = P_BACK ->
  exists g ms l r, place f b i pos l r /\ printk_insns f i pos msg = Ok g /\ prints g ms /\ spliced f g b l ms r /\
    (pos = P_FRONT \/ ~ is_terminator f i -> cfg_ok g).
Proof. intros P Hl. destruct (lift_cfg p m n f P Hl) as (C & _). exact (printk_spec f b i pos msg C). Qed.
