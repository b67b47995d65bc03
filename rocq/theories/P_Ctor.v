(** Properties C50, C51: instruction constructors and error blocks. *)
From Verif Require Import M_Base M_Ir M_Edit M_EditHist SpecIr SpecEdit SpecCtor L_Hist L_Ctor.
Open Scope nat_scope.

(** ** C50 *)
Theorem C50_constructor : forall f bb b k p, wf_func f -> f_block f bb = Some b -> ctor_ok k ->
  (forall d, names k d -> exists y, f_insn f d = Some y) ->
  exists g i before after x, create_at_bb f bb k p = Ok (g, i) /\ f_insn f i = None /\
    f_insn g i = Some x /\ describes k x /\ i_parent x = bb /\ only_users f g i /\
    placed f p (insns_of f bb) before after /\ insns_of g bb = before ++ i :: after /\
    (forall c, c <> bb -> f_block g c = f_block f c) /\
    (forall c, succs_of g c = succs_of f c) /\ (forall c, preds_of g c = preds_of f c) /\ f_nb g = f_nb f.
Proof. exact create_at_bb_ok. Qed.
Print Assumptions C50_constructor.

(** A function with an alloc (1), to which a store is added. *)
Definition ctor_demo : func := run_get [ E_create_at_bb 1 (K_alloc VR_64) P_BACK; E_create_at_bb 1 (K_ret (val_const32 0)) P_BACK ].
Example C50_applies : wf_func ctor_demo /\ (exists b, f_block ctor_demo 1 = Some b) /\
  (forall d, names (K_store 1 (val_const32 7)) d -> exists y, f_insn ctor_demo d = Some y).
Proof.
  split; [exact (reachable_wf _ _ empty_func_wf (run_get_reachable _))|]. split; [eexists; vm_compute; reflexivity|].
  intros d [<-|H]; [eexists; vm_compute; reflexivity|discriminate H].
Qed.
Example C50_runs : match create_at_bb ctor_demo 1 (K_store 1 (val_const32 7)) P_BACK_BEFORE_JMP with
  | Ok (g, i) => insns_of g 1 = [1; i; 2] /\ users_of g 1 = [i] | _ => False end.
Proof. vm_compute. auto. Qed.

(** ** C51 *)
Theorem C51_error_block_front : forall f i x l1 l2,
  wf_func f -> f_insn f i = Some x -> insns_of f (i_parent x) = l1 ++ i :: l2 ->
  exists g eb nb, create_error_block f i P_FRONT = Ok (g, Some (eb, nb)) /\ error_blocks f g (i_parent x) nb eb l1 (i :: l2).
Proof. exact error_front. Qed.
Print Assumptions C51_error_block_front.
Theorem C51_error_block_back : forall f i x l1 l2,
  wf_func f -> f_insn f i = Some x -> insns_of f (i_parent x) = l1 ++ i :: l2 -> l2 <> [] ->
  exists g eb nb, create_error_block f i P_BACK = Ok (g, Some (eb, nb)) /\ error_blocks f g (i_parent x) nb eb (l1 ++ [i]) l2.
Proof. exact error_back. Qed.
Print Assumptions C51_error_block_back.
Example C51_applies : exists x, f_insn ctor_demo 1 = Some x /\ insns_of ctor_demo (i_parent x) = [] ++ 1 :: [2].
Proof. eexists; split; vm_compute; reflexivity. Qed.
