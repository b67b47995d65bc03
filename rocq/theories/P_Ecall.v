(** Property C66: the translation of ecalls. *)
From Coq Require Import ZArith List Bool.
From Verif Require Import SpecWord SpecIsa SpecCfg SpecLift SpecIr SpecEdit SpecPrep M_Base M_Ir M_Edit M_Lift M_Ra M_Ecall M_Pipe L_VirtWit L_RaWit L_EndWit L_RoundWit L_PipeWit L_Ecall L_EcallWit.
From Verif Require Import SpecIr.
Import ListNotations.
Open Scope nat_scope.

(** ** C66 *)
(** A function without a heap initialisation is left as it is, and the pass ends. *)
Theorem C66_nothing_to_do : forall fuel reach f, linked_ok f -> (forall b, NoDup (insns_of f b)) ->
  (forall b, In b reach -> f_block f b <> None /\ length (insns_of f b) < fuel) ->
  (forall b i, In b reach -> In i (insns_of f b) -> ~ heap_init f i) -> handle_ecalls fuel reach f = Ok f.
Proof. exact ecalls_idle. Qed.
Print Assumptions C66_nothing_to_do.
Example C66_nothing_applies : let f := lift_of w_pipe in linked_ok f /\ (forall b, NoDup (insns_of f b)) /\ (forall b, In b [1; 2; 3] -> f_block f b <> None /\ length (insns_of f b) < 60) /\
  (forall b i, In b [1; 2; 3] -> In i (insns_of f b) -> ~ heap_init f i).
Proof. exact idle_meets. Qed.
(** What the translation makes of a consistent function is consistent: edges, use lists, instruction lists. *)
Theorem C66_consistent : forall fuel reach f g, wf_func f -> handle_ecalls fuel reach f = Ok g -> wf_func g.
Proof. exact ecalls_wf. Qed.
Print Assumptions C66_consistent.
Example C66_consistent_applies : liftable w_heap /\ wf_func (lift_of w_heap) /\
  exists g, handle_ecalls pk [1] (lift_of w_heap) = Ok g /\ length (f_all (lift_of w_heap)) = 1 /\ length (f_all g) = 3.
Proof. exact heap_wf. Qed.
(** The full statement is false.  A load directly after the ecall: the walk over the block ends up in the
    list of the block that the translation of the load has split off, and goes beyond its end. *)
Theorem C66_walk_refuted : exists p k f, liftable p /\ lift k k p = Ok f /\ wf_func f /\ handle_ecalls k [1] f = UB /\ front k false false p = UB.
Proof. exists w_walk, pk, (lift_of w_walk). destruct walk_ub as (A & B & C & D & E). auto. Qed.
Print Assumptions C66_walk_refuted.
(** Stores are not checked: with a heap of 64 bytes at 5000, the code of [w_store] writes to 5000 + 1000. *)
Theorem C66_bounds_refuted : exists k h L code, liftable w_store /\ cg_input k 4 false false w_store = Ok (h, L) /\ codegen k ids ids Ok h L sp_id arg_ids = Ok code /\
  exists n r q, isa_run w_map code n 0 (st_num 1000) = IExit r q /\ SpecWord.mem q (5000 + 1000)%Z = 42%Z /\ SpecWord.mem (st_num 1000) (5000 + 1000)%Z = 0%Z.
Proof.
  exists pk, (fst (input_of w_store)), (snd (input_of w_store)), (code3_of w_store). destruct store_out as (A & B & C & r & q & D). split; [exact A|]. split; [exact C|]. split; [exact B|].
  exists 20, r, q. exact D.
Qed.
Print Assumptions C66_bounds_refuted.
(** Loads look the index up in the map, stores add it to the address of the map: what is stored at an index
    within the heap is not what is read there.  The program stores 42, reads it back, and returns 0. *)
Theorem C66_reads_back_refuted : exists k h L code, liftable w_heap /\ cg_input k 4 false false w_heap = Ok (h, L) /\ codegen k ids ids Ok h L sp_id arg_ids = Ok code /\
  exists n q, isa_run w_map code n 0 (st_num 8) = IExit 0 q /\ ncall q = 1.
Proof.
  exists pk, (fst (input_of w_heap)), (snd (input_of w_heap)), (code3_of w_heap). destruct heap_reads as (A & B & C & q & D). split; [exact A|]. split; [exact C|]. split; [exact B|]. exists 20, q. exact D.
Qed.
Print Assumptions C66_reads_back_refuted.
(** A store through a number on a path without the ecall: the address of the map is used where it is not
    defined.  The checker accepts it, and the code adds the index to whatever R0 holds. *)
Theorem C66_other_path_refuted : exists k h L code, liftable w_other /\ cg_input k 4 false false w_other = Ok (h, L) /\ codegen k ids ids Ok h L sp_id arg_ids = Ok code /\
  exists n q q', isa_run w_map code n 0 (with_r0 3000) = IExit 0 q /\ isa_run w_map code n 0 (with_r0 2000) = IExit 0 q' /\ SpecWord.mem q 3000%Z = 42%Z /\ SpecWord.mem q' 3000%Z = 0%Z.
Proof.
  exists pk, (fst (input_of w_other)), (snd (input_of w_other)), (code3_of w_other). destruct other_reads as (A & B & C & q & q' & D). split; [exact A|]. split; [exact C|]. split; [exact B|]. exists 20, q, q'. exact D.
Qed.
Print Assumptions C66_other_path_refuted.
(** A number stored at itself: the lifter has registered one use (C07), the translation removes it, and the
    checker rejects the program. *)
Theorem C66_stored_at_itself_refuted : exists p k f, liftable p /\ lift k k p = Ok f /\ is_ok (handle_ecalls k [1] f) = true /\ front k false false p = Err.
Proof. exists w_self, pk, (lift_of w_self). exact self_rejected. Qed.
Print Assumptions C66_stored_at_itself_refuted.
