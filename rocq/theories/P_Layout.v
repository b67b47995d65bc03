(** Properties C22, C23: the order in which blocks are emitted. *)
From Verif Require Import M_Base M_Ir M_Edit M_EditHist SpecIr SpecEdit L_Hist M_Layout SpecLayout L_Layout L_LayoutEx.
From Coq Require Import Lia.
Open Scope nat_scope.

(** ** C22 *)
(** Whenever a layout exists and no dead block falls into live code, the step finds a layout: every
    reachable block once, nothing else, entry first.  It also computes the end blocks. *)
Theorem C22_layout_partial : forall f L,
  mirrored f -> blocks_ok f -> terms_ok f -> no_dead_fall f -> valid_layout f L ->
  exists fuel0, forall fuel, fuel0 <= fuel -> exists g l e,
    layout fuel f = Ok (g, (l, e)) /\ valid_layout f l /\ same_flow f g /\
    NoDup e /\ (forall b, In b e <-> reach f (f_entry f) b /\ succs_of f b = []) /\
    (forall b y, terminator f b y -> is_cond_jmp_op (i_op y) = true -> succs_of g b = [i_bb1 y; i_bb2 y]).
Proof. exact layout_total. Qed.
Print Assumptions C22_layout_partial.

(** The hypotheses: 1 branches to 2 and 3; 2 jumps to 4; 3 falls into 4; 4 branches to 5 and back
    to 2; 6 is dead and jumps to 4. *)
Definition lay_edits : list edit :=
  [ E_create_bb; E_create_bb; E_create_bb; E_create_bb; E_create_bb;
    E_connect 1 3; E_connect 1 2; E_connect 2 4; E_connect 3 4; E_connect 4 2; E_connect 4 5; E_connect 6 4;
    E_create_at_bb 1 (K_jbin (val_const32 1) (val_const32 2) 2 3 JEQ A_64) P_BACK;
    E_create_at_bb 2 (K_ja 4) P_BACK;
    E_create_at_bb 3 (K_alloc VR_64) P_BACK;
    E_create_at_bb 4 (K_jbin (val_const32 1) (val_const32 2) 5 2 JGT A_64) P_BACK;
    E_create_at_bb 5 (K_ret (val_const32 0)) P_BACK;
    E_create_at_bb 6 (K_ja 4) P_BACK ].
Definition lay : func := run_get lay_edits.
Example lay_wf : mirrored lay /\ blocks_ok lay /\ terms_ok lay.
Proof. exact (built_ok lay_edits eq_refl). Qed.
Example lay_valid : valid_layout lay [1; 2; 3; 4; 5] /\ no_dead_fall lay.
Proof.
  split; [apply (vchk_ok _ _ [1; 2; 3; 4; 5]); vm_compute; reflexivity|].
  apply (dfchk_ok _ [1; 2; 3; 4; 5] [1; 2; 3; 4; 5]); [apply lay_wf|vm_compute; reflexivity..].
Qed.
Example lay_run : match layout 20 lay with Ok (g, (l, e)) => l = [1; 2; 3; 4; 5] /\ e = [5] /\ succs_of g 4 = [5; 2] | _ => False end.
Proof. vm_compute. auto. Qed.

(** Two blocks falling into the same block: no layout exists, yet the step succeeds and lists the
    block twice. *)
Theorem C22_duplicate_refuted : exists f g l e, mirrored f /\ blocks_ok f /\ terms_ok f /\ no_dead_fall f /\
  layout 20 f = Ok (g, (l, e)) /\ ~ NoDup l.
Proof. exact dup_witness. Qed.
Print Assumptions C22_duplicate_refuted.
(** A dead block that falls into a live one is emitted, although the function has a layout. *)
Theorem C22_dead_block_refuted : exists f g l e b L, mirrored f /\ blocks_ok f /\ terms_ok f /\ valid_layout f L /\
  layout 20 f = Ok (g, (l, e)) /\ In b l /\ ~ reach f (f_entry f) b.
Proof. exact dead_witness. Qed.
Print Assumptions C22_dead_block_refuted.
(** When a block falls into the entry, the emitted program does not start with the entry. *)
Theorem C22_entry_refuted : exists f g l e b r, mirrored f /\ blocks_ok f /\ terms_ok f /\ no_dead_fall f /\
  layout 20 f = Ok (g, (l, e)) /\ l = b :: r /\ b <> f_entry f.
Proof. exact entry_witness. Qed.
Print Assumptions C22_entry_refuted.
(** On a cycle of fall-throughs the step does not return. *)
Theorem C22_diverges_refuted : exists f, mirrored f /\ blocks_ok f /\ terms_ok f /\ no_dead_fall f /\
  forall fuel, layout fuel f = NoFuel.
Proof. exact cycle_witness. Qed.
Print Assumptions C22_diverges_refuted.

(** ** C23 *)
Theorem C23_adjacent : forall fuel f g l e, (forall b x, f_block f b = Some x -> In b (f_all f)) ->
  layout fuel f = Ok (g, (l, e)) ->
  forall a b c s, l = a ++ b :: c -> falls g b s -> exists c', c = s :: c'.
Proof. exact layout_adj. Qed.
Print Assumptions C23_adjacent.
Example C23_applies : falls lay 3 4 /\ falls lay 4 5.
Proof.
  split.
  - eapply falls_plain; [exists [], 3; split; vm_compute; reflexivity|vm_compute; reflexivity..].
  - eapply falls_cond; [exists [], 4; split; vm_compute; reflexivity|vm_compute; reflexivity..].
Qed.
