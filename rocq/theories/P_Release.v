(** C74: ring buffer references are given back before a throw. *)
From Verif Require Import M_Base M_Ir M_Edit M_EditHist M_Pass SpecIr SpecInstr M_Layout M_Release SpecRelease L_Release L_ReleaseOut L_ReleaseWit.
Open Scope list_scope.
Open Scope nat_scope.

(** C74: on success every throw discards a list of references once each, prints if asked to, and returns 0.
    If the entry is not in a loop these references are held on every path.  If nothing is in a loop, they
    are all references that are held on every path.  Nothing else is changed. *)
Theorem C74_releases_partial : forall f reach msg fuel g, cfg_ok f -> complete f reach -> translate_throw_df fuel msg reach f = Ok g ->
  (forall b pre t, throws f reach b pre t -> exists rs, released f g msg b pre t rs /\
     (preds_of f (f_entry f) = [] -> forall r, In r rs -> held_at f b r) /\
     (loop_free f reach -> discovered f reach -> made_first f -> forall r, held_at f b r -> In r rs)) /\
  (forall c, (forall pre t, ~ throws f reach c pre t) -> insns_of g c = insns_of f c) /\
  (forall j, f_insn f j <> None -> (forall b pre, ~ throws f reach b pre j) -> unchanged f g j) /\
  (forall c, succs_of g c = succs_of f c) /\ (forall c, preds_of g c = preds_of f c) /\ f_entry g = f_entry f.
Proof. exact release_spec. Qed.
Print Assumptions C74_releases_partial.
(** The analysis ends, and the pass succeeds on exactly the functions in which every release names the
    call that made the reference. *)
Theorem C74_accepts : forall f reach msg, cfg_ok f -> complete f reach ->
  forall fuel, List.length reach * List.length (flat_map (insns_of f) reach) < fuel ->
  (exists g, translate_throw_df fuel msg reach f = Ok g) <-> direct f reach.
Proof. exact release_accepts. Qed.
Print Assumptions C74_accepts.
Example C74_applies : cfg_ok two_ways /\ complete two_ways [1; 2; 4; 3] /\ direct two_ways [1; 2; 4; 3] /\ loop_free two_ways [1; 2; 4; 3] /\
  discovered two_ways [1; 2; 4; 3] /\ made_first two_ways /\ preds_of two_ways (f_entry two_ways) = [] /\ throws two_ways [1; 2; 4; 3] 4 [] 7.
Proof. exact two_ways_ok. Qed.
(** Of the two references the one submitted on one of the ways is not discarded. *)
Example C74_demo : match translate_throw_df 50 true [1; 2; 4; 3] two_ways with
  | Ok g => insns_of g 4 = [8; 9; 10; 11; 12; 13; 7] /\ discards g 8 2 /\ prints g [9; 10; 11; 12; 13]
  | _ => False
  end.
Proof.
  vm_compute. split; [reflexivity|]. split.
  - eexists. split; [reflexivity|]. repeat split.
  - do 10 eexists. repeat split.
Qed.
(** A reference made before a loop is not given back by a throw after the loop's head. *)
Theorem C74_loop_leaks_refuted : exists f reach g b t r, cfg_ok f /\ complete f reach /\ discovered f reach /\ made_first f /\
  preds_of f (f_entry f) = [] /\ throws f reach b [] t /\ held_at f b r /\
  translate_throw_df 50 false reach f = Ok g /\ insns_of g b = [t].
Proof.
  destruct leak_ok as (A1 & A2 & A3 & A4 & A5 & A6 & A7 & A8). exists leak, [1; 2; 3; 4]. eexists. exists 4, 5, 1.
  do 7 (split; [assumption|]). split; vm_compute; reflexivity.
Qed.
Print Assumptions C74_loop_leaks_refuted.
(** If the entry is in a loop, a reference that was never made is discarded. *)
Theorem C74_entry_refuted : exists f reach g b t r p d, cfg_ok f /\ complete f reach /\ throws f reach b [] t /\
  walk f (p ++ [b]) /\ held f (p ++ [b]) r = false /\
  translate_throw_df 50 false reach f = Ok g /\ insns_of g b = [d; t] /\ discards g d r.
Proof.
  destruct entry_ref_ok as (A1 & A2 & A3 & A4 & A5 & A6). exists entry_ref, [1; 2; 4; 3]. eexists. exists 3, 5, 3, [1], 7.
  do 5 (split; [assumption|]). split; [vm_compute; reflexivity|]. split; [vm_compute; reflexivity|]. vm_compute. eexists. split; [reflexivity|]. repeat split.
Qed.
Print Assumptions C74_entry_refuted.
(** The iteration looks at changes of one of its two sets only: with the blocks in another order it stops
    too early. *)
Theorem C74_order_refuted : exists f reach g b t r, cfg_ok f /\ complete f reach /\ loop_free f reach /\ made_first f /\
  preds_of f (f_entry f) = [] /\ throws f reach b [] t /\ held_at f b r /\
  translate_throw_df 50 false reach f = Ok g /\ insns_of g b = [t].
Proof.
  destruct late_ok as (A1 & A2 & A3 & A4 & A5 & A6 & A7 & A8). exists late, [2; 1]. eexists. exists 2, 3, 1.
  do 7 (split; [assumption|]). split; vm_compute; reflexivity.
Qed.
Print Assumptions C74_order_refuted.
(** The layout step makes such an order, of a function without loops. *)
Theorem C74_layout_order_refuted : exists f h l e g b t r, layout 50 f = Ok (h, (l, e)) /\
  (forall c, f_block h c = f_block f c) /\ (forall i, f_insn h i = f_insn f i) /\
  cfg_ok f /\ complete f l /\ loop_free f l /\ made_first f /\ preds_of f (f_entry f) = [] /\ throws f l b [] t /\ held_at f b r /\
  translate_throw_df 50 false l f = Ok g /\ insns_of g b = [t].
Proof.
  destruct woven_ok as (A1 & A2 & A3 & A4 & A5 & A6 & A7 & A8). destruct woven_order as (h & e & B1 & B2 & B3).
  exists woven, h, [1; 2; 4; 5; 3; 6], e. eexists. exists 6, 8, 4.
  do 10 (split; [assumption|]). split; vm_compute; reflexivity.
Qed.
Print Assumptions C74_layout_order_refuted.
(** The pass that the pipeline runs instead gives nothing back. *)
Theorem C74_default_leaks_refuted : exists f reach g b t r, cfg_ok f /\ complete f reach /\ throws f reach b [] t /\ held_at f b r /\
  translate_throw reach f = Ok g /\ insns_of g b = [t] /\ exists y, f_insn g t = Some y /\ i_op y = RET.
Proof.
  destruct leak_ok as (A1 & A2 & A3 & A4 & A5 & A6 & A7 & A8). exists leak, [1; 2; 3; 4]. eexists. exists 4, 5, 1.
  do 4 (split; [assumption|]). split; [vm_compute; reflexivity|]. split; [vm_compute; reflexivity|]. eexists. split; vm_compute; reflexivity.
Qed.
Print Assumptions C74_default_leaks_refuted.
