(** Properties C04-C09, C48, C49: editing the IR. *)
From Verif Require Import M_Base M_Ir M_Edit M_EditHist SpecIr SpecEdit L_Edit L_Uses L_Hist.
Open Scope nat_scope.

(** A small function built with the API: block 1 = [alloc; ja 2], block 2 = [phi; ret phi]. *)
Definition demo_edits : list edit :=
  [ E_create_bb; E_connect 1 2;
    E_create_at_bb 1 (K_alloc VR_64) P_BACK;                       (* 1 *)
    E_create_at_bb 1 (K_ja 2) P_BACK;                              (* 2 *)
    E_create_at_bb 2 K_phi P_FRONT;                                (* 3 *)
    E_phi_add 3 1 (val_insn 1);
    E_create_at_bb 2 (K_ret (val_insn 3)) P_BACK_BEFORE_JMP ].     (* 4 *)
Definition demo : func := run_get demo_edits.

Example demo_shape :
  insns_of demo 1 = [1; 2] /\ insns_of demo 2 = [3; 4] /\ users_of demo 1 = [3] /\
  users_of demo 3 = [4] /\ preds_of demo 2 = [1].
Proof. vm_compute. repeat split. Qed.

Example demo_reachable : reachable empty_func demo.
Proof. exact (run_get_reachable demo_edits). Qed.

Example empty_is_wf : wf_func empty_func.
Proof. exact empty_func_wf. Qed.

(** ** C04 *)
Theorem C04_preds_succs_mirror : forall f g, wf_func f -> reachable f g -> mirrored g.
Proof. exact (fun f g W R => wf_mirror g (reachable_wf f g W R)). Qed.
Print Assumptions C04_preds_succs_mirror.

(** ** C05 *)
Theorem C05_split_front : forall f i x l1 l2,
  wf_func f -> f_insn f i = Some x -> insns_of f (i_parent x) = l1 ++ i :: l2 ->
  exists g nb, split_bb f i P_FRONT = Ok (g, Some nb) /\
    split_edges f g (i_parent x) nb /\
    insns_of g (i_parent x) = l1 /\ insns_of g nb = i :: l2 /\
    (forall c, c <> i_parent x -> c <> nb -> insns_of g c = insns_of f c) /\
    moved_to f g (i :: l2) nb.
Proof. exact split_front. Qed.
Print Assumptions C05_split_front.

Theorem C05_split_back : forall f i x l1 l2,
  wf_func f -> f_insn f i = Some x -> insns_of f (i_parent x) = l1 ++ i :: l2 -> l2 <> [] ->
  exists g nb, split_bb f i P_BACK = Ok (g, Some nb) /\
    split_edges f g (i_parent x) nb /\
    insns_of g (i_parent x) = l1 ++ [i] /\ insns_of g nb = l2 /\
    (forall c, c <> i_parent x -> c <> nb -> insns_of g c = insns_of f c) /\
    moved_to f g l2 nb.
Proof. exact split_back. Qed.
Print Assumptions C05_split_back.

Example C05_applies : exists x, f_insn demo 1 = Some x /\ insns_of demo (i_parent x) = [] ++ 1 :: [2].
Proof. eexists; split; reflexivity. Qed.

(** ** C06 *)
Theorem C06_uses_exact : forall f g, wf_func f -> reachable f g -> uses_exact g.
Proof. exact (fun f g W R => wf_uses g (reachable_wf f g W R)). Qed.
Print Assumptions C06_uses_exact.

(** replacing all uses really replaces all of them, everywhere and nowhere else *)
Theorem C06_replace_all_complete : forall f d rep g,
  wf_func f -> v_data rep <> VInsn d -> replace_all f d rep = Ok g ->
  users_of g d = [] /\ (forall u, uses g u d = 0) /\
  (forall u d', d' <> d -> uses g u d' = uses f u d' + (if is_use_of d' rep then uses f u d else 0)).
Proof. exact replace_all_complete. Qed.
Print Assumptions C06_replace_all_complete.

(** The API contract "a value is not replaced by itself" is necessary: an instruction with two
    uses of [d] is registered four times after replacing [d] by itself. *)
Definition two_uses : func := run_get
    [ E_create_at_bb 1 (K_alloc VR_64) P_BACK;
      E_create_at_bb 1 (K_bin (val_insn 1) (val_insn 1) ADD A_64) P_BACK ].
Theorem C06_replace_by_itself_refuted : exists f d g,
  users_of f d = [2; 2] /\ uses f 2 d = 2 /\
  replace_all f d (val_insn d) = Ok g /\ uses g 2 d = 2 /\ users_of g d = [2; 2; 2; 2].
Proof.
  exists two_uses, 1, (get_ok empty_func (replace_all two_uses 1 (val_insn 1))).
  split; [vm_compute; reflexivity|]. split; [vm_compute; reflexivity|].
  split; [apply get_ok_spec; vm_compute; reflexivity|]. split; vm_compute; reflexivity.
Qed.
Print Assumptions C06_replace_by_itself_refuted.

(** ** C07 (see also P_Lift for the lifter itself) *)
(** The lifter registers operands with push_unique, so an instruction that uses a value twice is
    registered once; changing one of the two operands then unregisters the other. *)
Definition lifted_double : outcome func :=
  do f0 <- apply_edit empty_func (E_create_at_bb 1 (K_alloc VR_64) P_BACK);
  let f1 := mkFunc (upd (f_insn f0) 2 (Some (build 1 (K_bin (val_insn 1) (val_insn 1) ADD A_64))))
                   (f_block f0) 3 (f_nb f0) (f_all f0) (f_entry f0) in
  do f2 <- lift_add_user f1 2 (val_insn 1);
  do f3 <- lift_add_user f2 2 (val_insn 1);
  insert_at_bb f3 2 1 P_BACK.
Theorem C07_lifted_edit_refuted : exists f g,
  lifted_double = Ok f /\ uses f 2 1 = 2 /\ users_of f 1 = [2] /\
  change_value f 2 (SVal 0) (val_const64 7) = Ok g /\ uses g 2 1 = 1 /\ ~ In 2 (users_of g 1).
Proof.
  exists (get_ok empty_func lifted_double),
    (get_ok empty_func (change_value (get_ok empty_func lifted_double) 2 (SVal 0) (val_const64 7))).
  split; [apply get_ok_spec; vm_compute; reflexivity|].
  split; [vm_compute; reflexivity|]. split; [vm_compute; reflexivity|].
  split; [apply get_ok_spec; vm_compute; reflexivity|]. split; [vm_compute; reflexivity|].
  vm_compute. intros [].
Qed.
Print Assumptions C07_lifted_edit_refuted.

(** It is safe when the changed operand's value occurs only once in the instruction. *)
Theorem C07_lifted_edit_partial : forall f u s new g x old,
  registered f -> f_insn f u = Some x -> slot_get x s = Some old ->
  (forall d, v_data old = VInsn d -> uses f u d = 1) ->
  change_value f u s new = Ok g -> registered g.
Proof. exact change_value_registered. Qed.
Print Assumptions C07_lifted_edit_partial.

(** ** C08 *)
Theorem C08_erase_no_dangling : forall f i, wf_func f -> in_place f i ->
  (erase_insn f i = Err /\ exists u, u <> i /\ uses f u i > 0) \/
  ((forall u, u <> i -> uses f u i = 0) /\
   exists g, erase_insn f i = Ok g /\ f_insn g i = None /\
     (forall u, uses g u i = 0) /\ (forall d, ~ In i (users_of g d)) /\ (forall b, ~ In i (insns_of g b)) /\
     (forall j, j <> i -> exists l, f_insn g j = option_map (set_users l) (f_insn f j)) /\
     (forall b, insns_of g b = filter (fun j => negb (j =? i)) (insns_of f b))).
Proof. exact erase_no_dangling. Qed.
Print Assumptions C08_erase_no_dangling.

Example C08_both_cases : in_place demo 1 /\ is_ok (erase_insn demo 1) = false /\
  in_place demo 4 /\ users_of (get_ok empty_func (erase_insn demo 4)) 3 = [].
Proof.
  split; [exact (edit_okb_ok demo (E_erase 1) ltac:(vm_compute; reflexivity))|].
  split; [vm_compute; reflexivity|].
  split; [exact (edit_okb_ok demo (E_erase 4) ltac:(vm_compute; reflexivity))|].
  vm_compute; reflexivity.
Qed.

(** ** C09 *)
Theorem C09_insert_at_block : forall f new bb p b, f_block f bb = Some b ->
  exists g before after, insert_at_bb f new bb p = Ok g /\
    placed f p (insns_of f bb) before after /\ insns_of g bb = before ++ new :: after /\
    (forall c, c <> bb -> f_block g c = f_block f c) /\
    (forall c, succs_of g c = succs_of f c) /\ (forall c, preds_of g c = preds_of f c) /\
    (forall i, f_insn g i = f_insn f i).
Proof. exact insert_at_bb_places. Qed.
Print Assumptions C09_insert_at_block.

Theorem C09_insert_at_insn : forall f new i x n l1 l2 p,
  f_insn f i = Some x -> f_insn f new = Some n -> insns_of f (i_parent x) = l1 ++ i :: l2 ->
  ~ In i l1 -> p = P_FRONT \/ p = P_BACK -> (i_op x = PHI -> i_op n = PHI) ->
  exists g, insert_at f new i p = Ok g /\
    insns_of g (i_parent x) = (if match p with P_FRONT => true | _ => false end
      then l1 ++ new :: i :: l2 else l1 ++ i :: new :: l2) /\
    (forall c, c <> i_parent x -> f_block g c = f_block f c) /\
    (forall c, succs_of g c = succs_of f c) /\ (forall c, preds_of g c = preds_of f c) /\
    (forall j, f_insn g j = f_insn f j).
Proof. exact insert_at_places. Qed.
Print Assumptions C09_insert_at_insn.

(** next to a phi, a non-phi goes after the phis of the block *)
Theorem C09_insert_at_phi : forall f new i x n p b,
  f_insn f i = Some x -> f_insn f new = Some n -> i_op x = PHI -> i_op n <> PHI ->
  f_block f (i_parent x) = Some b ->
  insert_at f new i p = insert_at_bb f new (i_parent x) P_FRONT_AFTER_PHI.
Proof. exact insert_at_phi. Qed.
Print Assumptions C09_insert_at_phi.

Example C09_demo :
  insns_of (get_ok empty_func (insert_at_bb demo 9 2 P_FRONT_AFTER_PHI)) 2 = [3; 9; 4] /\
  insns_of (get_ok empty_func (insert_at_bb demo 9 1 P_BACK_BEFORE_JMP)) 1 = [1; 9; 2].
Proof. vm_compute; split; reflexivity. Qed.

(** ** C48: a failed split has already moved the edges *)
Definition split_demo (i : nat) (p : ipos) : func * option nat :=
  get_ok (empty_func, None) (split_bb demo i p).

Theorem C48_failed_split_refuted : exists f i g,
  wf_func f /\ in_place f i /\ split_bb f i P_BACK = Ok (g, None) /\
  succs_of f 1 = [2] /\ succs_of g 1 = [3] /\ insns_of g 3 = [].
Proof.
  exists demo, 2, (fst (split_demo 2 P_BACK)).
  split; [exact (reachable_wf _ _ empty_func_wf demo_reachable)|].
  split; [exact (edit_okb_ok demo (E_erase 2) ltac:(vm_compute; reflexivity))|].
  split; [|vm_compute; repeat split].
  assert (E : snd (split_demo 2 P_BACK) = None) by (vm_compute; reflexivity).
  rewrite <- E. rewrite <- surjective_pairing.
  unfold split_demo. apply get_ok_spec. vm_compute; reflexivity.
Qed.
Print Assumptions C48_failed_split_refuted.

(** ** C49: splitting a block does not update the phis of its successors *)
Theorem C49_split_phi_refuted : exists f i g nb,
  wf_func f /\ in_place f i /\ phis_match f /\ split_bb f i P_BACK = Ok (g, Some nb) /\ ~ phis_match g.
Proof.
  exists demo, 1, (fst (split_demo 1 P_BACK)), 3.
  split; [exact (reachable_wf _ _ empty_func_wf demo_reachable)|].
  split; [exact (edit_okb_ok demo (E_erase 1) ltac:(vm_compute; reflexivity))|]. split; [|split].
  - apply (phis_matchb_ok demo (reachable_wf _ _ empty_func_wf demo_reachable)). vm_compute; reflexivity.
  - assert (E : snd (split_demo 1 P_BACK) = Some 3) by (vm_compute; reflexivity).
    rewrite <- E. rewrite <- surjective_pairing.
  unfold split_demo. apply get_ok_spec. vm_compute; reflexivity.
  - intros H.
    assert (W : wf_func (fst (split_demo 1 P_BACK))).
    { apply (split_wf demo 1 P_BACK _ (snd (split_demo 1 P_BACK))).
      - exact (reachable_wf _ _ empty_func_wf demo_reachable).
      - exact (edit_okb_ok demo (E_erase 1) ltac:(vm_compute; reflexivity)).
      - rewrite <- surjective_pairing. unfold split_demo. apply get_ok_spec. vm_compute; reflexivity. }
    pose proof (proj2 (phis_matchb_ok _ W) H) as Hb.
    assert (E : phis_matchb (fst (split_demo 1 P_BACK)) = false) by (vm_compute; reflexivity).
    rewrite E in Hb. discriminate Hb.
Qed.
Print Assumptions C49_split_phi_refuted.
