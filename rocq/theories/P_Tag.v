(** C77: the numbers by which blocks and instructions are printed. *)
From Verif Require Import M_Base M_Ir M_Edit SpecIr SpecInstr SpecLayout M_Tag SpecTag L_Layout L_ReleaseWit L_Tag.
Open Scope list_scope.
Open Scope nat_scope.

(** C77: whatever numbers were there before, exactly the reachable blocks and the results in them are
    numbered from 0 on, each number once. *)
Theorem C77_numbers : forall f, blocks_ok f -> linked_ok f -> (forall b, NoDup (insns_of f b)) ->
  forall fuel s, List.length (f_all f) < fuel -> exists s', tag_ir fuel f s = Ok s' /\ numbered f s'.
Proof. exact tag_spec. Qed.
Print Assumptions C77_numbers.
(** A function with a loop meets the hypotheses. *)
Example C77_applies : blocks_ok leak /\ linked_ok leak /\ (forall b, NoDup (insns_of leak b)) /\ In 2 (succs_of leak 3) /\ In 3 (succs_of leak 2) /\ List.length (f_all leak) < 10.
Proof.
  pose proof (proj1 leak_ok) as C. split; [exact (proj1 (chk_ok leak (cf_fresh _ C) ltac:(vm_compute; reflexivity)))|]. split; [exact (cf_linked _ C)|]. split; [exact (cf_once _ C)|].
  split; [vm_compute; tauto|]. split; [vm_compute; tauto|]. vm_compute. lia.
Qed.
(** Stale numbers do not matter; the jumps of the function have no numbers. *)
Example C77_demo : match tag_ir 10 two_ways (mkTags (fun _ => true) (fun _ => Some 7) (fun _ => Some 7) 3 3) with
  | Ok s => map (t_bid s) [1; 2; 4; 3] = [Some 0; Some 1; Some 2; Some 3] /\ map (t_iid s) [1; 2; 3; 4; 5; 6; 7] = [Some 0; Some 1; None; Some 2; None; None; None]
  | _ => False
  end.
Proof. vm_compute. split; reflexivity. Qed.
