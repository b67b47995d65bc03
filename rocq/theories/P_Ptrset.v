(** C02, C03: the pointer set. *)
From Verif Require Import M_Base M_Ptrset SpecSet L_Ptrset.
From Coq Require Import Permutation.

(** C02, full statement: for every history, the outputs are those of a mathematical set.
    False: a deleted slot is reused without looking for the key further along the probe path. *)
Theorem C02_ptrset_is_set_refuted :
  exists os s outs, ps_run ps_def os = Ok (s, outs) /\ outs <> snd (set_run [] os).
Proof.
  exists [PIns 8; PIns 16; PDel 8; PIns 16; PDel 16; PMem 16; PCount]%Z.
  eexists; eexists. split; [vm_compute; reflexivity|]. vm_compute. discriminate.
Qed.
Print Assumptions C02_ptrset_is_set_refuted.

(** C02 for every history that does not insert a present element after a deletion (all uses in the
    repository are of this kind: sets are filled, then only drained or cleaned). *)
Theorem C02_ptrset_is_set_partial : forall os, no_dup_insert [] false os = true ->
  exists s, ps_run ps_def os = Ok (s, snd (set_run [] os)) /\
            Permutation (occ_keys (ps_tab s)) (fst (set_run [] os)).
Proof. exact ps_refines_set. Qed.
Print Assumptions C02_ptrset_is_set_partial.

(** hypotheses hold for a history with collisions, growth, deletions and re-insertion *)
Example C02_history :
  no_dup_insert [] false (ins_range 0 20 ++ [PIns 3; PDel 4; PDel 12; PIns 4; PMem 12; PCount; PClean; PIns 8; PIns 8]%Z) = true.
Proof. vm_compute. reflexivity. Qed.

(** C03, full statement: union of any two sets is their set union.  False twice:
    two empty sets give a table of size 0 (modulo by zero), and when the sizes add up to a multiple
    of 31 the probe sequence does not visit the whole table and the code aborts. *)
Theorem C03_union_refuted :
  (exists o1 o2 s1 s2, built o1 s1 /\ built o2 s2 /\
     exists s, ps_union s1 s2 = Ok s /\ ps_exists s 7 = UB /\ ps_insert s 7 = UB) /\
  (exists o1 o2 s1 s2, built o1 s1 /\ built o2 s2 /\ ps_union s1 s2 = Crit).
Proof.
  split.
  - exists [], [], ps_def, ps_def. split; [|split].
    + split; [reflexivity|]. eexists; reflexivity.
    + split; [reflexivity|]. eexists; reflexivity.
    + eexists. split; [vm_compute; reflexivity|]. split; vm_compute; reflexivity.
  - exists (ins_range 0 30), [PIns 31].
    eexists; eexists. split; [|split].
    + split; [vm_compute; reflexivity|]. eexists. vm_compute. reflexivity.
    + split; [vm_compute; reflexivity|]. eexists. vm_compute. reflexivity.
    + vm_compute. reflexivity.
Qed.
Print Assumptions C03_union_refuted.

(** C03 for the sizes that work *)
Theorem C03_union_partial : forall o1 o2 s1 s2, built o1 s1 -> built o2 s2 ->
  0 < ps_cnt s1 + ps_cnt s2 -> Nat.gcd 31 (ps_cnt s1 + ps_cnt s2) = 1 ->
  exists s, ps_union s1 s2 = Ok s /\
    answers s (fun k => memb k (fst (set_run [] o1)) || memb k (fst (set_run [] o2))).
Proof. exact union_answers. Qed.
Print Assumptions C03_union_partial.

Theorem C03_intersection_partial : forall o1 o2 s1 s2, built o1 s1 -> built o2 s2 ->
  0 < ps_cnt s1 -> Nat.gcd 31 (ps_cnt s1) = 1 ->
  exists s, ps_intersec s1 s2 = Ok s /\
    answers s (fun k => memb k (fst (set_run [] o1)) && memb k (fst (set_run [] o2))).
Proof. exact intersec_answers. Qed.
Print Assumptions C03_intersection_partial.

(** difference and clone work for all sets *)
Theorem C03_minus : forall o1 o2 s1 s2, built o1 s1 -> built o2 s2 ->
  exists s, ps_minus s1 s2 = Ok s /\
    answers s (fun k => memb k (fst (set_run [] o1)) && negb (memb k (fst (set_run [] o2)))).
Proof. exact minus_answers. Qed.
Print Assumptions C03_minus.

Theorem C03_clone : forall o s, built o s ->
  exists s', ps_clone s = Ok s' /\ answers s' (fun k => memb k (fst (set_run [] o))).
Proof. exact clone_answers. Qed.
Print Assumptions C03_clone.

(** in-place union works when the receiver never had a deletion *)
Theorem C03_add_partial : forall o1 o2 s1 s2, built o1 s1 -> no_del o1 = true -> built o2 s2 ->
  exists s, ps_add s1 s2 = Ok s /\
    answers s (fun k => memb k (fst (set_run [] o1)) || memb k (fst (set_run [] o2))).
Proof. exact add_answers. Qed.
Print Assumptions C03_add_partial.

Example C03_hypotheses : exists s, built (ins_range 0 20 ++ [PDel 3]%Z) s /\ ps_cnt s = 19 /\ Nat.gcd 31 19 = 1.
Proof.
  eexists. split; [|split].
  - split; [vm_compute; reflexivity|]. eexists. vm_compute. reflexivity.
  - reflexivity.
  - reflexivity.
Qed.
