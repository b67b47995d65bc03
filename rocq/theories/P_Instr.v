(** Properties C37 and C39: the instruction counter and the division check. *)
From Coq Require Import ZArith List Bool Arith Lia.
From Verif Require Import SpecWord SpecFlat SpecSsa SpecIr SpecEdit SpecPass SpecStrict SpecInstr M_Base M_Ir M_Edit M_EditHist M_Pass
  L_PassWit L_Div L_CountRun L_InstrWit.
Import ListNotations.
Open Scope nat_scope.

(** ** C37 *)
(** Every cycle of a path from the entry goes through a block that ends with a check. *)
Theorem C37_fast_cycles_partial : forall limit reach f g,
  cfg_ok f -> operands_live f -> explored f reach -> entry_apart f -> counter_fast limit reach f = Ok g ->
  exists cell, forall x l2 l3, rpath g (x :: l2 ++ x :: l3) -> exists c, In c (x :: l2) /\ has_check g cell (by_size limit) c.
Proof. exact fast_cycles. Qed.
Print Assumptions C37_fast_cycles_partial.
Theorem C37_accurate_cycles_partial : forall limit reach f g,
  cfg_ok f -> operands_live f -> explored f reach -> entry_apart f -> unmarked f -> counter_accurate limit reach f = Ok g ->
  exists cell, forall x l2 l3, rpath g (x :: l2 ++ x :: l3) -> exists c, In c (x :: l2) /\ has_check g cell (by_size limit) c.
Proof. exact accurate_cycles. Qed.
Print Assumptions C37_accurate_cycles_partial.
(** Every execution ends: the number of blocks executed is bounded, whatever the helpers return and
    whatever the instruction counts of the blocks are, as long as they fit. *)
Theorem C37_fast_ends_partial : forall limit reach f g bi,
  cfg_ok f -> operands_live f -> explored f reach -> entry_apart f -> counter_fast limit reach f = Ok g ->
  (1 <= bi B_INSN_COUNT)%Z -> (0 <= limit)%Z -> (limit + bi B_INSN_COUNT < 2 ^ 32)%Z ->
  ends_within bi g (Z.to_nat limit + 1 + (Z.to_nat limit + 2) * f_nb g).
Proof. exact fast_ends. Qed.
Print Assumptions C37_fast_ends_partial.
Theorem C37_accurate_ends_partial : forall limit reach f g bi,
  cfg_ok f -> operands_live f -> explored f reach -> entry_apart f -> unmarked f -> counter_accurate limit reach f = Ok g ->
  (1 <= bi B_INSN_COUNT)%Z -> (0 <= limit)%Z -> (limit + bi B_INSN_COUNT < 2 ^ 32)%Z ->
  ends_within bi g (Z.to_nat limit + 1 + (Z.to_nat limit + 2) * f_nb g).
Proof. exact accurate_ends. Qed.
Print Assumptions C37_accurate_ends_partial.
Example C37_applies : cfg_ok loop /\ operands_live loop /\ explored loop [1; 2; 3] /\ entry_apart loop /\ unmarked loop /\
  (exists g, counter_fast 20 [1; 2; 3] loop = Ok g /\ end_of (w_one 1) cnt5 g 10 = 1 /\ end_of (w_one 1) cnt5 g 11 = 3) /\
  (exists g, counter_accurate 20 [1; 2; 3] loop = Ok g /\ end_of (w_one 1) cnt5 g 9 = 1 /\ end_of (w_one 1) cnt5 g 10 = 3) /\
  end_of (w_one 1) cnt5 loop 30 = 1 /\
  (1 <= cnt5 B_INSN_COUNT)%Z /\ (20 + cnt5 B_INSN_COUNT < 2 ^ 32)%Z.
Proof.
  destruct loop_cfg as (A & B & C & D & E). split; [exact A|]. split; [exact B|]. split; [exact C|]. split; [exact D|]. split; [exact E|].
  split; [exists (after (counter_fast 20 [1; 2; 3] loop)); split; [apply after_ok; vm_compute; reflexivity|split; vm_compute; reflexivity]|].
  split; [exists (after (counter_accurate 20 [1; 2; 3] loop)); split; [apply after_ok; vm_compute; reflexivity|split; vm_compute; reflexivity]|].
  split; [vm_compute; reflexivity|]. unfold cnt5. split; [lia|reflexivity].
Qed.
(** The full statement is false when the entry block is in a loop.  Fast mode: it is not counted if the
    loop is its only predecessor, and the program does not end. *)
Theorem C37_entry_uncounted_refuted : exists f g reach limit, cfg_ok f /\ operands_live f /\ explored f reach /\ counter_fast limit reach f = Ok g /\
  rpath g [1; 1] /\ (forall cell b, b < f_nb g -> ~ has_check g cell (by_size limit) b) /\ runs_on (fun _ => 5%Z) g.
Proof.
  exists entry_loop, entry_fast, [1; 2], 20%Z. destruct entry_loop_cfg as (A & B & C & _). split; [exact A|]. split; [exact B|]. split; [exact C|].
  split; [apply after_ok; vm_compute; reflexivity|]. split.
  { apply rp_step; [apply (rp_entry entry_fast)|]. apply (go_c1 entry_fast 1 2 (get_or (insn0 0) (f_insn entry_fast 2)) CEq); vm_compute; auto. }
  split; [intros cell b; apply no_checkb_ok; vm_compute; reflexivity|exact entry_fast_on].
Qed.
Print Assumptions C37_entry_uncounted_refuted.
(** Accurate mode: it is counted, but the counter is set to zero again in each iteration. *)
Theorem C37_entry_reset_refuted : exists f g reach limit, cfg_ok f /\ operands_live f /\ explored f reach /\ unmarked f /\ counter_accurate limit reach f = Ok g /\
  runs_on (fun _ => 5%Z) g.
Proof.
  exists entry_loop, entry_accurate, [1; 2], 20%Z. destruct entry_loop_cfg as (A & B & C & D). split; [exact A|]. split; [exact B|]. split; [exact C|].
  split; [exact D|]. split; [apply after_ok; vm_compute; reflexivity|exact entry_accurate_on].
Qed.
Print Assumptions C37_entry_reset_refuted.

(** ** C39 *)
(** A division by a computed value that is not the first instruction of its block is executed only when
    the divisor is not zero as a 64-bit value. *)
Theorem C39_checked_partial : forall reach f g, cfg_ok f -> phis_first f -> div_by_zero reach f = Ok g ->
  forall i x d, division f i x d -> In (i_parent x) reach ->
  forall w bi s0 s z, reaches w bi g s0 i s -> seval bi (s_env s) d = Some z -> trunc true z <> 0%Z.
Proof. exact div_checked. Qed.
Print Assumptions C39_checked_partial.
(** The pass changes no instruction and keeps the control-flow graph consistent. *)
Theorem C39_keeps : forall reach f g, cfg_ok f -> phis_first f -> div_by_zero reach f = Ok g -> kept f g /\ cfg_ok g /\ phis_first g.
Proof. exact div_keeps. Qed.
Print Assumptions C39_keeps.
Example C39_applies : let f := divide DIV A_64 (reg 1) in cfg_ok f /\ phis_first f /\ (exists x, division f 2 x (reg 1)) /\ by_zero DIV true cnt5 f 2 /\
  exists g s, div_by_zero [1] f = Ok g /\ end_of (w_one 0) cnt5 g 2 = 3 /\ end_of (w_one 3) cnt5 g 2 = 2 /\ reaches (w_one 3) cnt5 g s_zero 2 s.
Proof.
  intros f. destruct (divide_cfg DIV A_64 (reg 1) _ eq_refl) as (A & B); [vm_compute; reflexivity|]. split; [exact A|]. split; [exact B|].
  split; [exists (get_or (insn0 0) (f_insn f 2)); constructor; [vm_compute; reflexivity|vm_compute; reflexivity|exists (val_const32 12), []; vm_compute; reflexivity|exists 1; reflexivity|exists [], 1, [3]; vm_compute; reflexivity]|].
  split; [apply (zerob_ok DIV true cnt5 (w_one 0) s_zero f 0 2); vm_compute; reflexivity|].
  exists (after (div_by_zero [1] f)), (get_or s_zero (arrive (w_one 3) cnt5 (after (div_by_zero [1] f)) s_zero 1 2)).
  split; [apply after_ok; vm_compute; reflexivity|]. split; [vm_compute; reflexivity|]. split; [vm_compute; reflexivity|].
  apply (arrive_reaches _ _ _ _ 1). apply get_or_some. vm_compute. reflexivity.
Qed.
(** The full statement is false.  A division that is the first instruction of its block is not checked. *)
Theorem C39_first_refuted : exists f g reach i, cfg_ok f /\ phis_first f /\ div_by_zero reach f = Ok g /\ by_zero DIV true cnt5 g i.
Proof.
  exists divide_first, (after (div_by_zero [1; 2] divide_first)), [1; 2], 3. destruct divide_first_cfg as (A & B). split; [exact A|]. split; [exact B|].
  split; [apply after_ok; vm_compute; reflexivity|]. apply (zerob_ok _ _ _ (w_one 0) s_zero _ 1). vm_compute. reflexivity.
Qed.
Print Assumptions C39_first_refuted.
(** A 32-bit division is checked at 64 bits: the low half of the divisor may be zero. *)
Theorem C39_width_refuted : exists f g reach i, cfg_ok f /\ phis_first f /\ div_by_zero reach f = Ok g /\ by_zero DIV false cnt5 g i.
Proof.
  exists (divide DIV A_32 (reg 1)), (after (div_by_zero [1] (divide DIV A_32 (reg 1)))), [1], 2.
  destruct (divide_cfg DIV A_32 (reg 1) _ eq_refl) as (A & B); [vm_compute; reflexivity|]. split; [exact A|]. split; [exact B|].
  split; [apply after_ok; vm_compute; reflexivity|]. apply (zerob_ok _ _ _ (w_one 4294967296) s_zero _ 1). vm_compute. reflexivity.
Qed.
Print Assumptions C39_width_refuted.
(** A constant divisor is not checked, nor is a remainder. *)
Theorem C39_constant_refuted : exists f g reach i, cfg_ok f /\ phis_first f /\ div_by_zero reach f = Ok g /\ by_zero DIV true cnt5 g i.
Proof.
  exists (divide DIV A_64 (val_const32 0)), (after (div_by_zero [1] (divide DIV A_64 (val_const32 0)))), [1], 2.
  destruct (divide_cfg DIV A_64 (val_const32 0) _ eq_refl) as (A & B); [vm_compute; reflexivity|]. split; [exact A|]. split; [exact B|].
  split; [apply after_ok; vm_compute; reflexivity|]. apply (zerob_ok _ _ _ (w_one 0) s_zero _ 0). vm_compute. reflexivity.
Qed.
Print Assumptions C39_constant_refuted.
Theorem C39_remainder_refuted : exists f g reach i, cfg_ok f /\ phis_first f /\ div_by_zero reach f = Ok g /\ by_zero MOD true cnt5 g i.
Proof.
  exists (divide MOD A_64 (reg 1)), (after (div_by_zero [1] (divide MOD A_64 (reg 1)))), [1], 2.
  destruct (divide_cfg MOD A_64 (reg 1) _ eq_refl) as (A & B); [vm_compute; reflexivity|]. split; [exact A|]. split; [exact B|].
  split; [apply after_ok; vm_compute; reflexivity|]. apply (zerob_ok _ _ _ (w_one 0) s_zero _ 0). vm_compute. reflexivity.
Qed.
Print Assumptions C39_remainder_refuted.
