(** C29: the stack regions of the code generator. *)
From Coq Require Import ZArith List.
From Verif Require Import M_Base M_Ir M_Edit M_Ra SpecIr SpecRa SpecFrame L_LiftWit L_RaCheck M_Lift L_Frame L_FrameWit.
Import ListNotations.
Open Scope Z_scope.

(** After code generation the regions of spilled values and arrays are aligned, below the frame
    pointer and disjoint; each array has one of its size.  The bounds exclude 32-bit wrap-around:
    less than one gigabyte of arrays, less than 2^24 spills per round ([fuel]). *)
Theorem C29_regions_partial : forall f reach sp args fuel om os chk sc s3 s4,
  (forall i, (f_ni f <= i)%nat -> f_insn f i = None) -> (sp < f_ni f)%nat ->
  (forall s t, chk s = Ok t -> t = s) -> Z.of_nat fuel < 2 ^ 24 ->
  compiled f reach sp args fuel om os chk sc s3 s4 -> counts_ok sc -> arrays_words sc < 2 ^ 27 ->
  frame_ok s4 /\ frame_ok s3 /\ c_off s4 = c_off s3 /\ (forall v, region s4 v = region s3 v) /\
  forall i x, is_array sc i x -> exists o, region s4 i = Some (o, array_bytes x).
Proof. exact regions_ok. Qed.
Print Assumptions C29_regions_partial.

(** Spilling a value hands out one new region of eight bytes, to the variable itself or to a new one,
    and leaves the other regions alone. *)
Theorem C29_spilled : forall s v x t,
  frame_ok s -> data_below s -> c_off s <= 0 -> c_off s mod 8 = 0 -> - 2 ^ 31 <= c_off s - 8 ->
  f_insn (c_f s) v = Some x -> spill_one s v = Ok t ->
  frame_ok t /\ c_off t = c_off s - 8 /\
  exists a, region t a = Some (c_off s - 8, 8) /\ (forall w, w <> a -> region t w = region s w) /\
    a = if iop_eqb (i_op x) ALLOC then v else f_ni (c_f s).
Proof. exact spilled_region. Qed.
Print Assumptions C29_spilled.

(** An access of [k] bytes to the program's own frame, once shifted, touches no region, as long as
    offsets fit 16 bits. *)
Theorem C29_own_partial : forall s t i x k,
  frame_ok s -> NoDup (flat_map (insns_of (c_f s)) (c_reach s)) -> add_stack_offset s (c_off s) = Ok t ->
  - 2 ^ 15 <= c_off s <= 0 -> linked s i -> f_insn (c_f s) i = Some x -> i_op x = LOADRAW \/ i_op x = STORERAW ->
  a_ot (i_addr x) = O_RAWOFF -> - 2 ^ 15 <= a_off (i_addr x) + c_off s -> a_off (i_addr x) + k <= 0 -> 0 <= k ->
  exists y, f_insn (c_f t) i = Some y /\ a_ot (i_addr y) = O_CONST /\ a_val (i_addr y) = a_val (i_addr x) /\
    a_off (i_addr y) = a_off (i_addr x) + c_off s /\ misses t (a_off (i_addr y)) k.
Proof. exact own_ok. Qed.
Print Assumptions C29_own_partial.

(** A function with an array of five words in which two values are spilled. *)
Example C29_applies : exists sc s3 s4 x,
  (forall i, (f_ni (fst demo) <= i)%nat -> f_insn (fst demo) i = None) /\ (sp_id < f_ni (fst demo))%nat /\
  compiled (fst demo) (snd demo) sp_id [2;3;4;5;6]%nat 100 (fun _ => ident) (fun _ => ident) Ok sc s3 s4 /\
  counts_ok sc /\ arrays_words sc < 2 ^ 27 /\ is_array sc demo_arr x /\ array_bytes x = 40 /\
  region s4 demo_arr = Some (-40, 40) /\ c_off s4 = -56 /\
  exists v w, v <> w /\ region s4 v = Some (-48, 8) /\ region s4 w = Some (-56, 8).
Proof. exact demo_applies. Qed.
Print Assumptions C29_applies.

Example C29_own_applies : exists s t i x,
  frame_ok s /\ NoDup (flat_map (insns_of (c_f s)) (c_reach s)) /\ add_stack_offset s (c_off s) = Ok t /\
  (- 2 ^ 15 <= c_off s <= 0) /\ linked s i /\ f_insn (c_f s) i = Some x /\ (i_op x = LOADRAW \/ i_op x = STORERAW) /\
  a_ot (i_addr x) = O_RAWOFF /\ (- 2 ^ 15 <= a_off (i_addr x) + c_off s) /\ (a_off (i_addr x) + 8 <= 0) /\ region s demo_arr = Some (-40, 40).
Proof. exact own_applies. Qed.
Example C29_spilled_applies : exists s v x t,
  frame_ok s /\ data_below s /\ c_off s <= 0 /\ c_off s mod 8 = 0 /\ - 2 ^ 31 <= c_off s - 8 /\
  f_insn (c_f s) v = Some x /\ i_op x = LOADRAW /\ i_users x <> [] /\ spill_one s v = Ok t.
Proof. exact spilled_applies. Qed.

(** With 64 kilobytes of arrays the shift is truncated to zero, and the program's own frame is part of
    the array. *)
Theorem C29_shift_refuted : exists f reach sp args om os sc s3 s4 a i x y o n,
  compiled f reach sp args 100 om os Ok sc s3 s4 /\
  own_access sp s3 i x /\ a_off (i_addr x) = -8 /\ f_insn (c_f s4) i = Some y /\
  region s4 a = Some (o, n) /\ o <= a_off (i_addr y) /\ a_off (i_addr y) + 8 <= o + n.
Proof. exact shift_wrong. Qed.
Print Assumptions C29_shift_refuted.

(** The size of an array is computed modulo 2^32: the region can be too small. *)
Theorem C29_size_refuted : exists f reach sp args om os sc s3 s4 a x o n,
  compiled f reach sp args 100 om os Ok sc s3 s4 /\
  is_array sc a x /\ region s4 a = Some (o, n) /\ n < array_bytes x.
Proof. exact size_wrong. Qed.
Print Assumptions C29_size_refuted.

(** The offset is computed modulo 2^32: the region can be above the frame pointer. *)
Theorem C29_above_refuted : exists f reach sp args om os sc s3 s4 a x o n,
  compiled f reach sp args 100 om os Ok sc s3 s4 /\
  is_array sc a x /\ region s4 a = Some (o, n) /\ 0 < o.
Proof. exact above_wrong. Qed.
Print Assumptions C29_above_refuted.
