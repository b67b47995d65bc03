(** The memory sanitizer pass: shadow accesses. *)
From Coq Require Import ZArith List Bool Arith.
From Verif Require Import M_Base M_Ir M_Edit SpecWord SpecFlat SpecSsa SpecIr SpecEdit SpecPass SpecStrict SpecInstr SpecWeave.
Import ListNotations.
Open Scope nat_scope.

(** The result of the instruction is the stack pointer [sp], or computed from it by binary operations. *)
Inductive from_sp (f : func) (sp : nat) : nat -> Prop :=
| fs_sp : from_sp f sp sp
| fs_op i x n v d : f_insn f i = Some x -> is_bin_alu_op (i_op x) = true -> n < 2 -> nth_error (i_vals x) n = Some v -> v_data v = VInsn d ->
    from_sp f sp d -> from_sp f sp i.
(** A raw access whose base is computed from the stack pointer. *)
Definition stack_access (f : func) (sp i : nat) (x : insn) : Prop :=
  f_insn f i = Some x /\ (i_op x = LOADRAW \/ i_op x = STORERAW) /\ exists d, v_data (a_val (i_addr x)) = VInsn d /\ from_sp f sp d.
(** [y] makes the same access as [x] 256 bytes higher (in 16-bit arithmetic); a store writes 0. *)
Record shadow_of (x y : insn) : Prop := {
  so_op : i_op y = i_op x;
  so_vrt : i_vrt y = i_vrt x;
  so_base : a_val (i_addr y) = a_val (i_addr x);
  so_off : a_off (i_addr y) = s16 (a_off (i_addr x) + 256);
  so_kind : a_ot (i_addr y) = a_ot (i_addr x);
  so_val : i_op x = STORERAW -> exists c, i_vals y = [mkVal (VConst 0) c B_NONE] }.
(** [y] stores the word -1 at offset [8 * k] from [a]. *)
Definition fills (a : nat) (k : Z) (y : insn) : Prop :=
  i_op y = STORERAW /\ i_vrt y = VR_64 /\ v_data (a_val (i_addr y)) = VInsn a /\ a_off (i_addr y) = (8 * k)%Z /\
  exists v, i_vals y = [v] /\ v_data v = VConst (-1) /\ v_bi v = B_NONE.
(** [g] is [f] with the array [a] (32 words), its initialisation, and a shadow access behind every stack
    access; nothing else is added and the rest is as before. *)
Record shadows (f g : func) (sp : nat) (reach : list nat) (a : nat) : Prop := {
  sw_cfg : cfg_ok g;
  sw_kept : kept f g;
  sw_entry : f_entry g = f_entry f;
  sw_blocks : forall b, f_block g b = None <-> f_block f b = None;
  sw_succs : forall b, succs_of g b = succs_of f b;
  sw_preds : forall b, preds_of g b = preds_of f b;
  sw_order : forall b, filter (fun i => i <? f_ni f) (insns_of g b) = insns_of f b;
  sw_array : f_insn f a = None /\ exists y, f_insn g a = Some y /\ i_op y = ALLOCARRAY /\ i_vrt y = VR_64 /\ i_u y = 32%Z;
  sw_fill : exists l1 ini l2, insns_of g (f_entry f) = l1 ++ a :: ini ++ l2 /\ (forall i, In i l1 -> is_phi f i) /\
    (forall z r, l2 = z :: r -> ~ is_phi f z) /\ (forall k, (0 <= k < 32)%Z -> exists n y, In n ini /\ f_insn g n = Some y /\ fills a k y);
  sw_each : forall b i x, In b reach -> In i (insns_of f b) -> stack_access f sp i x ->
    exists l1 n l2 y, insns_of g b = l1 ++ i :: n :: l2 /\ f_insn f n = None /\ f_insn g n = Some y /\ shadow_of x y;
  sw_only : forall b n, In n (insns_of g b) -> f_insn f n = None -> exists y, f_insn g n = Some y /\
    (n = a \/ (b = f_entry f /\ exists k, (0 <= k < 32)%Z /\ fills a k y) \/
     exists l1 i l2 x, insns_of g b = l1 ++ i :: n :: l2 /\ stack_access f sp i x /\ shadow_of x y) }.

(** Reserving an array executes nothing; its address is fixed before execution starts, like that of the
    stack.  [take_out a g] is [g] with instruction [a] taken out of its block. *)
Definition take_out (a : nat) (g : func) : func :=
  mkFunc (f_insn g) (fun b => option_map (fun k => set_insns (filter (fun i => negb (i =? a)) (b_insns k)) k) (f_block g b))
    (f_ni g) (f_nb g) (f_all g) (f_entry g).

(** The two memories hold the same outside [D]. *)
Definition same_outside (D : Z -> Prop) (m m' : memory) : Prop := forall p, ~ D p -> m p = m' p.
(** [D] is a set of addresses that [f], started in [s0], has no business with: it contains the array at
    [base] and the shadows of all stack accesses of this execution, the accesses themselves are outside,
    and what helpers return and do outside [D] does not depend on what is in [D]. *)
Record keeps_off (w : world) (bi : bconst -> Z) (f : func) (sp : nat) (s0 : sst) (D : Z -> Prop) (base : Z) : Prop := {
  ko_own : forall i s x k p j, reaches w bi f s0 i s -> f_insn f i = Some x -> i_op x = LOADRAW \/ i_op x = STORERAW ->
    vr_bytes (i_vrt x) = Some k -> seval bi (s_env s) (a_val (i_addr x)) = Some p -> (0 <= j < Z.of_nat k)%Z -> ~ D (u64 (p + a_off (i_addr x) + j));
  ko_shadow : forall i s x k p j, reaches w bi f s0 i s -> stack_access f sp i x ->
    vr_bytes (i_vrt x) = Some k -> seval bi (s_env s) (a_val (i_addr x)) = Some p -> (0 <= j < Z.of_nat k)%Z -> D (u64 (p + s16 (a_off (i_addr x) + 256) + j));
  ko_array : forall j, (0 <= j < 256)%Z -> D (u64 (base + j));
  ko_helper : forall n c l m m', same_outside D m m' ->
    fst (helper w n c l m) = fst (helper w n c l m') /\ same_outside D (snd (helper w n c l m)) (snd (helper w n c l m')) }.
