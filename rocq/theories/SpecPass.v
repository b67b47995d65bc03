(** What a pass over the IR may and may not change. *)
From Coq Require Import ZArith List Bool Arith.
From Verif Require Import M_Base M_Ir SpecWord SpecFlat SpecSsa SpecIr SpecGs.
Import ListNotations.
Open Scope nat_scope.

(** Two executions look the same from outside: same place or same result, same memory, same number of
    helper calls. *)
Definition same_world (s t : sst) : Prop := s_mem s = s_mem t /\ s_nc s = s_nc t.
Inductive same_effect : sout -> sout -> Prop :=
| se_at p b s t : same_world s t -> same_effect (OAt p b s) (OAt p b t)
| se_ret r s t : same_world s t -> same_effect (ORet r s) (ORet r t)
| se_throw s t : same_world s t -> same_effect (OThrow s) (OThrow t).

(** Whatever [f] does from some state, [g] does too; and when [f] leaves a set of addresses alone on the
    way, so does [g].  (With the empty set these are all executions.) *)
Definition preserves (f g : func) : Prop :=
  forall R w bi n prev b s o, gsrun R w bi f n prev b s = Some o ->
    exists o', gsrun R w bi g n prev b s = Some o' /\ same_effect o o'.
(** The same for executions that start at the entry, with registers that hold 64-bit words. *)
Definition words (s : sst) : Prop := forall i z, s_env s i = Some z -> u64 z = z.
Definition preserves_run (f g : func) : Prop :=
  forall R w bi n s o, words s -> gsrun R w bi f n 0 (f_entry f) s = Some o ->
    exists o', gsrun R w bi g n 0 (f_entry g) s = Some o' /\ same_effect o o'.

(** The blocks control can go to from [b]. *)
Inductive goes (f : func) (b : nat) : nat -> Prop :=
| go_ja i x : In i (insns_of f b) -> f_insn f i = Some x -> i_op x = JA -> goes f b (i_bb1 x)
| go_c1 i x c : In i (insns_of f b) -> f_insn f i = Some x -> cmp_op_of (i_op x) = Some c -> goes f b (i_bb1 x)
| go_c2 i x c : In i (insns_of f b) -> f_insn f i = Some x -> cmp_op_of (i_op x) = Some c -> goes f b (i_bb2 x)
| go_next c l : succs_of f b = c :: l -> goes f b c.
Definition closed (f : func) (reach : list nat) : Prop :=
  forall b c, In b reach -> goes f b c -> In c reach.

(** The instruction is in one of the blocks. *)
Definition placed_in (f : func) (reach : list nat) (i : nat) : Prop := exists b, In b reach /\ In i (insns_of f b).

(** Variables are used only through load and store. *)
Definition cells_ok (f : func) : Prop :=
  forall u x a y, f_insn f u = Some x -> f_insn f a = Some y -> i_op y = ALLOC -> 0 < uses f u a ->
    (i_op x = LOAD /\ exists v, i_vals x = [v]) \/
    (i_op x = STORE /\ exists v w, i_vals x = [v; w] /\ is_use_of a w = false).

(** Instructions that do nothing but compute their result. *)
Definition pure_op (o : iop) : Prop :=
  ~ In o [STORE; STORERAW; CALL; ECALL; RET; THROW; JA; JEQ; JGT; JGE; JLT; JLE; JNE; JSGE; JSLE; JSGT; JSLT].

(** Users lists name exactly the users, each at most once per operand.  (Functions built by the
    editing API list a user once per operand; lifted functions list every user once.) *)
Definition users_ok (f : func) : Prop :=
  forall u d, (0 < uses f u d -> In u (users_of f d)) /\ count_occ Nat.eq_dec (users_of f d) u <= uses f u d.
Record tidy (f : func) : Prop := {
  td_users : users_ok f;
  td_linked : linked_ok f;
  td_once : forall b, NoDup (insns_of f b);
  td_placed : forall u d, 0 < uses f u d -> exists x, f_insn f u = Some x /\ In u (insns_of f (i_parent x)) }.

(** Two functions that differ in users lists only, and in that [g] lacks the instructions in [rm]. *)
Record without (rm : list nat) (f g : func) : Prop := {
  wo_rm : forall j, In j rm -> f_insn g j = None;
  wo_keep : forall j, ~ In j rm -> exists l, f_insn g j = option_map (set_users l) (f_insn f j);
  wo_insns : forall b, insns_of g b = filter (fun j => negb (existsb (Nat.eqb j) rm)) (insns_of f b);
  wo_succs : forall b, succs_of g b = succs_of f b;
  wo_preds : forall b, preds_of g b = preds_of f b;
  wo_blocks : forall b, f_block g b = None <-> f_block f b = None;
  wo_entry : f_entry g = f_entry f;
  wo_all : f_all g = f_all f;
  wo_count : f_ni g = f_ni f /\ f_nb g = f_nb f;
  wo_placed : forall j, In j rm -> exists b, In j (insns_of f b) }.
Definition ops_in (f : func) (reach : list nat) (P : iop -> Prop) : Prop :=
  forall b i x, In b reach -> In i (insns_of f b) -> f_insn f i = Some x -> P (i_op x).
(** how many instructions there are in the blocks *)
Definition size_of (f : func) (reach : list nat) : nat := list_sum (map (fun b => length (insns_of f b)) reach).

(** A shift left by 32 followed at once by a shift right by 32 of its result, at the same width. *)
Record shift_pair (f : func) (b l i : nat) : Prop := {
  sp_in : exists pre post, insns_of f b = pre ++ l :: i :: post;
  sp_ops : exists x y w c d, f_insn f l = Some x /\ f_insn f i = Some y /\ i_op x = LSH /\ i_op y = RSH /\
    i_vals x = [w; c] /\ v_data c = VConst 32 /\ v_bi c = B_NONE /\ is_use_of l w = false /\
    (exists e, i_vals y = [e; d] /\ v_data e = VInsn l) /\ v_data d = VConst 32 /\ v_bi d = B_NONE /\
    i_alu x = i_alu y /\ i_alu x <> A_UNKNOWN }.
(** every shift right by 32 of a shift left by 32 in the blocks is of this form *)
Definition pairs_ok (f : func) (reach : list nat) : Prop :=
  forall b i y e d ry l x w c rx, In b reach -> In i (insns_of f b) -> f_insn f i = Some y -> i_op y = RSH ->
    i_vals y = e :: d :: ry -> v_data e = VInsn l -> v_data d = VConst 32 ->
    f_insn f l = Some x -> i_op x = LSH -> i_vals x = w :: c :: rx -> v_data c = VConst 32 -> shift_pair f b l i.

(** No load reads the variable. *)
Definition never_loaded (f : func) (a : nat) : Prop :=
  forall u x, f_insn f u = Some x -> i_op x = LOAD -> uses f u a = 0.
(** [u] is a store to variable [a]. *)
Definition store_to (f : func) (a u : nat) : Prop :=
  exists x v w, f_insn f u = Some x /\ i_op x = STORE /\ i_vals x = [v; w] /\ v_data v = VInsn a.
(** A variable that is never read, or a store to one. *)
Definition gone (f : func) (j : nat) : Prop :=
  exists a y, f_insn f a = Some y /\ i_op y = ALLOC /\ never_loaded f a /\ (j = a \/ store_to f a j).
(** At most one instruction uses the value. *)
Definition one_store (f : func) (a : nat) : Prop :=
  forall u u', 0 < uses f u a -> 0 < uses f u' a -> u = u'.
(** The (non-existent) results of stores are not used. *)
Definition stores_unused (f : func) : Prop := forall u x v, f_insn f u = Some x -> i_op x = STORE -> uses f v u = 0.
(** No calls to project-specific helpers are left (translate_ecall runs before the optimiser). *)
Definition no_ecall (f : func) (reach : list nat) : Prop := ops_in f reach (fun o => o <> ECALL).
(** A throw becomes a return of 1. *)
Definition thr_out (o : sout) : sout := match o with OThrow s => ORet 1 s | _ => o end.
