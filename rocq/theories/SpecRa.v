(** Vocabulary for the properties of the register allocator: positions, interference graph, program
    points and liveness.  Only the data types of the model are used, none of its functions. *)
From Verif Require Import M_Base M_Ir M_Ra SpecIr.
From Coq Require Import Permutation Relations.
Open Scope nat_scope.

(** ** Graph and assignment *)

Definition has_data (s : cgs) (v : nat) : Prop := exists e, c_ex s v = Some e.
(** [b] is listed as a neighbour of [a] *)
Definition adjacent (s : cgs) (a b : nat) : Prop := exists e, c_ex s a = Some e /\ In b (x_adj e).
Definition allocated (s : cgs) (v : nat) : Prop := exists e, c_ex s v = Some e /\ vp_alloc (x_pos e) = true.
(** [v] has been given register [r] / a place on the stack *)
Definition in_reg (s : cgs) (v : nat) (r : Z) : Prop :=
  exists e, c_ex s v = Some e /\ vp_alloc (x_pos e) = true /\ vp_spilled (x_pos e) = 0%Z /\ vp_reg (x_pos e) = r.
Definition on_stack (s : cgs) (v : nat) : Prop :=
  exists e, c_ex s v = Some e /\ vp_alloc (x_pos e) = true /\ vp_spilled (x_pos e) <> 0%Z.
Definition physical (s : cgs) (v : nat) : Prop := exists e, c_ex s v = Some e /\ x_nonvr e = true.
Definition position (s : cgs) (v : nat) : option vrpos := option_map x_pos (c_ex s v).
Definition fixed (s : cgs) (v : nat) : Prop := exists e, c_ex s v = Some e /\ x_fin e = true.

(** The registers of the machine that may be assigned. *)
Definition assignable (r : Z) : Prop := (0 <= r < 10)%Z.

(** The graph is symmetric, without loops, and the frame pointer has no neighbours. *)
Record graph_ok (s : cgs) : Prop := {
  g_sym : forall a b, adjacent s a b -> adjacent s b a;
  g_irr : forall a, ~ adjacent s a a;
  g_sp : forall a, ~ adjacent s a (c_sp s) }.

(** Neighbours are never in the same register. *)
Definition proper (s : cgs) : Prop :=
  forall a b r, adjacent s a b -> in_reg s a r -> in_reg s b r -> False.
(** Whatever is in a register is in one of R0..R9, except the frame pointer. *)
Definition in_range (s : cgs) : Prop := forall v r, v <> c_sp s -> in_reg s v r -> assignable r.

(** The two states differ at most in the positions of values / in the counters of the search. *)
Definition strip_pos (e : extra) := (x_dst e, x_in e, x_out e, x_adj e, x_fin e, x_nonvr e).
Definition same_graph (s t : cgs) : Prop :=
  c_f t = c_f s /\ c_reach t = c_reach s /\ c_regs t = c_regs s /\ c_sp t = c_sp s /\ c_args t = c_args s /\
  c_all t = c_all s /\ c_off t = c_off s /\
  forall v, option_map strip_pos (c_ex t v) = option_map strip_pos (c_ex s v).

(** Number of vertices in [l] that list [u] as a neighbour. *)
Definition adjb (s : cgs) (w u : nat) : bool :=
  match c_ex s w with Some e => existsb (Nat.eqb u) (x_adj e) | None => false end.
Definition degree_in (s : cgs) (l : list nat) (u : nat) : nat := length (filter (fun w => adjb s w u) l).

(** Any way of enumerating sets. *)
Definition orders (o : nat -> list nat -> list nat) : Prop := forall n l, Permutation (o n l) l.

(** ** Program points and liveness
    The point [(b, k)] lies before the [k]-th instruction of block [b]; [(b, n)], with [n] the number
    of instructions of [b], is the end of the block. *)
Definition insn_at (s : cgs) (b k i : nat) : Prop := nth_error (insns_of (c_f s) b) k = Some i.
Definition linked (s : cgs) (i : nat) : Prop := exists b, In b (c_reach s) /\ In i (insns_of (c_f s) b).
Definition ends_at (s : cgs) (b : nat) : nat := length (insns_of (c_f s) b).
(** Instruction [i] gives [v] its value. *)
Definition defines (s : cgs) (i v : nat) : Prop := exists e, c_ex s i = Some e /\ x_dst e = Some v.
Definition reads (s : cgs) (i v : nat) : Prop := 0 < uses (c_f s) i v.

(** Control flow between points. *)
Inductive flow (s : cgs) : nat * nat -> nat * nat -> Prop :=
| flow_step b k i : In b (c_reach s) -> insn_at s b k i -> flow s (b, k) (b, S k)
| flow_edge b c : In c (c_reach s) -> In b (preds_of (c_f s) c) -> flow s (b, ends_at s b) (c, 0).
Inductive reaches (s : cgs) : nat * nat -> nat * nat -> Prop :=
| reaches_refl p : reaches s p p
| reaches_step p q r : reaches s p q -> flow s q r -> reaches s p r.

(** [v] is live at a point: some path leads to a use of [v] without passing a definition of [v].  A phi
    uses its operands at the ends of the predecessors. *)
Inductive live (s : cgs) (v : nat) : nat * nat -> Prop :=
| live_use b k i : In b (c_reach s) -> insn_at s b k i -> reads s i v ->
    ~ (exists x, f_insn (c_f s) i = Some x /\ i_op x = PHI) -> live s v (b, k)
| live_phi b p x w : linked s p -> f_insn (c_f s) p = Some x -> i_op x = PHI ->
    In (w, b) (i_phi x) -> is_use_of v w = true -> live s v (b, ends_at s b)
| live_step b k i : In b (c_reach s) -> insn_at s b k i -> ~ defines s i v -> live s v (b, S k) -> live s v (b, k)
| live_edge b c : In c (c_reach s) -> In b (preds_of (c_f s) c) -> live s v (c, 0) -> live s v (b, ends_at s b).

(** The values the analysis follows: results of instructions that have no fixed position. *)
Definition tracked (s : cgs) (v : nat) : Prop :=
  linked s v /\ exists e, c_ex s v = Some e /\ x_fin e = false /\ x_dst e = Some v.

(** What the analysis has recorded. *)
Definition live_before (s : cgs) (i v : nat) : Prop := exists e, c_ex s i = Some e /\ In v (x_in e).
Definition live_after (s : cgs) (i v : nat) : Prop := exists e, c_ex s i = Some e /\ In v (x_out e).
(** The vertex that stands for a value: the value itself, or the node of its fixed register. *)
Definition vertex (s : cgs) (v x : nat) : Prop :=
  exists e, c_ex s v = Some e /\
    ((x_fin e = false /\ x = v) \/
     (x_fin e = true /\ vp_spilled (x_pos e) = 0%Z /\ (0 <= vp_reg (x_pos e))%Z /\
      nth_error (c_regs s) (Z.to_nat (vp_reg (x_pos e))) = Some x)).
Definition interferes (s : cgs) (a b : nat) : Prop :=
  forall x y, vertex s a x -> vertex s b y -> adjacent s x y.

(** A function in code generation form, ready for the analysis. *)
Record ready (s : cgs) : Prop := {
  rd_regs : length (c_regs s) = 10;
  rd_distinct : NoDup (c_regs s);
  rd_reg : forall k r, nth_error (c_regs s) k = Some r -> exists e, c_ex s r = Some e /\
    x_fin e = true /\ x_nonvr e = true /\ vp_alloc (x_pos e) = true /\ vp_spilled (x_pos e) = 0%Z /\
    vp_reg (x_pos e) = Z.of_nat k;
  rd_apart : forall r, In r (c_regs s) -> ~ linked s r;
  rd_sp : ~ In (c_sp s) (c_regs s) /\ ~ linked s (c_sp s);
  rd_reach : NoDup (c_reach s) /\ forall b, In b (c_reach s) -> exists x, f_block (c_f s) b = Some x;
  rd_pred : forall b p, In b (c_reach s) -> In p (preds_of (c_f s) b) -> In p (c_reach s);
  rd_once : forall b, In b (c_reach s) -> NoDup (insns_of (c_f s) b);
  rd_insn : forall b i, In b (c_reach s) -> In i (insns_of (c_f s) b) -> exists x e,
    f_insn (c_f s) i = Some x /\ i_parent x = b /\ c_ex s i = Some e /\
    (x_dst e = None \/ x_dst e = Some i) /\ x_nonvr e = false /\ vp_alloc (x_pos e) = x_fin e /\
    (x_fin e = true -> vp_spilled (x_pos e) <> 0%Z \/ assignable (vp_reg (x_pos e)));
  rd_users : forall d u, linked s d -> (In u (users_of (c_f s) d) <-> linked s u /\ reads s u d);
  rd_jump : forall i x e, linked s i -> f_insn (c_f s) i = Some x -> c_ex s i = Some e ->
    is_jmp_op (i_op x) = true -> x_dst e = None;
  rd_phi : forall i x, linked s i -> f_insn (c_f s) i = Some x -> i_op x = PHI ->
    i_vals x = [] /\ defines s i i /\ forall w b, In (w, b) (i_phi x) -> In b (c_reach s) }.

(** Nothing has been recorded yet. *)
Definition blank (s : cgs) : Prop :=
  c_all s = c_regs s /\
  forall v e, c_ex s v = Some e -> x_in e = [] /\ x_out e = [] /\ x_adj e = [] /\ x_lam e = 0 /\ x_w e = 0.

(** The point at which copies for the phis of a successor are placed: before the jump that ends the
    block, or at its end. *)
Definition jump_at (s : cgs) (b k : nat) : Prop :=
  exists i x, insn_at s b k i /\ f_insn (c_f s) i = Some x /\ is_jmp_op (i_op x) = true.
Inductive copy_point (s : cgs) (b : nat) : nat -> Prop :=
| cp_jump k : S k = ends_at s b -> jump_at s b k -> copy_point s b k
| cp_end : (forall k, S k = ends_at s b -> ~ jump_at s b k) -> copy_point s b (ends_at s b).

(** No path of more than [d] empty blocks leads backwards from [b]. *)
Inductive shallow (s : cgs) : nat -> nat -> Prop :=
| sh_full b d : insns_of (c_f s) b <> [] -> shallow s b d
| sh_empty b d : (forall p, In p (preds_of (c_f s) b) -> shallow s p d) -> shallow s b (S d).

(** The shape of operands the interference analysis needs: the second operand of an arithmetic
    instruction is the result of another instruction of the function, and its own result has no fixed
    register. *)
Definition operands_ok (s : cgs) : Prop :=
  forall i x, linked s i -> f_insn (c_f s) i = Some x -> is_bin_alu_op (i_op x) = true ->
    tracked s i /\ exists v, nth_error (i_vals x) 1 = Some v /\
      forall d, v_data v = VInsn d -> linked s d /\ defines s d d /\ d <> i.

(** Only registers, the instructions of the function and the frame pointer carry data, and nothing
    has been recorded at the frame pointer; a value is on the stack only once its place is fixed. *)
Definition tidy (s : cgs) : Prop :=
  (forall v e, c_ex s v = Some e -> In v (c_regs s) \/ linked s v \/
     (v = c_sp s /\ x_in e = [] /\ x_out e = [] /\ x_adj e = [] /\ x_lam e = 0 /\ x_w e = 0)) /\
  (forall v e, c_ex s v = Some e -> x_fin e = false -> vp_spilled (x_pos e) = 0%Z).

(** Every chain of empty blocks that leads back from the origin of a phi operand is shorter than [d]. *)
Definition empties_below (s : cgs) (d : nat) : Prop :=
  forall i x w n, linked s i -> f_insn (c_f s) i = Some x -> i_op x = PHI -> In (w, n) (i_phi x) -> shallow s n d.

(** No value is live where execution starts: every use is preceded by the definition. *)
Definition start (s : cgs) (b : nat) : Prop := In b (c_reach s) /\ preds_of (c_f s) b = [].
Definition strict (s : cgs) : Prop := forall v b, tracked s v -> start s b -> ~ live s v (b, 0).
(** The point lies on a path from a starting block. *)
Definition arrives (s : cgs) (p : nat * nat) : Prop := exists b, start s b /\ reaches s (b, 0) p.

(** Two values are in the same register. *)
Definition share (s : cgs) (a b : nat) : Prop := exists r, in_reg s a r /\ in_reg s b r.

(** What a sound assignment [u] for the function [s] has to satisfy. *)
Record sound_assignment (s u : cgs) : Prop := {
  (* every value that is not fixed has a register R0..R9 *)
  sa_all : forall v, tracked s v -> exists r, in_reg u v r /\ assignable r;
  (* fixed places are kept *)
  sa_fixed : forall v, fixed s v -> position u v = position s v;
  (* values live at the same point are apart *)
  sa_live : forall a b p, tracked s a -> tracked s b -> a <> b -> arrives s p ->
    live s a p -> live s b p -> ~ share u a b;
  (* no instruction overwrites a value that is needed later *)
  sa_write : forall b k i d v, In b (c_reach s) -> insn_at s b k i -> defines s i d -> tracked s v -> d <> v ->
    live s v (b, S k) -> ~ share u d v;
  (* calls clobber R0..R5 *)
  sa_call : forall b k i x v r, In b (c_reach s) -> insn_at s b k i -> f_insn (c_f s) i = Some x ->
    i_op x = CALL -> tracked s v -> live s v (b, k) -> live s v (b, S k) -> in_reg u v r -> (6 <= r)%Z;
  (* the copies for a phi overwrite no value that is live where they are placed *)
  sa_phi : forall i x w n m v, linked s i -> f_insn (c_f s) i = Some x -> i_op x = PHI -> In (w, n) (i_phi x) ->
    tracked s v -> v <> i -> copy_point s n m -> live s v (n, m) -> ~ share u v i;
  (* the result of an arithmetic instruction is not in the register of its second operand *)
  sa_alu : forall i x v d, linked s i -> f_insn (c_f s) i = Some x -> is_bin_alu_op (i_op x) = true ->
    nth_error (i_vals x) 1 = Some v -> v_data v = VInsn d -> ~ share u i d }.

(** The pairs that the C tries to place in one register: the two sides of a copy, a load or store and
    its variable. *)
Definition copies (s : cgs) (i a b : nat) : Prop :=
  exists x, f_insn (c_f s) i = Some x /\
    ((i_op x = ASSIGN /\ a = i /\ exists v r, i_vals x = v :: r /\ v_data v = VInsn b) \/
     (i_op x = STORE /\ exists v w r, i_vals x = v :: w :: r /\ v_data v = VInsn a /\ v_data w = VInsn b) \/
     (i_op x = LOAD /\ a = i /\ exists v r, i_vals x = v :: r /\ v_data v = VInsn b)).
(** Copies have the operands they should, and loads and stores name a variable. *)
Definition copies_ok (s : cgs) : Prop :=
  forall i x, linked s i -> f_insn (c_f s) i = Some x ->
    (i_op x = ASSIGN -> i_vals x <> []) /\
    (i_op x = STORE -> exists v w r d y, i_vals x = v :: w :: r /\ v_data v = VInsn d /\
       f_insn (c_f s) d = Some y /\ i_op y = ALLOC) /\
    (i_op x = LOAD -> exists v r d y, i_vals x = v :: r /\ v_data v = VInsn d /\
       f_insn (c_f s) d = Some y /\ i_op y = ALLOC).

(** Two values that the C tries to place in one register may be merged: one lives on the stack (then
    nothing happens), or exactly one of them is fixed, or none is and they do not interfere. *)
Definition has_place (s : cgs) (v : nat) : Prop := In v (c_regs s) \/ (linked s v /\ defines s v v).
Definition mergeable (s t : cgs) (a b : nat) : Prop :=
  has_place s a /\ has_place s b /\
  (on_stack s a \/ on_stack s b \/
   (~ (fixed s a /\ fixed s b) /\ (fixed s a \/ fixed s b \/ ~ adjacent t a b))).
