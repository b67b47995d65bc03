(** Strict functions in SSA form: every value is computed before it is used, on every path through the
    control-flow graph. *)
From Coq Require Import ZArith List Bool Arith.
From Verif Require Import M_Base M_Ir SpecWord SpecFlat SpecSsa SpecIr SpecEdit SpecPass.
Import ListNotations.
Open Scope nat_scope.

(** Paths from the entry, last block first. *)
Inductive rpath (f : func) : list nat -> Prop :=
| rp_entry : rpath f [f_entry f]
| rp_step b l c : rpath f (b :: l) -> goes f b c -> rpath f (c :: b :: l).

(** [d] comes before [u] in the list *)
Definition precedes (d u : nat) (l : list nat) : Prop := exists l1 l2 l3, l = l1 ++ d :: l2 ++ u :: l3.

Record strict (f : func) : Prop := {
  (** phis stand at the head of their blocks, none in the entry block *)
  st_first : forall b, exists phs ids, insns_of f b = phs ++ ids /\ (forall i, In i phs -> is_phi f i) /\ (forall i, In i ids -> ~ is_phi f i);
  st_entry : forall i, In i (insns_of f (f_entry f)) -> ~ is_phi f i;
  (** a phi has a value for every edge into its block *)
  st_cover : forall b i x q l, In i (insns_of f b) -> f_insn f i = Some x -> i_op x = PHI -> rpath f (q :: l) -> goes f q b ->
    exists v, In (v, q) (i_phi x);
  (** an operand has been computed: earlier in the same block, or in a block on every path *)
  st_use : forall b u x d c, In u (insns_of f b) -> f_insn f u = Some x -> i_op x <> PHI -> 0 < uses f u d -> In d (insns_of f c) ->
    (c = b /\ precedes d u (insns_of f b)) \/ forall l, rpath f (b :: l) -> In c l;
  (** an incoming value of a phi has been computed at the end of the block it comes from *)
  st_phi : forall b u x v q d c, In u (insns_of f b) -> f_insn f u = Some x -> i_op x = PHI -> In (v, q) (i_phi x) ->
    v_data v = VInsn d -> In d (insns_of f c) -> forall l, rpath f (q :: l) -> In c (q :: l);
  (** loads read variables *)
  st_cells : forall u x v r a, f_insn f u = Some x -> i_op x = LOAD -> i_vals x = v :: r -> v_data v = VInsn a ->
    exists y, f_insn f a = Some y /\ i_op y = ALLOC }.

(** A phi whose operands are all the same value or the phi itself: [e] is that value. *)
Definition only_value (p : nat) (x : insn) (e : value) : Prop :=
  (exists q, In (e, q) (i_phi x)) /\ v_data e <> VInsn p /\
  forall v q, In (v, q) (i_phi x) -> v_data v = VInsn p \/ v = e \/ exists d, v_data v = VInsn d /\ v_data e = VInsn d.
Definition trivial_phi (p : nat) (x : insn) : Prop := exists e, only_value p x e.
(** [v] with [e] in place of the result of [p] *)
Definition put_for (p : nat) (e v : value) : value := if is_use_of p v then e else v.
Definition put_for_insn (p : nat) (e : value) (x : insn) : insn :=
  match i_op x with
  | PHI => set_phi (map (fun q => (put_for p e (fst q), snd q)) (i_phi x)) (set_vals (map (put_for p e) (i_vals x)) x)
  | LOADRAW | STORERAW => set_addr (mkAddr (put_for p e (a_val (i_addr x))) (a_off (i_addr x)) (a_ot (i_addr x))) (set_vals (map (put_for p e) (i_vals x)) x)
  | _ => set_vals (map (put_for p e) (i_vals x)) x
  end.
(** [g] is [f] without [p], with [e] in its place; only users lists change otherwise. *)
Record phi_gone (p : nat) (e : value) (f g : func) : Prop := {
  pg_gone : f_insn g p = None;
  pg_keep : forall j, j <> p -> exists l, f_insn g j = option_map (fun x => set_users l (put_for_insn p e x)) (f_insn f j);
  pg_insns : forall b, insns_of g b = filter (fun j => negb (j =? p)) (insns_of f b);
  pg_succs : forall b, succs_of g b = succs_of f b;
  pg_preds : forall b, preds_of g b = preds_of f b;
  pg_blocks : forall b, f_block g b = None <-> f_block f b = None;
  pg_entry : f_entry g = f_entry f;
  pg_count : f_ni g = f_ni f /\ f_nb g = f_nb f /\ f_all g = f_all f }.
(** A phi with two different values: neither is the phi itself, and they are not the same instruction. *)
Definition two_values (p : nat) (x : insn) : Prop :=
  exists l1 v a l2 w b l3, i_phi x = l1 ++ (v, a) :: l2 ++ (w, b) :: l3 /\ v_data v <> VInsn p /\ v_data w <> VInsn p /\
    forall d, v_data v = VInsn d -> v_data w <> VInsn d.

(** [h] applied to every operand *)
Definition map_ops (h : value -> value) (x : insn) : insn :=
  match i_op x with
  | PHI => set_phi (map (fun q => (h (fst q), snd q)) (i_phi x)) (set_vals (map h (i_vals x)) x)
  | LOADRAW | STORERAW => set_addr (mkAddr (h (a_val (i_addr x))) (a_off (i_addr x)) (a_ot (i_addr x))) (set_vals (map h (i_vals x)) x)
  | _ => set_vals (map h (i_vals x)) x
  end.
(** [g] is [f] without the phis [rm]; operands are renamed by [h], which leaves all values alone but the
    results of these phis: they become operands of these phis. *)
Record phis_gone (rm : list nat) (h : value -> value) (f g : func) : Prop := {
  gn_rm : forall j, In j rm -> is_phi f j /\ f_insn g j = None;
  gn_keep : forall j, ~ In j rm -> exists l, f_insn g j = option_map (fun x => set_users l (map_ops h x)) (f_insn f j);
  gn_ops : forall v, (forall d, v_data v = VInsn d -> ~ In d rm) -> h v = v;
  gn_insns : forall b, insns_of g b = filter (fun j => negb (existsb (Nat.eqb j) rm)) (insns_of f b);
  gn_succs : forall b, succs_of g b = succs_of f b;
  gn_preds : forall b, preds_of g b = preds_of f b;
  gn_blocks : forall b, f_block g b = None <-> f_block f b = None;
  gn_entry : f_entry g = f_entry f;
  gn_count : f_ni g = f_ni f /\ f_nb g = f_nb f /\ f_all g = f_all f;
  gn_placed : forall j, In j rm -> exists b, In j (insns_of f b);
  gn_from : forall v, h v = v \/ exists j x, In j rm /\ f_insn f j = Some x /\ In (h v) (map fst (i_phi x)) }.
Definition reachable (f : func) (b : nat) : Prop := exists l, rpath f (b :: l).
