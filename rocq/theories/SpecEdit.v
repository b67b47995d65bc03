(** What a caller of the editing API must respect, and the states reachable by doing so. *)
From Verif Require Import M_Base M_Ir M_Edit M_EditHist SpecIr.
Open Scope nat_scope.

(** The instruction is live and linked in the block it names as its parent. *)
Definition in_place (f : func) (i : nat) : Prop :=
  exists x, f_insn f i = Some x /\ In i (insns_of f (i_parent x)).

(** Preconditions of the API:
    - split, relative insertion and erase are applied to linked instructions;
    - a value is not replaced by itself;
    - phi operands are added to phi instructions. *)
Definition edit_ok (f : func) (e : edit) : Prop :=
  match e with
  | E_split i _ | E_error_block i _ | E_create_at i _ _ | E_erase i => in_place f i
  | E_replace d rep | E_replace_except d rep _ => v_data rep <> VInsn d
  | E_phi_add i _ _ => exists x, f_insn f i = Some x /\ i_op x = PHI
  | _ => True
  end.

Inductive reachable (f : func) : func -> Prop :=
| reach_here : reachable f f
| reach_step g e h : reachable f g -> edit_ok g e -> apply_edit g e = Ok h -> reachable f h.

(** A well-formed starting point. *)
Record wf_func (f : func) : Prop := {
  wf_mirror : mirrored f;
  wf_fresh : fresh_ok f;
  wf_uses : uses_exact f;
  wf_linked : linked_ok f;
  wf_once : forall b, NoDup (insns_of f b) }.

(** Edges after splitting block [bb] into [bb] and the new block [nb]: [bb] goes to [nb] only, [nb]
    takes over the outgoing edges of [bb], all other edges stay. *)
Record split_edges (f g : func) (bb nb : nat) : Prop := {
  se_new : f_block f nb = None;
  se_out : succs_of g bb = [nb];
  se_moved : succs_of g nb = succs_of f bb;
  se_other : forall c, c <> bb -> c <> nb -> succs_of g c = succs_of f c;
  se_in : preds_of g nb = [bb];
  se_pred : forall c a, c <> nb ->
    (In a (preds_of g c) <-> (In a (preds_of f c) /\ a <> bb) \/ (a = nb /\ In c (succs_of f bb))) }.

(** Instructions after moving the list [moved] to block [nb]: only their parent changes. *)
Definition moved_to (f g : func) (moved : list nat) (nb : nat) : Prop :=
  (forall j, In j moved -> f_insn g j = option_map (set_parent nb) (f_insn f j)) /\
  (forall j, ~ In j moved -> f_insn g j = f_insn f j).

(** Every operand is registered in the users list of the value it refers to. *)
Definition registered (f : func) : Prop :=
  forall u d, uses f u d > 0 -> In u (users_of f d).

(** The incoming blocks of every phi of a block are predecessors of that block. *)
Definition phis_match (f : func) : Prop :=
  forall b i x v p, In i (insns_of f b) -> f_insn f i = Some x -> i_op x = PHI ->
    In (v, p) (i_phi x) -> In p (preds_of f b).

(** Instruction [i] is a phi / ends a block. *)
Definition is_phi (f : func) (i : nat) : Prop := exists x, f_insn f i = Some x /\ i_op x = PHI.
Definition is_terminator (f : func) (i : nat) : Prop :=
  exists x, f_insn f i = Some x /\
    In (i_op x) [RET; THROW; JA; JEQ; JGT; JGE; JLT; JLE; JNE; JSGE; JSLE; JSGT; JSLT].

(** Where the new instruction goes. *)
Definition placed (f : func) (p : ipos) (l : list nat) (before after : list nat) : Prop :=
  l = before ++ after /\
  match p with
  | P_BACK => after = []
  | P_FRONT => before = []
  | P_FRONT_AFTER_PHI =>
      (forall i, In i before -> is_phi f i) /\ (forall z r, after = z :: r -> ~ is_phi f z)
  | P_BACK_BEFORE_JMP =>
      (after = [] /\ forall r z, before = r ++ [z] -> ~ is_terminator f z) \/
      (exists z, after = [z] /\ is_terminator f z)
  end.
