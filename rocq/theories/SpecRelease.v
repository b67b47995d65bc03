(** What a program holds: ring buffer references along the paths of a function. *)
From Verif Require Import M_Base M_Ir SpecIr.
Open Scope list_scope.
Open Scope nat_scope.

(** helper numbers of bpf_ringbuf_reserve, submit, discard (linux/bpf.h) *)
Definition reserving (x : insn) : bool := if iop_eq_dec (i_op x) CALL then Z.eqb (i_u x) 131 else false.
Definition releasing (x : insn) (r : nat) : bool :=
  if iop_eq_dec (i_op x) CALL then
    (Z.eqb (i_u x) 132 || Z.eqb (i_u x) 133) &&
    match i_vals x with v :: _ => match v_data v with VInsn d => d =? r | _ => false end | [] => false end
  else false.
(** Whether the reference made by call [r] is held after instruction [i], if it was before. *)
Definition after (f : func) (r : nat) (held : bool) (i : nat) : bool :=
  match f_insn f i with
  | Some x => if reserving x && (i =? r) then true else if releasing x r then false else held
  | None => held
  end.
(** [walk f bs]: the blocks of a path that starts at the entry. *)
Inductive walk (f : func) : list nat -> Prop :=
| wk_entry : walk f [f_entry f]
| wk_step p a b : walk f (p ++ [a]) -> In b (succs_of f a) -> walk f ((p ++ [a]) ++ [b]).
Definition held (f : func) (bs : list nat) (r : nat) : bool :=
  fold_left (after f r) (flat_map (insns_of f) bs) false.
(** [r] is held at the end of [b], whatever path leads there. *)
Definition held_at (f : func) (b r : nat) : Prop := forall p, walk f (p ++ [b]) -> held f (p ++ [b]) r = true.

(** No path comes back to a block it has left. *)
Definition loop_free (f : func) (reach : list nat) : Prop :=
  exists rank : nat -> nat, forall a b, In b reach -> In a (preds_of f b) -> rank a < rank b.
(** Every block but the entry is listed after one that leads to it, as a search from the entry does. *)
Definition discovered (f : func) (reach : list nat) : Prop :=
  forall l1 b l2, reach = l1 ++ b :: l2 -> b = f_entry f \/ exists a, In a l1 /\ In a (preds_of f b).
(** No block releases a reference before it makes it. *)
Definition made_first (f : func) : Prop :=
  forall b l1 i l2 x j y, insns_of f b = l1 ++ i :: l2 -> f_insn f i = Some x -> releasing x j = true ->
    f_insn f j = Some y -> reserving y = true -> ~ In j l2.
(** [reach] are the blocks that paths lead to, once each. *)
Record complete (f : func) (reach : list nat) : Prop := {
  cp_once : NoDup reach;
  cp_entry : In (f_entry f) reach;
  cp_succ : forall a b, In a reach -> In b (succs_of f a) -> In b reach;
  cp_pred : forall a b, In b reach -> In a (preds_of f b) -> In a reach;
  cp_walk : forall b, In b reach -> exists p, walk f (p ++ [b]) }.
(** [d] is a call of bpf_ringbuf_discard for the reference [r]. *)
Definition discards (g : func) (d r : nat) : Prop :=
  exists y, f_insn g d = Some y /\ i_op y = CALL /\ i_u y = 133%Z /\ i_vals y = [val_insn r; val_const32 0].
(** [ms] prints "exit": an array of 8 bytes that holds these characters and a NUL is passed to
    bpf_trace_printk (helper 6) with length 5. *)
Definition prints (g : func) (ms : list nat) : Prop := exists a s1 s2 p c xa x1 x2 xp xc, ms = [a; s1; s2; p; c] /\
  f_insn g a = Some xa /\ f_insn g s1 = Some x1 /\ f_insn g s2 = Some x2 /\ f_insn g p = Some xp /\ f_insn g c = Some xc /\
  (i_op xa = ALLOCARRAY /\ i_vrt xa = VR_64 /\ i_u xa = 1%Z) /\
  (i_op x1 = STORERAW /\ i_vrt x1 = VR_8 /\ i_addr x1 = addr_val (val_insn a) 4 /\ i_vals x1 = [val_const32 0]) /\
  (i_op x2 = STORERAW /\ i_vrt x2 = VR_32 /\ i_addr x2 = addr_val (val_insn a) 0 /\
   i_vals x2 = [val_const32 (101 + 2 ^ 8 * 120 + 2 ^ 16 * 105 + 2 ^ 24 * 116)]) /\
  (i_op xp = GETELEMPTR /\ i_vals xp = [val_const32 0; val_insn a]) /\
  (i_op xc = CALL /\ i_u xc = 6%Z /\ i_vals xc = [val_insn p; val_const32 5]).
(** The block that ended with the throw [t] after [pre] now discards [rs], prints if [msg], and returns 0. *)
Record released (f g : func) (msg : bool) (b : nat) (pre : list nat) (t : nat) (rs : list nat) : Prop := {
  rl_block : exists ds ms, insns_of g b = pre ++ ds ++ ms ++ [t] /\ Forall2 (discards g) ds rs /\
    (forall d, In d (ds ++ ms) -> f_insn f d = None) /\ (if msg then prints g ms else ms = []);
  rl_once : NoDup rs;
  rl_ret : exists y, f_insn g t = Some y /\ i_op y = RET /\ i_vals y = [val_const32 0] }.
(** [b] is one of [reach] and ends with the throw [t]. *)
Definition throws (f : func) (reach : list nat) (b : nat) (pre : list nat) (t : nat) : Prop :=
  In b reach /\ insns_of f b = pre ++ [t] /\ exists x, f_insn f t = Some x /\ i_op x = THROW.
(** Instructions are the same but for the lists of their users. *)
Definition unchanged (f g : func) (i : nat) : Prop := exists u, f_insn g i = option_map (set_users u) (f_insn f i).
(** Every release names the call that made the reference. *)
Definition direct (f : func) (reach : list nat) : Prop :=
  forall b i x, In b reach -> In i (insns_of f b) -> f_insn f i = Some x -> i_op x = CALL -> i_u x = 132%Z \/ i_u x = 133%Z ->
    exists r y, releasing x r = true /\ f_insn f r = Some y /\ reserving y = true.
