(** Regions of the stack frame assigned by the code generator, stated on the positions recorded for
    the instructions. *)
From Verif Require Import M_Base M_Ir M_Edit M_Ra SpecIr SpecRa.
Open Scope Z_scope.

(** offset from the frame pointer and size of the stack region of [v] *)
Definition region (s : cgs) (v : nat) : option (Z * Z) :=
  match c_ex s v with
  | Some e => if vp_spilled (x_pos e) =? 0 then None else Some (vp_spilled (x_pos e), vp_size (x_pos e))
  | None => None
  end.

(** Regions are aligned, lie between the lowest address handed out and the frame pointer, and do not
    overlap. *)
Record frame_ok (s : cgs) : Prop := {
  fr_place : forall v o n, region s v = Some (o, n) -> o mod 8 = 0 /\ 0 < n /\ c_off s <= o /\ o + n <= 0;
  fr_apart : forall v w o n o' n', v <> w -> region s v = Some (o, n) -> region s w = Some (o', n') ->
    o + n <= o' \/ o' + n' <= o }.

(** no region has been handed out yet *)
Definition frame_empty (s : cgs) : Prop := c_off s = 0 /\ forall v, region s v = None.

Definition bytes (t : vrt) : Z := match t with VR_8 => 1 | VR_16 => 2 | VR_32 => 4 | VR_64 => 8 | VR_UNKNOWN => 0 end.
(** bytes of the array allocated by [x] *)
Definition array_bytes (x : insn) : Z := i_u x * bytes (i_vrt x).
Definition is_array (s : cgs) (i : nat) (x : insn) : Prop :=
  linked s i /\ f_insn (c_f s) i = Some x /\ i_op x = ALLOCARRAY.

(** eight-byte words needed for all arrays of the reachable blocks *)
Definition words (n : Z) : Z := (n + 7) / 8.
Definition array_words (f : func) (i : nat) : Z :=
  match f_insn f i with
  | Some x => if iop_eqb (i_op x) ALLOCARRAY then words (array_bytes x) else 0
  | None => 0
  end.
Definition total_words (f : func) (l : list nat) : Z := fold_right (fun i a => array_words f i + a) 0 l.
Definition arrays_words (s : cgs) : Z := total_words (c_f s) (flat_map (insns_of (c_f s)) (c_reach s)).

(** instruction counts of arrays are u32 *)
Definition counts_ok (s : cgs) : Prop := forall i x, is_array s i x -> 0 <= i_u x.

(** ids above the counter carry no code-generation data *)
Definition data_below (s : cgs) : Prop := forall v, (f_ni (c_f s) <= v)%nat -> c_ex s v = None.

(** an access of [k] bytes at [off] from the frame pointer touches no region *)
Definition misses (s : cgs) (off k : Z) : Prop :=
  forall v o n, region s v = Some (o, n) -> off + k <= o \/ o + n <= off.

(** a load from the program's own frame, relative to the frame pointer [sp] *)
Definition own_access (sp : nat) (s : cgs) (i : nat) (x : insn) : Prop :=
  linked s i /\ f_insn (c_f s) i = Some x /\ i_op x = LOADRAW /\ a_ot (i_addr x) = O_RAWOFF /\ v_data (a_val (i_addr x)) = VInsn sp.

(** the stages of bpf_ir_compile from init_cg to remove_phi: [sc] is the state when the arrays are
    placed, [s3] the state before the program's own accesses are shifted *)
Definition compiled (f : func) (reach : list nat) (sp : nat) (args : list nat) (fuel : nat)
    (om os : nat -> nat -> list nat -> list nat) (chk : cgs -> outcome cgs) (sc s3 s4 : cgs) : Prop :=
  exists sa sb sd s1 s2,
    init_cg f reach sp args = Ok sa /\ change_call sa = Ok sb /\ change_fun_arg sb = Ok sc /\
    spill_array sc = Ok sd /\ spill_const sd = Ok s1 /\
    ra_loop 6 fuel om os chk s1 = Ok s2 /\ assign s2 = Ok s3 /\ ssa_out s3 = Ok s4.
