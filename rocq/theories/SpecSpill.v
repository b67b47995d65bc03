(** Spilling: what a function needs so that values can be moved to the stack, and runs that leave the
    new stack slots alone.  Only the data types of the model are used, none of its functions. *)
From Coq Require Import ZArith List Bool Arith.
From Verif Require Import M_Base M_Ir M_Norm M_Ra SpecWord SpecFlat SpecProg SpecSsa SpecIr SpecEdit SpecPass SpecShift SpecInstr SpecFrame SpecRa SpecVirt.
From Verif Require Export SpecGs.
Import ListNotations.
Open Scope Z_scope.

(** Helpers neither look at the set nor write to it. *)
Definition hidden (w : world) (R : addrs) : Prop :=
  forall n id a m m', agree R m m' ->
    fst (helper w n id a m) = fst (helper w n id a m') /\ agree R (snd (helper w n id a m)) (snd (helper w n id a m')) /\
    forall x, R x = true -> snd (helper w n id a m) x = m x.

(** The memory access of an instruction to a computed address stays out of the set. *)
Definition quiet (R : addrs) (bi : bconst -> Z) (s : cgs) (x : insn) (q : vst) : bool :=
  match i_op x with
  | LOADRAW | STORERAW =>
    match vr_bytes (i_vrt x), vaddr s bi q (i_addr x) with
    | Some k, Some a => negb (touches R a k)
    | _, _ => true
    end
  | _ => true
  end.
(** Runs that stop where an access touches the set; otherwise as [vbody], [vblock] and [vrun]. *)
Fixpoint gbody (R : addrs) (w : world) (bi : bconst -> Z) (s : cgs) (o : Z) (q : vst) (l : list nat) : option vres :=
  match l with
  | [] => Some (VNext q)
  | i :: r =>
    let? x := f_insn (c_f s) i in
    if quiet R bi s (fill_insn o x) q then
      let? t := vexec w bi s i (fill_insn o x) q in
      match t with VNext q' => gbody R w bi s o q' r | _ => Some t end
    else None
  end.
Definition gblock (R : addrs) (w : world) (bi : nat -> bconst -> Z) (s : cgs) (o : Z) (prev b : nat) (q : vst) : option vres :=
  let? k := f_block (c_f s) b in
  let? r := vphis (bi prev) s o prev q q (b_insns k) in
  let '(l, q1) := r in
  let? t := gbody R w (bi b) s o q1 l in
  match t with
  | VNext q2 => match b_succs k with b' :: _ => Some (VJmp b' q2) | [] => None end
  | _ => Some t
  end.
Fixpoint grun (R : addrs) (w : world) (bi : nat -> bconst -> Z) (s : cgs) (o : Z) (n prev b : nat) (q : vst) : option vout :=
  match n with
  | O => Some (VAt prev b q)
  | S k =>
    let? t := gblock R w bi s o prev b q in
    match t with
    | VJmp b' q' => grun R w bi s o k b b' q'
    | VRet r q' => Some (VDone r q')
    | VNext _ => None
    end
  end.

(** A function in which values can be moved to the stack. *)
Record spillable (s : cgs) : Prop := {
  sb_fresh : fresh_ok (c_f s);
  sb_tidy : SpecPass.tidy (c_f s);
  sb_ready : ready s;
  sb_shape : shape s;
  sb_phis : phis_first (c_f s);
  sb_all : forall b i, In i (insns_of (c_f s) b) -> In b (c_reach s);
  sb_sp : (c_sp s < f_ni (c_f s))%nat;
  sb_entry : In (f_entry (c_f s)) (c_reach s) /\ phi_free s (f_entry (c_f s));
  sb_frame : frame_ok s /\ c_off s <= 0 /\ c_off s mod 8 = 0 }.

(** The states after two runs: everything is the same but the memory in the set and the values of the
    instructions in [l] and of those from [n] on. *)
Record same_but (R : addrs) (n : nat) (l : list nat) (q q' : vst) : Prop := {
  sm_regs : regs (v_st q) = regs (v_st q');
  sm_calls : ncall (v_st q) = ncall (v_st q');
  sm_env : forall d, (d < n)%nat -> ~ In d l -> v_env q d = v_env q' d;
  sm_mem : agree R (mem (v_st q)) (mem (v_st q')) }.
Definition same_end (R : addrs) (n : nat) (l : list nat) (a b : vout) : Prop :=
  match a, b with
  | VAt p c q, VAt p' c' q' => p = p' /\ c = c' /\ same_but R n l q q'
  | VDone z q, VDone z' q' => z = z' /\ same_but R n l q q'
  | _, _ => False
  end.
(** A value that can be moved: it has no place yet; a variable is not used as an address. *)
Definition movable (s : cgs) (v : nat) : Prop :=
  tracked s v /\
  forall x, f_insn (c_f s) v = Some x -> i_op x = ALLOC ->
    forall i y, f_insn (c_f s) i = Some y -> In (i_op y) [LOADRAW; STORERAW] -> v_data (a_val (i_addr y)) <> VInsn v.
