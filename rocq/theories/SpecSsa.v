(** Meaning of the IR in SSA form (before code generation).  Every instruction with a result holds
    one 64-bit word, its last result; phis take the value of the edge through which the block was
    entered, all at once.  Only the data types of the model are used, none of its functions. *)
From Coq Require Import ZArith List Bool Arith.
From Verif Require Import M_Ir SpecWord SpecFlat.
Import ListNotations.
Open Scope Z_scope.

(** Results so far, contents of the ALLOC cells, memory, number of helper calls. *)
Record sst := mkS { s_env : nat -> option Z; s_var : nat -> option Z; s_mem : memory; s_nc : nat }.

Definition eupd (m : nat -> option Z) (i : nat) (v : Z) : nat -> option Z :=
  fun j => if (j =? i)%nat then Some v else m j.
(** the result of instruction [i] *)
Definition sres_ (s : sst) (i : nat) (v : Z) : sst := mkS (eupd (s_env s) i (u64 v)) (s_var s) (s_mem s) (s_nc s).
Definition smem (s : sst) (m : memory) : sst := mkS (s_env s) (s_var s) m (s_nc s).

Definition seval (bi : bconst -> Z) (e : nat -> option Z) (v : value) : option Z :=
  match v_data v with
  | VConst c => Some (u64 (const_val bi v c))
  | VInsn i => e i
  | _ => None
  end.
Fixpoint sevals (bi : bconst -> Z) (e : nat -> option Z) (l : list value) : option (list Z) :=
  match l with
  | [] => Some []
  | v :: r => let? x := seval bi e v in let? t := sevals bi e r in Some (x :: t)
  end.

Inductive sres := SNext (s : sst) | SJmp (b : nat) (s : sst) | SRet (r : Z) (s : sst) | SThrow (s : sst).

(** missing arguments are 0 *)
Definition args5 (l : list Z) : list Z := firstn 5 (l ++ [0; 0; 0; 0; 0]).

(** Not covered ([None]): ECALL, arrays, address arithmetic on ALLOC cells. *)
Definition sexec (w : world) (bi : bconst -> Z) (f : func) (i : nat) (x : insn) (s : sst) : option sres :=
  let ev v := seval bi (s_env s) v in
  let ret v := Some (SNext (sres_ s i v)) in
  match i_op x, i_vals x with
  | ALLOC, _ => Some (SNext s)
  | STORE, [t; v] =>
    match v_data t with
    | VInsn a =>
      let? y := f_insn f a in
      if iop_eqb (i_op y) ALLOC then
        let? k := vr_bytes (i_vrt y) in let? z := ev v in
        Some (SNext (mkS (s_env s) (eupd (s_var s) a (z mod 2 ^ (8 * Z.of_nat k))) (s_mem s) (s_nc s)))
      else None
    | _ => None
    end
  | LOAD, [t] =>
    match v_data t with
    | VInsn a => let? z := s_var s a in ret z
    | _ => None
    end
  | ASSIGN, [v] => let? a := ev v in ret (match i_alu x with A_32 => trunc false a | _ => a end)
  | LOADRAW, _ => let? k := vr_bytes (i_vrt x) in let? a := ev (a_val (i_addr x)) in
                  ret (load (s_mem s) (a + a_off (i_addr x)) k)
  | STORERAW, [v] => let? k := vr_bytes (i_vrt x) in let? a := ev (a_val (i_addr x)) in
                     let? y := ev v in
                     Some (SNext (smem s (store (s_mem s) (a + a_off (i_addr x)) k y)))
  | LOADIMM_EXTRA, _ =>
    if (0 <=? i_ity x) && (i_ity x <=? 6)
    then ret (if i_ity x =? 0 then u64 (i_imm64 x) else ldext w (i_ity x) (u64 (i_imm64 x)))
    else None
  | NEG, [v] => let? wd := width_of (i_alu x) in let? a := ev v in ret (neg_fn wd a)
  | HTOLE, [v] | HTOBE, [v] =>
    if (i_u x =? 16) || (i_u x =? 32) || (i_u x =? 64)
    then let? a := ev v in ret (end_fn (iop_eqb (i_op x) HTOBE) (i_u x) a)
    else None
  | CALL, l =>
    let? a := sevals bi (s_env s) l in
    let '(r, m) := helper w (s_nc s) (i_u x) (args5 a) (s_mem s) in
    Some (SNext (mkS (eupd (s_env s) i (u64 (nth 0 r 0))) (s_var s) m (S (s_nc s))))
  | RET, [v] => let? a := ev v in Some (SRet a s)
  | THROW, [] => Some (SThrow s)
  | JA, [] => Some (SJmp (i_bb1 x) s)
  | o, [v1; v2] =>
    match alu_op_of o, cmp_op_of o with
    | Some f, _ => let? wd := width_of (i_alu x) in let? a := ev v1 in let? b := ev v2 in ret (alu_fn f wd a b)
    | _, Some c => let? wd := width_of (i_alu x) in let? a := ev v1 in let? b := ev v2 in
                   Some (SJmp (if cmp_fn c wd a b then i_bb2 x else i_bb1 x) s)
    | _, _ => None
    end
  | _, _ => None
  end.

(** The phis at the head of the list, evaluated in [s0]; the results go to [s]. *)
Definition incoming (x : insn) (prev : nat) : option value :=
  option_map fst (find (fun q => (snd q =? prev)%nat) (i_phi x)).
Fixpoint sphis (bi : bconst -> Z) (f : func) (prev : nat) (s0 s : sst) (l : list nat) : option (list nat * sst) :=
  match l with
  | [] => Some ([], s)
  | i :: r =>
    let? x := f_insn f i in
    if iop_eqb (i_op x) PHI then
      let? v := incoming x prev in let? z := seval bi (s_env s0) v in
      sphis bi f prev s0 (sres_ s i z) r
    else Some (l, s)
  end.

(** The remaining instructions up to the end of the block or the first jump, return or throw. *)
Fixpoint sbody (w : world) (bi : bconst -> Z) (f : func) (s : sst) (l : list nat) : option sres :=
  match l with
  | [] => Some (SNext s)
  | i :: r =>
    let? x := f_insn f i in
    let? q := sexec w bi f i x s in
    match q with SNext s' => sbody w bi f s' r | _ => Some q end
  end.

(** One block, entered from [prev]; a block without a jump falls through to its successor. *)
Definition sblock (w : world) (bi : bconst -> Z) (f : func) (prev b : nat) (s : sst) : option sres :=
  let? k := f_block f b in
  let? q := sphis bi f prev s s (b_insns k) in
  let '(l, s1) := q in
  let? t := sbody w bi f s1 l in
  match t with
  | SNext s2 => match b_succs k with b' :: _ => Some (SJmp b' s2) | [] => None end
  | _ => Some t
  end.

(** Run at most [n] blocks. *)
Inductive sout := OAt (prev b : nat) (s : sst) | ORet (r : Z) (s : sst) | OThrow (s : sst).
Fixpoint srun (w : world) (bi : bconst -> Z) (f : func) (n : nat) (prev b : nat) (s : sst) : option sout :=
  match n with
  | O => Some (OAt prev b s)
  | S k =>
    let? t := sblock w bi f prev b s in
    match t with
    | SJmp b' s' => srun w bi f k b b' s'
    | SRet r s' => Some (ORet r s')
    | SThrow s' => Some (OThrow s')
    | SNext _ => None
    end
  end.
