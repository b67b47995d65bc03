(** The IR data types (core/include/linux/bpf_ir.h 405-652, core/include/ir_cg.h) shared by the
    models of the editing API, the passes and the code generator.  Types only, no proofs.

    Pointers to instructions and basic blocks are natural numbers.  Dropped fields: raw_pos,
    raw_stack (debugging information), _insn_id / _visited (scratch), user_data (modelled where
    it is used). *)
From Verif Require Import M_Base.
Open Scope Z_scope.

(** enum ir_insn_type, bpf_ir.h 482-531 *)
Inductive iop : Type :=
| ALLOC | ALLOCARRAY | GETELEMPTR | STORE | LOAD | LOADIMM_EXTRA | STORERAW | LOADRAW
| NEG | HTOLE | HTOBE
| ADD | SUB | MUL | DIV | OR | AND | LSH | ARSH | RSH | MOD | XOR
| CALL | RET | THROW
| JA | JEQ | JGT | JGE | JLT | JLE | JNE | JSGE | JSLE | JSGT | JSLT
| PHI | ASSIGN | REG | FUNCTIONARG | ECALL.

Definition iop_eq_dec (a b : iop) : {a = b} + {a <> b}.
Proof. decide equality. Defined.

Definition iop_eqb (a b : iop) : bool := if iop_eq_dec a b then true else false.

(** The numeric value of the enumeration constant (declaration order, bpf_ir.h 482-531). *)
Definition opnum (o : iop) : nat :=
  match o with
  | ALLOC => 0 | ALLOCARRAY => 1 | GETELEMPTR => 2 | STORE => 3 | LOAD => 4
  | LOADIMM_EXTRA => 5 | STORERAW => 6 | LOADRAW => 7
  | NEG => 8 | HTOLE => 9 | HTOBE => 10
  | ADD => 11 | SUB => 12 | MUL => 13 | DIV => 14 | OR => 15 | AND => 16 | LSH => 17
  | ARSH => 18 | RSH => 19 | MOD => 20 | XOR => 21
  | CALL => 22 | RET => 23 | THROW => 24
  | JA => 25 | JEQ => 26 | JGT => 27 | JGE => 28 | JLT => 29 | JLE => 30 | JNE => 31
  | JSGE => 32 | JSLE => 33 | JSGT => 34 | JSLT => 35
  | PHI => 36 | ASSIGN => 37 | REG => 38 | FUNCTIONARG => 39 | ECALL => 40
  end.

(** bpf_ir_is_jmp, core/ir_insn.c 321-325 *)
Definition is_jmp_op (o : iop) : bool :=
  ((opnum JA <=? opnum o)%nat && (opnum o <? opnum PHI)%nat) || iop_eqb o RET || iop_eqb o THROW.

(** bpf_ir_is_cond_jmp, core/ir_insn.c 327-330 *)
Definition is_cond_jmp_op (o : iop) : bool :=
  (opnum JEQ <=? opnum o)%nat && (opnum o <? opnum PHI)%nat.

(** bpf_ir_is_bin_alu, core/ir_insn.c 332-335 *)
Definition is_bin_alu_op (o : iop) : bool :=
  (opnum ADD <=? opnum o)%nat && (opnum o <? opnum CALL)%nat.

(** bpf_ir_is_commutative_alu, core/ir_insn.c 337-343 *)
Definition is_commutative_op (o : iop) : bool :=
  iop_eqb o ADD || iop_eqb o MUL || iop_eqb o OR || iop_eqb o AND || iop_eqb o XOR.

(** bpf_ir_is_void, core/ir_insn.c 345-349 *)
Definition is_void_op (o : iop) : bool :=
  is_jmp_op o || iop_eqb o STORERAW || iop_eqb o STORE.

(** enum ir_alu_op_type *)
Inductive alut := A_UNKNOWN | A_32 | A_64.
Definition alut_eq_dec (a b : alut) : {a = b} + {a <> b}.
Proof. decide equality. Defined.
Definition alut_eqb (a b : alut) : bool := if alut_eq_dec a b then true else false.

(** enum ir_vr_type, bpf_ir.h 464-470 *)
Inductive vrt := VR_UNKNOWN | VR_8 | VR_16 | VR_32 | VR_64.

(** enum ir_builtin_constant *)
Inductive bconst := B_NONE | B_INSN_COUNT | B_CRITICAL_INSN_COUNT.

(** struct ir_vr_pos, bpf_ir.h 417-423: spilled = 0 means "in register alloc_reg". *)
Record vrpos := mkPos { vp_alloc : bool; vp_size : Z; vp_reg : Z; vp_spilled : Z }.

(** struct ir_value with the union resolved by the type tag (bpf_ir.h 430-441).
    [VRawOff]/[VRawOffRev] are IR_VALUE_CONSTANT_RAWOFF/_REV. *)
Inductive vdata : Type :=
| VConst (c : Z)
| VRawOff (c : Z)
| VRawOffRev (c : Z)
| VInsn (i : nat)
| VFlat (p : vrpos)
| VUndef.

Record value := mkVal { v_data : vdata; v_ct : alut; v_bi : bconst }.

(** value_base and the constructors, core/ir_value.c 38-105.  The s32 parameter of
    bpf_ir_value_const32 is a C conversion: callers in the model pass an s32 already or wrap. *)
Definition val_insn (i : nat) : value := mkVal (VInsn i) A_UNKNOWN B_NONE.
Definition val_pos (p : vrpos) : value := mkVal (VFlat p) A_UNKNOWN B_NONE.
Definition val_undef : value := mkVal VUndef A_UNKNOWN B_NONE.
Definition val_const32 (c : Z) : value := mkVal (VConst c) A_32 B_NONE.
Definition val_const64 (c : Z) : value := mkVal (VConst c) A_64 B_NONE.
Definition val_rawoff32 (c : Z) : value := mkVal (VRawOff c) A_32 B_NONE.
Definition val_rawoff64 (c : Z) : value := mkVal (VRawOff c) A_64 B_NONE.

(** enum ir_value_type as far as address offsets use it (offset_type) *)
Inductive offt := O_CONST | O_RAWOFF | O_RAWOFF_REV.

(** struct ir_address_value, bpf_ir.h 446-451 *)
Record addrval := mkAddr { a_val : value; a_off : Z; a_ot : offt }.

(** bpf_ir_addr_val, core/ir_value.c 107-112 *)
Definition addr_val (v : value) (off : Z) : addrval := mkAddr v off O_CONST.

(** struct ir_insn, bpf_ir.h 533-583.  [i_vals] is the prefix of values[] of length value_num.
    [i_u] is the anonymous union (fid, fun_arg_id, reg_id, array_num, swap_width).
    [i_phi] is the phi array (value, incoming block). *)
Record insn := mkInsn {
  i_op : iop;
  i_vals : list value;
  i_vrt : vrt;
  i_addr : addrval;
  i_alu : alut;
  i_bb1 : nat;
  i_bb2 : nat;
  i_phi : list (value * nat);
  i_u : Z;
  i_ity : Z;
  i_imm64 : Z;
  i_parent : nat;
  i_users : list nat
}.

(** A zeroed instruction (malloc_proto zeroes), core/ir_insn.c 5-18.  Enum values 0: op = ALLOC,
    vr_type = UNKNOWN, alu_op = UNKNOWN; null block pointers are block 0, which is never used as
    a block identifier. *)
Definition insn0 (bb : nat) : insn :=
  mkInsn ALLOC [] VR_UNKNOWN (mkAddr (mkVal (VConst 0) A_UNKNOWN B_NONE) 0 O_CONST) A_UNKNOWN
         0 0 [] 0 0 0 bb [].

Definition set_op (o : iop) (i : insn) : insn :=
  mkInsn o (i_vals i) (i_vrt i) (i_addr i) (i_alu i) (i_bb1 i) (i_bb2 i) (i_phi i) (i_u i)
         (i_ity i) (i_imm64 i) (i_parent i) (i_users i).
Definition set_vals (v : list value) (i : insn) : insn :=
  mkInsn (i_op i) v (i_vrt i) (i_addr i) (i_alu i) (i_bb1 i) (i_bb2 i) (i_phi i) (i_u i)
         (i_ity i) (i_imm64 i) (i_parent i) (i_users i).
Definition set_vrt (t : vrt) (i : insn) : insn :=
  mkInsn (i_op i) (i_vals i) t (i_addr i) (i_alu i) (i_bb1 i) (i_bb2 i) (i_phi i) (i_u i)
         (i_ity i) (i_imm64 i) (i_parent i) (i_users i).
Definition set_addr (a : addrval) (i : insn) : insn :=
  mkInsn (i_op i) (i_vals i) (i_vrt i) a (i_alu i) (i_bb1 i) (i_bb2 i) (i_phi i) (i_u i)
         (i_ity i) (i_imm64 i) (i_parent i) (i_users i).
Definition set_alu (a : alut) (i : insn) : insn :=
  mkInsn (i_op i) (i_vals i) (i_vrt i) (i_addr i) a (i_bb1 i) (i_bb2 i) (i_phi i) (i_u i)
         (i_ity i) (i_imm64 i) (i_parent i) (i_users i).
Definition set_bb1 (b : nat) (i : insn) : insn :=
  mkInsn (i_op i) (i_vals i) (i_vrt i) (i_addr i) (i_alu i) b (i_bb2 i) (i_phi i) (i_u i)
         (i_ity i) (i_imm64 i) (i_parent i) (i_users i).
Definition set_bb2 (b : nat) (i : insn) : insn :=
  mkInsn (i_op i) (i_vals i) (i_vrt i) (i_addr i) (i_alu i) (i_bb1 i) b (i_phi i) (i_u i)
         (i_ity i) (i_imm64 i) (i_parent i) (i_users i).
Definition set_phi (l : list (value * nat)) (i : insn) : insn :=
  mkInsn (i_op i) (i_vals i) (i_vrt i) (i_addr i) (i_alu i) (i_bb1 i) (i_bb2 i) l (i_u i)
         (i_ity i) (i_imm64 i) (i_parent i) (i_users i).
Definition set_u (u : Z) (i : insn) : insn :=
  mkInsn (i_op i) (i_vals i) (i_vrt i) (i_addr i) (i_alu i) (i_bb1 i) (i_bb2 i) (i_phi i) u
         (i_ity i) (i_imm64 i) (i_parent i) (i_users i).
Definition set_imm (ty imm : Z) (i : insn) : insn :=
  mkInsn (i_op i) (i_vals i) (i_vrt i) (i_addr i) (i_alu i) (i_bb1 i) (i_bb2 i) (i_phi i) (i_u i)
         ty imm (i_parent i) (i_users i).
Definition set_parent (b : nat) (i : insn) : insn :=
  mkInsn (i_op i) (i_vals i) (i_vrt i) (i_addr i) (i_alu i) (i_bb1 i) (i_bb2 i) (i_phi i) (i_u i)
         (i_ity i) (i_imm64 i) b (i_users i).
Definition set_users (u : list nat) (i : insn) : insn :=
  mkInsn (i_op i) (i_vals i) (i_vrt i) (i_addr i) (i_alu i) (i_bb1 i) (i_bb2 i) (i_phi i) (i_u i)
         (i_ity i) (i_imm64 i) (i_parent i) u.

(** struct ir_basic_block, bpf_ir.h 592-608: instruction list, predecessors, successors, flag. *)
Record block := mkBlock {
  b_insns : list nat; b_preds : list nat; b_succs : list nat; b_flag : Z }.

Definition set_insns (l : list nat) (b : block) : block :=
  mkBlock l (b_preds b) (b_succs b) (b_flag b).
Definition set_preds (l : list nat) (b : block) : block :=
  mkBlock (b_insns b) l (b_succs b) (b_flag b).
Definition set_succs (l : list nat) (b : block) : block :=
  mkBlock (b_insns b) (b_preds b) l (b_flag b).

(** A function body: the heap of live instructions and blocks ([None] = never allocated or
    freed), the next fresh identifiers and all_bbs (struct ir_function, bpf_ir.h 630-652). *)
Record func := mkFunc {
  f_insn : nat -> option insn;
  f_block : nat -> option block;
  f_ni : nat;
  f_nb : nat;
  f_all : list nat;
  f_entry : nat }.

Definition upd {A} (m : nat -> A) (k : nat) (v : A) : nat -> A :=
  fun x => if (x =? k)%nat then v else m x.

Definition with_insn (m : nat -> option insn) (f : func) : func :=
  mkFunc m (f_block f) (f_ni f) (f_nb f) (f_all f) (f_entry f).
Definition with_block (m : nat -> option block) (f : func) : func :=
  mkFunc (f_insn f) m (f_ni f) (f_nb f) (f_all f) (f_entry f).

(** Dereferencing a pointer: a freed or wild pointer is undefined behaviour. *)
Definition get_insn (f : func) (i : nat) : outcome insn :=
  match f_insn f i with Some x => Ok x | None => UB end.
Definition get_block (f : func) (b : nat) : outcome block :=
  match f_block f b with Some x => Ok x | None => UB end.
Definition put_insn (f : func) (i : nat) (x : insn) : func :=
  with_insn (upd (f_insn f) i (Some x)) f.
Definition put_block (f : func) (b : nat) (x : block) : func :=
  with_block (upd (f_block f) b (Some x)) f.
