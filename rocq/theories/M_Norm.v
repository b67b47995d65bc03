(** Model of the last phase of the code generator, core/ir_cg_norm.c: normalisation of the
    flattened IR and translation to bytecode.  Definitions only.

    After flattening no operand refers to an instruction any more, so a block is just a list of
    instructions, each with the position of its result (struct ir_insn_norm_extra.pos, ir_cg.h
    60-68).  Freeing of memory is not modelled. *)
From Verif Require Import M_Base M_Ir M_Edit.
From Verif Require Import SpecWord SpecIsa.
Open Scope Z_scope.

Record ninsn := mkN { n_i : insn; n_pos : vrpos }.
(** One reachable block: its identity, whether it carries IR_BB_HAS_COUNTER, its predecessors
    and its instructions.  A program is fun->reachable_bbs. *)
Record nblock := mkNB { nb_id : nat; nb_counter : bool; nb_preds : list nat; nb_insns : list ninsn }.
Definition nprog := list nblock.

(** enum val_type, ir_cg.h 106-112 *)
Inductive val_type := T_UNDEF | T_REG | T_CONST | T_STACK.
Definition vt_eqb (a b : val_type) : bool :=
  match a, b with
  | T_UNDEF, T_UNDEF | T_REG, T_REG | T_CONST, T_CONST | T_STACK, T_STACK => true
  | _, _ => false
  end.

(** vtype_insn_norm, 40-53, on a position *)
Definition vtype_pos (p : vrpos) : val_type :=
  if vp_alloc p then (if vp_spilled p =? 0 then T_REG else T_STACK) else T_UNDEF.
(** vtype, 18-38 *)
Definition vtype (v : value) : outcome val_type :=
  match v_data v with
  | VFlat p => Ok (vtype_pos p)
  | VConst _ | VRawOff _ | VRawOffRev _ => Ok T_CONST
  | _ => Crit
  end.
(** data.constant_d of a constant *)
Definition const_d (v : value) : Z :=
  match v_data v with VConst c | VRawOff c | VRawOffRev c => c | _ => 0 end.
(** data.vr_pos of a flattened value *)
Definition flat_pos (v : value) : vrpos :=
  match v_data v with VFlat p => p | _ => mkPos false 0 0 0 end.
Definition reg_of (v : value) : Z := vp_reg (flat_pos v).

(** insn->values[k] and "value_num >= k+1 ? vtype(..) : UNDEF" *)
Definition val_k (x : insn) (k : nat) : value := nth k (i_vals x) val_undef.
Definition vt_k (x : insn) (k : nat) : outcome val_type :=
  match nth_error (i_vals x) k with Some v => vtype v | None => Ok T_UNDEF end.
Definition set_val_k (k : nat) (v : value) (x : insn) : insn := set_vals (set_nth k v (i_vals x)) x.

(** VR_POS_STACK_PTR, bpf_ir.h 1134-1138; bpf_ir_value_norm_stack_ptr, ir_value.c 124-127 *)
Definition sp_pos : vrpos := mkPos true 0 10 0.
Definition val_sp : value := val_pos sp_pos.

Definition assertb (b : bool) : outcome unit := if b then Ok tt else Crit.

(** bpf_ir_create_assign_insn_norm (ir_insn.c 693-706, 1239-1250), ..._neg_... (458-471),
    ..._bin_... (559-573), ..._loadimmextra_... (417-427): a zeroed instruction with the result
    position; all callers insert it in front of the current instruction. *)
Definition mk_assign (p : vrpos) (v : value) : ninsn :=
  mkN (set_vals [v] (set_op ASSIGN (insn0 0))) p.
Definition mk_neg (p : vrpos) (a : alut) (v : value) : ninsn :=
  mkN (set_alu a (set_vals [v] (set_op NEG (insn0 0)))) p.
Definition mk_bin (p : vrpos) (v1 v2 : value) (o : iop) (a : alut) : ninsn :=
  mkN (set_alu a (set_vals [v1; v2] (set_op o (insn0 0)))) p.
Definition mk_loadimm (p : vrpos) (ty imm : Z) : ninsn :=
  mkN (set_imm ty imm (set_op LOADIMM_EXTRA (insn0 0))) p.

Definition set_ivr (t : vrt) (n : ninsn) : ninsn := mkN (set_vrt t (n_i n)) (n_pos n).
Definition set_ialu (a : alut) (n : ninsn) : ninsn := mkN (set_alu a (n_i n)) (n_pos n).

(** normalize_load_const, 186-205: the inserted instruction (the operand becomes [val_pos dst]) *)
Definition load_const (v : value) (dst : vrpos) : ninsn :=
  match v_ct v with
  | A_32 => set_ialu A_64 (mk_assign dst v)
  | _ => set_ivr VR_64 (mk_loadimm dst 0 (const_d v))
  end.

(** normalize_assign, 207-248.  [[]] when the instruction is erased. *)
Definition normalize_assign (n : ninsn) : outcome (list ninsn) :=
  let x := n_i n in
  let v0 := val_k x 0 in
  do t0 <- vt_k x 0;
  let tdst := vtype_pos (n_pos n) in
  match tdst with
  | T_STACK =>
    do _ <- assertb (negb (vt_eqb t0 T_STACK));
    Ok [mkN (set_vrt VR_64 (set_addr (mkAddr val_sp (s16 (vp_spilled (n_pos n))) (a_ot (i_addr x)))
               (set_op STORERAW x))) (n_pos n)]
  | _ =>
    let x1 := if vt_eqb t0 T_STACK
              then set_addr (mkAddr val_sp (s16 (vp_spilled (flat_pos v0))) (a_ot (i_addr x))) (set_op LOADRAW x)
              else x in
    let x2 := if vt_eqb t0 T_CONST && alut_eqb (v_ct v0) A_64
              then set_imm 0 (const_d v0) (set_op LOADIMM_EXTRA x1)
              else x1 in
    if vt_eqb tdst T_REG && vt_eqb t0 T_REG && (vp_reg (n_pos n) =? reg_of v0)
    then Ok [] else Ok [mkN x2 (n_pos n)]
  end.

(** the operator after exchanging the operands, 279-299 *)
Definition swap_jmp (o : iop) : option iop :=
  match o with
  | JGT => Some JLT | JEQ => Some JEQ | JNE => Some JNE | JLT => Some JGT | JGE => Some JLE
  | JLE => Some JGE | JSGE => Some JSLE | JSLE => Some JSGE | JSGT => Some JSLT | JSLT => Some JSGT
  | _ => None
  end.

(** normalize_cond_jmp, 250-304 *)
Definition normalize_cond_jmp (n : ninsn) : outcome (list ninsn) :=
  let x := n_i n in
  let v0 := val_k x 0 in let v1 := val_k x 1 in
  do t0 <- vt_k x 0; do t1 <- vt_k x 1;
  if vt_eqb t0 T_CONST then
    if vt_eqb t1 T_CONST then
      if iop_eqb (i_op x) JNE then
        if negb (const_d v0 =? const_d v1)
        then Ok [mkN (set_bb2 0%nat (set_bb1 (i_bb2 x) (set_vals [] (set_op JA x)))) (n_pos n)]
        else Ok []
      else Err
    else
      match swap_jmp (i_op x) with
      | None => Err
      | Some o => Ok [mkN (set_val_k 1 v0 (set_val_k 0 v1 (set_op o x))) (n_pos n)]
      end
  else Ok [n].

(** normalize_alu, 306-415 *)
Definition normalize_alu (n : ninsn) : outcome (list ninsn) :=
  let x := n_i n in
  let dst := n_pos n in
  let v0 := val_k x 0 in let v1 := val_k x 1 in
  do t0 <- vt_k x 0; do t1 <- vt_k x 1;
  do _ <- assertb (vt_eqb (vtype_pos dst) T_REG);
  (* 316-347: the result register is the second operand *)
  do r <- (if vt_eqb t1 T_REG && (vp_reg dst =? reg_of v1) then
             if is_commutative_op (i_op x) then Ok ([], i_op x, v1, v0, t1, t0)
             else if iop_eqb (i_op x) SUB then Ok ([mk_neg dst A_64 v1], ADD, v1, v0, t1, t0)
             else Err
           else Ok ([], i_op x, v0, v1, t0, t1));
  let '(pre, o, v0, v1, t0, t1) := r in
  do _ <- assertb (negb (vt_eqb t0 T_CONST) || alut_eqb (v_ct v0) A_32);
  do _ <- assertb (negb (vt_eqb t1 T_CONST) || alut_eqb (v_ct v1) A_32);
  let fin v0' := mkN (set_val_k 1 v1 (set_val_k 0 v0' (set_op o x))) dst in
  match t0, t1 with
  | T_STACK, T_CONST | T_STACK, T_REG =>
      do l <- normalize_assign (set_ivr VR_64 (mk_assign dst v0));
      Ok (pre ++ l ++ [fin (val_pos dst)])
  | T_REG, T_REG | T_REG, T_CONST =>
      if vp_reg dst =? reg_of v0 then Ok (pre ++ [fin v0])
      else Ok (pre ++ [mk_assign dst v0; fin (val_pos dst)])
  | T_CONST, T_CONST | T_CONST, T_REG =>
      Ok (pre ++ [load_const v0 dst; fin (val_pos dst)])
  | _, _ => Crit
  end.

(** normalize_getelemptr, 417-474 *)
Definition normalize_getelemptr (n : ninsn) : outcome (list ninsn) :=
  let x := n_i n in
  let dst := n_pos n in
  let v0 := val_k x 0 in let v1 := val_k x 1 in
  do t0 <- vt_k x 0; do t1 <- vt_k x 1;
  do _ <- assertb (vt_eqb t1 T_STACK);
  do _ <- assertb (vt_eqb (vtype_pos dst) T_REG);
  let spill := vp_spilled (flat_pos v1) in
  let x1 := set_alu A_64 (set_op ADD x) in
  match t0 with
  | T_CONST =>
      do _ <- assertb (alut_eqb (v_ct v0) A_32);
      let tmp := const_d v0 + spill in
      let '(o, k) := if tmp <? 0 then (SUB, - tmp) else (ADD, tmp) in
      normalize_alu (mkN (set_val_k 1 (val_const32 (s32 k)) (set_val_k 0 val_sp (set_op o x1))) dst)
  | T_REG =>
      let last := mkN (set_val_k 1 (val_const32 spill) (set_val_k 0 (val_pos dst) x1)) dst in
      let addsp := mk_bin dst (val_pos dst) val_sp ADD A_64 in
      if reg_of v0 =? vp_reg dst then Ok [addsp; last]
      else Ok [mk_assign dst v0; addsp; last]
  | _ => Ok [mkN x1 dst]
  end.

(** normalize_store, 476-488 *)
Definition normalize_store (n : ninsn) : outcome (list ninsn) :=
  let x := n_i n in
  normalize_assign (mkN (set_vals [val_k x 1] (set_op ASSIGN x)) (flat_pos (val_k x 0))).

(** normalize_load, 490-500 *)
Definition normalize_load (n : ninsn) : outcome (list ninsn) :=
  normalize_assign (mkN (set_op ASSIGN (n_i n)) (n_pos n)).

(** normalize_stackoff, 502-515 *)
Definition normalize_stackoff (n : ninsn) : outcome (list ninsn) :=
  let x := n_i n in
  do t <- vtype (a_val (i_addr x));
  if vt_eqb t T_STACK
  then Ok [mkN (set_addr (mkAddr val_sp (s16 (a_off (i_addr x) + vp_spilled (flat_pos (a_val (i_addr x)))))
                   (a_ot (i_addr x))) x) (n_pos n)]
  else Ok [n].

(** normalize_neg, 517-545, and normalize_end, 547-575 (the same code) *)
Definition normalize_unary (n : ninsn) : outcome (list ninsn) :=
  let x := n_i n in
  let dst := n_pos n in
  let v0 := val_k x 0 in
  do t0 <- vt_k x 0;
  do _ <- assertb (vt_eqb (vtype_pos dst) T_REG);
  match t0 with
  | T_REG => if reg_of v0 =? vp_reg dst then Ok [n]
             else Ok [mk_assign dst v0; mkN (set_val_k 0 (val_pos dst) x) dst]
  | T_CONST => Err
  | T_STACK => Ok [set_ivr VR_64 (mk_assign dst v0); mkN (set_val_k 0 (val_pos dst) x) dst]
  | T_UNDEF => Ok [n]
  end.

(** normalize_ret, 577-596 *)
Definition normalize_ret (n : ninsn) : outcome (list ninsn) :=
  let x := n_i n in
  match i_vals x with
  | [] => Ok [n]
  | v0 :: _ =>
    do t0 <- vtype v0;
    do _ <- assertb (vt_eqb t0 T_REG || vt_eqb t0 T_CONST);
    Ok [set_ivr VR_64 (mk_assign (mkPos true 0 0 0) v0); mkN (set_vals [] x) (n_pos n)]
  end.

(** the dispatch of normalize, 598-651 *)
Definition normalize_one (n : ninsn) : outcome (list ninsn) :=
  let o := i_op (n_i n) in
  match o with
  | ALLOC | ALLOCARRAY | LOADIMM_EXTRA | CALL | JA => Ok [n]
  | GETELEMPTR => normalize_getelemptr n
  | STORE => normalize_store n
  | LOAD => normalize_load n
  | LOADRAW | STORERAW => normalize_stackoff n
  | NEG | HTOLE | HTOBE => normalize_unary n
  | ASSIGN => normalize_assign n
  | RET => normalize_ret n
  | _ => if is_bin_alu_op o then normalize_alu n
         else if is_cond_jmp_op o then normalize_cond_jmp n
         else Err
  end.

(** Running an instruction transformer over a block: inserted instructions go in front of the
    current one and are not visited (list_for_each_entry_safe). *)
Fixpoint oflat {A B} (f : A -> outcome (list B)) (l : list A) : outcome (list B) :=
  match l with
  | [] => Ok []
  | a :: r => do x <- f a; do y <- oflat f r; Ok (x ++ y)
  end.
Fixpoint omap {A B} (f : A -> outcome B) (l : list A) : outcome (list B) :=
  match l with
  | [] => Ok []
  | a :: r => do x <- f a; do y <- omap f r; Ok (x :: y)
  end.

Definition set_nb (l : list ninsn) (b : nblock) : nblock := mkNB (nb_id b) (nb_counter b) (nb_preds b) l.
Definition normalize (p : nprog) : outcome nprog :=
  omap (fun b => do l <- oflat normalize_one (nb_insns b); Ok (set_nb l b)) p.

(** bb_insn_cnt, 1084-1097 *)
Definition insn_cnt (b : nblock) : Z :=
  Z.of_nat (length (filter (fun n => negb (iop_eqb (i_op (n_i n)) ALLOC || iop_eqb (i_op (n_i n)) ALLOCARRAY))
                           (nb_insns b))).
Definition find_nb (p : nprog) (id : nat) : option nblock := find (fun b => Nat.eqb (nb_id b) id) p.
(** bb_insn_critical_cnt, 1099-1115.  Fuelled: the loop does not terminate on a cycle of blocks with
    one predecessor each. *)
Fixpoint critical_loop (fuel : nat) (p : nprog) (b : nblock) (cnt : Z) : outcome Z :=
  match fuel with
  | O => NoFuel
  | S k =>
    match nb_preds b with
    | [q] => match find_nb p q with
             | None => UB
             | Some c => if nb_counter c then Ok cnt else critical_loop k p c (cnt + insn_cnt c)
             end
    | _ => Ok cnt
    end
  end.
Definition critical_cnt (fuel : nat) (p : nprog) (b : nblock) : outcome Z :=
  critical_loop fuel p b (insn_cnt b).

(** replace_builtin_const, 1117-1149 *)
Definition replace_val (fuel : nat) (p : nprog) (b : nblock) (v : value) : outcome value :=
  match v_data v with
  | VConst _ =>
    match v_bi v with
    | B_NONE => Ok v
    | B_INSN_COUNT => Ok (mkVal (VConst (insn_cnt b)) (v_ct v) (v_bi v))
    | B_CRITICAL_INSN_COUNT => do c <- critical_cnt fuel p b; Ok (mkVal (VConst c) (v_ct v) (v_bi v))
    end
  | _ => Ok v
  end.
Definition replace_insn (fuel : nat) (p : nprog) (b : nblock) (n : ninsn) : outcome ninsn :=
  let x := n_i n in
  do vs <- omap (replace_val fuel p b) (i_vals x);
  do ph <- omap (fun e => do v <- replace_val fuel p b (fst e); Ok (v, snd e)) (i_phi x);
  let x1 := if iop_eqb (i_op x) PHI then set_phi ph (set_vals vs x) else set_vals vs x in
  if iop_eqb (i_op x) LOADRAW || iop_eqb (i_op x) STORERAW
  then do a <- replace_val fuel p b (a_val (i_addr x));
       Ok (mkN (set_addr (mkAddr a (a_off (i_addr x)) (a_ot (i_addr x))) x1) (n_pos n))
  else Ok (mkN x1 (n_pos n)).
Definition replace_builtin (fuel : nat) (p : nprog) : outcome nprog :=
  omap (fun b => do l <- omap (replace_insn fuel p b) (nb_insns b); Ok (set_nb l b)) p.

(** ** Translation *)

(** struct pre_ir_insn, ir.h 56-68; [p_wide] is it == IMM64 *)
Record preinsn := mkPre { p_op : Z; p_dst : Z; p_src : Z; p_off : Z; p_wide : bool; p_imm : Z; p_imm64 : Z }.
Definition pre0 : preinsn := mkPre 0 0 0 0 false 0 0.

(** vr_type_to_size, 687-701: BPF_W 0x00, BPF_H 0x08, BPF_B 0x10, BPF_DW 0x18 *)
Definition vr_size (t : vrt) : outcome Z :=
  match t with VR_32 => Ok 0 | VR_16 => Ok 8 | VR_8 => Ok 16 | VR_64 => Ok 24 | VR_UNKNOWN => Crit end.

(** alu_code, 767-797 *)
Definition alu_code (o : iop) : outcome Z :=
  match o with
  | NEG => Ok 128 | ADD => Ok 0 | SUB => Ok 16 | MUL => Ok 32 | DIV => Ok 48 | OR => Ok 64 | AND => Ok 80
  | MOD => Ok 144 | XOR => Ok 160 | LSH => Ok 96 | ARSH => Ok 192 | RSH => Ok 112
  | _ => Crit
  end.
(** jmp_code, 799-827 *)
Definition jmp_code (o : iop) : outcome Z :=
  match o with
  | JA => Ok 0 | JEQ => Ok 16 | JNE => Ok 80 | JLT => Ok 160 | JLE => Ok 176 | JGT => Ok 32 | JGE => Ok 48
  | JSGE => Ok 112 | JSLE => Ok 208 | JSGT => Ok 96 | JSLT => Ok 192
  | _ => Crit
  end.
(** alu_class in 835, 844, 863 (BPF_ALU64 7 / BPF_ALU 4) and 876, 886 (BPF_JMP 5 / BPF_JMP32 6) *)
Definition alu_class (a : alut) : Z := match a with A_64 => 7 | _ => 4 end.
Definition jmp_class (a : alut) : Z := match a with A_64 => 5 | _ => 6 end.

(** translate_loadraw, 898-905, with load_addr_to_reg, 703-729 *)
Definition tr_loadraw (n : ninsn) : outcome (list preinsn) :=
  let x := n_i n in
  do _ <- assertb (vt_eqb (vtype_pos (n_pos n)) T_REG);
  do size <- vr_size (i_vrt x);
  let dst := vp_reg (n_pos n) in
  let a := a_val (i_addr x) in
  match v_data a with
  | VFlat p => do _ <- assertb (vt_eqb (vtype_pos p) T_REG);
               Ok [mkPre (1 + size + 96) dst (vp_reg p) (a_off (i_addr x)) false 0 0]
  | VConst c => Ok [mkPre size dst 0 (a_off (i_addr x)) true 0 c]
  | _ => Crit
  end.

(** translate_loadimm_extra, 907-919 *)
Definition tr_loadimm (n : ninsn) : outcome (list preinsn) :=
  let x := n_i n in
  do _ <- assertb (vt_eqb (vtype_pos (n_pos n)) T_REG);
  do _ <- assertb (i_ity x <=? 6);
  Ok [mkPre 24 (vp_reg (n_pos n)) (i_ity x) 0 true 0 (i_imm64 x)].

(** translate_storeraw, 921-947, with store_reg_to_reg_mem, 731-741, store_const_to_reg_mem, 743-754 *)
Definition tr_storeraw (n : ninsn) : outcome (list preinsn) :=
  let x := n_i n in
  do t0 <- vt_k x 0;
  match v_data (a_val (i_addr x)) with
  | VFlat p =>
    do _ <- assertb (vt_eqb (vtype_pos p) T_REG);
    match t0 with
    | T_REG => do size <- vr_size (i_vrt x);
               Ok [mkPre (3 + size + 96) (vp_reg p) (reg_of (val_k x 0)) (a_off (i_addr x)) false 0 0]
    | T_CONST => do size <- vr_size (i_vrt x);
                 Ok [mkPre (2 + size + 96) (vp_reg p) 0 (a_off (i_addr x)) false (s32 (const_d (val_k x 0))) 0]
    | _ => Crit
    end
  | _ => Crit
  end.

(** translate_alu, 949-976, with alu_reg, 829-838, alu_imm, 858-868 *)
Definition tr_alu (n : ninsn) : outcome (list preinsn) :=
  let x := n_i n in
  let dst := vp_reg (n_pos n) in
  let v1 := val_k x 1 in
  do t0 <- vt_k x 0; do t1 <- vt_k x 1;
  do _ <- assertb (vt_eqb (vtype_pos (n_pos n)) T_REG);
  do _ <- assertb (vt_eqb t0 T_REG);
  do _ <- assertb (dst =? reg_of (val_k x 0));
  match t1 with
  | T_REG => do c <- alu_code (i_op x);
             Ok [mkPre (c + 8 + alu_class (i_alu x)) dst (reg_of v1) 0 false 0 0]
  | T_CONST =>
      if iop_eqb (i_op x) ADD && (const_d v1 =? 0) then Ok []
      else do c <- alu_code (i_op x);
           Ok [mkPre (c + alu_class (i_alu x)) dst 0 0 false (s32 (const_d v1)) 0]
  | _ => Crit
  end.

(** translate_assign, 978-1001, with translate_reg_to_reg, 660-669, translate_const_to_reg, 671-685 *)
Definition tr_assign (n : ninsn) : outcome (list preinsn) :=
  let x := n_i n in
  let dst := vp_reg (n_pos n) in
  do t0 <- vt_k x 0;
  match vtype_pos (n_pos n), t0 with
  | T_REG, T_CONST =>
      Ok [mkPre (176 + match i_alu x with A_32 => 4 | _ => 7 end) dst 0 0 false (s32 (const_d (val_k x 0))) 0]
  | T_REG, T_REG =>
      if dst =? reg_of (val_k x 0) then Ok []
      else Ok [mkPre (176 + 8 + 7) dst (reg_of (val_k x 0)) 0 false 0 0]
  | _, _ => Crit
  end.

(** translate_neg, 1024-1033, alu_neg 840-847; translate_end, 1035-1046, alu_end 849-856, end_code 756-765 *)
Definition tr_neg (n : ninsn) : outcome (list preinsn) :=
  let x := n_i n in
  do t0 <- vt_k x 0;
  do _ <- assertb (vt_eqb (vtype_pos (n_pos n)) T_REG && vt_eqb t0 T_REG);
  do _ <- assertb (vp_reg (n_pos n) =? reg_of (val_k x 0));
  Ok [mkPre (128 + alu_class (i_alu x)) (vp_reg (n_pos n)) 0 0 false 0 0].
Definition tr_end (n : ninsn) : outcome (list preinsn) :=
  let x := n_i n in
  do t0 <- vt_k x 0;
  do _ <- assertb (vt_eqb (vtype_pos (n_pos n)) T_REG && vt_eqb t0 T_REG);
  do _ <- assertb (vp_reg (n_pos n) =? reg_of (val_k x 0));
  Ok [mkPre (match i_op x with HTOBE => 8 | _ => 0 end + 208 + 4) (vp_reg (n_pos n)) 0 0 false (s32 (i_u x)) 0].

(** translate_cond_jmp, 1048-1082, with cond_jmp_reg, 870-879, cond_jmp_imm, 881-891 *)
Definition tr_cond_jmp (n : ninsn) : outcome (list preinsn) :=
  let x := n_i n in
  let v0 := val_k x 0 in let v1 := val_k x 1 in
  do t0 <- vt_k x 0; do t1 <- vt_k x 1;
  match t0, t1 with
  | T_REG, T_REG => do c <- jmp_code (i_op x);
      Ok [mkPre (c + jmp_class (i_alu x) + 8) (reg_of v0) (reg_of v1) 0 false 0 0]
  | T_REG, T_CONST =>
      match v_ct v1 with
      | A_64 => Crit
      | _ => do c <- jmp_code (i_op x);
             Ok [mkPre (c + jmp_class (i_alu x)) (reg_of v0) 0 0 false (s32 (const_d v1)) 0]
      end
  | _, _ => Crit
  end.

(** the dispatch of translate, 1170-1221: the pre-instructions in translated[0 .. translated_num).
    translate_ret 1003-1007, translate_call 1009-1016, translate_ja 1018-1022. *)
Definition translate_one (n : ninsn) : outcome (list preinsn) :=
  let x := n_i n in
  let o := i_op x in
  match o with
  | ALLOC | ALLOCARRAY => Ok []
  | STORE | LOAD | GETELEMPTR => Crit
  | LOADRAW => tr_loadraw n
  | LOADIMM_EXTRA => tr_loadimm n
  | STORERAW => tr_storeraw n
  | NEG => tr_neg n
  | HTOLE | HTOBE => tr_end n
  | ASSIGN => tr_assign n
  | RET => Ok [mkPre 149 0 0 0 false 0 0]
  | CALL => Ok [mkPre 133 0 0 0 false (i_u x) 0]
  | JA => Ok [mkPre 5 0 0 0 false 0 0]
  | _ => if is_bin_alu_op o then tr_alu n
         else if is_cond_jmp_op o then tr_cond_jmp n
         else Err
  end.

(** An instruction together with its translation. *)
Definition tinsn := (ninsn * list preinsn)%type.
Definition tblock := (nat * list tinsn)%type.
Definition translate (p : nprog) : outcome (list tblock) :=
  omap (fun b => do l <- omap (fun n => do t <- translate_one n; Ok (n, t)) (nb_insns b); Ok (nb_id b, l)) p.

(** check_total_insn, 1151-1168 (the u32 counter does not wrap before 10^6 is exceeded unless there are
    2^32 instructions; the model uses an unbounded counter) *)
Definition total_insn (t : list tblock) : Z :=
  fold_right (fun b a => fold_right (fun i c => Z.of_nat (length (snd i)) + c) 0 (snd b) + a) 0 t.
Definition check_total (t : list tblock) : outcome unit :=
  if 1000000 <=? total_insn t then Err else Ok tt.

(** calc_pos, 1223-1251: number of slots of a translation, positions of blocks and of the end.
    Positions are accumulated as in the C; size_t is not assumed to wrap. *)
Definition slots (t : preinsn) : Z := if p_wide t then 2 else 1.
Fixpoint slots_list (l : list preinsn) : Z :=
  match l with [] => 0 | t :: r => slots t + slots_list r end.
Fixpoint slots_insns (l : list tinsn) : Z :=
  match l with [] => 0 | i :: r => slots_list (snd i) + slots_insns r end.
(** bb_extra->pos for each block, in order *)
Fixpoint block_pos (t : list tblock) (ipos : Z) : list (nat * Z) :=
  match t with [] => [] | b :: r => (fst b, ipos) :: block_pos r (ipos + slots_insns (snd b)) end.
Definition total_slots (t : list tblock) : Z := fold_right (fun b a => slots_insns (snd b) + a) 0 t.
Definition pos_of (bp : list (nat * Z)) (b : nat) : option Z :=
  match find (fun e => Nat.eqb (fst e) b) bp with Some e => Some (snd e) | None => None end.

(** relocate, 1253-1279, on the instruction whose first slot is at [ipos] *)
Definition set_off (o : Z) (t : preinsn) : preinsn :=
  mkPre (p_op t) (p_dst t) (p_src t) o (p_wide t) (p_imm t) (p_imm64 t).
Definition relocate_one (bp : list (nat * Z)) (ipos : Z) (i : tinsn) : outcome (list preinsn) :=
  let x := n_i (fst i) in
  let tgt := if iop_eqb (i_op x) JA then Some (i_bb1 x)
             else if is_cond_jmp_op (i_op x) then Some (i_bb2 x) else None in
  match tgt with
  | None => Ok (snd i)
  | Some b =>
    match snd i with
    | [t] => match pos_of bp b with
             | Some target => Ok [set_off (s16 (target - ipos - 1)) t]
             | None => UB                      (* block without code-generation data *)
             end
    | _ => Crit                                (* DBGASSERT(translated_num == 1) *)
    end
  end.
Fixpoint relocate_insns (bp : list (nat * Z)) (ipos : Z) (l : list tinsn) : outcome (list preinsn) :=
  match l with
  | [] => Ok []
  | i :: r => do a <- relocate_one bp ipos i;
              do b <- relocate_insns bp (ipos + slots_list (snd i)) r; Ok (a ++ b)
  end.
Fixpoint relocate_blocks (bp : list (nat * Z)) (ipos : Z) (t : list tblock) : outcome (list preinsn) :=
  match t with
  | [] => Ok []
  | b :: r => do x <- relocate_insns bp ipos (snd b);
              do y <- relocate_blocks bp (ipos + slots_insns (snd b)) r; Ok (x ++ y)
  end.
Definition relocate (t : list tblock) : outcome (list preinsn) := relocate_blocks (block_pos t 0) 0 t.

(** synthesize, 1281-1318.  The buffer of insn_cnt zeroed entries is written at the recorded
    positions; a write outside is undefined behaviour. *)
Definition zero_insn : bpf_insn := mkBpf 0 0 0 0 0.
Fixpoint put_slot (l : list bpf_insn) (k : nat) (v : bpf_insn) : option (list bpf_insn) :=
  match l, k with
  | [], _ => None
  | _ :: r, O => Some (v :: r)
  | x :: r, S j => match put_slot r j v with Some r' => Some (x :: r') | None => None end
  end.
Definition wput (buf : list bpf_insn) (k : Z) (v : bpf_insn) : outcome (list bpf_insn) :=
  match put_slot buf (Z.to_nat k) v with Some b => Ok b | None => UB end.
(** dst_reg and src_reg are 4-bit fields *)
Definition synth_one (buf : list bpf_insn) (pos : Z) (t : preinsn) : outcome (list bpf_insn) :=
  let first imm := mkBpf (p_op t) (p_dst t mod 16) (p_src t mod 16) (p_off t) imm in
  if p_wide t
  then do b <- wput buf pos (first (s32 (p_imm64 t)));
       (* real_insn2->imm = imm64 >> 32, the other fields keep the zeroes of the allocation *)
       wput b (pos + 1) (mkBpf 0 0 0 0 (s32 (Z.shiftr (p_imm64 t) 32)))
  else wput buf pos (first (p_imm t)).
Fixpoint synth_list (buf : list bpf_insn) (pos : Z) (l : list preinsn) : outcome (list bpf_insn) :=
  match l with
  | [] => Ok buf
  | t :: r => do b <- synth_one buf pos t; synth_list b (pos + slots t) r
  end.
Definition synthesize (total : Z) (l : list preinsn) : outcome (list bpf_insn) :=
  synth_list (repeat zero_insn (Z.to_nat total)) 0 l.

(** bpf_ir_cg_norm, 1349-1377, after flatten_ir *)
Definition cg_norm (fuel : nat) (p : nprog) : outcome (list bpf_insn) :=
  do p1 <- normalize p;
  do p2 <- replace_builtin fuel p1;
  do t <- translate p2;
  do _ <- check_total t;
  do l <- relocate t;
  synthesize (total_slots t) l.
