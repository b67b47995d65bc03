(** Model of the second stage of the lifter: SSA construction (core/bpf_ir.c 1-213, 601-1584).
    No proofs here.

    Simplifications.
    - The pre-IR block with index k (M_GenBB) and its IR block have the identifier k + 1; the
      entry block is 1.  The stack pointer is instruction 1, the function arguments are 2..6.
    - currentDef[reg] is a partial map from blocks to values: its arrays hold one entry per block
      and the order of the entries is never observed.  The entries init_tenv writes for the null
      block are never read and left out.
    - An instruction is created after its operands have been read; where the code creates it
      first only the identifier differs (reads insert at the front of blocks, never at the back).
      Operands of a binary operation are read left to right (the C order is unspecified).
    - raw_pos is dropped (debugging information).  Allocation failure is not modelled.
    - Registers are the four-bit fields of the instruction; reading or writing currentDef with
      an index above 10 is UB, so is writing values[] past MAX_FUNC_ARG. *)
From Coq Require Import ZArith List Bool Arith.
From Verif Require Import M_Base M_Ir M_Edit SpecWord SpecIsa M_GenBB.
Import ListNotations.
Open Scope nat_scope.

(** helper_func_arg_num, 5-212 *)
Definition helper_args : list Z :=
  [
0; 2; 4; 2; 3; 0; (-1); 0; 0; 5; 5; 5; 3; 3; 0; 0; 2; 1; 3; 1;
   4; 4; 2; 2; 1; 5; 4; 3; 5; 3; 3; 3; 2; 3; 1; 0; 3; 2; 3; 2;
   2; 1; 0; 3; 2; 3; 1; 1; 2; 5; 4; 3; 4; 4; 2; 4; 3; 5; 2; 2;
   4; 2; 2; 4; 3; 2; 5; 4; 5; 4; 4; 4; 4; 4; 4; 3; 4; 1; 4; 1;
   0; 2; 4; 2; 5; 5; 1; 3; 2; 2; 4; 4; 3; 1; 1; 1; 1; 1; 1; 5;
   5; 4; 3; 3; 3; 4; 4; 5; 2; 1; 5; 5; 3; 3; 3; 3; 2; 1; 0; 4;
   4; 5; 1; 1; 3; 0; 5; 3; 1; 2; 4; 3; 2; 2; 2; 2; 1; 1; 1; 1;
   1; 4; 4; 4; 3; 5; 2; 3; 3; 5; 4; 1; 4; 2; 1; 2; 5; 2; 0; 2;
   0; 3; 1; 5; 4; 5; 3; 4; 1; 3; 3; 3; 1; 1; 1; 1; 3; 4; 1; 4;
   5; 4; 3; 3; 2; 1; 0; 1; 1; 4; 4; 5; 3; 3; 2; 3; 1; 4; 4; 2;
   2; 5; 5; 3; 3; 3; 2; 2; 0; 4; 5; 2
  ]%Z.

(** struct ssa_transform_env and the mutable part of struct pre_ir_basic_block, ir.h 79-140.
    [l_err] is env->err: read_variable sets it and goes on, see CHECK_ERR in [transform]. *)
Record lst := mkL {
  l_f : func;
  l_def : Z -> nat -> option value;
  l_inc : nat -> Z -> option nat;
  l_seal : nat -> bool;
  l_fill : nat -> bool;
  l_err : bool }.

Definition with_f (g : func) (s : lst) : lst :=
  mkL g (l_def s) (l_inc s) (l_seal s) (l_fill s) (l_err s).
Definition set_err (s : lst) : lst := mkL (l_f s) (l_def s) (l_inc s) (l_seal s) (l_fill s) true.

Definition sp_id : nat := 1.
(** function_arg[reg - 1] *)
Definition arg_id (reg : Z) : nat := S (Z.to_nat reg).

(** write_variable, 644-668 *)
Definition write_var (s : lst) (reg : Z) (b : nat) (v : value) : outcome lst :=
  if ((0 <=? reg) && (reg <=? 10))%Z then
    Ok (mkL (l_f s) (fun r b' => if ((r =? reg)%Z && (b' =? b)) then Some v else l_def s r b')
            (l_inc s) (l_seal s) (l_fill s) (l_err s))
  else UB.

(** add_user, 836-842 *)
Definition use_val (g : func) (user : nat) (v : value) : outcome func :=
  match v_data v with
  | VInsn i => do x <- get_insn g i; Ok (put_insn g i (set_users (push_unique (i_users x) user) x))
  | _ => Ok g
  end.

(** create_insn + create_insn_front with op = PHI and an empty phi array, 693-722, 733-735 *)
Definition new_phi (s : lst) (b : nat) : outcome (lst * nat) :=
  let g := l_f s in
  do k <- get_block g b;
  let i := f_ni g in
  Ok (with_f (mkFunc (upd (f_insn g) i (Some (set_op PHI (insn0 b))))
                     (upd (f_block g) b (Some (set_insns (i :: b_insns k) k)))
                     (S i) (f_nb g) (f_all g) (f_entry g)) s, i).

(** create_insn + create_insn_back, 693-714, the assignments of the fields, and add_user for
    the operands [us] in order *)
Definition emit (s : lst) (b : nat) (x : insn) (us : list value) : outcome (lst * nat) :=
  let g := l_f s in
  do k <- get_block g b;
  let i := f_ni g in
  let g1 := mkFunc (upd (f_insn g) i (Some x))
                   (upd (f_block g) b (Some (set_insns (b_insns k ++ [i]) k)))
                   (S i) (f_nb g) (f_all g) (f_entry g) in
  do g2 <- ofold (fun g v => use_val g i v) g1 us;
  Ok (with_f g2 s, i).

(** bpf_ir_array_push on insn->phi *)
Definition push_phi (g : func) (i : nat) (v : value) (b : nat) : outcome func :=
  do x <- get_insn g i; Ok (put_insn g i (set_phi (i_phi x ++ [(v, b)]) x)).

(** The loop of add_phi_operands, 678-688, over the predecessors [ps]; [rd] reads a variable *)
Definition phi_ops (rd : lst -> Z -> nat -> outcome (lst * value))
  (reg : Z) (i : nat) (ps : list nat) (s : lst) : outcome lst :=
  ofold (fun s p =>
    do r <- rd s reg p;
    let '(s1, v) := r in
    do g1 <- use_val (l_f s1) i v;
    do g2 <- push_phi g1 i v p;
    Ok (with_f g2 s1)) s ps.

(** add_phi_operands, 670-691 *)
Definition add_phi_operands (rd : lst -> Z -> nat -> outcome (lst * value))
  (reg : Z) (i : nat) (s : lst) : outcome lst :=
  do x <- get_insn (l_f s) i;
  if negb (iop_eqb (i_op x) PHI) then Crit
  else
    do k <- get_block (l_f s) (i_parent x);
    phi_ops rd reg i (b_preds k) s.

Definition set_inc (s : lst) (b : nat) (reg : Z) (i : nat) : lst :=
  mkL (l_f s) (l_def s)
      (fun b' r => if ((b' =? b) && (r =? reg)%Z) then Some i else l_inc s b' r)
      (l_seal s) (l_fill s) (l_err s).

(** read_variable, 768-801, with read_variable_recursive, 724-752; each call uses one unit of
    fuel.  The predecessors of a pre-IR block and of its IR block are the same (init_ir_bbs). *)
Fixpoint read_var (n : nat) (s : lst) (reg : Z) (b : nat) : outcome (lst * value) :=
  match n with
  | O => NoFuel
  | S n' =>
    if (reg =? 10)%Z then Ok (s, val_insn sp_id)
    else if negb ((0 <=? reg) && (reg <=? 10))%Z then UB
    else
      match l_def s reg b with
      | Some v => Ok (s, v)
      | None =>
        if b =? 1 then
          if ((0 <? reg) && (reg <=? 5))%Z then Ok (s, val_insn (arg_id reg))
          else Ok (set_err s, val_undef)
        else if negb (l_seal s b) then
          do r <- new_phi s b;
          let '(s1, i) := r in
          do s2 <- write_var (set_inc s1 b reg i) reg b (val_insn i);
          Ok (s2, val_insn i)
        else
          do k <- get_block (l_f s) b;
          match b_preds k with
          | [p] =>
            do r <- read_var n' s reg p;
            do s2 <- write_var (fst r) reg b (snd r);
            Ok (s2, snd r)
          | _ =>
            do r <- new_phi s b;
            let '(s1, i) := r in
            do s2 <- write_var s1 reg b (val_insn i);
            do s3 <- add_phi_operands (read_var n') reg i s2;
            do s4 <- write_var s3 reg b (val_insn i);
            Ok (s4, val_insn i)
          end
      end
  end.

Definition all_regs : list Z := [0;1;2;3;4;5;6;7;8;9;10]%Z.

(** seal_block, 632-642 *)
Definition seal_block (n : nat) (s : lst) (b : nat) : outcome lst :=
  do s1 <- ofold (fun s reg =>
             match l_inc s b reg with
             | Some i => add_phi_operands (read_var n) reg i s
             | None => Ok s
             end) s all_regs;
  Ok (mkL (l_f s1) (l_def s1) (l_inc s1) (fun x => if x =? b then true else l_seal s1 x)
          (l_fill s1) (l_err s1)).

(** BPF_SRC, BPF_MODE, BPF_SIZE *)
Definition src_x (c : Z) : bool := Z.odd (c / 8).
Definition mode (c : Z) : Z := (c / 32)%Z.
Definition szf (c : Z) : Z := (c / 8 mod 4)%Z.

(** to_ir_ld_u, 803-817 *)
Definition ld_vrt (c : Z) : vrt :=
  if (szf c =? 0)%Z then VR_32 else if (szf c =? 1)%Z then VR_16
  else if (szf c =? 2)%Z then VR_8 else VR_64.

(** get_src_value, 908-925 *)
Definition get_src (n : nat) (s : lst) (b : nat) (i : pre_insn) : outcome (lst * value) :=
  if src_x (pi_code i) then read_var n s (pi_src i) b
  else Ok (s, val_const32 (pi_imm i)).

(** get_ir_bb_from_position, 879-892 *)
Fixpoint bb_at (bs : list pblock) (k : nat) (pos : Z) : outcome nat :=
  match bs with
  | [] => Crit
  | x :: r => if (Z.of_nat (pb_start x) =? pos)%Z then Ok k else bb_at r (S k) pos
  end.
Definition bb_from (bs : list pblock) (pos : Z) : outcome nat := bb_at bs 1 pos.

(** Binary operations of transform_bb, 1062-1117; the key is BPF_OP / 16 *)
Definition bin_of (o : Z) : option iop :=
  if (o =? 0)%Z then Some ADD else if (o =? 1)%Z then Some SUB
  else if (o =? 2)%Z then Some MUL else if (o =? 3)%Z then Some DIV
  else if (o =? 4)%Z then Some OR else if (o =? 5)%Z then Some AND
  else if (o =? 6)%Z then Some LSH else if (o =? 7)%Z then Some RSH
  else if (o =? 9)%Z then Some MOD else if (o =? 10)%Z then Some XOR
  else if (o =? 12)%Z then Some ARSH else None.

(** Conditional jumps of transform_bb, 1305-1344 *)
Definition cond_of (o : Z) : option iop :=
  if (o =? 1)%Z then Some JEQ else if (o =? 2)%Z then Some JGT
  else if (o =? 3)%Z then Some JGE else if (o =? 5)%Z then Some JNE
  else if (o =? 6)%Z then Some JSGT else if (o =? 7)%Z then Some JSGE
  else if (o =? 10)%Z then Some JLT else if (o =? 11)%Z then Some JLE
  else if (o =? 12)%Z then Some JSLT else if (o =? 13)%Z then Some JSLE else None.

(** alu_write_bin with create_alu_bin, 943-972 *)
Definition alu_write_bin (n : nat) (s : lst) (b : nat) (i : pre_insn) (o : iop) (a : alut)
  : outcome lst :=
  do r1 <- read_var n s (pi_dst i) b;
  do r2 <- get_src n (fst r1) b i;
  do r <- emit (fst r2) b (set_alu a (set_vals [snd r1; snd r2] (set_op o (insn0 b))))
               [snd r1; snd r2];
  write_var (fst r) (pi_dst i) b (val_insn (snd r)).

(** bpf_neg_write and bpf_end_write with create_alu_nonbin, 927-941, 974-1004 *)
Definition alu_write_un (n : nat) (s : lst) (b : nat) (i : pre_insn) (o : iop) (a : alut) (u : Z)
  : outcome lst :=
  do r1 <- read_var n s (pi_dst i) b;
  do r <- emit (fst r1) b (set_u u (set_alu a (set_vals [snd r1] (set_op o (insn0 b))))) [snd r1];
  write_var (fst r) (pi_dst i) b (val_insn (snd r)).

(** transform_bb, 1062-1155: the ALU classes *)
Definition lift_alu (n : nat) (s : lst) (b : nat) (i : pre_insn) : outcome lst :=
  let c := pi_code i in
  let a := if (cls c =? 4)%Z then A_32 else A_64 in
  do s1 <-
    match bin_of (opn c) with
    | Some o => alu_write_bin n s b i o a
    | None =>
      if (opn c =? 11)%Z then
        do r <- get_src n s b i;
        write_var (fst r) (pi_dst i) b (snd r)
      else if (opn c =? 13)%Z then
        if (cls c =? 4)%Z then
          alu_write_un n s b i (if src_x c then HTOBE else HTOLE) A_32 (pi_imm i)
        else Err
      else if (opn c =? 8)%Z then
        if src_x c then Err else alu_write_un n s b i M_Ir.NEG a 0%Z
      else Err
    end;
  if (pi_off i =? 0)%Z then Ok s1 else Err.

(** The address operand of the memory instructions, 1179-1191 and the like *)
Definition mem_addr (v : value) (reg off : Z) : addrval :=
  mkAddr v off (if (reg =? 10)%Z then O_RAWOFF else O_CONST).

(** transform_bb, 1174-1227: BPF_LDX with mode MEMSX or MEM *)
Definition lift_ldx (n : nat) (s : lst) (b : nat) (i : pre_insn) : outcome lst :=
  do r1 <- read_var n s (pi_src i) b;
  do r <- emit (fst r1) b
            (set_addr (mem_addr (snd r1) (pi_src i) (pi_off i))
               (set_vrt (ld_vrt (pi_code i)) (set_op LOADRAW (insn0 b)))) [snd r1];
  write_var (fst r) (pi_dst i) b (val_insn (snd r)).

(** transform_bb, 1228-1283: BPF_ST and BPF_STX with mode MEM *)
Definition lift_st (n : nat) (s : lst) (b : nat) (i : pre_insn) (x : bool) : outcome lst :=
  do r1 <- read_var n s (pi_dst i) b;
  do r2 <- if x then read_var n (fst r1) (pi_src i) b
           else Ok (fst r1, val_const32 (pi_imm i));
  do r <- emit (fst r2) b
            (set_vals [snd r2] (set_addr (mem_addr (snd r1) (pi_dst i) (pi_off i))
               (set_vrt (ld_vrt (pi_code i)) (set_op STORERAW (insn0 b)))))
            [snd r1; snd r2];
  Ok (fst r).

(** The argument loops of CALL and ECALL, 1381-1396 and 1450-1462: read r1 .. r_k *)
Fixpoint read_args (n : nat) (s : lst) (b : nat) (j k : nat) : outcome (lst * list value) :=
  match k with
  | O => Ok (s, [])
  | S k' =>
    do r <- read_var n s (Z.of_nat (S j)) b;
    if j <? 5 then
      do t <- read_args n (fst r) b (S j) k';
      Ok (fst t, snd r :: snd t)
    else UB
  end.

(** The number of arguments of printk, 1420-1437 *)
Definition printk_args (s : lst) (b : nat) : nat :=
  match l_def s 3%Z b with
  | None => 2
  | Some _ => match l_def s 4%Z b with
              | None => 3
              | Some _ => match l_def s 5%Z b with None => 4 | Some _ => 5 end
              end
  end.

(** transform_bb, 1345-1469: BPF_CALL *)
Definition lift_call (n : nat) (s : lst) (b : nat) (i : pre_insn) : outcome lst :=
  if ((pi_src i =? 1) || (pi_src i =? 2))%Z then Err
  else if (pi_imm i <? 0)%Z then Err
  else if (pi_src i =? 6)%Z then
    do r1 <- read_args n s b 0 (Z.to_nat (pi_dst i));
    do r <- emit (fst r1) b (set_u (pi_imm i) (set_vals (snd r1) (set_op ECALL (insn0 b)))) (snd r1);
    write_var (fst r) 0 b (val_insn (snd r))
  else
    match nth_error helper_args (Z.to_nat (pi_imm i)) with
    | None => Err
    | Some a =>
      do k <- (if (a <? 0)%Z then
                 if (pi_imm i =? 6)%Z then Ok (printk_args s b) else Err
               else Ok (Z.to_nat a));
      if 5 <? k then Err
      else
        do r1 <- read_args n s b 0 k;
        do r <- emit (fst r1) b (set_u (pi_imm i) (set_vals (snd r1) (set_op CALL (insn0 b)))) (snd r1);
        write_var (fst r) 0 b (val_insn (snd r))
    end.

(** create_cond_jmp, 1006-1026 *)
Definition lift_cond (n : nat) (bs : list pblock) (s : lst) (b : nat) (i : pre_insn) (o : iop)
  (a : alut) : outcome lst :=
  do r1 <- read_var n s (pi_dst i) b;
  do r2 <- get_src n (fst r1) b i;
  do t1 <- bb_from bs (Z.of_nat (pi_pos i) + 1);
  do t2 <- bb_from bs (Z.of_nat (pi_pos i) + pi_off i + 1);
  do r <- emit (fst r2) b
            (set_bb2 t2 (set_bb1 t1 (set_alu a (set_vals [snd r1; snd r2] (set_op o (insn0 b))))))
            [snd r1; snd r2];
  Ok (fst r).

(** transform_bb, 1284-1476: the jump classes *)
Definition lift_jmp (n : nat) (bs : list pblock) (s : lst) (b : nat) (i : pre_insn) : outcome lst :=
  let c := pi_code i in
  let a := if (cls c =? 5)%Z then A_64 else A_32 in
  if (opn c =? 0)%Z then
    do t <- bb_from bs (Z.of_nat (pi_pos i) + pi_off i + 1);
    do r <- emit s b (set_bb1 t (set_op JA (insn0 b))) [];
    Ok (fst r)
  else if (opn c =? 9)%Z then
    do r1 <- read_var n s 0 b;
    do r <- emit (fst r1) b (set_vals [snd r1] (set_op RET (insn0 b))) [snd r1];
    Ok (fst r)
  else
    match cond_of (opn c) with
    | Some o => lift_cond n bs s b i o a
    | None => if (opn c =? 8)%Z then lift_call n s b i else Err
    end.

(** transform_bb, 1156-1173: the 64-bit immediate *)
Definition lift_imm64 (s : lst) (b : nat) (i : pre_insn) : outcome lst :=
  if (pi_src i <=? 6)%Z then
    do r <- emit s b (set_imm (pi_src i) (pi_imm64 i) (set_op LOADIMM_EXTRA (insn0 b))) [];
    write_var (fst r) (pi_dst i) b (val_insn (snd r))
  else Err.

(** transform_bb, 1053-1490: one instruction *)
Definition lift_insn (n : nat) (bs : list pblock) (b : nat) (s : lst) (i : pre_insn) : outcome lst :=
  let c := pi_code i in
  if ((cls c =? 4) || (cls c =? 7))%Z then lift_alu n s b i
  else if ((cls c =? 0) && (mode c =? 0) && (szf c =? 3))%Z then lift_imm64 s b i
  else if ((cls c =? 1) && ((mode c =? 4) || (mode c =? 3)))%Z then lift_ldx n s b i
  else if ((cls c =? 2) && (mode c =? 3))%Z then lift_st n s b i false
  else if ((cls c =? 3) && (mode c =? 3))%Z then lift_st n s b i true
  else if jmp_cls c then lift_jmp n bs s b i
  else Err.

(** transform_bb, 1028-1500.  [n] bounds the recursion of read_variable, [m] that of
    transform_bb.  RAISE_ERROR returns from transform_bb and the caller's CHECK_ERR follows, so
    the whole transformation ends ([Err]); an error raised by read_variable is noticed by the
    CHECK_ERR after a successor or by the caller of transform_bb. *)
Fixpoint transform (m n : nat) (bs : list pblock) (s : lst) (b : nat) : outcome lst :=
  match m with
  | O => NoFuel
  | S m' =>
    if l_seal s b then Ok s
    else
      match nth_error bs (pred b) with
      | None => UB
      | Some pb =>
        do s1 <- (if forallb (fun p => l_fill s (S p)) (pb_preds pb) then seal_block n s b
                  else Ok s);
        if l_fill s1 b then Ok s1
        else
          do s2 <- ofold (lift_insn n bs b) s1 (pb_insns pb);
          let s3 := mkL (l_f s2) (l_def s2) (l_inc s2) (l_seal s2)
                        (fun x => if x =? b then true else l_fill s2 x) (l_err s2) in
          ofold (fun s q => do t <- transform m' n bs s (S q);
                            if l_err t then Err else Ok t) s3 (pb_succs pb)
      end
  end.

(** init_ir_bbs, 849-877, and init_ir_bb, 819-834 *)
Definition ir_block (pb : pblock) : block :=
  mkBlock [] (map S (pb_preds pb)) (map S (pb_succs pb)) 0%Z.

(** init_tenv, 601-630, and init_ir_bbs *)
Definition init_insns : nat -> option insn := fun i =>
  if i =? 0 then None
  else if i =? sp_id then Some (set_u 10 (set_op REG (insn0 0)))
  else if i <? 7 then Some (set_u (Z.of_nat (i - 2)) (set_op FUNCTIONARG (insn0 0)))
  else None.

Definition init_lst (bs : list pblock) : lst :=
  mkL (mkFunc init_insns
              (fun b => match b with O => None
                        | S k => option_map ir_block (nth_error bs k) end)
              7 (S (length bs)) (seq 1 (length bs)) 1)
      (fun _ _ => None) (fun _ _ => None) (fun _ => false) (fun _ => false) false.

(** bpf_ir_lift, 1910-1936, up to postprocess; init_function, 1557-1584 *)
Definition lift_blocks (m n : nat) (bs : list pblock) : outcome lst :=
  do s <- transform m n bs (init_lst bs) 1;
  if l_err s then Err else Ok s.

Definition lift (m n : nat) (p : list bpf_insn) : outcome func :=
  do bs <- gen_bb p;
  do s <- lift_blocks m n bs;
  Ok (l_f s).
