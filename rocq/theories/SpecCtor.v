(** What the instruction constructors promise: opcode, operands, targets and types of the new
    instruction (IR.md and the operand comments of bpf_ir.h). *)
From Verif Require Import M_Base M_Ir M_Edit SpecIr.
Open Scope nat_scope.

Definition describes (k : ctor) (x : insn) : Prop :=
  match k with
  | K_alloc t => i_op x = ALLOC /\ operand_values x = [] /\ i_vrt x = t
  | K_allocarray t n => i_op x = ALLOCARRAY /\ operand_values x = [] /\ i_vrt x = t /\ i_u x = n
  | K_loadimm ty imm => i_op x = LOADIMM_EXTRA /\ operand_values x = [] /\ i_ity x = ty /\ i_imm64 x = imm
  | K_getelemptr arr off => i_op x = GETELEMPTR /\ operand_values x = [off; val_insn arr]
  | K_neg a v => i_op x = NEG /\ operand_values x = [v] /\ i_alu x = a
  | K_end o w v => i_op x = o /\ i_vals x = [v] /\ i_u x = w
  | K_store d v => i_op x = STORE /\ operand_values x = [val_insn d; v]
  | K_load v => i_op x = LOAD /\ operand_values x = [v]
  | K_bin v1 v2 o a => i_op x = o /\ i_vals x = [v1; v2] /\ i_alu x = a
  | K_ja t => i_op x = JA /\ operand_values x = [] /\ i_bb1 x = t
  | K_jbin v1 v2 t1 t2 o a => i_op x = o /\ i_vals x = [v1; v2] /\ i_bb1 x = t1 /\ i_bb2 x = t2 /\ i_alu x = a
  | K_ret v => i_op x = RET /\ operand_values x = [v]
  | K_throw => i_op x = THROW /\ operand_values x = []
  | K_call fid => i_op x = CALL /\ operand_values x = [] /\ i_u x = fid
  | K_loadraw t a => i_op x = LOADRAW /\ i_vals x = [] /\ i_addr x = a /\ i_vrt x = t
  | K_storeraw t a v => i_op x = STORERAW /\ i_vals x = [v] /\ i_addr x = a /\ i_vrt x = t
  | K_assign v => i_op x = ASSIGN /\ operand_values x = [v]
  | K_phi => i_op x = PHI /\ operand_values x = []
  end.
(** The instructions named in the arguments of a constructor. *)
Definition names (k : ctor) (d : nat) : Prop :=
  match k with
  | K_getelemptr arr off => arr = d \/ v_data off = VInsn d
  | K_neg _ v | K_end _ _ v | K_load v | K_ret v | K_assign v => v_data v = VInsn d
  | K_store t v => t = d \/ v_data v = VInsn d
  | K_bin v1 v2 _ _ | K_jbin v1 v2 _ _ _ _ => v_data v1 = VInsn d \/ v_data v2 = VInsn d
  | K_loadraw _ a => v_data (a_val a) = VInsn d
  | K_storeraw _ a v => v_data (a_val a) = VInsn d \/ v_data v = VInsn d
  | _ => False
  end.
(** The opcode classes the generic constructors are meant for. *)
Definition ctor_ok (k : ctor) : Prop :=
  match k with
  | K_end o _ _ => o = HTOBE \/ o = HTOLE
  | K_bin _ _ o _ => is_bin_alu_op o = true
  | K_jbin _ _ _ _ o _ => is_cond_jmp_op o = true
  | _ => True
  end.
(** Everything except the users lists of the instructions is as before. *)
Definition only_users (f g : func) (i : nat) : Prop :=
  forall j, j <> i -> exists l, f_insn g j = option_map (set_users l) (f_insn f j).
(** Block [bb] was cut into [kept] and [moved]; the rest is in the new block [nb]; [bb] also has an
    edge to the new block [eb], which only throws. *)
Definition error_blocks (f g : func) (bb nb eb : nat) (kept moved : list nat) : Prop :=
  f_block f eb = None /\ f_block f nb = None /\ eb <> nb /\
  insns_of g bb = kept /\ insns_of g nb = moved /\
  (exists t y, insns_of g eb = [t] /\ f_insn f t = None /\ f_insn g t = Some y /\ i_op y = THROW) /\
  (forall c, c <> bb -> c <> nb -> c <> eb -> insns_of g c = insns_of f c) /\
  succs_of g bb = [nb; eb] /\ succs_of g nb = succs_of f bb /\ succs_of g eb = [] /\
  preds_of g eb = [bb] /\ preds_of g nb = [bb] /\
  (forall c, c <> bb -> c <> nb -> c <> eb -> succs_of g c = succs_of f c).
