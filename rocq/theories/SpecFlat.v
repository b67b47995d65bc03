(** Meaning of the flattened IR: every operand is a constant, a register or an 8-byte stack slot
    addressed from r10.  Only the data types of the model are used, none of its functions. *)
From Verif Require Import M_Base M_Ir M_Norm SpecWord.
Open Scope Z_scope.

Definition vr_bytes (t : vrt) : option nat :=
  match t with VR_8 => Some 1%nat | VR_16 => Some 2%nat | VR_32 => Some 4%nat | VR_64 => Some 8%nat
             | VR_UNKNOWN => None end.
Definition width_of (a : alut) : option bool :=
  match a with A_64 => Some true | A_32 => Some false | A_UNKNOWN => None end.
Definition alu_op_of (o : iop) : option aluop :=
  match o with
  | ADD => Some AAdd | SUB => Some ASub | MUL => Some AMul | DIV => Some ADiv | OR => Some AOr
  | AND => Some AAnd | LSH => Some ALsh | ARSH => Some AArsh | RSH => Some ARsh | MOD => Some AMod
  | XOR => Some AXor | _ => None
  end.
Definition cmp_op_of (o : iop) : option cmpop :=
  match o with
  | JEQ => Some CEq | JNE => Some CNe | JGT => Some CGt | JGE => Some CGe | JLT => Some CLt
  | JLE => Some CLe | JSGT => Some CSgt | JSGE => Some CSge | JSLT => Some CSlt | JSLE => Some CSle
  | _ => None
  end.

(** Value of an operand.  [bi] gives the value of the built-in constants. *)
Definition const_val (bi : bconst -> Z) (v : value) (c : Z) : Z :=
  match v_bi v with B_NONE => c | k => bi k end.
Definition slot_addr (s : st) (p : vrpos) : Z := rget s 10 + vp_spilled p.
Definition evalv (bi : bconst -> Z) (s : st) (v : value) : option Z :=
  match v_data v with
  | VConst c => Some (u64 (const_val bi v c))
  | VFlat p =>
    if vp_alloc p then
      if vp_spilled p =? 0 then (if is_reg (vp_reg p) then Some (rget s (vp_reg p)) else None)
      else Some (load (mem s) (slot_addr s p) 8)
    else None
  | _ => None
  end.
(** Writing a result. *)
Definition wr (s : st) (p : vrpos) (x : Z) : option st :=
  if vp_alloc p then
    if vp_spilled p =? 0 then (if is_wreg (vp_reg p) then Some (rset s (vp_reg p) x) else None)
    else Some (mset s (store (mem s) (slot_addr s p) 8 x))
  else None.
(** Address of a raw access: a stack position used as an address means the address of the slot. *)
Definition addr_of (bi : bconst -> Z) (s : st) (a : addrval) : option Z :=
  match a_ot a, v_data (a_val a) with
  | O_CONST, VFlat p =>
    if vp_alloc p then
      if vp_spilled p =? 0 then (if is_reg (vp_reg p) then Some (rget s (vp_reg p) + a_off a) else None)
      else Some (slot_addr s p + a_off a)
    else None
  | O_CONST, VConst c => Some (const_val bi (a_val a) c + a_off a)
  | _, _ => None
  end.

Inductive fres := FNext (s : st) | FJmp (b : nat) (s : st) | FRet (r : Z) (s : st).

Definition obind {A B} (o : option A) (f : A -> option B) : option B :=
  match o with Some a => f a | None => None end.
Notation "'let?' x := e 'in' f" := (obind e (fun x => f)) (at level 200, x pattern, right associativity).
Definition next (o : option st) : option fres := obind o (fun s => Some (FNext s)).

Definition fexec (w : world) (bi : bconst -> Z) (n : ninsn) (s : st) : option fres :=
  let x := n_i n in
  let d := n_pos n in
  match i_op x, i_vals x with
  | ALLOC, _ | ALLOCARRAY, _ => Some (FNext s)
  | GETELEMPTR, [off; arr] =>
    match v_data arr with
    | VFlat p => if vp_alloc p && negb (vp_spilled p =? 0)
                 then let? o := evalv bi s off in next (wr s d (u64 (slot_addr s p + o)))
                 else None
    | _ => None
    end
  | STORE, [t; v] =>
    match v_data t with
    | VFlat p => let? k := vr_bytes (i_vrt x) in let? a := evalv bi s v in
                 next (wr s p (a mod 2 ^ (8 * Z.of_nat k)))
    | _ => None
    end
  | LOAD, [v] => let? k := vr_bytes (i_vrt x) in let? a := evalv bi s v in
                 next (wr s d (a mod 2 ^ (8 * Z.of_nat k)))
  | ASSIGN, [v] => let? a := evalv bi s v in
                   next (wr s d (match i_alu x with A_32 => trunc false a | _ => a end))
  | LOADRAW, _ => let? k := vr_bytes (i_vrt x) in let? a := addr_of bi s (i_addr x) in
                  next (wr s d (load (mem s) a k))
  | STORERAW, [v] => let? k := vr_bytes (i_vrt x) in let? a := addr_of bi s (i_addr x) in
                     let? y := evalv bi s v in Some (FNext (mset s (store (mem s) a k y)))
  | LOADIMM_EXTRA, _ =>
    if (0 <=? i_ity x) && (i_ity x <=? 6)
    then next (wr s d (if i_ity x =? 0 then u64 (i_imm64 x) else ldext w (i_ity x) (u64 (i_imm64 x))))
    else None
  | NEG, [v] => let? wd := width_of (i_alu x) in let? a := evalv bi s v in next (wr s d (neg_fn wd a))
  | HTOLE, [v] | HTOBE, [v] =>
    if (i_u x =? 16) || (i_u x =? 32) || (i_u x =? 64)
    then let? a := evalv bi s v in next (wr s d (end_fn (iop_eqb (i_op x) HTOBE) (i_u x) a))
    else None
  | CALL, [] => Some (FNext (call_helper w (i_u x) s))
  | RET, [] => Some (FRet (rget s 0) s)
  | RET, [v] => let? a := evalv bi s v in Some (FRet a (rset s 0 a))
  | JA, [] => Some (FJmp (i_bb1 x) s)
  | o, [v1; v2] =>
    match alu_op_of o, cmp_op_of o with
    | Some f, _ => let? wd := width_of (i_alu x) in
                   let? a := evalv bi s v1 in let? b := evalv bi s v2 in next (wr s d (alu_fn f wd a b))
    | _, Some c => let? wd := width_of (i_alu x) in
                   let? a := evalv bi s v1 in let? b := evalv bi s v2 in
                   Some (FJmp (if cmp_fn c wd a b then i_bb2 x else i_bb1 x) s)
    | _, _ => None
    end
  | _, _ => None
  end.

(** Running a list of instructions up to its end or the first jump or return. *)
Fixpoint fseq (w : world) (bi : bconst -> Z) (l : list ninsn) (s : st) : option fres :=
  match l with
  | [] => Some (FNext s)
  | n :: r => let? q := fexec w bi n s in
              match q with FNext s' => fseq w bi r s' | _ => Some q end
  end.

(** Two results agree when they are the same, or when the second falls through to the block
    [ft] to which the first jumps. *)
Definition agrees (ft : option nat) (a b : fres) : Prop :=
  a = b \/ (exists f s, ft = Some f /\ a = FJmp f s /\ b = FNext s).
