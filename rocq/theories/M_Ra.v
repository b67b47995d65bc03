(** Model of the register allocator, core/ir_cg.c, up to and including the translation out of SSA
    form.  Definitions only.

    - struct ir_insn_cg_extra (ir_cg.h 70-94) is the record [extra]; user_data of an instruction is
      the map [c_ex] ([None] = no code-generation data, dereferencing it is undefined behaviour).
    - A pointer set is a duplicate-free list.  The order in which ptrset_for enumerates a set depends
      on addresses; where it matters (mcs, pre_spill) the model takes the order as a parameter.
    - lambda and w are u32 counters that never exceed the number of instructions; the model uses nat.
    - Printing and freeing are not modelled; C stack depth is not bounded. *)
From Verif Require Import M_Base M_Ir M_Edit M_Layout M_Norm SpecWord SpecIsa.
Open Scope nat_scope.

Record extra := mkEx {
  x_dst : option nat; x_in : list nat; x_out : list nat; x_adj : list nat;
  x_lam : nat; x_w : nat; x_fin : bool; x_pos : vrpos; x_nonvr : bool }.

(** struct code_gen_info (ir_cg.h 34-54) together with the function: the function, reachable_bbs,
    the extra data, regs[0..9], fun->sp, function_arg[], all_var, seo, stack_offset *)
Record cgs := mkCg {
  c_f : func; c_reach : list nat; c_ex : nat -> option extra;
  c_regs : list nat; c_sp : nat; c_args : list nat;
  c_all : list nat; c_seo : list nat; c_off : Z }.

Definition with_f (f : func) (s : cgs) : cgs :=
  mkCg f (c_reach s) (c_ex s) (c_regs s) (c_sp s) (c_args s) (c_all s) (c_seo s) (c_off s).
Definition with_ex (e : nat -> option extra) (s : cgs) : cgs :=
  mkCg (c_f s) (c_reach s) e (c_regs s) (c_sp s) (c_args s) (c_all s) (c_seo s) (c_off s).
Definition with_all (l : list nat) (s : cgs) : cgs :=
  mkCg (c_f s) (c_reach s) (c_ex s) (c_regs s) (c_sp s) (c_args s) l (c_seo s) (c_off s).
Definition with_seo (l : list nat) (s : cgs) : cgs :=
  mkCg (c_f s) (c_reach s) (c_ex s) (c_regs s) (c_sp s) (c_args s) (c_all s) l (c_off s).
Definition with_off (o : Z) (s : cgs) : cgs :=
  mkCg (c_f s) (c_reach s) (c_ex s) (c_regs s) (c_sp s) (c_args s) (c_all s) (c_seo s) o.

(** insn_cg(i) *)
Definition get_ex (s : cgs) (i : nat) : outcome extra :=
  match c_ex s i with Some e => Ok e | None => UB end.
Definition put_ex (s : cgs) (i : nat) (e : extra) : cgs := with_ex (upd (c_ex s) i (Some e)) s.

Definition set_in (l : list nat) (e : extra) : extra :=
  mkEx (x_dst e) l (x_out e) (x_adj e) (x_lam e) (x_w e) (x_fin e) (x_pos e) (x_nonvr e).
Definition set_out (l : list nat) (e : extra) : extra :=
  mkEx (x_dst e) (x_in e) l (x_adj e) (x_lam e) (x_w e) (x_fin e) (x_pos e) (x_nonvr e).
Definition set_adj (l : list nat) (e : extra) : extra :=
  mkEx (x_dst e) (x_in e) (x_out e) l (x_lam e) (x_w e) (x_fin e) (x_pos e) (x_nonvr e).
Definition set_lam (n : nat) (e : extra) : extra :=
  mkEx (x_dst e) (x_in e) (x_out e) (x_adj e) n (x_w e) (x_fin e) (x_pos e) (x_nonvr e).
Definition set_w (n : nat) (e : extra) : extra :=
  mkEx (x_dst e) (x_in e) (x_out e) (x_adj e) (x_lam e) n (x_fin e) (x_pos e) (x_nonvr e).
Definition set_pos (p : vrpos) (e : extra) : extra :=
  mkEx (x_dst e) (x_in e) (x_out e) (x_adj e) (x_lam e) (x_w e) (x_fin e) p (x_nonvr e).
Definition set_fin (b : bool) (e : extra) : extra :=
  mkEx (x_dst e) (x_in e) (x_out e) (x_adj e) (x_lam e) (x_w e) b (x_pos e) (x_nonvr e).
Definition set_dst (d : option nat) (e : extra) : extra :=
  mkEx d (x_in e) (x_out e) (x_adj e) (x_lam e) (x_w e) (x_fin e) (x_pos e) (x_nonvr e).

Definition mem (x : nat) (l : list nat) : bool := existsb (Nat.eqb x) l.
(** bpf_ir_ptrset_insert / bpf_ir_ptrset_delete *)
Definition ins (x : nat) (l : list nat) : list nat := if mem x l then l else l ++ [x].
Definition del (x : nat) (l : list nat) : list nat := filter (fun y => negb (y =? x)) l.

(** bpf_ir_init_insn_cg, 85-105 *)
Definition ex0 (i : nat) (o : iop) : extra :=
  mkEx (if is_void_op o then None else Some i) [] [] [] 0 0 false (mkPos false 0 0 0) false.
(** the extra data of regs[k] and of fun->sp after init_cg, 144-161 *)
Definition ex_reg (i : nat) (k : Z) : extra :=
  mkEx (Some i) [] [] [] 0 0 true (mkPos true 0 k 0) true.

(** Instructions of the reachable blocks in order. *)
Fixpoint insns_in (f : func) (l : list nat) : outcome (list nat) :=
  match l with
  | [] => Ok []
  | b :: r => do x <- get_block f b; do t <- insns_in f r; Ok (b_insns x ++ t)
  end.

Definition init_one (s : cgs) (i : nat) : outcome cgs :=
  do x <- get_insn (c_f s) i; Ok (put_ex s i (ex0 i (i_op x))).
(** init_cg, 107-162: ten instructions REG are allocated, all instructions of reachable blocks get
    fresh data, the registers and the stack pointer are pre-coloured *)
Definition new_reg (s : cgs) (k : nat) : cgs :=
  let i := f_ni (c_f s) in
  let f := c_f s in
  let x := set_u (Z.of_nat k) (set_op REG (insn0 0)) in
  let f1 := mkFunc (upd (f_insn f) i (Some x)) (f_block f) (S i) (f_nb f) (f_all f) (f_entry f) in
  mkCg f1 (c_reach s) (upd (c_ex s) i (Some (ex_reg i (Z.of_nat k)))) (c_regs s ++ [i])
       (c_sp s) (c_args s) [] [] 0%Z.
Definition init_cg (f : func) (reach : list nat) (sp : nat) (args : list nat) : outcome cgs :=
  let s0 := mkCg f reach (fun _ => None) [] sp args [] [] 0%Z in
  let s1 := fold_left new_reg (seq 0 10) s0 in
  do l <- insns_in f reach;
  do s2 <- ofold init_one s1 l;
  Ok (put_ex s2 sp (ex_reg sp 10)).

(** ** Editing in the code generator: the constructors bpf_ir_create_..._insn(_bb)_cg create the
    instruction, its extra data, and insert it (ir_insn.c 20-35, 740-760, 947-970, 992-1012, 1263-1285) *)
Definition cg_create_bb (s : cgs) (bb : nat) (k : ctor) (p : ipos) : outcome (cgs * nat) :=
  do r <- create_at_bb (c_f s) bb k p;
  Ok (put_ex (with_f (fst r) s) (snd r) (ex0 (snd r) (i_op (build bb k))), snd r).
Definition cg_create (s : cgs) (at_ : nat) (k : ctor) (p : ipos) : outcome (cgs * nat) :=
  do r <- create_at (c_f s) at_ k p;
  Ok (put_ex (with_f (fst r) s) (snd r) (ex0 (snd r) (i_op (build 0 k))), snd r).
Definition in_func (s : cgs) (o : outcome func) : outcome cgs := do f <- o; Ok (with_f f s).

(** pre_color, 77-83 *)
Definition pre_color (s : cgs) (i : nat) (reg : Z) : outcome cgs :=
  do e <- get_ex s i;
  Ok (put_ex s i (set_pos (mkPos true (vp_size (x_pos e)) reg 0) (set_fin true e))).

(** regs[k]; the array has ten entries *)
Definition reg_node (s : cgs) (k : Z) : outcome nat :=
  if (k <? 0)%Z then UB
  else match nth_error (c_regs s) (Z.to_nat k) with Some i => Ok i | None => UB end.

(** change_fun_arg, 168-183 *)
Definition change_arg (s : cgs) (ka : nat * nat) : outcome cgs :=
  let '(k, a) := ka in
  do x <- get_insn (c_f s) a;
  match i_users x with
  | [] => Ok s
  | _ =>
    do r <- reg_node s (Z.of_nat (S k));
    do c <- cg_create_bb s (f_entry (c_f s)) (K_assign (val_insn r)) P_FRONT_AFTER_PHI;
    in_func (fst c) (replace_all (c_f (fst c)) a (val_insn (snd c)))
  end.
Definition change_fun_arg (s : cgs) : outcome cgs :=
  ofold change_arg s (combine (seq 0 (length (c_args s))) (c_args s)).

(** change_call, 185-222: one call.  The loop visits the instructions of the list at entry; the
    inserted ones are not calls. *)
Definition change_call_arg (i : nat) (s : cgs) (kv : nat * value) : outcome cgs :=
  let '(k, v) := kv in
  do f <- remove_user (c_f s) v i;
  do c <- cg_create (with_f f s) i (K_assign v) P_FRONT;
  pre_color (fst c) (snd c) (Z.of_nat (S k)).
Definition change_call_one (s : cgs) (i : nat) : outcome cgs :=
  do x <- get_insn (c_f s) i;
  if iop_eqb (i_op x) CALL then
    do s1 <- ofold (change_call_arg i) s (combine (seq 0 (length (i_vals x))) (i_vals x));
    do x1 <- get_insn (c_f s1) i;
    let s2 := with_f (put_insn (c_f s1) i (set_vals [] x1)) s1 in
    do e <- get_ex s2 i;
    let s3 := put_ex s2 i (set_dst None e) in
    match i_users x1 with
    | [] => Ok s3
    | _ =>
      do r <- reg_node s3 0;
      do c <- cg_create s3 i (K_assign (val_insn r)) P_BACK;
      in_func (fst c) (replace_all (c_f (fst c)) i (val_insn (snd c)))
    end
  else Ok s.
Definition change_call (s : cgs) : outcome cgs :=
  do l <- insns_in (c_f s) (c_reach s); ofold change_call_one s l.

(** get_new_spill, 224-228: s32 -= u32, computed in u32 and converted back *)
Definition get_new_spill (s : cgs) (size : Z) : cgs * Z :=
  let o := s32 (c_off s - size) in (with_off o s, o).

(** bpf_ir_sizeof_vr_type, core/ir_insn.c; UNKNOWN is CRITICAL *)
Definition sizeof_vr (t : vrt) : outcome Z :=
  match t with VR_8 => Ok 1%Z | VR_16 => Ok 2%Z | VR_32 => Ok 4%Z | VR_64 => Ok 8%Z | VR_UNKNOWN => Crit end.

(** spill_array, 230-260 *)
Definition u32 (z : Z) : Z := (z mod 2 ^ 32)%Z.
Definition roundup8 (z : Z) : Z := Z.land (u32 (z + 7)) (u32 (-8)).
Definition spill_array_one (s : cgs) (i : nat) : outcome cgs :=
  do x <- get_insn (c_f s) i;
  if iop_eqb (i_op x) ALLOCARRAY then
    do e <- get_ex s i;
    do k <- sizeof_vr (i_vrt x);
    let size := u32 (u32 (i_u x) * k) in
    if (size =? 0)%Z then Err
    else
      let '(s1, o) := get_new_spill s (roundup8 size) in
      Ok (put_ex s1 i (set_pos (mkPos true size (vp_reg (x_pos e)) o) (set_fin true e)))
  else Ok s.
Definition spill_array (s : cgs) : outcome cgs :=
  do l <- insns_in (c_f s) (c_reach s); ofold spill_array_one s l.

(** spill_const, 262-313 *)
Definition is_const (v : value) : bool := match v_data v with VConst _ => true | _ => false end.
Definition spill_const_one (s : cgs) (i : nat) : outcome cgs :=
  do x <- get_insn (c_f s) i;
  do s1 <-
    (if is_bin_alu_op (i_op x) && negb (is_commutative_op (i_op x)) then
       match i_vals x with
       | v :: _ => if is_const v then
                     do c <- cg_create s i (K_assign v) P_FRONT;
                     in_func (fst c) (change_value (c_f (fst c)) i (SVal 0) (val_insn (snd c)))
                   else Ok s
       | [] => UB
       end
     else Ok s);
  match i_vals x with
  | [v1; v0] =>
    if is_cond_jmp_op (i_op x) && is_const v0 && is_const v1 then
      do c <- cg_create s1 i (K_assign v0) P_FRONT;
      in_func (fst c) (change_value (c_f (fst c)) i (SVal 1) (val_insn (snd c)))
    else Ok s1
  | _ => Ok s1
  end.
Definition spill_const (s : cgs) : outcome cgs :=
  do l <- insns_in (c_f s) (c_reach s); ofold spill_const_one s l.

(** ** Interference *)

(** The vertex standing for a value in make_conflict, 404-431: [None] when it lives on the stack. *)
Definition node (s : cgs) (v : nat) : outcome (option nat) :=
  do e <- get_ex s v;
  if x_fin e && negb (vp_alloc (x_pos e)) then Crit
  else if vp_alloc (x_pos e) then
    if negb (x_fin e) then Crit
    else if negb (vp_spilled (x_pos e) =? 0)%Z then Ok None
    else do r <- reg_node s (vp_reg (x_pos e)); Ok (Some r)
  else Ok (Some v).

Definition add_adj (s : cgs) (a b : nat) : outcome cgs :=
  do e <- get_ex s a; Ok (put_ex s a (set_adj (ins b (x_adj e)) e)).

(** make_conflict, 399-435 *)
Definition make_conflict (s : cgs) (v1 v2 : nat) : outcome cgs :=
  if v1 =? v2 then Crit
  else
    do n1 <- node s v1;
    match n1 with
    | None => Ok s
    | Some r1 =>
      do n2 <- node s v2;
      match n2 with
      | None => Ok s
      | Some r2 => do s1 <- add_adj s r1 r2; add_adj s1 r2 r1
      end
    end.

(** ** Liveness, 473-530, 664-720.
    live_out_at_statement / live_in_at_statement walk backwards through one block; [l] is the list of
    instructions from the current one back to the first.  The result tells whether the walk ran off
    the front of the block (prev == NULL), in which case the C continues with the predecessors. *)
Definition add_in (s : cgs) (i v : nat) : outcome cgs :=
  do e <- get_ex s i; Ok (put_ex s i (set_in (ins v (x_in e)) e)).
Definition add_out (s : cgs) (i v : nat) : outcome cgs :=
  do e <- get_ex s i; Ok (put_ex s i (set_out (ins v (x_out e)) e)).

Fixpoint walk_out (s : cgs) (v : nat) (l : list nat) : outcome (cgs * bool) :=
  match l with
  | [] => Ok (s, true)
  | i :: r =>
    do s1 <- add_out s i v;
    do e <- get_ex s1 i;
    match x_dst e with
    | Some d =>
      if d =? v then Ok (s1, false)
      else do s2 <- make_conflict s1 v d; do s3 <- add_in s2 i v; walk_out s3 v r
    | None => do s3 <- add_in s1 i v; walk_out s3 v r
    end
  end.

(** live_out_at_block, 473-492: [M] is the set of visited blocks *)
Fixpoint live_out_block (fuel : nat) (v : nat) (sm : cgs * list nat) (n : nat) : outcome (cgs * list nat) :=
  match fuel with
  | O => NoFuel
  | S k =>
    let '(s, M) := sm in
    if mem n M then Ok (s, M)
    else
      do b <- get_block (c_f s) n;
      do r <- walk_out s v (rev (b_insns b));
      if (snd r : bool) then ofold (live_out_block k v) (fst r, n :: M) (b_preds b)
      else Ok (fst r, n :: M)
  end.

(** live_in_at_statement on a user, 513-530; prev pointers are read off the list of parent_bb *)
Definition live_in_stmt (fuel : nat) (v : nat) (sm : cgs * list nat) (i : nat) : outcome (cgs * list nat) :=
  let '(s, M) := sm in
  do x <- get_insn (c_f s) i;
  do b <- get_block (c_f s) (i_parent x);
  do s1 <- add_in s i v;
  match index_of i (b_insns b) with
  | None => UB
  | Some k =>
    do r <- walk_out s1 v (rev (firstn k (b_insns b)));
    if (snd r : bool) then ofold (live_out_block fuel v) (fst r, M) (b_preds b)
    else Ok (fst r, M)
  end.

Definition phi_uses (v : nat) (x : insn) : list nat :=
  map snd (filter (fun e => refers v (fst e)) (i_phi x)).

Definition live_user (fuel : nat) (v : nat) (sm : cgs * list nat) (u : nat) : outcome (cgs * list nat) :=
  do x <- get_insn (c_f (fst sm)) u;
  if iop_eqb (i_op x) PHI then
    match phi_uses v x with
    | [] => Crit
    | l => ofold (live_out_block fuel v) sm l
    end
  else live_in_stmt fuel v sm u.

Definition live_var (fuel : nat) (s : cgs) (v : nat) : outcome cgs :=
  do e <- get_ex s v;
  match x_dst e with
  | None => Ok s
  | Some d =>
    if x_fin e then Ok s
    else if negb (d =? v) then Crit
    else
      let s1 := with_all (ins v (c_all s)) s in
      do x <- get_insn (c_f s1) v;
      do r <- ofold (live_user fuel v) (s1, []) (i_users x);
      Ok (fst r)
  end.
Definition liveness (fuel : nat) (s : cgs) : outcome cgs :=
  do l <- insns_in (c_f s) (c_reach s); ofold (live_var fuel) s l.

(** clean_cg_data, 622-662 *)
Definition clean_one (s : cgs) (i : nat) : outcome cgs :=
  match c_ex s i with
  | None => Crit
  | Some e =>
    let p := x_pos e in
    Ok (put_ex s i (mkEx (x_dst e) [] [] [] 0 0 (x_fin e)
          (if x_fin e then p else mkPos false (vp_size p) (vp_reg p) (vp_spilled p)) (x_nonvr e)))
  end.
Definition clean (s : cgs) : outcome cgs :=
  let s0 := with_all [] s in
  do s1 <- ofold (fun t r => clean_one (with_all (ins r (c_all t)) t) r) s0 (c_regs s0);
  do l <- insns_in (c_f s1) (c_reach s1);
  ofold clean_one s1 l.

(** ** conflict_analysis, 722-790 *)
Fixpoint pairs (l : list nat) : list (nat * nat) :=
  match l with [] => [] | a :: r => map (pair a) r ++ pairs r end.

(** phi_conflict_at_block_no_propagate, 437-471 *)
Fixpoint phi_conflict (fuel : nat) (v : nat) (s : cgs) (n : nat) : outcome cgs :=
  match fuel with
  | O => NoFuel
  | S k =>
    do b <- get_block (c_f s) n;
    match rev (b_insns b) with
    | [] => ofold (phi_conflict k v) s (b_preds b)
    | z :: _ =>
      do x <- get_insn (c_f s) z;
      do e <- get_ex s z;
      ofold (fun t i => if i =? v then Ok t else make_conflict t i v) s
            (if is_jmp_op (i_op x) then x_in e else x_out e)
    end
  end.

(** caller_constraint, 722-729 *)
Definition caller_constraint (s : cgs) (v : nat) : outcome cgs :=
  ofold (fun t k => do r <- reg_node t (Z.of_nat k); make_conflict t r v) s (seq 0 6).

Definition conflict_one (fuel : nat) (s : cgs) (i : nat) : outcome cgs :=
  do x <- get_insn (c_f s) i;
  do s1 <- (if iop_eqb (i_op x) PHI then ofold (phi_conflict fuel i) s (map snd (i_phi x)) else Ok s);
  do s2 <- (if iop_eqb (i_op x) CALL then
              do e <- get_ex s1 i;
              ofold (fun t v => if mem v (x_out e) then caller_constraint t v else Ok t) s1 (x_in e)
            else Ok s1);
  if is_bin_alu_op (i_op x) then
    match nth_error (i_vals x) 1 with
    | None => UB
    | Some v => match val_target v with Some d => make_conflict s2 i d | None => Ok s2 end
    end
  else Ok s2.
Definition conflicts (fuel : nat) (s : cgs) : outcome cgs :=
  do s1 <- ofold (fun t p => make_conflict t (fst p) (snd p)) s (pairs (firstn 10 (c_regs s)));
  do l <- insns_in (c_f s1) (c_reach s1);
  ofold (conflict_one fuel) s1 l.

(** ** Maximum cardinality search, 793-831.  [om i l] is the order in which the set [l] is enumerated
    in round [i]. *)
Definition scan_max (key : nat -> option nat) (l : list nat) : outcome (option nat) :=
  do r <- ofold (fun (a : nat * option nat) v =>
                   match key v with
                   | None => UB
                   | Some k => Ok (if fst a <=? k then (k, Some v) else a)
                   end) (0, None) l;
  Ok (snd r).
Definition lam_of (s : cgs) (v : nat) : option nat := option_map x_lam (c_ex s v).
Definition bump (allvar : list nat) (s : cgs) (u : nat) : outcome cgs :=
  if mem u allvar then do e <- get_ex s u; Ok (put_ex s u (set_lam (S (x_lam e)) e)) else Ok s.
Fixpoint mcs_loop (om : nat -> list nat -> list nat) (n : nat) (s : cgs) (allvar : list nat) : outcome cgs :=
  match n with
  | O => Ok s
  | S k =>
    do m <- scan_max (lam_of s) (om n allvar);
    match m with
    | None => Crit
    | Some v =>
      let s1 := with_seo (c_seo s ++ [v]) s in
      do e <- get_ex s1 v;
      do s2 <- ofold (bump allvar) s1 (x_adj e);
      mcs_loop om k s2 (del v allvar)
    end
  end.
Definition mcs (om : nat -> list nat -> list nat) (s : cgs) : outcome cgs :=
  mcs_loop om (length (c_all s)) (with_seo [] s) (c_all s).

(** ** pre_spill, 845-925 *)
Definition inc_w (s : cgs) (v : nat) : outcome cgs :=
  do e <- get_ex s v; Ok (put_ex s v (set_w (S (x_w e)) e)).
(** the candidate clique of one vertex: the vertex and its neighbours that come earlier *)
Definition clique_of (earlier : list nat) (s : cgs) (v : nat) : outcome (cgs * list nat) :=
  do s1 <- inc_w s v;
  do e <- get_ex s1 v;
  ofold (fun (t : cgs * list nat) u =>
           if mem u earlier then do s2 <- inc_w (fst t) u; Ok (s2, ins u (snd t)) else Ok t)
        (s1, [v]) (x_adj e).
Fixpoint cliques (earlier : list nat) (s : cgs) (l : list nat) : outcome (cgs * list (list nat)) :=
  match l with
  | [] => Ok (s, [])
  | v :: r =>
    do q <- clique_of earlier s v;
    do t <- cliques (earlier ++ [v]) (fst q) r;
    Ok (fst t, snd q :: snd t)
  end.
(** maxcl_need_spill, 833-843 *)
Definition need_spill (eps : list (list nat)) : option (list nat) := find (fun q => 10 <? length q) eps.
Definition spill_key (s : cgs) (v : nat) : option (nat * bool) :=
  option_map (fun e => (x_w e, x_nonvr e)) (c_ex s v).
Definition scan_spill (s : cgs) (l : list nat) : outcome (option nat) :=
  do r <- ofold (fun (a : nat * option nat) v =>
                   match spill_key s v with
                   | None => UB
                   | Some (k, nv) => Ok (if (fst a <=? k) && negb nv then (k, Some v) else a)
                   end) (0, None) l;
  Ok (snd r).
Fixpoint spill_loop (fuel : nat) (os : nat -> list nat -> list nat) (s : cgs) (eps : list (list nat))
    (acc : list nat) : outcome (list nat * list (list nat)) :=
  match fuel with
  | O => NoFuel
  | S k =>
    match need_spill eps with
    | None => Ok (acc, eps)
    | Some cur =>
      do m <- scan_spill s (os k cur);
      match m with
      | None => Crit
      | Some v => spill_loop k os s (map (del v) eps) (acc ++ [v])
      end
    end
  end.
(** returns the state, to_spill and the candidate sets that are left *)
Definition pre_spill (fuel : nat) (om os : nat -> list nat -> list nat) (s : cgs)
  : outcome (cgs * (list nat * list (list nat))) :=
  do s1 <- mcs om s;
  do q <- cliques [] s1 (c_seo s1);
  do r <- spill_loop fuel os (fst q) (snd q) [];
  Ok (fst q, r).

(** ** spill, 927-1064 *)
Definition is_self_operand (x : insn) (i : nat) : bool :=
  match i_vals x with v :: _ => refers i v | [] => false end.

(** the slots of an instruction in the order of bpf_ir_get_operands *)
Definition slots_of (x : insn) : list slot :=
  map SVal (seq 0 (length (i_vals x)))
  ++ (if iop_eqb (i_op x) PHI then map SPhi (seq 0 (length (i_phi x))) else [])
  ++ (if iop_eqb (i_op x) LOADRAW || iop_eqb (i_op x) STORERAW then [SAddr] else []).

Definition cg_load (s : cgs) (at_ : nat + nat) (a : nat) : outcome (cgs * nat) :=
  do y <- get_insn (c_f s) a;
  if negb (iop_eqb (i_op y) ALLOC) then Crit
  else
    do c <- (match at_ with
             | inl i => cg_create s i (K_load (val_insn a)) P_FRONT
             | inr bb => cg_create_bb s bb (K_load (val_insn a)) P_BACK_BEFORE_JMP
             end);
    do t <- get_insn (c_f (fst c)) (snd c);
    Ok (with_f (put_insn (c_f (fst c)) (snd c) (set_vrt (i_vrt y) t)) (fst c), snd c).

(** spill_insn, 952-1002: [u] is the user, [a] the ALLOC, [v] the spilled value *)
Definition spill_slot (u a v t : nat) (s : cgs) (sl : slot) : outcome cgs :=
  do x <- get_insn (c_f s) u;
  match slot_get x sl with
  | Some w => if refers v w then in_func s (change_value (c_f s) u sl (val_insn t)) else Ok s
  | None => UB
  end.
Definition spill_phi_slot (u a v : nat) (s : cgs) (k : nat) : outcome cgs :=
  do x <- get_insn (c_f s) u;
  match nth_error (i_phi x) k with
  | Some (w, bb) =>
    if refers v w then
      do c <- cg_load s (inr bb) a;
      in_func (fst c) (change_value (c_f (fst c)) u (SPhi k) (val_insn (snd c)))
    else Ok s
  | None => UB
  end.
Definition spill_user (a v : nat) (s : cgs) (u : nat) : outcome cgs :=
  do x <- get_insn (c_f s) u;
  if (iop_eqb (i_op x) STORE || iop_eqb (i_op x) LOAD) && is_self_operand x u then Ok s
  else if iop_eqb (i_op x) PHI then
    ofold (spill_phi_slot u a v) s (seq 0 (length (i_phi x)))
  else
    do c <- cg_load s (inl u) a;
    ofold (spill_slot u a v (snd c)) (fst c) (slots_of x).

(** marking an ALLOC as living on the stack, 1042-1047 *)
Definition finalize_stack (s : cgs) (a : nat) : outcome cgs :=
  let '(s1, o) := get_new_spill s 8 in
  do e <- get_ex s1 a;
  Ok (put_ex s1 a (set_pos (mkPos true 8 (vp_reg (x_pos e)) o) (set_fin true e))).

Definition spill_one (s : cgs) (v : nat) : outcome cgs :=
  do x <- get_insn (c_f s) v;
  if iop_eqb (i_op x) CALL || iop_eqb (i_op x) ALLOCARRAY then Crit
  else if iop_eqb (i_op x) ALLOC then finalize_stack s v
  else
    do c <- cg_create_bb s (f_entry (c_f s)) (K_alloc VR_64) P_FRONT_AFTER_PHI;
    let a := snd c in
    do d <- cg_create (fst c) v (K_store a (val_insn v)) P_BACK;
    do s2 <- finalize_stack (fst d) a;
    ofold (spill_user a v) s2 (i_users x).
Definition spill (s : cgs) (l : list nat) : outcome cgs := ofold spill_one s l.

(** ** coloring, 1066-1102 *)
Definition colors : list Z := [0; 1; 2; 3; 4; 5; 6; 7; 8; 9]%Z.
(** used_reg[alloc_reg] = true for one neighbour; the array has ten entries *)
Definition mark_used (s : cgs) (used : list Z) (c : nat) : outcome (list Z) :=
  do e <- get_ex s c;
  if vp_alloc (x_pos e) && (vp_spilled (x_pos e) =? 0)%Z then
    if (vp_reg (x_pos e) <? 10)%Z then Ok (vp_reg (x_pos e) :: used) else UB
  else Ok used.
Definition free_color (used : list Z) : option Z :=
  find (fun c => negb (existsb (Z.eqb c) used)) colors.
Definition set_reg (r : Z) (p : vrpos) : vrpos := mkPos true (vp_size p) r (vp_spilled p).
Definition color_one (s : cgs) (v : nat) : outcome cgs :=
  do e <- get_ex s v;
  if vp_alloc (x_pos e) then Ok s
  else
    do used <- ofold (mark_used s) [] (x_adj e);
    match free_color used with
    | None => Err
    | Some c => Ok (put_ex s v (set_pos (set_reg c (x_pos e)) e))
    end.
Definition coloring (s : cgs) : outcome cgs := ofold color_one s (c_seo s).

(** ** coalesce, 1109-1168 and coalescing, 1171-1210 *)
Definition mark_alloc (s : cgs) (used : list Z) (c : nat) : outcome (list Z) :=
  do e <- get_ex s c;
  if negb (vp_alloc (x_pos e)) then Crit
  else if (vp_spilled (x_pos e) =? 0)%Z then
    if (vp_reg (x_pos e) <? 10)%Z then Ok (vp_reg (x_pos e) :: used) else UB
  else Ok used.
Definition change_reg (s : cgs) (v : nat) (r : Z) : outcome cgs :=
  do e <- get_ex s v;
  let p := x_pos e in
  Ok (put_ex s v (set_pos (mkPos (vp_alloc p) (vp_size p) r (vp_spilled p)) e)).
(** reading used_colors[r] *)
Definition color_used (used : list Z) (r : Z) : outcome bool :=
  if (r <? 10)%Z then Ok (existsb (Z.eqb r) used) else UB.
Definition coalesce (s : cgs) (v1 v2 : nat) : outcome cgs :=
  do e1 <- get_ex s v1;
  do e2 <- get_ex s v2;
  let r1 := vp_reg (x_pos e1) in
  let r2 := vp_reg (x_pos e2) in
  if (vp_spilled (x_pos e1) =? 0)%Z && (vp_spilled (x_pos e2) =? 0)%Z && negb (r2 =? r1)%Z then
    do used1 <- ofold (mark_alloc s) [] (x_adj e1);
    do used <- ofold (mark_alloc s) used1 (x_adj e2);
    if x_fin e1 then
      do b <- color_used used r1;
      if (b : bool) then Ok s else change_reg s v2 r1
    else if x_fin e2 then
      do b <- color_used used r2;
      if (b : bool) then Ok s else change_reg s v1 r2
    else
      match free_color used with
      | None => Ok s
      | Some c => do s1 <- change_reg s v1 c; change_reg s1 v2 c
      end
  else Ok s.

(** the operand of an instruction that the function tries to merge: (v1, v2) *)
Definition copy_pair (s : cgs) (i : nat) : outcome (option (nat * nat)) :=
  do x <- get_insn (c_f s) i;
  let is_alloc v := do y <- get_insn (c_f s) v; if iop_eqb (i_op y) ALLOC then Ok tt else Crit in
  match i_op x, i_vals x with
  | ASSIGN, v :: _ => Ok (option_map (pair i) (val_target v))
  | STORE, a :: v :: _ =>
    match val_target a with
    | None => Crit
    | Some d => do _ <- is_alloc d; Ok (option_map (pair d) (val_target v))
    end
  | LOAD, a :: _ =>
    match val_target a with
    | None => Crit
    | Some d => do _ <- is_alloc d; Ok (Some (i, d))
    end
  | ASSIGN, _ | STORE, _ | LOAD, _ => UB
  | _, _ => Ok None
  end.
Definition coalesce_insn (s : cgs) (i : nat) : outcome cgs :=
  do p <- copy_pair s i;
  match p with Some (a, b) => coalesce s a b | None => Ok s end.
Definition coalescing (s : cgs) : outcome cgs :=
  do l <- insns_in (c_f s) (c_reach s); ofold coalesce_insn s l.

(** ** add_stack_offset, 1212-1258.  The parameter has type s16; constants are s64. *)
Definition shift_value (o : Z) (v : value) : value :=
  match v_data v with
  | VRawOff c => mkVal (VConst (s64 (c + o))) (v_ct v) (v_bi v)
  | VRawOffRev c => mkVal (VConst (s64 (c - o))) (v_ct v) (v_bi v)
  | _ => v
  end.
Definition is_raw (o : iop) : bool := iop_eqb o LOADRAW || iop_eqb o STORERAW.
Definition shift_insn (o : Z) (x : insn) : insn :=
  let a := i_addr x in
  match is_raw (i_op x), a_ot a with
  | true, O_RAWOFF => set_addr (mkAddr (a_val a) (s16 (a_off a + o)) O_CONST) x
  | true, O_RAWOFF_REV => set_addr (mkAddr (a_val a) (s16 (a_off a - o)) O_CONST) x
  | _, _ =>
    let x1 := set_vals (map (shift_value o) (i_vals x)) x in
    let x2 := if iop_eqb (i_op x) PHI
              then set_phi (map (fun e => (shift_value o (fst e), snd e)) (i_phi x1)) x1 else x1 in
    if is_raw (i_op x) then set_addr (mkAddr (shift_value o (a_val a)) (a_off a) (a_ot a)) x2 else x2
  end.
Definition add_stack_offset (s : cgs) (off : Z) : outcome cgs :=
  do l <- insns_in (c_f s) (c_reach s);
  ofold (fun t i => do x <- get_insn (c_f t) i;
                    Ok (with_f (put_insn (c_f t) i (shift_insn (s16 off) x)) t)) s l.

(** ** remove_phi, 1262-1314 *)
(** the phis at the head of each block *)
Fixpoint head_phis (s : cgs) (l : list nat) : outcome (list nat) :=
  match l with
  | [] => Ok []
  | i :: r =>
    do x <- get_insn (c_f s) i;
    if iop_eqb (i_op x) PHI then
      do e <- get_ex s i;
      if negb (match x_dst e with Some d => d =? i | None => false end) then Crit
      else if negb (vp_spilled (x_pos e) =? 0)%Z then Crit
      else do t <- head_phis s r; Ok (i :: t)
    else Ok []
  end.
Fixpoint all_phis (s : cgs) (l : list nat) : outcome (list nat) :=
  match l with
  | [] => Ok []
  | b :: r => do x <- get_block (c_f s) b; do p <- head_phis s (b_insns x); do t <- all_phis s r; Ok (p ++ t)
  end.
Definition phi_copy (i : nat) (p : vrpos) (s : cgs) (e : value * nat) : outcome cgs :=
  do c <- cg_create_bb s (snd e) (K_assign (fst e)) P_BACK_BEFORE_JMP;
  do y <- get_ex (fst c) (snd c);
  in_func (put_ex (fst c) (snd c) (set_pos p y)) (remove_user (c_f (fst c)) (fst e) i).
(** erase_insn_cg, 29-70; the extra data is freed with the instruction *)
Definition erase_cg (s : cgs) (i : nat) : outcome cgs :=
  do f <- erase_insn (c_f s) i;
  Ok (with_ex (upd (c_ex s) i None) (with_f f s)).
Definition remove_one_phi (s : cgs) (i : nat) : outcome cgs :=
  do x <- get_insn (c_f s) i;
  do e <- get_ex s i;
  do s1 <- ofold (phi_copy i (x_pos e)) s (i_phi x);
  do x1 <- get_insn (c_f s1) i;
  let s2 := with_f (put_insn (c_f s1) i (set_phi [] x1)) s1 in
  do r <- reg_node s2 (vp_reg (x_pos e));
  do s3 <- in_func s2 (replace_all (c_f s2) i (val_insn r));
  erase_cg s3 i.
Definition remove_phi (s : cgs) : outcome cgs :=
  do l <- all_phis s (c_reach s); ofold remove_one_phi s l.

(** ** flatten_ir, ir_cg_norm.c 55-185, 1320-1329: every operand is replaced by the position of its
    value, every instruction gets the position of its result (uninitialised fields are 0 here) *)
Definition flat_value (s : cgs) (v : value) : outcome value :=
  match val_target v with
  | None => Ok v
  | Some d =>
    do e <- get_ex s d;
    match x_dst e with
    | Some d' => if d' =? d then Ok (mkVal (VFlat (x_pos e)) (v_ct v) (v_bi v)) else Crit
    | None => Crit
    end
  end.
Definition flat_insn (s : cgs) (i : nat) : outcome ninsn :=
  do x <- get_insn (c_f s) i;
  do e <- get_ex s i;
  do x1 <- (if iop_eqb (i_op x) LOAD || iop_eqb (i_op x) STORE then
              match i_vals x with
              | v :: _ =>
                match val_target v with
                | Some d => do y <- get_insn (c_f s) d;
                            if iop_eqb (i_op y) ALLOC then Ok (set_vrt (i_vrt y) x) else Crit
                | None => Crit
                end
              | [] => Crit
              end
            else Ok x);
  do vs <- omap (flat_value s) (i_vals x1);
  do ph <- (if iop_eqb (i_op x) PHI
            then omap (fun p => do v <- flat_value s (fst p); Ok (v, snd p)) (i_phi x1) else Ok (i_phi x1));
  do a <- (if is_raw (i_op x) then flat_value s (a_val (i_addr x1)) else Ok (a_val (i_addr x1)));
  do p <- (match x_dst e with
           | None => Ok (mkPos false 0 0 0)
           | Some d => do de <- get_ex s d; Ok (x_pos de)
           end);
  Ok (mkN (set_addr (mkAddr a (a_off (i_addr x1)) (a_ot (i_addr x1))) (set_phi ph (set_vals vs x1))) p).
Definition flat_block (s : cgs) (b : nat) : outcome nblock :=
  do x <- get_block (c_f s) b;
  do l <- omap (flat_insn s) (b_insns x);
  Ok (mkNB b (Z.testbit (b_flag x) 0) (b_preds x) l).
Definition flatten (s : cgs) : outcome nprog := omap (flat_block s) (c_reach s).

(** ** The allocation loop of bpf_ir_compile, 1316-1408.
    One round of the loop: clean_cg_data, liveness_analysis, conflict_analysis. *)
Definition analysis (fuel : nat) (s : cgs) : outcome cgs :=
  do s1 <- clean s; do s2 <- liveness fuel s1; conflicts fuel s2.
(** The loop: [n] rounds are left (the C raises an error in the seventh); [om], [os] give the orders in
    which sets are enumerated in each round.  [chk] stands for bpf_ir_prog_check. *)
Fixpoint ra_loop (n fuel : nat) (om os : nat -> nat -> list nat -> list nat) (chk : cgs -> outcome cgs)
    (s : cgs) : outcome cgs :=
  match n with
  | O => Err
  | S k =>
    do s1 <- analysis fuel s;
    do r <- pre_spill fuel (om k) (os k) s1;
    match fst (snd r) with
    | [] => Ok (fst r)
    | ts => do s2 <- spill (fst r) ts; do s3 <- chk s2; ra_loop k fuel om os chk s3
    end
  end.
(** change_call .. spill_const, 1330-1344 *)
Definition prepare (s : cgs) : outcome cgs :=
  do s1 <- change_call s; do s2 <- change_fun_arg s1; do s3 <- spill_array s2; spill_const s3.
(** coloring .. remove_phi, 1384-1402 *)
Definition assign (s : cgs) : outcome cgs :=
  do s1 <- coloring s; coalescing s1.
Definition ssa_out (s : cgs) : outcome cgs :=
  do s1 <- add_stack_offset s (c_off s); remove_phi s1.

(** bpf_ir_compile, 1316-1408, from init_cg on: [f] is the function after the passes, [reach] its
    reachable_bbs, [chk] stands for the checker (bpf_ir_cg_prog_check, bpf_ir_prog_check). *)
Definition codegen (fuel : nat) (om os : nat -> nat -> list nat -> list nat) (chk : cgs -> outcome cgs)
    (f : func) (reach : list nat) (sp : nat) (args : list nat) : outcome (list bpf_insn) :=
  do s0 <- init_cg f reach sp args;
  do s1 <- prepare s0;
  do s2 <- chk s1;
  do s3 <- ra_loop 6 fuel om os chk s2;
  do s4 <- assign s3;
  do s5 <- ssa_out s4;
  do p <- flatten s5;
  cg_norm fuel p.
