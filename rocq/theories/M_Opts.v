(** Option strings: core/aux/kern_utils.c 1-226, core/lli.c 44-52 (parse_int), and the parameter
    parser of the instruction counter, core/passes/insn_counter_pass.c 135-185.
    A C string is a list of non-NUL characters.  Writing past the end of a fixed-size buffer is [UB];
    a negative return value is [Err].  Simplifications: on [Err] the options set so far are dropped from
    the result; allocation succeeds; PRINT_LOG_ERROR for an unknown pass is not modelled. *)
From Verif Require Import M_Base SpecWord.
From Coq Require Export Ascii String.
Open Scope list_scope.
Open Scope nat_scope.

Definition cstr := list ascii.
Definition lit (s : string) : cstr := list_ascii_of_string s.
Definition str_eqb (a b : cstr) : bool := if list_eq_dec ascii_dec a b then true else false.
(** strncmp (s, pre, strlen pre) == 0, and the pointer behind the prefix *)
Fixpoint strip (pre s : cstr) : option cstr :=
  match pre, s with
  | [], _ => Some s
  | a :: p, b :: r => if ascii_dec a b then strip p r else None
  | _ :: _, [] => None
  end.

(** GET_OPT, kern_utils.c 168-174: copies up to a comma into a buffer of [size] bytes and appends NUL;
    returns the buffer and the rest of the input (starting at the comma). *)
Fixpoint get_opt (size n : nat) (src : cstr) : outcome (cstr * cstr) :=
  match src with
  | [] => if n <? size then Ok ([], []) else UB
  | c :: r =>
    if ascii_dec c ","%char then (if n <? size then Ok ([], src) else UB)
    else if n <? size then do x <- get_opt size (S n) r; Ok (c :: fst x, snd x) else UB
  end.

(** The loop "while ( *src ) { GET_OPT; handle; NEXT_OPT }", 201-213; [f] handles one piece *)
Fixpoint opt_loop {S} (fuel size : nat) (f : S -> cstr -> outcome S) (s : S) (src : cstr) : outcome S :=
  match fuel with
  | O => NoFuel
  | Datatypes.S k =>
    match src with
    | [] => Ok s
    | _ =>
      do x <- get_opt size 0 src;
      do s1 <- f s (fst x);
      match snd x with
      | [] => Ok s1
      | _ :: r => opt_loop k size f s1 r
      end
    end
  end.
Definition opt_parse {S} size (f : S -> cstr -> outcome S) (s : S) (src : cstr) : outcome S :=
  opt_loop (Datatypes.S (List.length src)) size f s src.

(** strtol, base 10: skips white space, optional sign, digits; None when there is no digit;
    otherwise the value saturated to [long] and the rest.  parse_int, lli.c 44-52, converts to int
    (modulo 2^32) and demands that nothing follows. *)
Definition is_space (c : ascii) : bool :=
  let n := nat_of_ascii c in (n =? 32) || ((9 <=? n) && (n <=? 13)).
Definition digit (c : ascii) : option Z :=
  let n := nat_of_ascii c in if (48 <=? n) && (n <=? 57) then Some (Z.of_nat n - 48)%Z else None.
Fixpoint skip_space (s : cstr) : cstr := match s with c :: r => if is_space c then skip_space r else s | [] => [] end.
Fixpoint digits (acc : Z) (s : cstr) : Z * cstr :=
  match s with
  | c :: r => match digit c with Some d => digits (10 * acc + d)%Z r | None => (acc, s) end
  | [] => (acc, s)
  end.
Definition clamp_long (z : Z) : Z := Z.max (- 2 ^ 63) (Z.min (2 ^ 63 - 1) z).
Definition strtol (s : cstr) : Z * cstr :=
  let s1 := skip_space s in
  let '(neg, s2) := match s1 with
                    | c :: r => if ascii_dec c "-"%char then (true, r) else if ascii_dec c "+"%char then (false, r) else (false, s1)
                    | [] => (false, s1)
                    end in
  match s2 with
  | c :: _ => match digit c with
              | Some _ => let '(v, e) := digits 0 s2 in (clamp_long (if neg then - v else v), e)
              | None => (0%Z, s)
              end
  | [] => (0%Z, s)
  end.
Definition parse_int (s : cstr) : outcome Z :=
  let '(v, e) := strtol s in match e with [] => Ok (s32 v) | _ => Err end.

(** struct bpf_ir_opts, the fields set here *)
Inductive pmode := PM_BPF | PM_DUMP | PM_DETAIL | PM_BPF_DETAIL.
Record gopts := mkG {
  g_force : bool; g_mode : pmode; g_no_check : bool; g_printk : bool; g_throw_msg : bool;
  g_print_only : bool; g_fake_run : bool; g_dot : bool; g_verbose : Z; g_max_insns : Z; g_maxit : Z }.
Definition default_gopts := mkG false PM_BPF false false false false false false 1 0 10.
Definition g_set_force o := mkG true (g_mode o) (g_no_check o) (g_printk o) (g_throw_msg o) (g_print_only o) (g_fake_run o) (g_dot o) (g_verbose o) (g_max_insns o) (g_maxit o).
Definition g_set_mode m o := mkG (g_force o) m (g_no_check o) (g_printk o) (g_throw_msg o) (g_print_only o) (g_fake_run o) (g_dot o) (g_verbose o) (g_max_insns o) (g_maxit o).
Definition g_set_no_check o := mkG (g_force o) (g_mode o) true (g_printk o) (g_throw_msg o) (g_print_only o) (g_fake_run o) (g_dot o) (g_verbose o) (g_max_insns o) (g_maxit o).
Definition g_set_printk o := mkG (g_force o) (g_mode o) (g_no_check o) true (g_throw_msg o) (g_print_only o) (g_fake_run o) (g_dot o) (g_verbose o) (g_max_insns o) (g_maxit o).
Definition g_set_throw o := mkG (g_force o) (g_mode o) (g_no_check o) (g_printk o) true (g_print_only o) (g_fake_run o) (g_dot o) (g_verbose o) (g_max_insns o) (g_maxit o).
Definition g_set_print_only o := mkG (g_force o) (g_mode o) (g_no_check o) (g_printk o) (g_throw_msg o) true (g_fake_run o) (g_dot o) (g_verbose o) (g_max_insns o) (g_maxit o).
Definition g_set_fake_run o := mkG (g_force o) (g_mode o) (g_no_check o) (g_printk o) (g_throw_msg o) (g_print_only o) true (g_dot o) (g_verbose o) (g_max_insns o) (g_maxit o).
Definition g_set_dot o := mkG (g_force o) (g_mode o) (g_no_check o) (g_printk o) (g_throw_msg o) (g_print_only o) (g_fake_run o) true (g_verbose o) (g_max_insns o) (g_maxit o).
Definition g_set_verbose v o := mkG (g_force o) (g_mode o) (g_no_check o) (g_printk o) (g_throw_msg o) (g_print_only o) (g_fake_run o) (g_dot o) v (g_max_insns o) (g_maxit o).
Definition g_set_max_insns v o := mkG (g_force o) (g_mode o) (g_no_check o) (g_printk o) (g_throw_msg o) (g_print_only o) (g_fake_run o) (g_dot o) (g_verbose o) v (g_maxit o).
Definition g_set_maxit v o := mkG (g_force o) (g_mode o) (g_no_check o) (g_printk o) (g_throw_msg o) (g_print_only o) (g_fake_run o) (g_dot o) (g_verbose o) (g_max_insns o) v.

(** apply_global_opt, 92-150 *)
Definition apply_global_opt (o : gopts) (opt : cstr) : outcome gopts :=
  if str_eqb opt (lit "force") then Ok (g_set_force o)
  else if str_eqb opt (lit "print_bpf") then Ok (g_set_mode PM_BPF o)
  else if str_eqb opt (lit "print_dump") then Ok (g_set_mode PM_DUMP o)
  else if str_eqb opt (lit "print_detail") then Ok (g_set_mode PM_DETAIL o)
  else if str_eqb opt (lit "no_prog_check") then Ok (g_set_no_check o)
  else if str_eqb opt (lit "print_bpf_detail") then Ok (g_set_mode PM_BPF_DETAIL o)
  else if str_eqb opt (lit "printk_log") then Ok (g_set_printk o)
  else if str_eqb opt (lit "throw_msg") then Ok (g_set_throw o)
  else if str_eqb opt (lit "printonly") then Ok (g_set_print_only o)
  else if str_eqb opt (lit "fakerun") then Ok (g_set_fake_run o)
  else if str_eqb opt (lit "dotgraph") then Ok (g_set_dot o)
  else match strip (lit "verbose=") opt with
  | Some r => do v <- parse_int r; if (v <? 0)%Z || (10 <? v)%Z then Err else Ok (g_set_verbose v o)
  | None => match strip (lit "maxinsns=") opt with
  | Some r => do v <- parse_int r; if (v <=? 0)%Z then Err else Ok (g_set_max_insns v o)
  | None => match strip (lit "maxit=") opt with
  | Some r => do v <- parse_int r; if (v <=? 0)%Z || (15 <? v)%Z then Err else Ok (g_set_maxit v o)
  | None => Err
  end end end.

(** struct builtin_pass_cfg and custom_pass_cfg, the fields used here; [oc_load] is param_load or NULL.
    For a built-in pass [oc_on] is enable_cfg and [oc_run] is enable; for a custom pass [oc_on] is
    pass.enabled and [oc_run] is unused. *)
Record ocfg (P : Type) := mkOc { oc_name : cstr; oc_on : bool; oc_run : bool; oc_param : option P; oc_load : option (cstr -> outcome P) }.
Arguments mkOc {P}. Arguments oc_name {P}. Arguments oc_on {P}. Arguments oc_run {P}. Arguments oc_param {P}. Arguments oc_load {P}.
Record popts (P : Type) := mkPo { po_builtin : list (ocfg P); po_custom : list (ocfg P) }.
Arguments mkPo {P}. Arguments po_builtin {P}. Arguments po_custom {P}.

(** apply_pass_opt, first loop, 12-33: splits "name(param)"; [None] is -EINVAL.
    Buffers: pass_name has 32 bytes (BPF_IR_MAX_PASS_NAME_SIZE), param has 64. *)
Fixpoint split_pass (s : cstr) (has_param : bool) (nm pr : cstr) : outcome (cstr * option cstr) :=
  match s with
  | [] => if has_param then Err
          else if List.length nm <? 32 then Ok (nm, None) else UB
  | c :: r =>
    if 64 <=? List.length pr then Err
    else if (if ascii_dec c "("%char then true else false) && negb has_param then split_pass r true nm pr
    else if has_param then
      if ascii_dec c ")"%char then (if List.length nm <? 32 then (if List.length pr <? 64 then Ok (nm, Some pr) else UB) else UB)
      else (if List.length pr <? 64 then split_pass r true nm (pr ++ [c]) else UB)
    else (if List.length nm <? 32 then split_pass r false (nm ++ [c]) pr else UB)
  end.
(** 40-60 and 66-82: the first entry with the name; [None] when there is none *)
Definition load_cfg {P} (c : ocfg P) (param : option cstr) : outcome (option P) :=
  match param, oc_load c with
  | Some p, Some f => do v <- f p; Ok (Some v)
  | _, _ => Ok (oc_param c)
  end.
Fixpoint apply_cfg {P} (builtin : bool) (l : list (ocfg P)) (name : cstr) (param : option cstr) : outcome (option (list (ocfg P))) :=
  match l with
  | [] => Ok None
  | c :: r =>
    if str_eqb (oc_name c) name then
      do v <- load_cfg c param;
      Ok (Some (mkOc (oc_name c) true (if builtin then false else oc_run c) v (oc_load c) :: r))
    else do x <- apply_cfg builtin r name param;
         match x with Some r' => Ok (Some (c :: r')) | None => Ok None end
  end.
Definition apply_pass_opt {P} (o : popts P) (opt : cstr) : outcome (popts P) :=
  do x <- split_pass opt false [] [];
  do b <- apply_cfg true (po_builtin o) (fst x) (snd x);
  match b with
  | Some l => Ok (mkPo l (po_custom o))
  | None =>
    do c <- apply_cfg false (po_custom o) (fst x) (snd x);
    match c with
    | Some l => Ok (mkPo (po_builtin o) l)
    | None => Err
    end
  end.

(** bpf_ir_init_opts, 191-226, both strings non-NULL *)
Definition init_opts {P} (g : gopts) (p : popts P) (global pass : cstr) : outcome (gopts * popts P) :=
  do g' <- opt_parse 64 apply_global_opt g global;
  do p' <- opt_parse 64 apply_pass_opt p pass;
  Ok (g', p').

(** load_param of the instruction counter, insn_counter_pass.c 152-180: limit and mode *)
Definition counter_piece (r : Z * bool) (opt : cstr) : outcome (Z * bool) :=
  let r1 := if str_eqb opt (lit "accurate") then (fst r, true) else r in
  match strip (lit "limit=") opt with
  | Some d => do v <- parse_int d; Ok (v, snd r1)
  | None => Ok r1
  end.
Definition counter_load (opt : cstr) : outcome (Z * bool) :=
  do r <- opt_parse 30 counter_piece (1000000%Z, false) opt;
  if (1000000 <? fst r)%Z then Err else Ok r.
