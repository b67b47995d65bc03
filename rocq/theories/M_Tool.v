(** The command line tool: core/epasstool/epasstool.c 37-76, 78-91, 93-222, core/epasstool/read.c 5-15
    and 44-70 (writing the result), core/epasstool/readlog.c, core/epasstool/printlog.c 29-43.
    A file is its list of bytes.  Not modelled: files that cannot be opened, ELF input (libbpf), the
    printed messages, allocation failure.  [usage] prints and exits: [Err].  Little-endian machine. *)
From Verif Require Import M_Base SpecWord SpecIsa M_Opts.
Open Scope list_scope.
Open Scope nat_scope.

(** struct bpf_insn, include/linux/bpf.h 77-83, copied into a u64 and back (memcpy, read.c 11 and readlog.c 27) *)
Definition word_of (x : bpf_insn) : Z :=
  (b_code x + Z.shiftl (b_dst x) 8 + Z.shiftl (b_src x) 12 + Z.shiftl (b_off x mod 2 ^ 16) 16
   + Z.shiftl (b_imm x mod 2 ^ 32) 32)%Z.
Definition insn_of (w : Z) : bpf_insn :=
  mkBpf (w mod 2 ^ 8) (w / 2 ^ 8 mod 2 ^ 4) (w / 2 ^ 12 mod 2 ^ 4) (s16 (w / 2 ^ 16)) (s32 (w / 2 ^ 32)).

(** printf "%llu": at most 20 digits *)
Definition digit_char (d : Z) : ascii := ascii_of_nat (48 + Z.to_nat d).
Fixpoint show (fuel : nat) (n : Z) (acc : cstr) : cstr :=
  match fuel with
  | O => acc
  | S k => let acc' := digit_char (n mod 10) :: acc in
           if (n / 10 =? 0)%Z then acc' else show k (n / 10)%Z acc'
  end.
Definition show_u64 (n : Z) : cstr := show 20 n [].
Definition nl : ascii := ascii_of_nat 10.
Definition nul : ascii := ascii_of_nat 0.

(** print_bpf_prog_dump, read.c 5-15: the index is a u32, the length a size_t *)
Fixpoint dump_from (fuel : nat) (i : Z) (p : list bpf_insn) : outcome cstr :=
  match fuel with
  | O => NoFuel
  | S k =>
    if (i <? Z.of_nat (List.length p))%Z then
      match nth_error p (Z.to_nat i) with
      | None => UB
      | Some x => do r <- dump_from k (u32 (i + 1)) p; Ok (show_u64 (word_of x) ++ nl :: r)
      end
    else Ok []
  end.
(** fwrite of the array, read.c 57-60 *)
Fixpoint bytes_of (n : nat) (w : Z) : cstr :=
  match n with O => [] | S k => ascii_of_nat (Z.to_nat (w mod 256)) :: bytes_of k (w / 256) end.
Definition raw (p : list bpf_insn) : cstr := flat_map (fun x => bytes_of 8 (word_of x)) p.

Inductive ofmt := F_SEC | F_LOG.
(** what epass_run writes to the output file, read.c 48-66 *)
Definition write_prog (fuel : nat) (fm : ofmt) (p : list bpf_insn) : outcome cstr :=
  match fm with F_SEC => Ok (raw p) | F_LOG => dump_from fuel 0 p end.

(** fgets: at most [k] characters, up to and including a newline *)
Fixpoint fgets_body (k : nat) (s : cstr) : cstr * cstr :=
  match k, s with
  | S k', c :: r => if ascii_dec c nl then ([c], r) else let '(l, t) := fgets_body k' r in (c :: l, t)
  | _, _ => ([], s)
  end.
Definition fgets (size : nat) (s : cstr) : option (cstr * cstr) :=
  match s with [] => None | _ => Some (fgets_body (size - 1) s) end.

(** strtoull, base 10, of the characters before the first NUL: saturates; a minus sign negates modulo 2^64 *)
Fixpoint c_str (s : cstr) : cstr :=
  match s with c :: r => if ascii_dec c nul then [] else c :: c_str r | [] => [] end.
Definition strtoull (s : cstr) : Z :=
  let s1 := skip_space s in
  let '(neg, s2) := match s1 with
                    | c :: r => if ascii_dec c "-"%char then (true, r) else if ascii_dec c "+"%char then (false, r) else (false, s1)
                    | [] => (false, s1)
                    end in
  let v := fst (digits 0 s2) in
  if (v <? 2 ^ 64)%Z then (if (neg : bool) then u64 (- v) else v) else (2 ^ 64 - 1)%Z.

(** the loop of epass_readlog, readlog.c 22-31 (the same as printlog.c 31-43) *)
Fixpoint readlog_from (fuel : nat) (s : cstr) : outcome (list bpf_insn) :=
  match fuel with
  | O => NoFuel
  | S k =>
    match fgets 256 s with
    | None => Ok []
    | Some (line, r) =>
      let v := strtoull (c_str line) in
      match line with
      | [] => UB
      | c :: _ => if ascii_dec c nl then Ok []
                  else do p <- readlog_from k r; Ok (insn_of v :: p)
      end
    end
  end.
Definition readlog (s : cstr) : outcome (list bpf_insn) := readlog_from (S (List.length s)) s.

(** is_elf_file, epasstool.c 78-91 *)
Definition is_elf_file (s : cstr) : bool :=
  match s with
  | a :: b :: c :: d :: _ =>
    (nat_of_ascii a =? 127) && (nat_of_ascii b =? 69) && (nat_of_ascii c =? 76) && (nat_of_ascii d =? 70)
  | _ => false
  end.

(** parse_cli, epasstool.c 93-222, on argv[1..]; struct user_opts, epasstool.h 7-27 *)
Inductive umode := U_READ | U_PRINT.
Record uopts := mkU {
  u_mode : umode; u_gopt : cstr; u_popt : cstr; u_prog : cstr; u_out : cstr; u_sec : cstr;
  u_fmt : ofmt; u_no_compile : bool; u_auto : bool }.
Definition u_init m := mkU m [] [] [] [] [] F_LOG false true.
Definition set_gopt x u := mkU (u_mode u) x (u_popt u) (u_prog u) (u_out u) (u_sec u) (u_fmt u) (u_no_compile u) (u_auto u).
Definition set_popt x u := mkU (u_mode u) (u_gopt u) x (u_prog u) (u_out u) (u_sec u) (u_fmt u) (u_no_compile u) (u_auto u).
Definition set_prog x u := mkU (u_mode u) (u_gopt u) (u_popt u) x (u_out u) (u_sec u) (u_fmt u) (u_no_compile u) (u_auto u).
Definition set_out x u := mkU (u_mode u) (u_gopt u) (u_popt u) (u_prog u) x (u_sec u) (u_fmt u) (u_no_compile u) (u_auto u).
Definition set_sec x u := mkU (u_mode u) (u_gopt u) (u_popt u) (u_prog u) (u_out u) x (u_fmt u) (u_no_compile u) false.
Definition set_fmt x u := mkU (u_mode u) (u_gopt u) (u_popt u) (u_prog u) (u_out u) (u_sec u) x (u_no_compile u) (u_auto u).
Definition set_nc u := mkU (u_mode u) (u_gopt u) (u_popt u) (u_prog u) (u_out u) (u_sec u) (u_fmt u) true (u_auto u).

(** strcpy into one of the 64-byte buffers *)
Definition strcpy64 (s : cstr) : outcome cstr := if List.length s <? 64 then Ok s else UB.
(** the loops at 114-172 and 180-214; [full] is false for "print", which knows fewer options *)
Fixpoint cli_loop (full : bool) (args : list cstr) (u : uopts) : outcome uopts :=
  let is s a := str_eqb a (lit s) in
  match args with
  | [] => match u_prog u with [] => Err | _ => Ok u end
  | a :: r =>
    if full && (is "--pass-only"%string a || is "-P"%string a) then cli_loop full r (set_nc u)
    else if is "--gopt"%string a then
      match r with [] => Err | v :: r' => do s <- strcpy64 v; cli_loop full r' (set_gopt s u) end
    else if is "--popt"%string a then
      match r with [] => Err | v :: r' => do s <- strcpy64 v; cli_loop full r' (set_popt s u) end
    else if is "--sec"%string a || is "-s"%string a then
      match r with [] => Err | v :: r' => do s <- strcpy64 v; cli_loop full r' (set_sec s u) end
    else if full && is "-o"%string a then
      match r with [] => Err | v :: r' => do s <- strcpy64 v; cli_loop full r' (set_out s u) end
    else if full && is "-F"%string a then
      match r with
      | [] => Err
      | v :: r' => if is "sec"%string v then cli_loop full r' (set_fmt F_SEC u)
                   else if is "log"%string v then cli_loop full r' (set_fmt F_LOG u) else Err
      end
    else match u_prog u with
         | [] => do s <- strcpy64 a; cli_loop full r (set_prog s u)
         | _ => Err
         end
  end.
Definition parse_cli (args : list cstr) : outcome uopts :=
  match args with
  | [] => Err
  | c :: r => if str_eqb c (lit "read") then cli_loop true r (u_init U_READ)
              else if str_eqb c (lit "print") then cli_loop false r (u_init U_PRINT) else Err
  end.

(** main, epasstool.c 224-257, in "read" mode on a file that is not ELF: the program handed to epass_run;
    [None] when the file is opened with libbpf *)
Definition load (file : cstr) : option (outcome (list bpf_insn)) :=
  if is_elf_file file then None else Some (readlog file).

(** enable_builtin, epasstool.c 30-37 *)
Definition enable_builtin {P} (o : popts P) : popts P :=
  mkPo (map (fun c => if oc_on c then mkOc (oc_name c) (oc_on c) true (oc_param c) (oc_load c) else c) (po_builtin o)) (po_custom o).

(** The configuration entries of main, epasstool.c 235-250: bpf_ir_kern_insn_counter_pass,
    bpf_ir_kern_optimization_pass, bpf_ir_kern_compaction_pass, bpf_ir_kern_msan and the custom test_pass1
    (macros bpf_ir.h 1059-1084); the parameter loaders of the first two are arguments. *)
Definition tool_opts {P} (counter_param opt_param : cstr -> outcome P) : popts P :=
  mkPo [mkOc (lit "insn_counter") false false None (Some counter_param);
        mkOc (lit "optimize_ir") false true None (Some opt_param);
        mkOc (lit "optimize_compaction") false false None None;
        mkOc (lit "msan") false false None None]
       [mkOc (lit "test_pass1") false false None None].
(** The passes the tool knows, with the default of the table: epasstool.c 10-18, ir_cg.c 16-24 *)
Definition tool_passes : list (cstr * bool) :=
  [(lit "remove_trivial_phi", true); (lit "div_by_zero", false); (lit "msan", false); (lit "insn_counter", false);
   (lit "translate_ecall", true); (lit "translate_throw", true); (lit "optimize_compaction", false);
   (lit "optimize_ir", true); (lit "add_stack_offset", true)].
