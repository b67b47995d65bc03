(** The disassembler: core/aux/disasm.c, and the body of the loop of print_pre_ir_cfg, core/bpf_ir.c 568-577.
    A call of printf is the list of the pieces of its format with their arguments.  Passing NULL for "%s",
    reading behind a table and reading an instruction that is not there are [UB].  PRINT_LOG_DEBUG appends the
    text to the log (M_Log).  *)
From Verif Require Import M_Base SpecWord SpecIsa M_Opts M_Tool.
Open Scope list_scope.
Open Scope Z_scope.

(** "%s" and literal text, "%d", "%+d", "%02x", "%x" and "%llx" (of an unsigned value) *)
Inductive piece := T (s : string) | W (s : cstr) | D (z : Z) | SD (z : Z) | X2 (z : Z) | X (z : Z).
Definition hexd (d : Z) : ascii := ascii_of_nat (Z.to_nat (if d <? 10 then 48 + d else 87 + d)).
Fixpoint showb (fuel : nat) (b n : Z) (acc : cstr) : cstr :=
  match fuel with
  | O => acc
  | S k => let acc' := hexd (n mod b) :: acc in if n / b =? 0 then acc' else showb k b (n / b) acc'
  end.
Definition dec (n : Z) : cstr := showb 20 10 n [].
Definition hex (n : Z) : cstr := showb 16 16 n [].
Definition render (p : piece) : cstr :=
  match p with
  | T s => lit s
  | W s => s
  | D z => if z <? 0 then "-"%char :: dec (- z) else dec z
  | SD z => if z <? 0 then "-"%char :: dec (- z) else "+"%char :: dec z
  | X2 z => if z <? 16 then "0"%char :: hex z else hex z
  | X z => hex z
  end.
Definition printf (l : list piece) : cstr := flat_map render l.

(** the tables, disasm.c 11-58; [None] is NULL.  bpf_class_string (5-9) is only used for other classes than the eight that exist. *)
Definition alu_string (op : Z) : option string :=
  match op / 16 with
  | 0 => Some "+=" | 1 => Some "-=" | 2 => Some "*=" | 3 => Some "/=" | 4 => Some "|=" | 5 => Some "&=" | 6 => Some "<<="
  | 7 => Some ">>=" | 8 => Some "neg" | 9 => Some "%=" | 10 => Some "^=" | 11 => Some "=" | 12 => Some "s>>=" | 13 => Some "endian"
  | _ => None
  end%string.
Definition alu_sign_string (op : Z) : option string :=
  match op / 16 with 3 => Some "s/=" | 9 => Some "s%=" | _ => None end%string.
Definition movsx_string (i : Z) : option string :=
  match i with 0 => Some "(s8)" | 1 => Some "(s16)" | 3 => Some "(s32)" | _ => None end%string.
Definition atomic_string (op : Z) : option string :=
  match op / 16 with 0 => Some "add" | 5 => Some "and" | 4 => Some "or" | 10 => Some "xor" | _ => None end%string.
Definition ldst_string (sz : Z) : option string :=
  match sz / 8 with 0 => Some "u32" | 1 => Some "u16" | 2 => Some "u8" | 3 => Some "u64" | _ => None end%string.
(** three entries *)
Definition ldsx_string (sz : Z) : option string :=
  match sz / 8 with 0 => Some "s32" | 1 => Some "s16" | 2 => Some "s8" | _ => None end%string.
Definition jmp_string (op : Z) : option string :=
  match op / 16 with
  | 0 => Some "jmp" | 1 => Some "==" | 2 => Some ">" | 10 => Some "<" | 3 => Some ">=" | 11 => Some "<=" | 4 => Some "&" | 5 => Some "!="
  | 6 => Some "s>" | 12 => Some "s<" | 7 => Some "s>=" | 13 => Some "s<=" | 8 => Some "call" | 9 => Some "exit" | _ => None
  end%string.
Definition str (o : option string) : outcome cstr := match o with Some s => Ok (lit s) | None => UB end.

(** is_sdiv_smod, is_movsx, disasm.c 79-90 *)
Definition is_sdiv_smod (x : bpf_insn) : bool :=
  let op := Z.land (b_code x) 240 in ((op =? 48) || (op =? 144)) && (b_off x =? 1).
Definition is_movsx (x : bpf_insn) : bool :=
  let op := Z.land (b_code x) 240 in (op =? 176) && ((b_off x =? 8) || (b_off x =? 16) || (b_off x =? 32)).
(** __func_get_name, 92-105; [tmp] is what the buffer holds *)
Definition func_name (x : bpf_insn) (tmp : cstr) : cstr :=
  if (b_src x =? 0) && (0 <=? b_imm x) && (b_imm x <? 212) then printf [T "fun_"; SD (b_imm x)]
  else if b_src x =? 1 then printf [SD (b_imm x)]
  else if b_src x =? 2 then lit "kernel-function"
  else tmp.

Definition nlp : piece := T (String "010"%char EmptyString).
(** bpf_ir_print_bpf_insn, 107-303: [nx] is the instruction that follows in memory *)
Definition pieces (x : bpf_insn) (nx : option bpf_insn) : outcome (list piece) :=
  let code := b_code x in
  let class := Z.land code 7 in
  let op := Z.land code 240 in
  let mode := Z.land code 224 in
  let size := Z.land code 24 in
  let pre := [T "("; X2 code; T ") "] in
  if (class =? 4) || (class =? 7) then
    let rw := T (if class =? 4 then "w" else "r") in
    if op =? 208 then
      if class =? 7 then Ok (pre ++ [T "r"; D (b_dst x); T " = bswap"; D (b_imm x); T " r"; D (b_dst x); nlp])
      else Ok (pre ++ [T "r"; D (b_dst x); T " = "; T (if Z.land code 8 =? 8 then "be" else "le"); D (b_imm x); T " r"; D (b_dst x); nlp])
    else if op =? 128 then Ok (pre ++ [rw; D (b_dst x); T " = -"; rw; D (b_dst x); nlp])
    else
      do o <- str (if is_sdiv_smod x then alu_sign_string op else alu_string op);
      if Z.land code 8 =? 8 then
        do m <- (if is_movsx x then str (movsx_string (Z.shiftr (b_off x) 3 - 1)) else Ok []);
        Ok (pre ++ [rw; D (b_dst x); T " "; W o; T " "; W m; rw; D (b_src x); nlp])
      else Ok (pre ++ [rw; D (b_dst x); T " "; W o; T " "; D (b_imm x); nlp])
  else if class =? 3 then
    let dw := T (if size =? 24 then "64" else "") in
    if mode =? 96 then
      do u <- str (ldst_string size);
      Ok (pre ++ [T "*("; W u; T " *)(r"; D (b_dst x); T " "; SD (b_off x); T ") = r"; D (b_src x); nlp])
    else if (mode =? 192) && ((b_imm x =? 0) || (b_imm x =? 80) || (b_imm x =? 64) || (b_imm x =? 160)) then
      do u <- str (ldst_string size);
      do o <- str (alu_string (Z.land (b_imm x) 240));
      Ok (pre ++ [T "lock *("; W u; T " *)(r"; D (b_dst x); T " "; SD (b_off x); T ") "; W o; T " r"; D (b_src x); nlp])
    else if (mode =? 192) && ((b_imm x =? 1) || (b_imm x =? 81) || (b_imm x =? 65) || (b_imm x =? 161)) then
      do o <- str (atomic_string (Z.land (b_imm x) 240));
      do u <- str (ldst_string size);
      Ok (pre ++ [T "r"; D (b_src x); T " = atomic"; dw; T "_fetch_"; W o; T "(("; W u; T " *)(r"; D (b_dst x); T " "; SD (b_off x); T "), r"; D (b_src x); T ")"; nlp])
    else if (mode =? 192) && (b_imm x =? 241) then
      do u <- str (ldst_string size);
      Ok (pre ++ [T "r0 = atomic"; dw; T "_cmpxchg(("; W u; T " *)(r"; D (b_dst x); T " "; SD (b_off x); T "), r0, r"; D (b_src x); T ")"; nlp])
    else if (mode =? 192) && (b_imm x =? 225) then
      do u <- str (ldst_string size);
      Ok (pre ++ [T "r"; D (b_src x); T " = atomic"; dw; T "_xchg(("; W u; T " *)(r"; D (b_dst x); T " "; SD (b_off x); T "), r"; D (b_src x); T ")"; nlp])
    else Ok [T "BUG_"; X2 code; nlp]
  else if class =? 2 then
    if mode =? 96 then
      do u <- str (ldst_string size);
      Ok (pre ++ [T "*("; W u; T " *)(r"; D (b_dst x); T " "; SD (b_off x); T ") = "; D (b_imm x); nlp])
    else if mode =? 192 then Ok (pre ++ [T "nospec"; nlp])
    else Ok [T "BUG_st_"; X2 code; nlp]
  else if class =? 1 then
    if negb (mode =? 96) && negb (mode =? 128) then Ok [T "BUG_ldx_"; X2 code; nlp]
    else
      do u <- str (if mode =? 96 then ldst_string size else ldsx_string size);
      Ok (pre ++ [T "r"; D (b_dst x); T " = *("; W u; T " *)(r"; D (b_src x); T " "; SD (b_off x); T ")"; nlp])
  else if class =? 0 then
    if mode =? 32 then
      do u <- str (ldst_string size);
      Ok (pre ++ [T "r0 = *("; W u; T " *)skb["; D (b_imm x); T "]"; nlp])
    else if mode =? 64 then
      do u <- str (ldst_string size);
      Ok (pre ++ [T "r0 = *("; W u; T " *)skb[r"; D (b_src x); T " + "; D (b_imm x); T "]"; nlp])
    else if (mode =? 0) && (size =? 24) then
      match nx with
      | None => UB
      | Some j =>
        Ok (pre ++ [T "r"; D (b_dst x); T " = 0x"; X (Z.lor (u64 (Z.shiftl (u64 (b_imm j)) 32)) (u32 (b_imm x))); T " (imm64 ld)"; nlp])
      end
    else Ok [T "BUG_ld_"; X2 code; nlp]
  else (* 5, 6 *)
    let rw := T (if class =? 6 then "w" else "r") in
    if op =? 128 then
      if b_src x =? 6 then Ok (pre ++ [T "call efun#"; D (b_imm x); T " (#arg: "; D (b_dst x); T ")"; nlp])
      else if b_src x =? 1 then Ok (pre ++ [T "call pc"; W (func_name x []); nlp])
      else Ok (pre ++ [T "call "; W (func_name x (lit "unknown")); T "#"; D (b_imm x); nlp])
    else if code =? 5 then Ok (pre ++ [T "goto pc"; SD (b_off x); nlp])
    else if code =? 6 then Ok (pre ++ [T "gotol pc"; SD (b_imm x); nlp])
    else if code =? 149 then Ok (pre ++ [T "exit"; nlp])
    else
      do o <- str (jmp_string op);
      if Z.land code 8 =? 8 then
        Ok (pre ++ [T "if "; rw; D (b_dst x); T " "; W o; T " "; rw; D (b_src x); T " goto pc"; SD (b_off x); nlp])
      else Ok (pre ++ [T "if "; rw; D (b_dst x); T " "; W o; T " 0x"; X (u32 (b_imm x)); T " goto pc"; SD (b_off x); nlp]).
Definition print_insn (x : bpf_insn) (nx : option bpf_insn) : outcome cstr := do l <- pieces x nx; Ok (printf l).
(** print_pre_ir_cfg, bpf_ir.c 568-577: the instruction is copied to a variable, nothing follows it *)
Definition print_pre (x : bpf_insn) : outcome cstr := print_insn x None.
(** print_bpf_prog, epasstool/print.c 5-17, epasstool/printlog.c 4-16, and bpf_ir.c 1889-1905 with print mode
    BPF_IR_PRINT_BPF: [i] is the index of the first instruction, "%zu" *)
Fixpoint listing (i : Z) (p : list bpf_insn) : outcome cstr :=
  match p with
  | [] => Ok []
  | x :: r =>
    if b_code x =? 0 then listing (i + 1) r
    else
      do t <- print_insn x (hd_error r);
      do u <- listing (i + 1) r;
      Ok (printf [T "["; D i; T "] "] ++ t ++ u)
  end.
Definition print_prog (p : list bpf_insn) : outcome cstr := listing 0 p.
