(** What a line of a disassembly should say. *)
From Verif Require Import M_Base SpecWord SpecIsa M_Opts M_Disasm.
Open Scope list_scope.
Open Scope Z_scope.

Definition alu_sym (o : aluop) : string :=
  match o with AAdd => "+=" | ASub => "-=" | AMul => "*=" | ADiv => "/=" | AOr => "|=" | AAnd => "&=" | ALsh => "<<=" | ARsh => ">>="
             | AMod => "%=" | AXor => "^=" | AArsh => "s>>=" end%string.
Definition cmp_sym (o : cmpop) : string :=
  match o with CEq => "==" | CGt => ">" | CGe => ">=" | CNe => "!=" | CSgt => "s>" | CSge => "s>=" | CLt => "<" | CLe => "<=" | CSlt => "s<" | CSle => "s<=" end%string.
(** 64-bit and 32-bit views of a register *)
Definition reg_of (wide : bool) (r : Z) : list piece := [T (if wide then "r" else "w"); D r].
(** [describes x nx l]: line [l] is what instruction [x], followed by [nx], does. *)
Definition operand (wide : bool) (x : bpf_insn) : list piece := if Z.odd (b_code x / 8) then reg_of wide (b_src x) else [D (b_imm x)].
Definition place (sign : string) (size : nat) (r off : Z) : list piece :=
  [T "*("; T sign; D (8 * Z.of_nat size); T " *)(r"; D r; T " "; SD off; T ")"].
Inductive describes (x : bpf_insn) (nx : option bpf_insn) : list piece -> Prop :=
| ds_alu (wide : bool) o : b_code x mod 8 = (if wide then 7 else 4) -> alu_of (b_code x / 16) = Some o -> b_off x = 0 ->
    describes x nx (reg_of wide (b_dst x) ++ [T " "; T (alu_sym o); T " "] ++ operand wide x)
| ds_signed (wide : bool) o : b_code x mod 8 = (if wide then 7 else 4) -> alu_of (b_code x / 16) = Some o -> o = ADiv \/ o = AMod -> b_off x = 1 ->
    describes x nx (reg_of wide (b_dst x) ++ [T " s"; T (alu_sym o); T " "] ++ operand wide x)
| ds_mov (wide : bool) : b_code x mod 8 = (if wide then 7 else 4) -> b_code x / 16 = 11 -> b_off x = 0 ->
    describes x nx (reg_of wide (b_dst x) ++ [T " = "] ++ operand wide x)
| ds_movsx (wide : bool) : b_code x mod 8 = (if wide then 7 else 4) -> b_code x / 16 = 11 -> Z.odd (b_code x / 8) = true -> b_off x = 8 \/ b_off x = 16 \/ b_off x = 32 ->
    describes x nx (reg_of wide (b_dst x) ++ [T " = (s"; D (b_off x); T ")"] ++ reg_of wide (b_src x))
| ds_neg (wide : bool) : b_code x mod 8 = (if wide then 7 else 4) -> b_code x / 16 = 8 ->
    describes x nx (reg_of wide (b_dst x) ++ [T " = -"] ++ reg_of wide (b_dst x))
| ds_end : b_code x mod 8 = 4 -> b_code x / 16 = 13 ->
    describes x nx (reg_of true (b_dst x) ++ [T (if Z.odd (b_code x / 8) then " = be" else " = le"); D (b_imm x); T " "] ++ reg_of true (b_dst x))
| ds_load : b_code x mod 8 = 1 -> b_code x / 32 = 3 ->
    describes x nx (reg_of true (b_dst x) ++ [T " = "] ++ place "u" (size_of (b_code x / 8 mod 4)) (b_src x) (b_off x))
| ds_loadsx : b_code x mod 8 = 1 -> b_code x / 32 = 4 -> size_of (b_code x / 8 mod 4) <> 8%nat ->
    describes x nx (reg_of true (b_dst x) ++ [T " = "] ++ place "s" (size_of (b_code x / 8 mod 4)) (b_src x) (b_off x))
| ds_st : b_code x mod 8 = 2 -> b_code x / 32 = 3 ->
    describes x nx (place "u" (size_of (b_code x / 8 mod 4)) (b_dst x) (b_off x) ++ [T " = "; D (b_imm x)])
| ds_stx : b_code x mod 8 = 3 -> b_code x / 32 = 3 ->
    describes x nx (place "u" (size_of (b_code x / 8 mod 4)) (b_dst x) (b_off x) ++ [T " = "] ++ reg_of true (b_src x))
| ds_imm64 j : b_code x = 24 -> nx = Some j ->
    describes x nx (reg_of true (b_dst x) ++ [T " = 0x"; X (u32 (b_imm x) + 2 ^ 32 * u32 (b_imm j)); T " (imm64 ld)"])
| ds_goto : b_code x = 5 -> describes x nx [T "goto pc"; SD (b_off x)]
| ds_exit : b_code x = 149 -> describes x nx [T "exit"]
| ds_call : b_code x = 133 -> b_src x = 0 -> 0 <= b_imm x <= 211 -> describes x nx [T "call fun_"; SD (b_imm x); T "#"; D (b_imm x)]
| ds_branch (wide : bool) o : b_code x mod 8 = (if wide then 5 else 6) -> cmp_of (b_code x / 16) = Some o ->
    describes x nx ([T "if "] ++ reg_of wide (b_dst x) ++ [T " "; T (cmp_sym o); T " "] ++
      (if Z.odd (b_code x / 8) then reg_of wide (b_src x) else [T "0x"; X (u32 (b_imm x))]) ++ [T " goto pc"; SD (b_off x)])
| ds_test (wide : bool) : b_code x mod 8 = (if wide then 5 else 6) -> b_code x / 16 = 4 ->
    describes x nx ([T "if "] ++ reg_of wide (b_dst x) ++ [T " & "] ++
      (if Z.odd (b_code x / 8) then reg_of wide (b_src x) else [T "0x"; X (u32 (b_imm x))]) ++ [T " goto pc"; SD (b_off x)]).
(** the whole line: the code in two hexadecimal digits comes first *)
Definition line_of (x : bpf_insn) (l : list piece) : cstr := printf ([T "("; X2 (b_code x); T ") "] ++ l) ++ ["010"%char].
