(** Programs as files, and the command line. *)
From Verif Require Import M_Base SpecWord SpecIsa SpecOpts M_Opts M_Tool.
Open Scope nat_scope.

(** The fields of struct bpf_insn hold what their C types can hold. *)
Definition fits (x : bpf_insn) : Prop :=
  ((0 <= b_code x < 256) /\ (0 <= b_dst x < 16) /\ (0 <= b_src x < 16) /\
   (- 2 ^ 15 <= b_off x < 2 ^ 15) /\ (- 2 ^ 31 <= b_imm x < 2 ^ 31))%Z.

(** [w] has the eight bytes of [x], in the order of the struct. *)
Definition byte (w : Z) (k : Z) : Z := (w / 256 ^ k mod 256)%Z.
Definition packed (x : bpf_insn) (w : Z) : Prop :=
  ((0 <= w < 2 ^ 64) /\ byte w 0 = b_code x /\ byte w 1 = b_dst x + 16 * b_src x /\
   s16 (byte w 2 + 256 * byte w 3) = b_off x /\
   s32 (byte w 4 + 256 * byte w 5 + 65536 * byte w 6 + 16777216 * byte w 7) = b_imm x)%Z.

Definition newline : ascii := "010"%char.
Definition canonical (s : cstr) : Prop := forall r, s = "0"%char :: r -> r = [].
(** One line per instruction: the packed instruction in decimal. *)
Inductive dumped : list bpf_insn -> cstr -> Prop :=
| du_nil : dumped [] []
| du_cons x w s p t : packed x w -> decimal s w -> canonical s -> dumped p t -> dumped (x :: p) (s ++ newline :: t).

(** What may be read: numbers with signs and blanks, negative ones modulo 2^64, until an empty line or the end. *)
Definition names (x : bpf_insn) (s : cstr) : Prop :=
  exists v, number s v /\ (- 2 ^ 64 < v < 2 ^ 64)%Z /\ packed x (v mod 2 ^ 64)%Z /\ ~ In newline s /\ List.length s <= 254.
Inductive logged : list bpf_insn -> cstr -> Prop :=
| lg_end : logged [] []
| lg_stop t : logged [] (newline :: t)
| lg_last x s : names x s -> logged [x] s
| lg_line x s p t : names x s -> logged p t -> logged (x :: p) (s ++ newline :: t).

(** Command lines: what the words of an option or file say. *)
Inductive item := I_gopt (v : cstr) | I_popt (v : cstr) | I_sec (v : cstr) | I_out (v : cstr)
                | I_fmt (f : ofmt) | I_pass_only | I_file (v : cstr).
Definition words_all : list string := ["--pass-only"; "-P"; "--gopt"; "--popt"; "--sec"; "-s"; "-o"; "-F"]%string.
Definition words_print : list string := ["--gopt"; "--popt"; "--sec"; "-s"]%string.
Inductive one : umode -> list cstr -> item -> Prop :=
| on_gopt m v : one m [lit "--gopt"; v] (I_gopt v)
| on_popt m v : one m [lit "--popt"; v] (I_popt v)
| on_sec m v : one m [lit "--sec"; v] (I_sec v)
| on_s m v : one m [lit "-s"; v] (I_sec v)
| on_out v : one U_READ [lit "-o"; v] (I_out v)
| on_fsec : one U_READ [lit "-F"; lit "sec"] (I_fmt F_SEC)
| on_flog : one U_READ [lit "-F"; lit "log"] (I_fmt F_LOG)
| on_only : one U_READ [lit "--pass-only"] I_pass_only
| on_P : one U_READ [lit "-P"] I_pass_only
| on_file m v : (forall w, In w (match m with U_READ => words_all | U_PRINT => words_print end) -> v <> lit w) -> one m [v] (I_file v).
Inductive says (m : umode) : list cstr -> list item -> Prop :=
| sy_nil : says m [] []
| sy_cons w i ws l : one m w i -> says m ws l -> says m (w ++ ws) (i :: l).

(** the first word *)
Definition mode_word (m : umode) : cstr := match m with U_READ => lit "read" | U_PRINT => lit "print" end.
Definition short (i : item) : Prop :=
  match i with I_gopt v | I_popt v | I_sec v | I_out v | I_file v => List.length v < 64 | _ => True end.
(** the last of several settings counts *)
Definition last_of {A} (sel : item -> option A) (l : list item) (d : A) : A :=
  fold_left (fun a i => match sel i with Some b => b | None => a end) l d.
Definition gopts_in i := match i with I_gopt v => Some v | _ => None end.
Definition popts_in i := match i with I_popt v => Some v | _ => None end.
Definition secs_in i := match i with I_sec v => Some v | _ => None end.
Definition outs_in i := match i with I_out v => Some v | _ => None end.
Definition fmts_in i := match i with I_fmt v => Some v | _ => None end.
Definition files (l : list item) : list cstr := flat_map (fun i => match i with I_file v => [v] | _ => [] end) l.
(** exactly one file, apart from empty words before it *)
Definition one_file (l : list item) (f : cstr) : Prop :=
  f <> [] /\ exists e, files l = e ++ [f] /\ Forall (fun v => v = []) e.
Definition describes (m : umode) (l : list item) (u : uopts) : Prop :=
  u_mode u = m /\ one_file l (u_prog u) /\
  u_gopt u = last_of gopts_in l [] /\ u_popt u = last_of popts_in l [] /\
  u_sec u = last_of secs_in l [] /\ u_out u = last_of outs_in l [] /\ u_fmt u = last_of fmts_in l F_LOG /\
  (u_no_compile u = true <-> In I_pass_only l) /\ (u_auto u = false <-> exists v, In (I_sec v) l).

(** The built-in pass [c] is switched on by default or by one of the pieces of the pass option string. *)
Definition asked {P} (l : list cstr) (c : ocfg P) : Prop :=
  oc_on c = true \/ oc_run c = true \/ exists p pr, In p l /\ pass_syntax p (oc_name c) pr.
