(** The option language. *)
From Verif Require Import M_Base SpecWord M_Opts.
Open Scope nat_scope.

(** [pieces s l]: the comma-separated pieces of [s]; an empty piece at the end does not count. *)
Inductive pieces : cstr -> list cstr -> Prop :=
| pc_nil : pieces [] []
| pc_last p : p <> [] -> ~ In ","%char p -> pieces p [p]
| pc_cons p r l : ~ In ","%char p -> pieces r l -> pieces (p ++ ","%char :: r) (p :: l).

(** Decimal numerals. *)
Definition digit_is (c : ascii) (d : Z) : Prop := (0 <= d < 10)%Z /\ c = ascii_of_nat (48 + Z.to_nat d).
Inductive decimal : cstr -> Z -> Prop :=
| dec_one c d : digit_is c d -> decimal [c] d
| dec_snoc s v c d : decimal s v -> digit_is c d -> decimal (s ++ [c]) (10 * v + d)%Z.
Definition blank (c : ascii) : Prop := In (nat_of_ascii c) [32; 9; 10; 11; 12; 13].
Inductive number : cstr -> Z -> Prop :=
| num_pos b s v : Forall blank b -> decimal s v -> number (b ++ s) v
| num_plus b s v : Forall blank b -> decimal s v -> number (b ++ "+"%char :: s) v
| num_minus b s v : Forall blank b -> decimal s v -> number (b ++ "-"%char :: s) (- v)%Z.

(** Global options: [gstep o p o'] when the piece [p] is a documented option and turns [o] into [o']. *)
Inductive gstep : gopts -> cstr -> gopts -> Prop :=
| gs_force o : gstep o (lit "force") (g_set_force o)
| gs_bpf o : gstep o (lit "print_bpf") (g_set_mode PM_BPF o)
| gs_dump o : gstep o (lit "print_dump") (g_set_mode PM_DUMP o)
| gs_detail o : gstep o (lit "print_detail") (g_set_mode PM_DETAIL o)
| gs_bpf_detail o : gstep o (lit "print_bpf_detail") (g_set_mode PM_BPF_DETAIL o)
| gs_no_check o : gstep o (lit "no_prog_check") (g_set_no_check o)
| gs_printk o : gstep o (lit "printk_log") (g_set_printk o)
| gs_throw o : gstep o (lit "throw_msg") (g_set_throw o)
| gs_print_only o : gstep o (lit "printonly") (g_set_print_only o)
| gs_fake_run o : gstep o (lit "fakerun") (g_set_fake_run o)
| gs_dot o : gstep o (lit "dotgraph") (g_set_dot o)
| gs_verbose o s v : number s v -> (0 <= v <= 10)%Z -> gstep o (lit "verbose=" ++ s) (g_set_verbose v o)
| gs_max_insns o s v : number s v -> (0 < v)%Z -> gstep o (lit "maxinsns=" ++ s) (g_set_max_insns v o)
| gs_maxit o s v : number s v -> (1 <= v <= 15)%Z -> gstep o (lit "maxit=" ++ s) (g_set_maxit v o).
Inductive steps {S} (step : S -> cstr -> S -> Prop) : S -> list cstr -> S -> Prop :=
| st_nil s : steps step s [] s
| st_cons s p s1 l s2 : step s p s1 -> steps step s1 l s2 -> steps step s (p :: l) s2.

(** The number of a key=number piece is present and fits an int. *)
Definition plain_num (p : cstr) : Prop :=
  forall k s, In k ["verbose="; "maxinsns="; "maxit="; "limit="]%string -> p = lit k ++ s ->
    s <> [] /\ forall v, number s v -> (- 2 ^ 31 <= v < 2 ^ 31)%Z.

(** Pass options: "name" or "name(parameter)". *)
Inductive pass_syntax : cstr -> cstr -> option cstr -> Prop :=
| ps_name nm : ~ In "("%char nm -> pass_syntax nm nm None
| ps_param nm a : ~ In "("%char nm -> ~ In ")"%char a -> pass_syntax (nm ++ "("%char :: a ++ [")"%char]) nm (Some a).
Inductive loaded {P} (c : ocfg P) : option cstr -> option P -> Prop :=
| ld_none : loaded c None (oc_param c)
| ld_noload a : oc_load c = None -> loaded c (Some a) (oc_param c)
| ld_load a f v : oc_load c = Some f -> f a = Ok v -> loaded c (Some a) (Some v).
Definition first_named {P} (l : list (ocfg P)) (nm : cstr) l1 c l2 : Prop :=
  l = l1 ++ c :: l2 /\ oc_name c = nm /\ forall d, In d l1 -> oc_name d <> nm.
Inductive pstep {P} (o : popts P) (p : cstr) : popts P -> Prop :=
| pst_builtin nm pr l1 c l2 v : pass_syntax p nm pr -> first_named (po_builtin o) nm l1 c l2 -> loaded c pr v ->
    pstep o p (mkPo (l1 ++ mkOc nm true false v (oc_load c) :: l2) (po_custom o))
| pst_custom nm pr l1 c l2 v : pass_syntax p nm pr -> (forall d, In d (po_builtin o) -> oc_name d <> nm) ->
    first_named (po_custom o) nm l1 c l2 -> loaded c pr v ->
    pstep o p (mkPo (po_builtin o) (l1 ++ mkOc nm true (oc_run c) v (oc_load c) :: l2)).
(** The name part has less than 32 characters and nothing follows a closing parenthesis. *)
Definition name_short (p : cstr) : Prop :=
  forall nm r, p = nm ++ r -> ~ In "("%char nm -> List.length nm < 32.
Definition no_junk (p : cstr) : Prop :=
  forall nm a r, p = nm ++ "("%char :: a ++ ")"%char :: r -> ~ In "("%char nm -> ~ In ")"%char a -> r = [].
(** Parameter loaders return a value or an error for parameters of less than 64 characters. *)
Definition loader_safe {P} (c : ocfg P) : Prop :=
  forall f a, oc_load c = Some f -> List.length a < 64 -> (exists v, f a = Ok v) \/ f a = Err.

(** Parameters of the instruction counter: limit and mode. *)
Inductive cstep : Z * bool -> cstr -> Z * bool -> Prop :=
| cs_acc l m : cstep (l, m) (lit "accurate") (l, true)
| cs_limit l m s v : number s v -> cstep (l, m) (lit "limit=" ++ s) (v, m)
| cs_other l m p : p <> lit "accurate" -> (forall s, p <> lit "limit=" ++ s) -> cstep (l, m) p (l, m).
