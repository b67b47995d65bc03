(** C38 (the option half), C45, C46: option strings and the log. *)
From Verif Require Import M_Base SpecWord M_Opts SpecOpts L_Opts M_Log SpecLog L_Log.
Open Scope nat_scope.

(** C46: with pieces of less than 64 characters, pass names of less than 32, numbers that fit an int
    and nothing behind a parameter, parsing touches its buffers only inside and accepts exactly the
    documented options with the documented effect; everything else is an error. *)
Theorem C46_options_partial : forall P src1 l1 src2 l2 (g : gopts) (o : popts P),
  pieces src1 l1 -> Forall (fun p => List.length p < 64) l1 -> Forall plain_num l1 ->
  pieces src2 l2 -> Forall (fun p => List.length p < 64) l2 -> Forall name_short l2 -> Forall no_junk l2 ->
  Forall loader_safe (po_builtin o) /\ Forall loader_safe (po_custom o) ->
  ((exists r, init_opts g o src1 src2 = Ok r) \/ init_opts g o src1 src2 = Err) /\
  forall g' o', init_opts g o src1 src2 = Ok (g', o') <-> steps gstep g l1 g' /\ steps pstep o l2 o'.
Proof. exact init_opts_spec. Qed.
Print Assumptions C46_options_partial.
(** every string has pieces *)
Theorem C46_pieces_exist : forall s, exists l, pieces s l.
Proof. exact pieces_ex. Qed.
Print Assumptions C46_pieces_exist.
(** the length bound is sharp: the first long piece that is reached overruns the buffer *)
Theorem C46_long_piece_overruns : forall g src l1 p l2 g',
  pieces src (l1 ++ p :: l2) -> Forall (fun p => List.length p < 64) l1 -> 64 <= List.length p ->
  ofold apply_global_opt g l1 = Ok g' -> opt_parse 64 apply_global_opt g src = UB.
Proof. intros g src l1 p l2 g' A B C D. exact (opt_parse_ub 64 apply_global_opt src l1 p l2 A B C g g' D). Qed.
Print Assumptions C46_long_piece_overruns.
Theorem C46_option_overflow_refuted : exists s, init_opts default_gopts (mkPo (P:=nat) [] []) s [] = UB.
Proof. exists (repeat "a"%char 64). vm_compute. reflexivity. Qed.
Print Assumptions C46_option_overflow_refuted.
Theorem C46_name_overflow_refuted : exists s, List.length s < 64 /\ init_opts default_gopts (mkPo (P:=nat) [] []) [] s = UB.
Proof. exists (repeat "a"%char 32). split; [vm_compute; repeat constructor|vm_compute; reflexivity]. Qed.
Print Assumptions C46_name_overflow_refuted.
(** a parameter of the instruction counter that passes the outer length checks overruns mopt[30] *)
Theorem C46_counter_overflow_refuted : exists s,
  init_opts default_gopts (mkPo [mkOc (lit "insn_counter") false false None (Some counter_load)] []) [] s = UB /\ List.length s < 64.
Proof. exists (lit "insn_counter(" ++ repeat "a"%char 30 ++ lit ")"). split; [vm_compute; reflexivity|vm_compute; repeat constructor]. Qed.
Print Assumptions C46_counter_overflow_refuted.
(** a number is reduced modulo 2^32 before the range check *)
Theorem C46_number_wrap_refuted : exists s p g', pieces s [p] /\ List.length p < 64 /\
  opt_parse 64 apply_global_opt default_gopts s = Ok g' /\ g_max_insns g' = 1%Z /\ ~ steps gstep default_gopts [p] g'.
Proof.
  set (s := lit "maxinsns=4294967297"). exists s, s, (g_set_max_insns 1 default_gopts).
  split; [apply pc_last; [discriminate|cbn; intuition discriminate]|]. split; [vm_compute; repeat constructor|].
  split; [vm_compute; reflexivity|]. split; [reflexivity|]. intros H.
  inversion H as [|? ? s1 ? ? X Y]; subst. inversion Y; subst. change s with (lit "maxinsns=" ++ lit "4294967297") in X.
  apply gstep_maxinsns in X as (v & N & _ & E). injection E as <-.
  apply number_strtol in N. vm_compute in N. discriminate.
Qed.
Print Assumptions C46_number_wrap_refuted.
(** a missing number counts as zero *)
Theorem C46_missing_number_refuted : exists s p g', pieces s [p] /\ List.length p < 64 /\
  opt_parse 64 apply_global_opt default_gopts s = Ok g' /\ ~ steps gstep default_gopts [p] g'.
Proof.
  set (s := lit "verbose="). exists s, s, (g_set_verbose 0 default_gopts).
  split; [apply pc_last; [discriminate|cbn; intuition discriminate]|]. split; [vm_compute; repeat constructor|].
  split; [vm_compute; reflexivity|]. intros H.
  inversion H as [|? ? s1 ? ? X Y]; subst. inversion Y; subst. change s with (lit "verbose=" ++ []) in X.
  apply gstep_verbose in X as (v & N & _). inversion N as [b d w B D E|b d w B D E|b d w B D E].
  - apply head_digit in D as (c & r & k & -> & _). destruct b; discriminate.
  - destruct b; discriminate.
  - destruct b; discriminate.
Qed.
Print Assumptions C46_missing_number_refuted.
(** text behind the parameter is ignored *)
Theorem C46_junk_refuted : exists (o o' : popts nat) s, pieces s [s] /\ opt_parse 64 apply_pass_opt o s = Ok o' /\
  ~ steps pstep o [s] o'.
Proof.
  set (c := mkOc (P:=nat) (lit "msan") false true None None).
  exists (mkPo [c] []), (mkPo [mkOc (lit "msan") true false None None] []), (lit "msan(x)y").
  split; [apply pc_last; [discriminate|cbn; intuition discriminate]|]. split; [vm_compute; reflexivity|].
  intros H. inversion H as [|? ? s1 ? ? X Y]; subst. inversion Y; subst.
  assert (N : forall nm pr, ~ pass_syntax (lit "msan(x)y") nm pr).
  { intros nm pr S. inversion S as [? NI E1 E2|? a NI NI2 E].
    - apply NI. subst. cbn. auto 10.
    - apply (f_equal (fun l => last l "a"%char)) in E. rewrite app_comm_cons, app_assoc, last_last in E. discriminate. }
  inversion X; eapply N; eauto.
Qed.
Print Assumptions C46_junk_refuted.
(** a parameter list with a comma, which the counter itself accepts, never reaches it *)
Theorem C46_two_parameters_refuted : exists a r, counter_load a = Ok r /\
  init_opts default_gopts (mkPo [mkOc (lit "insn_counter") false false None (Some counter_load)] []) [] (lit "insn_counter(" ++ a ++ lit ")") = Err.
Proof. exists (lit "accurate,limit=5"), (5%Z, true). split; vm_compute; reflexivity. Qed.
Print Assumptions C46_two_parameters_refuted.

Example C46_demo :
  match init_opts default_gopts (mkPo [mkOc (lit "insn_counter") false true None (Some counter_load)] [mkOc (lit "mine") false false None None])
    (lit "verbose=3,force,maxit= +7,print_dump,") (lit "mine,insn_counter(limit=500)") with
  | Ok (g, o) => (g_verbose g, g_maxit g, g_force g, g_mode g, map oc_on (po_builtin o), map oc_param (po_builtin o), map oc_on (po_custom o))
      = (3%Z, 7%Z, true, PM_DUMP, [true], [Some (500%Z, false)], [true])
  | _ => False
  end.
Proof. vm_compute. reflexivity. Qed.

(** C38, option half: with short pieces and numbers that fit an int, the parameter is accepted iff every
    piece parses and the last limit is at most 1000000. *)
Theorem C38_limit_option_partial : forall src l, pieces src l -> Forall (fun p => List.length p < 30) l -> Forall plain_num l ->
  ((exists r, counter_load src = Ok r) \/ counter_load src = Err) /\
  forall r, counter_load src = Ok r <-> steps cstep (1000000%Z, false) l r /\ (fst r <= 1000000)%Z.
Proof. exact counter_load_spec. Qed.
Print Assumptions C38_limit_option_partial.
Theorem C38_negative_limit_refuted : exists s, s = lit "limit=-5" /\ counter_load s = Ok ((-5)%Z, false).
Proof. eexists. split; [reflexivity|vm_compute; reflexivity]. Qed.
Print Assumptions C38_negative_limit_refuted.
Example C38_option_demo : counter_load (lit "accurate,limit=12") = Ok (12%Z, true) /\ counter_load (lit "limit=1000001") = Err.
Proof. split; vm_compute; reflexivity. Qed.

(** C45: whatever is logged, as long as every message has less than 200 characters, no write leaves the
    buffers, the position stays inside the log and the text is the concatenation of the messages since
    some point; all of them if they fit. *)
Theorem C45_log_partial : forall v h b, Forall (fun m => (zlen m < 200)%Z) (shown v h) ->
  exists l x y, log_history v h (empty_log b) = Ok l /\ (0 <= lg_pos l < log_size)%Z /\
    shown v h = x ++ y /\ text l = List.concat y /\ ((zlen (List.concat (shown v h)) < log_size)%Z -> x = []).
Proof. exact log_run. Qed.
Print Assumptions C45_log_partial.
Theorem C45_print_partial : forall v l, v <> 0%Z -> (0 <= lg_pos l < log_size)%Z -> short_lines (text l) ->
  exists ls, print_log v l = Ok ls /\ List.concat ls = text l.
Proof. exact print_log_spec. Qed.
Print Assumptions C45_print_partial.
Theorem C45_long_message_refuted : exists v lv m b, log_history v [(lv, m)] (empty_log b) = UB.
Proof. exists 1%Z, 1%Z, (repeat "a"%char 200), (fun _ => zero). vm_compute. reflexivity. Qed.
Print Assumptions C45_long_message_refuted.
(** a line of 1000 characters (from several messages) overruns line[1000] when the log is printed *)
Theorem C45_long_line_refuted : exists v h b l, Forall (fun m => (zlen m < 200)%Z) (shown v h) /\
  log_history v h (empty_log b) = Ok l /\ print_log v l = UB.
Proof.
  exists 1%Z, (repeat (1%Z, repeat "a"%char 100) 10), (fun _ => zero),
    (get_ok (empty_log (fun _ => zero)) (log_history 1 (repeat (1%Z, repeat "a"%char 100) 10) (empty_log (fun _ => zero)))).
  split; [vm_compute; repeat constructor|]. split; [apply get_ok_spec; vm_compute; reflexivity|]. vm_compute. reflexivity.
Qed.
Print Assumptions C45_long_line_refuted.
(** after the log wraps, the text is not a prefix of the messages *)
Theorem C45_prefix_refuted : exists v h b l, Forall (fun m => (zlen m < 200)%Z) (shown v h) /\
  log_history v h (empty_log b) = Ok l /\ forall t, List.concat (shown v h) <> text l ++ t.
Proof. exact log_prefix_fails. Qed.
Print Assumptions C45_prefix_refuted.
Example C45_demo :
  match log_history 2 [(1%Z, lit "ab"); (3%Z, lit "hidden"); (2%Z, lit "c")] (empty_log (fun _ => zero)) with
  | Ok l => text l = lit "abc" /\ print_log 2 l = Ok [lit "abc"]
  | _ => False
  end.
Proof. split; vm_compute; reflexivity. Qed.
