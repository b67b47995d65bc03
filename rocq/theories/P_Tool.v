(** C72, C73: program files and the command line of the tool. *)
From Verif Require Import M_Base SpecWord SpecIsa M_Opts SpecOpts L_Opts M_Tool SpecTool L_Tool L_ToolCli.
Open Scope list_scope.
Open Scope nat_scope.

(** C72: the log format is one decimal number per instruction, the eight bytes of the instruction in
    little-endian order. *)
Theorem C72_write : forall p fuel, Forall fits p -> (Z.of_nat (List.length p) < 2 ^ 32)%Z -> List.length p < fuel ->
  exists t, write_prog fuel F_LOG p = Ok t /\ dumped p t.
Proof. exact write_log. Qed.
Print Assumptions C72_write.
(** Every file that lists numbers, with blanks and signs, until its end or an empty line, is read as the
    instructions it names. *)
Theorem C72_read : forall p t, logged p t -> Forall fits p -> load t = Some (Ok p).
Proof. exact load_spec. Qed.
Print Assumptions C72_read.
(** What the tool writes it reads back. *)
Theorem C72_round_trip : forall p fuel, Forall fits p -> (Z.of_nat (List.length p) < 2 ^ 32)%Z -> List.length p < fuel ->
  exists t, write_prog fuel F_LOG p = Ok t /\ load t = Some (Ok p).
Proof. exact round_trip. Qed.
Print Assumptions C72_round_trip.
(** The raw format has the eight bytes of every instruction in order. *)
Theorem C72_raw : forall p fuel, Forall fits p -> exists t, write_prog fuel F_SEC p = Ok t /\
  List.length t = 8 * List.length p /\
  forall i x, nth_error p i = Some x -> exists w, packed x w /\
    forall k, k < 8 -> nth_error t (8 * i + k) = Some (ascii_of_nat (Z.to_nat (byte w (Z.of_nat k)))).
Proof. intros p fuel F. exact (ex_intro _ (raw p) (conj eq_refl (raw_spec p F))). Qed.
Print Assumptions C72_raw.
(** Reading ends on every file, without an error. *)
Theorem C72_read_total : forall t, exists p, readlog t = Ok p.
Proof. exact read_total. Qed.
Print Assumptions C72_read_total.
(** The length bound is sharp: the index of the writing loop has 32 bits. *)
Theorem C72_long_never_ends : forall p, (2 ^ 32 <= Z.of_nat (List.length p))%Z -> forall fuel, write_prog fuel F_LOG p = NoFuel.
Proof. intros p L fuel. exact (write_endless p fuel L). Qed.
Print Assumptions C72_long_never_ends.
(** The raw format is not read back. *)
Theorem C72_raw_read_refuted : exists p t, Forall fits p /\ write_prog 2 F_SEC p = Ok t /\ load t <> Some (Ok p).
Proof.
  exists [mkBpf 149 0 0 0 0]. eexists. split; [repeat constructor; cbn; discriminate|]. split; [reflexivity|].
  intros H. vm_compute in H. discriminate.
Qed.
Print Assumptions C72_raw_read_refuted.
(** A number that does not fit 64 bits is read as the largest one. *)
Theorem C72_too_big : forall s v, number s v -> (v <= - 2 ^ 64 \/ 2 ^ 64 <= v)%Z -> ~ In newline s -> List.length s <= 255 ->
  readlog s = Ok [mkBpf 255 15 15 (-1) (-1)].
Proof. exact read_big. Qed.
Print Assumptions C72_too_big.
(** A text without a single digit is accepted as a program. *)
Theorem C72_garbage_refuted : exists t p, (forall c d, In c t -> ~ digit_is c d) /\ load t = Some (Ok p) /\ List.length p = 2.
Proof.
  exists (lit "hello" ++ [newline] ++ lit "world"), [mkBpf 0 0 0 0 0; mkBpf 0 0 0 0 0]. split; [|split; vm_compute; reflexivity].
  intros c d I D. apply digit_ascii in D. cbn in I. repeat destruct I as [<-|I]; try discriminate. contradiction.
Qed.
Print Assumptions C72_garbage_refuted.
(** A number written with many leading zeros is read as two instructions. *)
Theorem C72_long_line_refuted : exists s v x p, number s v /\ packed x v /\ load (s ++ [newline]) = Some (Ok p) /\ List.length p = 2.
Proof.
  assert (D : forall n, decimal (repeat "0"%char (S n)) 0).
  { induction n as [|n IH]; [apply (dec_one "0"%char 0); split; [split; [discriminate|reflexivity]|reflexivity]|].
    replace (repeat "0"%char (S (S n))) with (repeat "0"%char (S n) ++ ["0"%char]).
    - apply (dec_snoc _ 0 "0"%char 0 IH). split; [split; [discriminate|reflexivity]|reflexivity].
    - clear. induction n; [reflexivity|]. cbn [repeat app] in *. now rewrite IHn. }
  exists (repeat "0"%char 256), 0%Z, (mkBpf 0 0 0 0 0). eexists. split; [exact (num_pos [] _ _ (Forall_nil _) (D 255))|].
  split; [vm_compute; repeat split; discriminate|]. split; [vm_compute; reflexivity|reflexivity].
Qed.
Print Assumptions C72_long_line_refuted.
Example C72_demo :
  let p := [mkBpf 183 0 0 0 (-1); mkBpf 123 10 1 (-8) 0; mkBpf 149 0 0 0 0] in
  Forall fits p /\ match write_prog 4 F_LOG p with
                   | Ok t => load t = Some (Ok p) /\ t = lit "18446744069414584503" ++ [newline] ++ lit "4294449787" ++ [newline] ++ lit "149" ++ [newline]
                   | _ => False
                   end.
Proof. split; [repeat constructor; cbn; discriminate|]. vm_compute. split; reflexivity. Qed.

(** C73: with values of less than 64 characters, a command line is accepted exactly when it names one
    file, and the options are the ones it gives, the last of several counting. *)
Theorem C73_command_line_partial : forall m ws l, says m ws l -> Forall short l ->
  ((exists u, parse_cli (mode_word m :: ws) = Ok u) \/ parse_cli (mode_word m :: ws) = Err) /\
  forall u, parse_cli (mode_word m :: ws) = Ok u <-> describes m l u.
Proof. exact cli_spec. Qed.
Print Assumptions C73_command_line_partial.
(** Nothing else is accepted. *)
Theorem C73_accepts_only : forall args u, parse_cli args = Ok u ->
  exists m ws l, args = mode_word m :: ws /\ says m ws l /\ Forall short l /\ describes m l u.
Proof. exact cli_inv. Qed.
Print Assumptions C73_accepts_only.
(** Every longer value overruns its buffer. *)
Theorem C73_long_value_overruns : forall m ws l w i ws', says m ws l -> Forall short l -> one m w i -> ~ short i ->
  files l = [] \/ (exists f, one_file l f) /\ (forall v, i <> I_file v) ->
  parse_cli (mode_word m :: ws ++ w ++ ws') = UB.
Proof. exact cli_overrun. Qed.
Print Assumptions C73_long_value_overruns.
Theorem C73_overrun_refuted : exists f, parse_cli [lit "read"; f] = UB.
Proof. exists (repeat "a"%char 64). vm_compute. reflexivity. Qed.
Print Assumptions C73_overrun_refuted.
(** A built-in pass runs exactly when it is on by default or named in the pass options. *)
Theorem C73_passes : forall P l (o o' : popts P) k c, NoDup (map oc_name (po_builtin o)) -> steps pstep o l o' ->
  nth_error (po_builtin o) k = Some c ->
  exists c', nth_error (po_builtin (enable_builtin o')) k = Some c' /\ oc_name c' = oc_name c /\ (oc_run c' = true <-> asked l c).
Proof. exact @enabled_asked. Qed.
Print Assumptions C73_passes.
(** One of the passes of the tool is off and cannot be switched on: the division check has no
    configuration entry, so naming it is an error. *)
Theorem C73_div_by_zero_refuted : exists nm, In (nm, false) tool_passes /\
  forall P (a b : cstr -> outcome P),
    (forall l o' c, steps pstep (tool_opts a b) l o' ->
       In c (po_builtin (enable_builtin o') ++ po_custom (enable_builtin o')) -> oc_name c <> nm) /\
    (forall p pr o', pass_syntax p nm pr -> ~ pstep (tool_opts a b) p o').
Proof.
  exists (lit "div_by_zero"). split; [cbn; tauto|]. intros P a b. split.
  - intros l o' c H. exact (tool_no_div a b o' l H c).
  - intros p pr o' H. exact (tool_div_rejected a b _ _ _ H eq_refl o').
Qed.
Print Assumptions C73_div_by_zero_refuted.
Example C73_demo :
  let ws := [lit "--gopt"; lit "verbose=3"; lit "-P"; lit "a.txt"; lit "-F"; lit "sec"; lit "--gopt"; lit "force"; lit "-s"; lit "xdp"] in
  let l := [I_gopt (lit "verbose=3"); I_pass_only; I_file (lit "a.txt"); I_fmt F_SEC; I_gopt (lit "force"); I_sec (lit "xdp")] in
  says U_READ ws l /\ Forall short l /\
  parse_cli (mode_word U_READ :: ws) = Ok (mkU U_READ (lit "force") [] (lit "a.txt") [] (lit "xdp") F_SEC true false).
Proof.
  split; [|split; [repeat constructor; cbn; repeat constructor|vm_compute; reflexivity]].
  apply (sy_cons U_READ [lit "--gopt"; lit "verbose=3"]); [constructor|].
  apply (sy_cons U_READ [lit "-P"]); [constructor|].
  apply (sy_cons U_READ [lit "a.txt"]); [constructor; intros w I; cbn in I; repeat destruct I as [<-|I]; try discriminate; contradiction|].
  apply (sy_cons U_READ [lit "-F"; lit "sec"]); [constructor|].
  apply (sy_cons U_READ [lit "--gopt"; lit "force"]); [constructor|].
  apply (sy_cons U_READ [lit "-s"; lit "xdp"]); [constructor|constructor].
Qed.
Example C73_passes_demo :
  let o := tool_opts (fun _ => Ok 1) (fun _ => Ok 2) in
  match init_opts default_gopts o [] (lit "msan,insn_counter(limit=5)") with
  | Ok (_, o') => map oc_run (po_builtin (enable_builtin o')) = [true; true; false; true]
  | _ => False
  end.
Proof. vm_compute. reflexivity. Qed.
