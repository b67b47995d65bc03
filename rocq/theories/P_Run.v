(** C19-C21: the pass runner and the automatic run. *)
From Verif Require Import M_Base M_Run SpecRun L_Run.
Open Scope string_scope.
Open Scope list_scope.

(** C19: the passes that run are those the configuration selects, in order, each on the result of the
    one before and with the configured parameter, up to the first failure.  Partial: force-enabled passes
    must be enabled by default, and after a failing pre pass one more pass may be called. *)
Theorem C19_selection_partial : forall F P (pl : pipeline F P) s a b c tr r,
  Forall force_default (pl_pre pl) -> Forall force_default (pl_post pl) -> r_err s = false ->
  plan (pl_cfgs pl) (pl_pre pl) a -> plan_custom (pl_verr pl) (pl_custom pl) b -> plan (pl_cfgs pl) (pl_post pl) c ->
  executes (pl_postproc pl) (r_fun s) (a ++ b ++ c) tr r ->
  exists tl, reports (run pl s) (r_trace s ++ tr ++ tl) r /\ extra tl /\
    (tl <> [] -> executes (pl_postproc pl) (r_fun s) a tr None).
Proof. exact @run_all. Qed.
Print Assumptions C19_selection_partial.
(** the selection exists and is unique, so the theorem above speaks about every run *)
Theorem C19_selection_exists : forall F P (pl : pipeline F P),
  Forall force_default (pl_pre pl) -> Forall force_default (pl_post pl) ->
  forall f, exists a b c tr r, plan (pl_cfgs pl) (pl_pre pl) a /\ plan_custom (pl_verr pl) (pl_custom pl) b /\
    plan (pl_cfgs pl) (pl_post pl) c /\ executes (pl_postproc pl) f (a ++ b ++ c) tr r.
Proof. exact @selection_exists. Qed.
Print Assumptions C19_selection_exists.

Definition ok_pass (n : string) (en fo : bool) : pass nat nat :=
  mkPass n en fo (fun f q => (f + match q with Some k => k | None => 1 end, false)).
Definition bad_pass (n : string) : pass nat nat := mkPass n true false (fun f q => (f, true)).
Definition no_check (f : nat) : nat * bool := (f, false).

(** A force-enabled pass that is off by default does not run when it has no configuration entry. *)
Theorem C19_force_refuted : exists F P (pl : pipeline F P) s a b c tr r,
  r_err s = false /\ plan (pl_cfgs pl) (pl_pre pl) a /\ plan_custom (pl_verr pl) (pl_custom pl) b /\
  plan (pl_cfgs pl) (pl_post pl) c /\ executes (pl_postproc pl) (r_fun s) (a ++ b ++ c) tr (Some r) /\
  r_fun (run pl s) <> r.
Proof.
  exists nat, nat, (mkPipe [ok_pass "a" false true] [] [] [] 0%Z no_check), (mkR 5 false []),
    [(ok_pass "a" false true, None)], [], [], [EvPass "a" None], 6.
  split; [reflexivity|]. split; [apply plan_run; [apply sel_default; [intros d []|left; reflexivity]|constructor]|].
  split; [constructor|]. split; [constructor|]. split; [|discriminate].
  apply ex_ok; [intros [H|H]; discriminate H|]. apply ex_nil.
Qed.
Print Assumptions C19_force_refuted.

(** C20: code is generated only when no selected pass failed; the error of a failing pass is reported.
    Partial: see C20_pre_pass_refuted for the pass that is called after a failing pre pass. *)
Theorem C20_codegen_partial : forall F P I o (pl : pipeline F P) (lift : list I -> option F) compile e,
  Forall force_default (pl_pre pl) -> Forall force_default (pl_post pl) ->
  forall e' tr, autorun o pl lift compile e = (e', tr) -> In EvCompile tr \/ e_insns e' <> e_insns e ->
  exists f a b c trp f', lift (e_insns e) = Some f /\ plan (pl_cfgs pl) (pl_pre pl) a /\
    plan_custom (pl_verr pl) (pl_custom pl) b /\ plan (pl_cfgs pl) (pl_post pl) c /\
    executes (pl_postproc pl) f (a ++ b ++ c) trp (Some f') /\ tr = EvLift :: trp ++ [EvCompile] /\
    e_insns e' = match compile f' with Some code => code | None => e_insns e end /\
    e_err e' = match compile f' with Some _ => o_fake_run o | None => true end.
Proof. exact @autorun_compiles. Qed.
Print Assumptions C20_codegen_partial.
Theorem C20_error_reported_partial : forall F P I o (pl : pipeline F P) (lift : list I -> option F) compile e,
  Forall force_default (pl_pre pl) -> Forall force_default (pl_post pl) -> o_print_only o = false -> e_err e = false ->
  forall f a b c tr, lift (e_insns e) = Some f -> plan (pl_cfgs pl) (pl_pre pl) a ->
    plan_custom (pl_verr pl) (pl_custom pl) b -> plan (pl_cfgs pl) (pl_post pl) c ->
    executes (pl_postproc pl) f (a ++ b ++ c) tr None ->
    e_err (fst (autorun o pl lift compile e)) = true /\ ~ In EvCompile (snd (autorun o pl lift compile e)).
Proof. exact @autorun_error. Qed.
Print Assumptions C20_error_reported_partial.

(** After a failing pre pass the first enabled custom pass is still called (there is no check of
    env->err between the two loops). *)
Theorem C20_pre_pass_refuted : exists F P I o (pl : pipeline F P) (lift : list I -> option F) compile e f a b c tr,
  Forall force_default (pl_pre pl) /\ Forall force_default (pl_post pl) /\ lift (e_insns e) = Some f /\
  plan (pl_cfgs pl) (pl_pre pl) a /\ plan_custom (pl_verr pl) (pl_custom pl) b /\ plan (pl_cfgs pl) (pl_post pl) c /\
  executes (pl_postproc pl) f (a ++ b ++ c) tr None /\
  snd (autorun o pl lift compile e) <> EvLift :: tr.
Proof.
  exists nat, nat, nat, (mkOpts 0 false false),
    (mkPipe [bad_pass "a"] [] [] [mkCustom (ok_pass "c" true false) None None] 0%Z no_check),
    (fun l => Some 0), (fun f => Some [f]), (mkEnv [1;2] false), 0, [(bad_pass "a", None)], [(ok_pass "c" true false, None)], [],
    [EvPass "a" None].
  split; [constructor; [intros H; discriminate H|constructor]|]. split; [constructor|]. split; [reflexivity|].
  split; [apply plan_run; [apply sel_default; [intros d []|right; reflexivity]|constructor]|].
  split; [apply planc_run; [split; [reflexivity|discriminate]|constructor]|]. split; [constructor|].
  split; [apply ex_fail; left; reflexivity|]. vm_compute. discriminate.
Qed.
Print Assumptions C20_pre_pass_refuted.

(** C21: without fake_run, an error or print_only leaves the bytecode as it was. *)
Theorem C21_unchanged_partial : forall F P I o (pl : pipeline F P) (lift : list I -> option F) compile e,
  o_fake_run o = false ->
  e_err (fst (autorun o pl lift compile e)) = true \/ o_print_only o = true ->
  e_insns (fst (autorun o pl lift compile e)) = e_insns e.
Proof. exact @autorun_keeps. Qed.
Print Assumptions C21_unchanged_partial.
(** fake_run reports its error after the bytecode has been replaced. *)
Theorem C21_fake_run_refuted : exists F P I o (pl : pipeline F P) (lift : list I -> option F) compile e,
  o_fake_run o = true /\ e_err (fst (autorun o pl lift compile e)) = true /\
  e_insns (fst (autorun o pl lift compile e)) <> e_insns e.
Proof.
  exists nat, nat, nat, (mkOpts 0 false true), (mkPipe [ok_pass "a" true false] [] [] [] 0%Z no_check),
    (fun l => Some 0), (fun f => Some [f]), (mkEnv [7;7] false).
  vm_compute. repeat split; discriminate.
Qed.
Print Assumptions C21_fake_run_refuted.

(** A run with three passes selected out of six, a parameter, and a first-entry override. *)
Definition demo_pl : pipeline nat nat :=
  mkPipe [ok_pass "a" true false; ok_pass "b" true false] [ok_pass "d" true true; ok_pass "e" false false]
    [mkCfg "b" false true (Some 10); mkCfg "b" true true (Some 20); mkCfg "d" false true (Some 30)]
    [mkCustom (ok_pass "c" true false) (Some 5) (Some (fun v => (v =? 3)%Z)); mkCustom (ok_pass "c2" true false) (Some 6) (Some (fun v => (v =? 4)%Z))] 3%Z no_check.
Example C19_demo : Forall force_default (pl_pre demo_pl) /\ Forall force_default (pl_post demo_pl) /\
  r_trace (run demo_pl (mkR 0 false [])) = [EvPass "a" None; EvPass "c" (Some 5); EvPass "d" (Some 30)] /\
  r_fun (run demo_pl (mkR 0 false [])) = 36.
Proof. repeat split; repeat (constructor; try (intros H; try discriminate H; reflexivity)). Qed.
Example C20_demo : let o := mkOpts 5 false false in
  autorun o demo_pl (fun l : list nat => Some 0) (fun f => Some [f; f]) (mkEnv [1;2;3] false) =
    (mkEnv [36; 36] false, [EvLift; EvPass "a" None; EvPass "c" (Some 5); EvPass "d" (Some 30); EvCompile]).
Proof. reflexivity. Qed.
Example C21_demo : autorun (mkOpts 2 false false) demo_pl (fun l : list nat => Some 0) (fun f => Some [f; f]) (mkEnv [1;2;3] false) =
  (mkEnv [1;2;3] true, []).
Proof. reflexivity. Qed.
