(** The pass runner and the automatic run, core/bpf_ir.c 1777-1991.
    The passes, the post-processing (1762-1775), the lifter (1910-1939) and the code generator
    (ir_cg.c 1316-1405) are parameters: functions that return their result and whether they raised an
    error.  No pass clears env->err, and env->insns is replaced only by the code generator, at its end
    (ir_cg_norm.c 1281-1318).  Not modelled: printing and timing.  The sequence of calls is recorded
    in [r_trace]. *)
From Verif Require Import M_Base.
From Coq Require Export String.
Open Scope list_scope.

(** struct function_pass, bpf_ir.h; [pa_fun f param] is the new function and "env->err was set" *)
Record pass (F P : Type) := mkPass {
  pa_name : string; pa_enabled : bool; pa_force : bool; pa_fun : F -> option P -> F * bool }.
(** struct builtin_pass_cfg *)
Record pcfg (P : Type) := mkCfg { cf_name : string; cf_enable : bool; cf_sel : bool; cf_param : option P }.
(** struct custom_pass_cfg; [cu_check] is check_apply or NULL *)
Record custom (F P : Type) := mkCustom { cu_pass : pass F P; cu_param : option P; cu_check : option (Z -> bool) }.
Arguments mkPass {F P}. Arguments pa_name {F P}. Arguments pa_enabled {F P}. Arguments pa_force {F P}. Arguments pa_fun {F P}.
Arguments mkCfg {P}. Arguments cf_name {P}. Arguments cf_enable {P}. Arguments cf_sel {P}. Arguments cf_param {P}.
Arguments mkCustom {F P}. Arguments cu_pass {F P}. Arguments cu_param {F P}. Arguments cu_check {F P}.

(** Calls made during a run. *)
Inductive event (P : Type) := EvLift | EvPass (name : string) (param : option P) | EvCompile.
Arguments EvLift {P}. Arguments EvPass {P}. Arguments EvCompile {P}.

(** The function, env->err <> 0, the calls so far. *)
Record rst (F P : Type) := mkR { r_fun : F; r_err : bool; r_trace : list (event P) }.
Arguments mkR {F P}. Arguments r_fun {F P}. Arguments r_err {F P}. Arguments r_trace {F P}.

(** run_single_pass, 1777-1791: pass, CHECK_ERR, postprocess, CHECK_ERR *)
Definition run_single {F P} (post : F -> F * bool) (p : pass F P) (param : option P) (s : rst F P) : rst F P :=
  let r := pa_fun p (r_fun s) param in
  let err := r_err s || snd r in
  let tr := r_trace s ++ [EvPass (pa_name p) param] in
  if err then mkR (fst r) true tr
  else let q := post (fst r) in mkR (fst q) (snd q) tr.

(** bpf_ir_run_passes, 1793-1820: inner search for the configuration entry *)
Fixpoint find_cfg {P} (cfgs : list (pcfg P)) (name : string) : option (pcfg P) :=
  match cfgs with
  | [] => None
  | c :: r => if String.eqb (cf_name c) name then Some c else find_cfg r name
  end.
Definition run_one {F P} (cfgs : list (pcfg P)) (post : F -> F * bool) (p : pass F P) (s : rst F P) : rst F P :=
  match find_cfg cfgs (pa_name p) with
  | Some c => if pa_force p || cf_enable c then run_single post p (cf_param c) s else s
  | None => if pa_enabled p then run_single post p None s else s
  end.
Fixpoint run_passes {F P} (cfgs : list (pcfg P)) (post : F -> F * bool) (ps : list (pass F P)) (s : rst F P) : rst F P :=
  match ps with
  | [] => s
  | p :: r => let s1 := run_one cfgs post p s in if r_err s1 then s1 else run_passes cfgs post r s1
  end.

(** bpf_ir_run, 1822-1852.  The loop over custom passes returns from bpf_ir_run when env->err is set
    after an enabled one; there is no test after the pre passes. *)
Definition run_custom {F P} (verr : Z) (post : F -> F * bool) (c : custom F P) (s : rst F P) : rst F P :=
  match cu_check c with
  | Some f => if f verr then run_single post (cu_pass c) (cu_param c) s else s
  | None => run_single post (cu_pass c) (cu_param c) s
  end.
(** the boolean tells whether the loop reached its end *)
Fixpoint run_customs {F P} (verr : Z) (post : F -> F * bool) (cs : list (custom F P)) (s : rst F P) : rst F P * bool :=
  match cs with
  | [] => (s, true)
  | c :: r =>
    if pa_enabled (cu_pass c) then
      let s1 := run_custom verr post c s in
      if r_err s1 then (s1, false) else run_customs verr post r s1
    else run_customs verr post r s
  end.
Record pipeline (F P : Type) := mkPipe {
  pl_pre : list (pass F P); pl_post : list (pass F P); pl_cfgs : list (pcfg P); pl_custom : list (custom F P);
  pl_verr : Z; pl_postproc : F -> F * bool }.
Arguments mkPipe {F P}. Arguments pl_pre {F P}. Arguments pl_post {F P}. Arguments pl_cfgs {F P}.
Arguments pl_custom {F P}. Arguments pl_verr {F P}. Arguments pl_postproc {F P}.
Definition run {F P} (pl : pipeline F P) (s : rst F P) : rst F P :=
  let s1 := run_passes (pl_cfgs pl) (pl_postproc pl) (pl_pre pl) s in
  let r := run_customs (pl_verr pl) (pl_postproc pl) (pl_custom pl) s1 in
  if snd r then run_passes (pl_cfgs pl) (pl_postproc pl) (pl_post pl) (fst r) else fst r.

(** bpf_ir_autorun, 1941-1991.  [lift] and [compile] return None when they raise an error;
    an error already present makes the lifter return at its first CHECK_ERR. *)
Record opts := mkOpts { o_max_insns : Z; o_print_only : bool; o_fake_run : bool }.
Record env (I : Type) := mkEnv { e_insns : list I; e_err : bool }.
Arguments mkEnv {I}. Arguments e_insns {I}. Arguments e_err {I}.
Definition autorun {F P I} (o : opts) (pl : pipeline F P) (lift : list I -> option F)
  (compile : F -> option (list I)) (e : env I) : env I * list (event P) :=
  if (0 <? o_max_insns o)%Z && (o_max_insns o <? Z.of_nat (List.length (e_insns e)))%Z then (mkEnv (e_insns e) true, [])
  else if o_print_only o then (e, [])
  else
    match (if e_err e then None else lift (e_insns e)) with
    | None => (mkEnv (e_insns e) true, [EvLift])
    | Some f =>
      let s := run pl (mkR f false [EvLift]) in
      if r_err s then (mkEnv (e_insns e) true, r_trace s)
      else match compile (r_fun s) with
           | None => (mkEnv (e_insns e) true, r_trace s ++ [EvCompile])
           | Some code => (mkEnv code (o_fake_run o), r_trace s ++ [EvCompile])
           end
    end.
