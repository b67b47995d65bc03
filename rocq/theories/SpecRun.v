(** Which passes should run, and what running them should do. *)
From Verif Require Import M_Base M_Run.

(** Whether the built-in pass [p] is to run under the configuration, and with which parameter:
    when force-enabled; otherwise as the first entry of that name says; otherwise by default. *)
Inductive selected {F P} (cfgs : list (pcfg P)) (p : pass F P) : option P -> Prop :=
| sel_cfg l1 c l2 : cfgs = l1 ++ c :: l2 -> (forall d, In d l1 -> cf_name d <> pa_name p) -> cf_name c = pa_name p ->
    pa_force p = true \/ cf_enable c = true -> selected cfgs p (cf_param c)
| sel_default : (forall d, In d cfgs -> cf_name d <> pa_name p) -> pa_force p = true \/ pa_enabled p = true ->
    selected cfgs p None.
Definition selected_custom {F P} (verr : Z) (c : custom F P) : Prop :=
  pa_enabled (cu_pass c) = true /\ forall f, cu_check c = Some f -> f verr = true.

Definition todo (F P : Type) := list (pass F P * option P).
(** [plan ps l]: [l] lists the selected passes of [ps], in order, with their parameters. *)
Inductive plan {F P} (cfgs : list (pcfg P)) : list (pass F P) -> todo F P -> Prop :=
| plan_nil : plan cfgs [] []
| plan_run p ps q l : selected cfgs p q -> plan cfgs ps l -> plan cfgs (p :: ps) ((p, q) :: l)
| plan_skip p ps l : (forall q, ~ selected cfgs p q) -> plan cfgs ps l -> plan cfgs (p :: ps) l.
Inductive plan_custom {F P} (verr : Z) : list (custom F P) -> todo F P -> Prop :=
| planc_nil : plan_custom verr [] []
| planc_run c cs l : selected_custom verr c -> plan_custom verr cs l ->
    plan_custom verr (c :: cs) ((cu_pass c, cu_param c) :: l)
| planc_skip c cs l : ~ selected_custom verr c -> plan_custom verr cs l -> plan_custom verr (c :: cs) l.

(** Every force-enabled pass is also enabled by default (as the definition macros make them). *)
Definition force_default {F P} (p : pass F P) : Prop := pa_force p = true -> pa_enabled p = true.

(** Running pass [p] on [f] fails: in the pass or in the check that follows it. *)
Definition fails {F P} (post : F -> F * bool) (p : pass F P) (f : F) (q : option P) : Prop :=
  snd (pa_fun p f q) = true \/ snd (post (fst (pa_fun p f q))) = true.
(** [executes post f l tr r]: running [l] from [f] makes the calls [tr] and ends with the function
    [r], or None when a pass failed, which ends the run. *)
Inductive executes {F P} (post : F -> F * bool) : F -> todo F P -> list (event P) -> option F -> Prop :=
| ex_nil f : executes post f [] [] (Some f)
| ex_fail f p q l : fails post p f q -> executes post f ((p, q) :: l) [EvPass (pa_name p) q] None
| ex_ok f p q l tr r : ~ fails post p f q -> executes post (fst (post (fst (pa_fun p f q)))) l tr r ->
    executes post f ((p, q) :: l) (EvPass (pa_name p) q :: tr) r.
(** the runner state [s] reports [r] after the calls [tr] *)
Definition reports {F P} (s : rst F P) (tr : list (event P)) (r : option F) : Prop :=
  r_trace s = tr /\ (if r_err s then None else Some (r_fun s)) = r.
(** at most one further call of a pass *)
Definition extra {P} (tl : list (event P)) : Prop := tl = [] \/ exists n q, tl = [EvPass n q].
