(** Properties C24, C25, C26, C27, C28, C55, C56, C57, C58: the register allocator. *)
From Coq Require Import ZArith List Permutation.
From Verif Require Import SpecWord SpecIsa SpecSsa SpecLift M_Base M_Ir M_Edit M_Layout M_Norm M_GenBB M_Lift M_Ra SpecIr SpecRa
  L_GenBBEx L_LiftEx L_LiftWit L_RaGraph L_RaLive L_RaMain L_RaProp L_RaCheck L_RaWit P_Lift.
Import ListNotations.
Open Scope nat_scope.

(** The loop of [ex_lift], lifted and prepared for allocation: three phis, a call with two arguments. *)
Definition ex_s : cgs := prepd ex_f.
Definition ex_t : cgs := get_ok s_none (analysis 100 ex_s).
Definition ex_t1 : cgs := fst (get_ok (s_none, ([], [])) (pre_spill 100 ident ident ex_t)).
Example ex_ra_good : ready ex_s /\ tidy ex_s /\ operands_ok ex_s /\ empties_below ex_s 0 /\ strict ex_s /\
  length (c_reach ex_s) < 100 /\ analysis 100 ex_s = Ok ex_t /\ length (c_all ex_t) < 100 /\
  copies_ok ex_s /\ (forall i a b, linked ex_s i -> copies ex_s i a b -> mergeable ex_s ex_t a b).
Proof.
  assert (G : goodb ex_s = true) by (vm_compute; reflexivity).
  destruct (good_ok _ ex_s eq_refl G) as (R & T & O & E & St & L & t & Rt & A).
  assert (K : analysis 100 ex_s = Ok ex_t) by (unfold ex_t; rewrite Rt; reflexivity).
  assert (Lt : length (c_all ex_t) < 100) by (apply Nat.ltb_lt; vm_compute; reflexivity).
  assert (M : forallb (copyb ex_s ex_t) (linsns ex_s) = true) by (vm_compute; reflexivity).
  pose proof (copyb_ok ex_s ex_t M) as (C1 & C2).
  split; [exact R|]. split; [exact T|]. split; [exact O|]. split; [exact E|]. split; [exact St|]. split; [exact L|].
  split; [exact K|]. split; [exact Lt|]. split; [exact C1|exact C2].
Qed.

(** ** C24: a value is recorded as live exactly at the points from which some path leads to a use
    without passing the definition. *)
Theorem C24_liveness_exact : forall fuel s, ready s -> tidy s -> length (c_reach s) < fuel ->
  exists t, (do s1 <- clean s; liveness fuel s1) = Ok t /\
    (forall v b k i, tracked s v -> In b (c_reach s) -> insn_at s b k i ->
       (live_before t i v <-> live s v (b, k)) /\ (live_after t i v <-> live s v (b, S k))) /\
    (forall v i, live_before t i v \/ live_after t i v -> tracked s v) /\
    (forall v b k i d, tracked s v -> In b (c_reach s) -> insn_at s b k i -> live s v (b, S k) ->
       defines s i d -> d <> v -> interferes t v d).
Proof. exact liveness_exact. Qed.
Print Assumptions C24_liveness_exact.
(** The whole analysis succeeds, and two values live at one point of an execution interfere. *)
Theorem C24_interference_complete : forall fuel d s,
  ready s -> tidy s -> operands_ok s -> empties_below s d -> length (c_reach s) < fuel -> d < fuel ->
  exists t, analysis fuel s = Ok t /\ graph_ok t /\ proper t /\
    (strict s -> forall p a b, arrives s p -> tracked s a -> tracked s b -> a <> b ->
       live s a p -> live s b p -> interferes t a b).
Proof. exact interference_complete. Qed.
Print Assumptions C24_interference_complete.
(** the phi and the counter of the loop are live together *)
Example C24_example : existsb (fun a => existsb (fun b => negb (a =? b) &&
   existsb (fun i => opt (c_ex ex_t i) (fun e => mem a (x_in e) && mem b (x_in e))) (linsns ex_s)) (linsns ex_s)) (linsns ex_s) = true.
Proof. vm_compute. reflexivity. Qed.

(** ** C25: colouring keeps neighbours apart, leaves what has a place alone and uses R0..R9 only. *)
Theorem C25_coloring : forall s,
  graph_ok s -> in_range s -> proper s -> (forall v, In v (c_seo s) -> has_data s v /\ v <> c_sp s) ->
  coloring s = Err \/
  exists t, coloring s = Ok t /\ same_graph s t /\ proper t /\ in_range t /\
    (forall v, In v (c_seo s) -> allocated t v) /\
    (forall v, allocated s v \/ ~ In v (c_seo s) -> position t v = position s v).
Proof. exact coloring_sound. Qed.
Print Assumptions C25_coloring.
Example C25_example : graph_ok ex_t1 /\ in_range ex_t1 /\ proper ex_t1 /\
  (forall v, In v (c_seo ex_t1) -> has_data ex_t1 v /\ v <> c_sp ex_t1) /\ is_ok (coloring ex_t1) = true /\ length (c_seo ex_t1) = 18.
Proof.
  destruct ex_ra_good as (R & T & O & E & St & L & K & Lt & _).
  destruct (seo_graph 100 0 ident ident ex_s ex_t R T O E L (Nat.lt_0_succ 99) ident_orders ident_orders K Lt) as (t1 & x & Rp & G1 & G2 & G3 & G4).
  assert (Eq : t1 = ex_t1) by (unfold ex_t1; rewrite Rp; reflexivity). rewrite <- Eq.
  split; [exact G1|]. split; [exact G2|]. split; [exact G3|]. split; [exact G4|]. rewrite Eq. split; vm_compute; reflexivity.
Qed.

(** ** C26: the search lists every variable once, and each is one with the most neighbours listed before it. *)
Theorem C26_mcs : forall om s,
  orders om -> NoDup (c_all s) -> (forall v, In v (c_all s) -> has_data s v) ->
  (forall v e, c_ex s v = Some e -> NoDup (x_adj e)) ->
  (forall v e, In v (c_all s) -> c_ex s v = Some e -> x_lam e = 0) ->
  exists t, mcs om s = Ok t /\ Permutation (c_seo t) (c_all s) /\ NoDup (c_seo t) /\
    forall l1 v l2 u, c_seo t = l1 ++ v :: l2 -> In u l2 -> degree_in s l1 u <= degree_in s l1 v.
Proof. exact mcs_lists. Qed.
Print Assumptions C26_mcs.
Example C26_example : NoDup (c_all ex_t) /\ length (c_all ex_t) = 18 /\
  forallb (fun v => opt (c_ex ex_t v) (fun e => nodupb (x_adj e) && (x_lam e =? 0))) (c_all ex_t) = true.
Proof. split; [apply nodupb_ok; vm_compute; reflexivity|]. split; vm_compute; reflexivity. Qed.

(** ** C27: after the analysis the choice of values to spill terminates, names only instructions of
    the function, and leaves every candidate clique with at most ten members. *)
Theorem C27_pre_spill : forall fuel d om os s t,
  ready s -> tidy s -> operands_ok s -> empties_below s d ->
  length (c_reach s) < fuel -> d < fuel -> orders om -> orders os -> analysis fuel s = Ok t -> length (c_all t) < fuel ->
  exists t1 ts eps, pre_spill fuel om os t = Ok (t1, (ts, eps)) /\ NoDup ts /\
    (forall v, In v ts -> tracked s v) /\ (forall q, In q eps -> length q <= 10) /\
    (forall l1 v l2, c_seo t1 = l1 ++ v :: l2 -> exists q, In q eps /\
       forall u, In u q <-> (u = v \/ (adjacent t v u /\ In u l1)) /\ ~ In u ts).
Proof. exact pre_spill_after. Qed.
Print Assumptions C27_pre_spill.
(** The same for any graph in which no more than ten registers are physical. *)
Theorem C27_pre_spill_graph : forall fuel om os s,
  orders om -> orders os -> NoDup (c_all s) -> (forall v, In v (c_all s) -> has_data s v) ->
  (forall l, NoDup l -> incl l (c_all s) -> (forall v, In v l -> physical s v) -> length l <= 10) ->
  length (c_all s) < fuel ->
  exists t ts eps, pre_spill fuel om os s = Ok (t, (ts, eps)) /\ Permutation (c_seo t) (c_all s) /\
    NoDup ts /\ (forall v, In v ts -> In v (c_all s) /\ ~ physical s v) /\
    (forall q, In q eps -> length q <= 10) /\
    (forall l1 v l2, c_seo t = l1 ++ v :: l2 -> exists q, In q eps /\
       forall u, In u q <-> (u = v \/ (adjacent s v u /\ In u l1)) /\ ~ In u ts).
Proof. exact pre_spill_graph. Qed.
Print Assumptions C27_pre_spill_graph.
(** a function with twelve values live together: two of them are spilled *)
Definition ex_many : cgs := prepd (get_ok f0 w_many).
Definition ex_many_t : cgs := get_ok s_none (analysis 100 ex_many).
Example C27_example : ready ex_many /\ tidy ex_many /\ operands_ok ex_many /\ empties_below ex_many 0 /\
  length (c_reach ex_many) < 100 /\ analysis 100 ex_many = Ok ex_many_t /\ length (c_all ex_many_t) < 100 /\
  match pre_spill 100 ident ident ex_many_t with Ok (_, (ts, _)) => length ts = 2 | _ => False end.
Proof.
  assert (G : goodb ex_many = true) by (vm_compute; reflexivity).
  destruct (good_ok _ ex_many eq_refl G) as (R & T & O & E & St & L & t & Rt & A).
  split; [exact R|]. split; [exact T|]. split; [exact O|]. split; [exact E|]. split; [exact L|].
  split; [unfold ex_many_t; rewrite Rt; reflexivity|]. split; [apply Nat.ltb_lt; vm_compute; reflexivity|vm_compute; reflexivity].
Qed.

(** ** C28: a single merge keeps neighbours apart when one side has a fixed register or the two do not
    interfere ... *)
Theorem C28_coalesce_partial : forall s v1 v2,
  graph_ok s -> in_range s -> proper s ->
  (forall a b, adjacent s a b -> allocated s b) ->
  allocated s v1 -> allocated s v2 -> v1 <> c_sp s -> v2 <> c_sp s ->
  fixed s v1 \/ fixed s v2 \/ ~ adjacent s v1 v2 ->
  exists t, coalesce s v1 v2 = Ok t /\ proper t /\ in_range t /\ (forall a b, adjacent t a b <-> adjacent s a b).
Proof. exact coalesce_keeps. Qed.
Print Assumptions C28_coalesce_partial.
(** ... but not otherwise: a variable and a value stored into it end up in one register although both
    are live, and the value is lost. *)
Theorem C28_coalescing_refuted : exists s t u u' a b p,
  ready s /\ tidy s /\ operands_ok s /\ strict s /\ copies_ok s /\ analysis 100 s = Ok t /\
  coloured 100 s = Ok (t, u) /\ sound_assignment s u /\
  coalescing u = Ok u' /\ tracked s a /\ tracked s b /\ a <> b /\ arrives s p /\ live s a p /\ live s b p /\
  adjacent t a b /\ share u' a b.
Proof. exact var_merged. Qed.
Print Assumptions C28_coalescing_refuted.

(** ** C55: the assignment computed for a function is sound: values live together are apart, no
    instruction overwrites a value needed later, calls and phi copies clobber nothing. *)
Theorem C55_assignment_sound : forall fuel d om os s t t1 x u,
  ready s -> tidy s -> operands_ok s -> empties_below s d -> strict s ->
  length (c_reach s) < fuel -> d < fuel -> orders om -> orders os ->
  analysis fuel s = Ok t -> length (c_all t) < fuel -> pre_spill fuel om os t = Ok (t1, x) -> coloring t1 = Ok u ->
  sound_assignment s u.
Proof. exact assignment_sound. Qed.
Print Assumptions C55_assignment_sound.
(** With coalescing, when every pair that is tried may be merged. *)
Theorem C55_coalesced_sound_partial : forall fuel d om os s t t1 x u,
  ready s -> tidy s -> operands_ok s -> empties_below s d -> strict s ->
  length (c_reach s) < fuel -> d < fuel -> orders om -> orders os ->
  analysis fuel s = Ok t -> length (c_all t) < fuel -> pre_spill fuel om os t = Ok (t1, x) -> coloring t1 = Ok u ->
  copies_ok s -> (forall i a b, linked s i -> copies s i a b -> mergeable s t a b) ->
  exists u', coalescing u = Ok u' /\ sound_assignment s u'.
Proof. exact assignment_coalesced. Qed.
Print Assumptions C55_coalesced_sound_partial.
Example C55_example : ready ex_s /\ tidy ex_s /\ operands_ok ex_s /\ empties_below ex_s 0 /\ strict ex_s /\
  length (c_reach ex_s) < 100 /\ analysis 100 ex_s = Ok ex_t /\ length (c_all ex_t) < 100 /\
  is_ok (do r <- pre_spill 100 ident ident ex_t; do u <- coloring (fst r); coalescing u) = true /\
  copies_ok ex_s /\ (forall i a b, linked ex_s i -> copies ex_s i a b -> mergeable ex_s ex_t a b).
Proof.
  destruct ex_ra_good as (R & T & O & E & St & L & K & Lt & C & M). repeat (split; [assumption|]).
  split; [vm_compute; reflexivity|auto].
Qed.

(** ** C56: colouring succeeds when each vertex sees at most nine others that have a register when
    its turn comes ... *)
Theorem C56_colouring_succeeds_partial : forall s,
  graph_ok s -> in_range s -> (forall v, In v (c_seo s) -> has_data s v /\ v <> c_sp s) -> NoDup (c_seo s) ->
  (forall l1 v l2, c_seo s = l1 ++ v :: l2 -> ~ allocated s v ->
     exists nb, length nb <= 9 /\ forall u, adjacent s v u -> allocated s u \/ In u l1 -> In u nb) ->
  exists t, coloring s = Ok t.
Proof. exact (fun s => color_fold_success (c_seo s) s). Qed.
Print Assumptions C56_colouring_succeeds_partial.
(** ... but the bound on the candidate cliques does not give that: nothing is to be spilled, every
    candidate clique has at most ten members, and no register is left. *)
Theorem C56_allocation_succeeds_refuted : exists s t t1 eps,
  ready s /\ tidy s /\ operands_ok s /\ empties_below s 0 /\ strict s /\ analysis 100 s = Ok t /\ length (c_all t) < 100 /\
  pre_spill 100 ident ident t = Ok (t1, ([], eps)) /\ (forall q, In q eps -> length q <= 10) /\ coloring t1 = Err.
Proof. exact tight_fails. Qed.
Print Assumptions C56_allocation_succeeds_refuted.
Theorem C56_program_rejected_refuted : exists p, translate 100 (fun _ => ident) (fun _ => ident) p = Err.
Proof. exact (ex_intro _ w_tight tight_rejected). Qed.
Print Assumptions C56_program_rejected_refuted.

(** ** C57: the generated code is not equivalent to the program: the arguments are received one after
    the other, and an argument register can be overwritten before it has been read. *)
Theorem C57_translation_refuted : exists w p q s r1 s1 r2 s2,
  translate 100 (fun _ => ident) (fun _ => ident) p = Ok q /\
  isa_run w p 20 0 s = IExit r1 s1 /\ isa_run w q 20 0 s = IExit r2 s2 /\ r1 <> r2.
Proof. exact args_wrong. Qed.
Print Assumptions C57_translation_refuted.
(** Because of C28, code generation changes what a function with variables returns. *)
Theorem C57_variables_refuted : exists w bi f l q s t r1 t1 r2 s2, laid_var = (f, l) /\
  codegen 100 (fun _ => ident) (fun _ => ident) Ok f l sp_id [2;3;4;5;6] = Ok q /\
  enters s t sp_id arg_id /\
  srun w bi f 20 0 (f_entry f) t = Some (ORet r1 t1) /\ isa_run w q 20 0 s = IExit r2 s2 /\ r1 <> r2.
Proof. exact var_wrong. Qed.
Print Assumptions C57_variables_refuted.

(** ** C58: coalescing moves the frame pointer to another register when it is passed to a helper. *)
Theorem C58_fixed_kept_refuted : exists s t u u',
  ready s /\ tidy s /\ operands_ok s /\ strict s /\ copies_ok s /\ coloured 100 s = Ok (t, u) /\ coalescing u = Ok u' /\
  in_reg s (c_sp s) 10 /\ fixed s (c_sp s) /\ in_reg u (c_sp s) 10 /\ in_reg u' (c_sp s) 2.
Proof. exact frame_moved. Qed.
Print Assumptions C58_fixed_kept_refuted.
Theorem C58_frame_refuted : exists w p q s r1 s1 r2 s2,
  translate 100 (fun _ => ident) (fun _ => ident) p = Ok q /\
  isa_run w p 20 0 s = IExit r1 s1 /\ isa_run w q 20 0 s = IExit r2 s2 /\ r1 <> r2.
Proof. exact frame_wrong. Qed.
Print Assumptions C58_frame_refuted.
(** Up to colouring, and through merges that are allowed, fixed places are kept. *)
Theorem C58_fixed_kept_partial : forall fuel d om os s t t1 x u,
  ready s -> tidy s -> operands_ok s -> empties_below s d -> strict s ->
  length (c_reach s) < fuel -> d < fuel -> orders om -> orders os ->
  analysis fuel s = Ok t -> length (c_all t) < fuel -> pre_spill fuel om os t = Ok (t1, x) -> coloring t1 = Ok u ->
  (forall v, fixed s v -> position u v = position s v) /\
  (copies_ok s -> (forall i a b, linked s i -> copies s i a b -> mergeable s t a b) ->
   exists u', coalescing u = Ok u' /\ forall v, fixed s v -> position u' v = position s v).
Proof. exact fixed_kept. Qed.
Print Assumptions C58_fixed_kept_partial.
