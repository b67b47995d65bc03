(** Property C30: leaving SSA. *)
From Coq Require Import ZArith List.
From Verif Require Import SpecWord SpecIsa SpecSsa SpecLift M_Base M_Ir M_Edit M_Layout M_Norm M_GenBB M_Lift M_Ra
  SpecFlat SpecProg SpecNormCond SpecOut SpecIr SpecRa SpecPass SpecShift SpecVirt L_RaCheck L_RaWit L_SsaOut L_VirtSame L_VirtWit.
From Verif Require Import M_Ra SpecRa SpecVirt.
Import ListNotations.
Open Scope nat_scope.

(** The analyses, colouring and coalescing of the last allocation round do not change the function. *)
Theorem C30_round_keeps_function : forall fuel om os s s1 s2 x u,
  analysis fuel s = Ok s1 -> pre_spill fuel om os s1 = Ok (s2, x) -> assign s2 = Ok u -> same_function s u.
Proof. exact sf_round. Qed.
Print Assumptions C30_round_keeps_function.

(** A function with virtual values and a sound assignment of registers to them, in which no copy of a
    phi hits a register, another phi or an old value that is still needed ([apart]): as long as the
    virtual values can be computed, the code with places reaches the same block, and when the function
    returns the code returns the same result, memory and number of helper calls. *)
Theorem C30_exit_partial : forall w ar s u t p bi n prev b q out,
  ready s -> shape s -> same_function s u -> sound_assignment s u -> apart ar s u -> few_args w ar -> all_fit s ->
  ssa_out u = Ok t -> flatten t = Ok p -> start s b -> phi_free s b -> st_ok (v_st q) -> (forall v, v_env q v = None) ->
  vrun w bi s (c_off s) n prev b q = Some out ->
  match out with
  | VAt _ b' _ => exists m', prun w bi (next_of s) p n b (v_st q) = Some (PGo b' m')
  | VDone z q' => exists m', prun w bi (next_of s) p n b (v_st q) = Some (PRet z m') /\
                    SpecWord.mem m' = SpecWord.mem (v_st q') /\ ncall m' = ncall (v_st q')
  end.
Proof. exact exit_sim. Qed.
Print Assumptions C30_exit_partial.

(** The same down to the bytecode. *)
Theorem C30_code_partial : forall w ar s u t p p1 code bi fuel n prev b m z q,
  ready s -> shape s -> same_function s u -> sound_assignment s u -> apart ar s u -> few_args w ar -> all_fit s ->
  ssa_out u = Ok t -> flatten t = Ok p -> start s b -> phi_free s b -> hd_error (c_reach s) = Some b ->
  layout_ok (next_of s) p -> normalize p = Ok p1 -> counts p1 bi -> (forall k, In k p -> Forall (norm_ok (bi (nb_id k))) (nb_insns k)) ->
  cg_norm fuel p = Ok code -> (Z.of_nat (length code) <= 2 ^ 15)%Z -> st_ok m ->
  vrun w bi s (c_off s) n prev b (mkV (fun _ => None) m) = Some (VDone z q) ->
  exists m', code_returns w code m z m' /\ SpecWord.mem m' = SpecWord.mem (v_st q) /\ ncall m' = ncall (v_st q).
Proof. exact exit_code. Qed.
Print Assumptions C30_code_partial.

(** The hypotheses hold of a loop with two phis, a helper call and stack accesses, for every world; with
    the helper [w_count] the function returns. *)
Example C30_example :
  let s := virtual w_loop in
  exists u t p p1 code bi, round s = Ok u /\ ready s /\ shape s /\ same_function s u /\ sound_assignment s u /\ apart ar5 s u /\ all_fit s /\
    ssa_out u = Ok t /\ flatten t = Ok p /\ start s 1 /\ phi_free s 1 /\ hd_error (c_reach s) = Some 1 /\
    layout_ok (next_of s) p /\ normalize p = Ok p1 /\ counts p1 bi /\ (forall k, In k p -> Forall (norm_ok (bi (nb_id k))) (nb_insns k)) /\
    cg_norm 100 p = Ok code /\ (Z.of_nat (length code) <= 2 ^ 15)%Z.
Proof. exact (right_ok w_loop _ eq_refl loop_right). Qed.
Example C30_example_world : forall w, few_args w ar5.
Proof. exact few5. Qed.
Example C30_example_runs : vresult (virtual w_loop) (st_of 0 0) = Some 90%Z.
Proof. vm_compute. reflexivity. Qed.

(** A sound assignment is not enough: two phis that exchange their values ... *)
Theorem C30_swap_refuted : exists w u, let s := virtual w_swap in
  round s = Ok u /\ ready s /\ shape s /\ same_function s u /\ sound_assignment s u /\ all_fit s /\ exit_differs w s u.
Proof. exact (wrong_ok w_swap _ _ eq_refl swap_wrong). Qed.
Print Assumptions C30_swap_refuted.
(** ... a phi whose old value is used after the loop ... *)
Theorem C30_lost_copy_refuted : exists w u, let s := virtual w_lost in
  round s = Ok u /\ ready s /\ shape s /\ same_function s u /\ sound_assignment s u /\ all_fit s /\ exit_differs w s u.
Proof. exact (wrong_ok w_lost _ _ eq_refl lost_wrong). Qed.
Print Assumptions C30_lost_copy_refuted.
(** ... and a phi behind a critical edge: the copy also happens when the other way is taken. *)
Theorem C30_critical_edge_refuted : exists w u, let s := virtual w_edge in
  round s = Ok u /\ ready s /\ shape s /\ same_function s u /\ sound_assignment s u /\ all_fit s /\ exit_differs w s u.
Proof. exact (wrong_ok w_edge _ _ eq_refl edge_wrong). Qed.
Print Assumptions C30_critical_edge_refuted.
