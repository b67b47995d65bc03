(** Properties C41 and C59: removal of trivial phis; lifting, phi removal and optimiser together. *)
From Coq Require Import ZArith List Bool Arith Lia.
From Verif Require Import SpecWord SpecIsa SpecFlat SpecCfg SpecLift SpecIr SpecEdit SpecSsa M_Base M_Ir M_Edit M_EditHist M_GenBB M_Lift M_Pass
  L_GenBBEx L_PassWit L_PassPhi L_PhiPass L_LiftEx L_LiftWit L_LiftStrict L_Front L_PhiWit SpecPass SpecStrict L_LiftMain.
Import ListNotations.
Open Scope nat_scope.

(** ** C41 *)
(** One phi: it is kept because it has two different values, or it is replaced by the only one. *)
Theorem C41_one_phi : forall f p x, tidy f -> f_insn f p = Some x -> i_op x = PHI -> In p (insns_of f (i_parent x)) ->
  (try_phi f p = Err /\ forall v q, In (v, q) (i_phi x) -> v_data v = VInsn p) \/
  (try_phi f p = Ok (f, false) /\ two_values p x) \/
  (exists e g, try_phi f p = Ok (g, true) /\ only_value p x e /\ tidy g /\ phi_gone p e f g).
Proof. exact try_phi_cases. Qed.
Print Assumptions C41_one_phi.
(** The pass: it succeeds, removes phis only, keeps the rest up to renaming of their results, leaves only
    phis with two different values, and executions are preserved. *)
Theorem C41_phi_pass : forall fuel reach f,
  tidy f -> strict f -> (forall b, In b reach -> f_block f b <> None /\ reachable f b) -> size_of f reach < fuel ->
  exists g rm h, remove_trivial_phi fuel reach f = Ok g /\ tidy g /\ strict g /\ preserves_run f g /\ phis_gone rm h f g /\
    forall b p x, In b reach -> In p (insns_of g b) -> f_insn g p = Some x -> i_op x = PHI -> two_values p x.
Proof. exact phi_pass_ok. Qed.
Print Assumptions C41_phi_pass.
(** Lifted functions meet its hypotheses. *)
Theorem C41_lifted : forall p m n f, wf_prog p -> (Z.of_nat (length p) <= 32768)%Z -> ~ jump_target p 0 -> all_reach p -> lift m n p = Ok f ->
  tidy f /\ strict f /\ forall b, f_block f b <> None -> reachable f b.
Proof. exact lifted_strict. Qed.
Print Assumptions C41_lifted.
Example C41_applies : tidy (lifted ex_loop) /\ strict (lifted ex_loop) /\ (forall b, In b [1; 2; 3; 4] -> f_block (lifted ex_loop) b <> None /\ reachable (lifted ex_loop) b) /\
  exists g, remove_trivial_phi 20 [1; 2; 3; 4] (lifted ex_loop) = Ok g /\ phis_in (lifted ex_loop) 2 = [11; 9; 7] /\ phis_in g 2 = [11; 7].
Proof.
  destruct (lifted_strict ex_loop 20 400 (lifted ex_loop)) as (A & B & C).
  1-5: apply ex_loop_ok.
  split; [exact A|]. split; [exact B|]. split.
  - intros b I. assert (K : f_block (lifted ex_loop) b <> None) by (repeat destruct I as [<-|I]; try destruct I; vm_compute; discriminate). auto.
  - exists (get_ok f0 (remove_trivial_phi 20 [1; 2; 3; 4] (lifted ex_loop))). split; [apply get_ok_spec; vm_compute; reflexivity|]. split; vm_compute; reflexivity.
Qed.
(** A phi without a value of its own, in a block that is never executed, makes the pass fail. *)
Theorem C41_empty_phi_refuted : exists f, tidy f /\ (exists r, returned f 0 = Some r) /\ remove_trivial_phi 20 [1; 2] f = Err.
Proof.
  exists no_value_phi. split; [apply built_tidy; vm_compute; reflexivity|]. split; [exists 7%Z; vm_compute; reflexivity|vm_compute; reflexivity].
Qed.
Print Assumptions C41_empty_phi_refuted.

(** ** C59 *)
(** A bytecode execution that exits is an execution of the function after lifting, phi removal and
    optimiser; none of the three fails. *)
Theorem C59_front_end_partial : forall p m n f reach fuel,
  wf_prog p -> (Z.of_nat (length p) <= 32768)%Z -> ~ jump_target p 0 -> all_reach p -> lift m n p = Ok f ->
  (forall b, In b reach -> f_block f b <> None) -> NoDup reach -> size_of f reach < fuel ->
  forall w bi ar nd no st t k r st' d, (forall j i, at_pos p j i -> plain ar i) -> agrees ar -> respects w ar ->
  (forall j i, at_pos p j i -> b_code i = 0x85%Z -> b_src i <> 6%Z) ->
  st_ok st -> enters st t sp_id arg_id -> words t -> crun w ar p k 0 st clean = Some (IExit r st', d) ->
  exists g h k' t', remove_trivial_phi fuel reach f = Ok g /\ optimize_ir fuel nd no reach g = Ok h /\
    srun w bi h k' 0 (f_entry h) t = Some (ORet r t') /\ s_mem t' = SpecWord.mem st' /\ s_nc t' = ncall st'.
Proof. exact front_exit. Qed.
Print Assumptions C59_front_end_partial.
Example C59_applies : let s := st_of 64 0 0 0 0 (fun a => (a mod 3)%Z) in
  (forall j i, at_pos ex_loop j i -> plain ar_table i) /\ (forall j i, at_pos ex_loop j i -> b_code i = 0x85%Z -> b_src i <> 6%Z) /\
  NoDup [1; 2; 3; 4] /\ size_of (lifted ex_loop) [1; 2; 3; 4] < 20 /\ st_ok s /\ enters s (sst_of s) sp_id arg_id /\ words (sst_of s) /\
  match crun w_sum ar_table ex_loop 40 0 s clean with Some (IExit r _, _) => r <> 0%Z | _ => False end.
Proof.
  split; [apply plain_chk_ok; vm_compute; reflexivity|]. split; [exact ex_loop_no_ecall|].
  split; [repeat constructor; cbn; intuition discriminate|]. split; [apply Nat.ltb_lt; vm_compute; reflexivity|].
  split; [apply st_of_ok; vm_compute; reflexivity|]. split; [apply enters_of|]. split; [apply sst_words; vm_compute; reflexivity|]. vm_compute. discriminate.
Qed.
