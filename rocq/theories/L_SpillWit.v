(** Spilling: a loop in which three values move to the stack. *)
From Coq Require Import ZArith List Bool Arith Lia.
From Verif Require Import M_Base M_Ir M_Norm M_Edit M_Ra M_GenBB M_Lift M_Layout SpecWord SpecIsa SpecFlat SpecSsa SpecIr SpecCfg SpecLift SpecPass SpecShift SpecPrep SpecSpill
  L_GenBBEx L_LiftMain L_LiftEx L_LiftWit L_LiftLay L_RaWit L_RaCheck L_VirtWit L_PrepMain L_SpillPrep L_EndWit SpecRa SpecVirt.
Import ListNotations.
Open Scope nat_scope.

(** r6 sums up what the helper returns, r7 counts *)
Definition w_rec : list bpf_insn := [Bk 6 0; Bk 7 0; Bmov 1 7; Bmov 2 6; Bcall 1; Badd 6 0; Bak 7 1; Bne 7 (-6) 10; Bmov 0 6; Bexit]%Z.
Definition recb (p : list bpf_insn) : bool :=
  wf_chk p && negb (jt_chk p 0) && reach_chk p && is_ok (lift 20 400 p) &&
  is_ok (layout 100 (lifted p)) && (2 * length (f_all (lifted p)) + 1 <? 100) &&
  is_ok (init_cg (fst (lay_of p)) (fst (snd (lay_of p))) sp_id [2;3;4;5;6]) && is_ok (prepare (init_of p)) && (length p <? 100).
Lemma rec_by p : recb p = true ->
  liftable p /\ lift 20 400 p = Ok (lifted p) /\ layout 100 (lifted p) = Ok (fst (lay_of p), (fst (snd (lay_of p)), snd (snd (lay_of p)))) /\ 2 * length (f_all (lifted p)) + 1 < 100 /\
  init_cg (fst (lay_of p)) (fst (snd (lay_of p))) sp_id [2;3;4;5;6] = Ok (init_of p) /\ prepare (init_of p) = Ok (prep_of p).
Proof.
  intros H. unfold recb in H. rewrite !andb_true_iff in H. destruct H as ((((((((A & B) & C) & D) & E) & F) & G) & I) & J). apply Nat.ltb_lt in F, J.
  split; [constructor; [now apply wf_chk_ok|lia|apply jt_chk_ok; now apply negb_true_iff|now apply reach_chk_ok]|].
  split; [now apply get_ok_spec|]. split; [rewrite <- !surjective_pairing; now apply get_ok_spec|]. split; [exact F|]. split; now apply get_ok_spec.
Qed.
Lemma rec_ok : recb w_rec = true.
Proof. vm_compute. reflexivity. Qed.
Definition rec_spilt : cgs := get_ok s_none (spill (prep_of w_rec) [8; 10; 11]).
Definition rec_slots : addrs := between (1000 - 24) 1000.
Lemma w_sum_hidden R : hidden w_sum R.
Proof.
  intros n id a m m' H. cbn. destruct (ar_table id); cbn [fst snd]; auto.
Qed.
Definition op_is (o : iop) (x : option insn) : bool := match x with Some y => iop_eqb (i_op y) o | None => false end.
Lemma op_is_ok o x : op_is o x = true -> exists y, x = Some y /\ i_op y = o.
Proof. destruct x as [y|]; cbn; [|discriminate]. intros H. exists y. split; [reflexivity|]. destruct (i_op y), o; try discriminate H; reflexivity. Qed.
Definition g_rec := fst (lay_of w_rec).
Definition l_rec := fst (snd (lay_of w_rec)).
Lemma rec_value v o : op_is o (f_insn g_rec v) = true -> existsb (fun b => existsb (Nat.eqb v) (insns_of g_rec b)) l_rec = true -> is_void_op o = false -> o <> CALL -> o <> ASSIGN -> movable (prep_of w_rec) v.
Proof.
  destruct (rec_by _ rec_ok) as (P & L & Y & Fu & I & Pr). destruct (lift_prepable w_rec 20 400 _ P L _ _ _ _ Fu Y) as (Pp & St).
  unfold g_rec, l_rec. intros O Pl Vo N1 N2. apply op_is_ok in O as (x & X & <-). apply existsb_exists in Pl as (b & Hb & Pl). apply existsb_exists in Pl as (j & Hj & E). apply Nat.eqb_eq in E. subst j.
  apply (prep_movable _ _ _ _ _ _ Pp I Pr v x St (ex_intro _ b (conj Hb Hj)) X Vo N1 N2).
Qed.
Definition run_rec (s : cgs) : option vout := grun rec_slots w_sum (fun _ _ => 0%Z) s 0 30 0 1 (mkV (fun _ => None) (st_of 0 0)).
Definition ends_in (z : Z) (o : option vout) : bool := match o with Some (VDone r _) => (r =? z)%Z | _ => false end.
Lemma rec_applies : exists s t, spillable s /\ NoDup [8; 10; 11] /\ (forall v, In v [8; 10; 11] -> movable s v) /\ spill s [8; 10; 11] = Ok t /\ (- 2 ^ 31 <= c_off s - 8 * 3)%Z /\
  (exists x, f_insn (c_f s) 8 = Some x /\ i_op x = PHI) /\ st_ok (st_of 0 0) /\ phi_free s (f_entry (c_f s)) /\ f_entry (c_f s) = 1 /\ c_off s = 0%Z /\ hidden w_sum rec_slots /\
  exists q, run_rec s = Some (VDone 1013 q).
Proof.
  destruct (rec_by _ rec_ok) as (P & L & Y & Fu & I & Pr). destruct (lift_prepable w_rec 20 400 _ P L _ _ _ _ Fu Y) as (Pp & St).
  pose proof (prep_spillable _ _ _ _ _ _ Pp (laid_phis_first w_rec 20 400 _ P L _ _ _ _ Fu Y) I Pr) as Sb.
  exists (prep_of w_rec), rec_spilt. split; [exact Sb|]. split; [repeat constructor; cbn; lia|]. split; [|split; [|split; [|split; [|split; [|split; [|split; [|split; [|split]]]]]]]].
  - intros v [<-|[<-|[<-|[]]]]; [apply (rec_value 8 PHI)|apply (rec_value 10 ADD)|apply (rec_value 11 ADD)]; (vm_compute; reflexivity) || (intros Qn; discriminate Qn).
  - apply get_ok_spec. vm_compute. reflexivity.
  - vm_compute. discriminate.
  - apply op_is_ok. vm_compute. reflexivity.
  - split; [reflexivity|]. cbn. repeat constructor; cbn; lia.
  - apply (sb_entry _ Sb).
  - vm_compute. reflexivity.
  - vm_compute. reflexivity.
  - apply w_sum_hidden.
  - assert (E : ends_in 1013 (run_rec (prep_of w_rec)) = true) by (vm_compute; reflexivity). destruct (run_rec (prep_of w_rec)) as [[|z q]|]; try discriminate E. cbn in E. apply Z.eqb_eq in E. subst z. eauto.
Qed.
