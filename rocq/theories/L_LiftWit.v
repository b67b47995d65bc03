(** Witnesses: programs that the lifter changes, accepts or does not survive. *)
From Coq Require Import ZArith List Bool Arith Lia.
From Verif Require Import M_Base M_Ir M_Edit SpecWord SpecIsa SpecIr SpecEdit SpecSsa SpecCfg SpecLift SpecLiftOne L_Word M_GenBB M_Lift
  L_GenBBEx L_LiftMain L_LiftProp L_LiftEx.
Import ListNotations.
Open Scope nat_scope.

Lemma crun_isa w ar p n : forall pc s d r s' d', crun w ar p n pc s d = Some (IExit r s', d') -> isa_run w p n pc s = IExit r s'.
Proof.
  induction n as [|n IH]; intros pc s d r s' d'; cbn [crun isa_run]; [discriminate|].
  destruct (fetch p pc) as [i|]; [|discriminate]. destruct (existsb d (reads ar i)); [discriminate|].
  destruct (isa_step w p pc s); [apply IH | | discriminate]. intros H. injection H as -> -> _. reflexivity.
Qed.

Definition f0 : func := mkFunc (fun _ => None) (fun _ => None) 0 0 [] 0.
Definition lifted (p : list bpf_insn) : func := get_ok f0 (lift 20 400 p).

(** registers r1..r5 = a b c d e, r10 = 1000, others 0 *)
Definition st_of (a b c d e : Z) (m : memory) : st := mkSt [0; a; b; c; d; e; 0; 0; 0; 0; 1000]%Z m 0.
Definition sst_of (s : st) : sst :=
  mkS (fun i => if i =? 1 then Some (rget s 10) else if (2 <=? i) && (i <=? 6) then Some (rget s (Z.of_nat (i - 1))) else None)
      (fun _ => None) (mem s) (ncall s).
Lemma enters_of a b c d e m : enters (st_of a b c d e m) (sst_of (st_of a b c d e m)) sp_id arg_id.
Proof.
  split; [reflexivity|]. split; [|split; reflexivity]. intros r H.
  assert (K : (r = 1 \/ r = 2 \/ r = 3 \/ r = 4 \/ r = 5)%Z) by lia.
  destruct K as [-> |[-> |[-> |[-> | ->]]]]; reflexivity.
Qed.
Lemma st_of_ok a b c d e m : forallb (fun v => (0 <=? v) && (v <? 2 ^ 64))%Z [a; b; c; d; e] = true -> st_ok (st_of a b c d e m).
Proof.
  intros H. split; [reflexivity|]. apply Forall_forall. intros v Hv. rewrite forallb_forall in H.
  cbn [regs st_of] in Hv.
  assert (K : In v [a; b; c; d; e] \/ v = 0%Z \/ v = 1000%Z) by (cbn in Hv |- *; intuition).
  destruct K as [K|[->| ->]]; [|lia|lia]. specialize (H v K). apply andb_prop in H as [H1 H2]. apply Z.leb_le in H1. apply Z.ltb_lt in H2. lia.
Qed.

Definition m0 : memory := fun _ => 0xff%Z.
Definition bi0 : bconst -> Z := fun _ => 0%Z.

Lemma differs_by w p s : wf_chk p = true -> jt_chk p 0 = false -> reach_chk p = true -> is_ok (lift 20 400 p) = true ->
  st_ok s -> enters s (sst_of s) sp_id arg_id ->
  match isa_run w p 20 0 s, srun w bi0 (lifted p) 20 0 (f_entry (lifted p)) (sst_of s) with
  | IExit r _, Some (ORet r' _) => r <> r'
  | _, _ => False
  end -> differs w p.
Proof.
  intros H1 H2 H3 H4 H5 H6 H. split; [now apply wf_chk_ok|]. split; [now apply jt_chk_ok|]. split; [now apply reach_chk_ok|].
  exists 20, 400, (lifted p), s, (sst_of s), bi0, 20, 20.
  destruct (isa_run w p 20 0 s) as [| r s'|] eqn:E1; try contradiction.
  destruct (srun w bi0 (lifted p) 20 0 (f_entry (lifted p)) (sst_of s)) as [[|r' t'|]|] eqn:E2; try contradiction.
  exists r, s', r', t'. split; [now apply get_ok_spec|]. auto 10.
Qed.
Ltac wit s := apply (differs_by _ _ s); [vm_compute; reflexivity | vm_compute; reflexivity | vm_compute; reflexivity | vm_compute; reflexivity |
  apply st_of_ok; vm_compute; reflexivity | apply enters_of | vm_compute; discriminate].

Definition exit_ : bpf_insn := mkBpf 0x95 0 0 0 0.
Lemma mov32_reg_wit : exists p, In (mkBpf 0xbc 0 1 0 0) p /\ differs w_sum p.
Proof. exists [mkBpf 0xbc 0 1 0 0; exit_]. split; [left; reflexivity|]. wit (st_of (2 ^ 32) 0 0 0 0 m0). Qed.
Lemma mov32_imm_wit : exists p, In (mkBpf 0xb4 0 0 0 (-1)) p /\ differs w_sum p.
Proof. exists [mkBpf 0xb4 0 0 0 (-1); exit_]. split; [left; reflexivity|]. wit (st_of 0 0 0 0 0 m0). Qed.
Lemma memsx_wit : forall c, In c [0x81; 0x89; 0x91]%Z -> exists p, In (mkBpf c 0 1 0 0) p /\ differs w_sum p.
Proof.
  intros c H. exists [mkBpf c 0 1 0 0; exit_]. split; [left; reflexivity|].
  destruct H as [<-|[<-|[<-|[]]]]; wit (st_of 64 0 0 0 0 m0).
Qed.
(** r3 is set in the first block, printk is called in the second one *)
Definition w_third : world := mkWorld (fun n id a m => ([nth 2 a 0%Z], m)) (fun _ v => v).
Lemma printk_wit : exists p, In (mkBpf 0x85 0 0 0 6) p /\ differs w_third p.
Proof.
  exists [mkBpf 0xb7 3 0 0 5; mkBpf 0x15 1 0 1 0; mkBpf 0x07 2 0 0 1; mkBpf 0x85 0 0 0 6; exit_].
  split; [cbn; tauto|]. wit (st_of 0 0 0 0 0 m0).
Qed.
Definition pk_prog := [mkBpf 0xb7 3 0 0 5; mkBpf 0xb7 4 0 0 6; mkBpf 0x85 0 0 0 6; exit_].
Definition pk_f := match lift 20 400 pk_prog with Ok f => f | _ => mkFunc (fun _ => None) (fun _ => None) 0 0 [] 0 end.
Lemma printk_ex : exists p f b i x, wf_prog p /\ all_reach p /\ lift 20 400 p = Ok f /\ In i (insns_of f b) /\ f_insn f i = Some x /\ i_op x = CALL /\ i_u x = 6%Z /\
  length (i_vals x) = 4.
Proof.
  exists pk_prog, pk_f, 1, 7. eexists. split; [apply wf_chk_ok; reflexivity|]. split; [apply reach_chk_ok; reflexivity|].
  split; [vm_compute; reflexivity|]. split; [vm_compute; auto|]. split; [vm_compute; reflexivity|]. repeat split.
Qed.

(** Instructions without a meaning that the lifter accepts; the rest of the program is r0 = 0; exit. *)
Definition odd_insns : list bpf_insn :=
  [ mkBpf 0xb7 10 0 0 7;   (* r10 = 7 *)
    mkBpf 0x07 10 0 0 7;   (* r10 += 7 *)
    mkBpf 0x61 10 1 0 0;   (* r10 = load r1 *)
    mkBpf 0xd4 1 0 0 7;    (* swap 7 bits *)
    mkBpf 0x99 2 1 0 0;    (* sign-extending load of 8 bytes *)
    mkBpf 0x85 0 3 0 5;    (* call with an unknown kind of callee *)
    mkBpf 0x85 0 15 0 5;
    mkBpf 0x86 0 0 0 5;    (* call in the 32-bit jump class *)
    mkBpf 0x8d 0 0 0 5;    (* call with the register bit *)
    mkBpf 0x0d 0 0 0 0 ].  (* jump with the register bit *)
Definition odd_prog (i : bpf_insn) : list bpf_insn := [i; mkBpf 0xb7 0 0 0 0; exit_].
Lemma odd_wit i : In i odd_insns -> is_ok (lift 20 400 (odd_prog i)) = true /\ forall w s, isa_step w (odd_prog i) 0 s = IStuck.
Proof.
  intros H. repeat (destruct H as [<-|H]; [split; [vm_compute; reflexivity | intros; reflexivity]|]). destruct H.
Qed.
(** exits with other opcodes, half of a wide load, a program that runs off its end *)
Lemma odd_end_wit i : In i [mkBpf 0x9d 0 0 0 0; mkBpf 0x96 0 0 0 0; mkBpf 0x18 0 0 0 0] ->
  is_ok (lift 20 400 [mkBpf 0xb7 0 0 0 0; i]) = true /\ forall w s, isa_step w [mkBpf 0xb7 0 0 0 0; i] 1 s = IStuck.
Proof.
  intros H. repeat (destruct H as [<-|H]; [split; [vm_compute; reflexivity | intros; reflexivity]|]). destruct H.
Qed.
Lemma no_exit_wit : is_ok (lift 20 400 [mkBpf 0xb7 0 0 0 0]) = true /\ forall w s, isa_run w [mkBpf 0xb7 0 0 0 0] 2 0 s = IStuck.
Proof. split; [vm_compute; reflexivity | intros; reflexivity]. Qed.

(** a dead block before the exit *)
Definition dead_prog : list bpf_insn :=
  [mkBpf 0xb7 0 0 0 1; mkBpf 0x05 0 0 2 0; mkBpf 0x15 0 0 1 1; mkBpf 0x05 0 0 0 0; exit_].
Lemma dead_wit : exists p f i x, wf_prog p /\ (length p <= 10) /\ ~ jump_target p 0 /\ lift 20 400 p = Ok f /\
  f_insn f i = Some x /\ i_op x = PHI /\ i_phi x = [] /\ In i (insns_of f (i_parent x)) /\ length (preds_of f (i_parent x)) = 2 /\
  forall w bi st t, st_ok st -> isa_run w p 3 0 st = IExit 1 (rset st 0 1) /\ srun w bi f 5 0 (f_entry f) t = None.
Proof.
  exists dead_prog, (lifted dead_prog). eexists 8, _.
  split; [apply wf_chk_ok; vm_compute; reflexivity|]. split; [simpl; lia|]. split; [apply jt_chk_ok; vm_compute; reflexivity|].
  split; [apply get_ok_spec; vm_compute; reflexivity|].
  split; [vm_compute; reflexivity|]. split; [reflexivity|]. split; [reflexivity|]. split; [vm_compute; auto|]. split; [vm_compute; reflexivity|].
  intros w bi st t O. split; [|vm_compute; reflexivity].
  change (isa_run w dead_prog 3 0 st) with (IExit (rget (rset st 0 (trunc true 1)) 0) (rset st 0 (trunc true 1))).
  change (trunc true 1) with 1%Z. rewrite rget_rset_same by (auto; reflexivity). reflexivity.
Qed.

(** register fields above 10, library calls with more than five arguments *)
Lemma reg_ub_wit : exists p, wf_prog p /\ ~ jump_target p 0 /\ length p <= 10 /\ (forall j i, at_pos p j i -> (0 <= b_dst i < 16 /\ 0 <= b_src i < 16)%Z) /\ lift 20 400 p = UB.
Proof.
  exists [mkBpf 0xb7 11 0 0 0; mkBpf 0xb7 0 0 0 0; exit_].
  split; [apply wf_chk_ok; vm_compute; reflexivity|]. split; [apply jt_chk_ok; vm_compute; reflexivity|]. split; [simpl; lia|].
  split; [|vm_compute; reflexivity]. intros j i A. apply nth_error_In in A. repeat (destruct A as [<-|A]; [cbn; lia|]). destruct A.
Qed.
Lemma args_ub_wit : exists p, wf_prog p /\ ~ jump_target p 0 /\ length p <= 10 /\ (forall j i, at_pos p j i -> (0 <= b_dst i <= 10 /\ 0 <= b_src i <= 10)%Z) /\ lift 20 400 p = UB.
Proof.
  exists [mkBpf 0xb7 6 0 0 0; mkBpf 0x85 6 6 0 0; mkBpf 0xb7 0 0 0 0; exit_].
  split; [apply wf_chk_ok; vm_compute; reflexivity|]. split; [apply jt_chk_ok; vm_compute; reflexivity|]. split; [simpl; lia|].
  split; [|vm_compute; reflexivity]. intros j i A. apply nth_error_In in A. repeat (destruct A as [<-|A]; [cbn; lia|]). destruct A.
Qed.

(** one operand of r1 + r1 is replaced *)
Definition twice_prog : list bpf_insn := [mkBpf 0xbf 0 1 0 0; mkBpf 0x0f 0 0 0 0; exit_].
Lemma twice_wit : exists p f g u d, wf_prog p /\ lift 20 400 p = Ok f /\ registered f /\ uses f u d = 2 /\
  change_value f u (SVal 0) (val_const64 7) = Ok g /\ uses g u d = 1 /\ ~ In u (users_of g d).
Proof.
  exists twice_prog, (lifted twice_prog), (get_ok f0 (change_value (lifted twice_prog) 7 (SVal 0) (val_const64 7))), 7, 2.
  assert (W : wf_prog twice_prog) by (apply wf_chk_ok; vm_compute; reflexivity).
  assert (L : lift 20 400 twice_prog = Ok (lifted twice_prog)) by (apply get_ok_spec; vm_compute; reflexivity).
  split; [exact W|]. split; [exact L|].
  split. { destruct (lift_finv twice_prog W ltac:(simpl; lia) ltac:(apply jt_chk_ok; vm_compute; reflexivity) _ _ _ L) as (bs & _ & _ & _ & F).
           intros u d H. now apply (L_LiftSafe.fi_users bs _ F). }
  split; [vm_compute; reflexivity|].
  split; [apply get_ok_spec; vm_compute; reflexivity|]. split; [vm_compute; reflexivity|]. vm_compute. intros [].
Qed.
