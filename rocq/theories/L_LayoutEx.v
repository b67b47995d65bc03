(** Concrete functions used in the examples and witnesses of P_Layout. *)
From Verif Require Import M_Base M_Ir M_Edit M_EditHist SpecIr SpecEdit L_Hist M_Layout SpecLayout L_Layout.
From Coq Require Import Lia.
Open Scope nat_scope.

Lemma built_ok l : chk (run_get l) = true -> mirrored (run_get l) /\ blocks_ok (run_get l) /\ terms_ok (run_get l).
Proof.
  intros C. assert (W : wf_func (run_get l)) by (eapply reachable_wf; [exact empty_func_wf|apply run_get_reachable]).
  split; [apply (wf_mirror _ W)|]. apply chk_ok; auto. apply (wf_fresh _ W).
Qed.

(** the fall-through successor, computed *)
Definition ftb (f : func) (b : nat) : option nat :=
  match rev (insns_of f b) with
  | [] => match succs_of f b with [s] => Some s | _ => None end
  | i :: _ =>
    match f_insn f i with
    | Some y => if is_cond_jmp_op (i_op y) then Some (i_bb1 y) else if is_jmp_op (i_op y) then None else match succs_of f b with [s] => Some s | _ => None end
    | None => None
    end
  end.
Lemma falls_ftb f b s : falls f b s -> ftb f b = Some s.
Proof.
  unfold ftb. intros [y (l & i & E & I) C <-|y (l & i & E & I) J S|E S].
  - rewrite E, rev_app_distr. cbn [rev app]. now rewrite I, C.
  - rewrite E, rev_app_distr. cbn [rev app]. rewrite I, J, S.
    replace (is_cond_jmp_op (i_op y)) with false by (revert J; destruct (i_op y); vm_compute; auto; discriminate). reflexivity.
  - rewrite E, S. reflexivity.
Qed.
Fixpoint adjb (l : list nat) (b s : nat) : bool :=
  match l with p :: (q :: _) as r => ((p =? b) && (q =? s)) || adjb r b s | _ => false end.
Lemma adjb_ok l b s : adjb l b s = true -> exists a c, l = a ++ b :: s :: c.
Proof.
  induction l as [|p [|q r] IH]; cbn [adjb]; try discriminate. intros E. apply orb_prop in E as [E|E].
  - apply andb_prop in E as [A B]. apply Nat.eqb_eq in A, B. subst. exists [], r. reflexivity.
  - destruct (IH E) as (a & c & X). exists (p :: a), c. cbn. now rewrite X.
Qed.
Fixpoint rchk (f : func) (seen o : list nat) : bool :=
  match o with
  | [] => true
  | b :: r => ((b =? f_entry f) || existsb (fun p => existsb (Nat.eqb b) (succs_of f p)) seen) && rchk f (b :: seen) r
  end.
Lemma rchk_ok f : forall o seen, (forall b, In b seen -> reach f (f_entry f) b) -> rchk f seen o = true -> forall b, In b o -> reach f (f_entry f) b.
Proof.
  induction o as [|b o IH]; intros seen H E c; [intros []|]. cbn [rchk] in E. apply andb_prop in E as [A B].
  assert (R : reach f (f_entry f) b).
  { apply orb_prop in A as [A|A]; [apply Nat.eqb_eq in A; subst; constructor|]. apply existsb_exists in A as (p & I & A).
    apply existsb_in in A. econstructor; eauto. }
  intros [<-|I]; auto. apply (IH (b :: seen)); auto. intros x [<-|X]; auto.
Qed.
(** [o] lists the blocks of [L] in an order in which each has an earlier predecessor *)
Definition vreach (f : func) (L o : list nat) : bool :=
  existsb (Nat.eqb (f_entry f)) L && rchk f [] o && forallb (fun b => existsb (Nat.eqb b) o) L &&
  forallb (fun b => forallb (fun s => existsb (Nat.eqb s) L) (succs_of f b)) L.
Lemma vreach_ok f L o : vreach f L o = true -> forall b, In b L <-> reach f (f_entry f) b.
Proof.
  unfold vreach. intros E. apply andb_prop in E as [E E4]. apply andb_prop in E as [E E3]. apply andb_prop in E as [E1 E2].
  rewrite forallb_forall in E3, E4. intros b. split.
  - intros I. apply (rchk_ok f o []); auto; [intros ? []|]. apply existsb_in. auto.
  - induction 1 as [|e b c R IH I] using reach_ind.
    + now apply existsb_in.
    + specialize (IH E1). specialize (E4 b IH). rewrite forallb_forall in E4. apply existsb_in. auto.
Qed.
Definition dfchk (f : func) (L : list nat) : bool :=
  forallb (fun b => existsb (Nat.eqb b) L || match ftb f b with Some s => negb (existsb (Nat.eqb s) L) | None => true end) (f_all f).
Lemma dfchk_ok f L o : blocks_ok f -> vreach f L o = true -> dfchk f L = true -> no_dead_fall f.
Proof.
  intros (_ & _ & AB & _) V E b s F R. assert (VR := vreach_ok f L o V).
  unfold dfchk in E. rewrite forallb_forall in E. apply VR in R. apply VR.
  assert (IA : In b (f_all f)).
  { apply AB. destruct (f_block f b) eqn:X; eauto. destruct F as [y (k & i & Y & _)|y (k & i & Y & _)|_ Y];
      unfold insns_of, succs_of in Y; rewrite X in Y; try destruct k; discriminate. }
  specialize (E b IA). rewrite (falls_ftb _ _ _ F) in E. apply orb_prop in E as [E|E]; [now apply existsb_in|].
  apply existsb_in in R. rewrite R in E. discriminate.
Qed.
Definition vchk (f : func) (L o : list nat) : bool :=
  vreach f L o && nodupb L && match L with b :: _ => b =? f_entry f | [] => false end &&
  forallb (fun b => match ftb f b with Some s => adjb L b s | None => true end) L.
Lemma vchk_ok f L o : vchk f L o = true -> valid_layout f L.
Proof.
  unfold vchk. intros E. apply andb_prop in E as [E E4]. apply andb_prop in E as [E E3]. apply andb_prop in E as [E1 E2].
  rewrite forallb_forall in E4. split; [now apply nodupb_ok|]. split; [|split].
  - destruct L as [|b r]; [discriminate|]. apply Nat.eqb_eq in E3. subst. eauto.
  - eapply vreach_ok; eauto.
  - intros b s I F. apply adjb_ok. specialize (E4 b I). now rewrite (falls_ftb _ _ _ F) in E4.
Qed.

(** 1 branches to 2 and 3, both fall into 4 *)
Definition dup_edits : list edit :=
  [ E_create_bb; E_create_bb; E_create_bb; E_connect 1 2; E_connect 1 3; E_connect 2 4; E_connect 3 4;
    E_create_at_bb 1 (K_jbin (val_const32 1) (val_const32 2) 2 3 JEQ A_64) P_BACK;
    E_create_at_bb 4 (K_ret (val_const32 0)) P_BACK ].
(** 1 jumps to 2; 3 is dead and falls into 2 *)
Definition dead_edits : list edit :=
  [ E_create_bb; E_create_bb; E_connect 1 2; E_connect 3 2;
    E_create_at_bb 1 (K_ja 2) P_BACK; E_create_at_bb 2 (K_ret (val_const32 0)) P_BACK ].
(** 1 branches to 3 (next) and 2; 2 falls into 1 *)
Definition entry_edits : list edit :=
  [ E_create_bb; E_create_bb; E_connect 1 3; E_connect 1 2; E_connect 2 1;
    E_create_at_bb 1 (K_jbin (val_const32 1) (val_const32 2) 3 2 JEQ A_64) P_BACK;
    E_create_at_bb 3 (K_ret (val_const32 0)) P_BACK ].
(** 1 falls into 2, 2 into 1 *)
Definition cycle_edits : list edit := [ E_create_bb; E_connect 1 2; E_connect 2 1 ].

Lemma lay_get {A B C} (o : outcome (A * (B * C))) a b c : o = Ok (a, (b, c)) -> exists a, o = Ok (a, (b, c)).
Proof. eauto. Qed.
Definition lres (o : outcome (func * (list nat * list nat))) : option (list nat * list nat) := match o with Ok (_, r) => Some r | _ => None end.
Lemma lres_ok o l e : lres o = Some (l, e) -> exists g, o = Ok (g, (l, e)).
Proof. destruct o as [[g r]| | | |]; cbn; try discriminate. intros [= ->]. eauto. Qed.

Lemma dup_witness : exists f g l e, mirrored f /\ blocks_ok f /\ terms_ok f /\ no_dead_fall f /\ layout 20 f = Ok (g, (l, e)) /\ ~ NoDup l.
Proof.
  destruct (built_ok dup_edits) as (M & B & T); [vm_compute; reflexivity|].
  destruct (lres_ok (layout 20 (run_get dup_edits)) [1; 2; 4; 3; 4] [4; 4]) as (g & E); [vm_compute; reflexivity|].
  exists (run_get dup_edits), g. eexists _, _. repeat (split; [solve [auto]|]).
  split; [apply (dfchk_ok _ [1; 2; 3; 4] [1; 2; 3; 4]); auto; vm_compute; reflexivity|]. split; [exact E|].
  intros N. inversion N as [|? ? _ N1]; subst. inversion N1 as [|? ? _ N2]; subst. inversion N2 as [|? ? NI _]; subst. apply NI. cbn. auto.
Qed.
Lemma dead_witness : exists f g l e b L, mirrored f /\ blocks_ok f /\ terms_ok f /\ valid_layout f L /\
  layout 20 f = Ok (g, (l, e)) /\ In b l /\ ~ reach f (f_entry f) b.
Proof.
  destruct (built_ok dead_edits) as (M & B & T); [vm_compute; reflexivity|].
  destruct (lres_ok (layout 20 (run_get dead_edits)) [1; 3; 2] [2]) as (g & E); [vm_compute; reflexivity|].
  exists (run_get dead_edits), g. eexists _, _, 3, [1; 2]. repeat (split; [solve [auto]|]).
  split; [apply (vchk_ok _ [1; 2] [1; 2]); vm_compute; reflexivity|]. split; [exact E|]. split; [cbn; auto|].
  intros R. apply (vreach_ok _ [1; 2] [1; 2]) in R; [|vm_compute; reflexivity]. destruct R as [R|[R|[]]]; discriminate.
Qed.
Lemma entry_witness : exists f g l e b r, mirrored f /\ blocks_ok f /\ terms_ok f /\ no_dead_fall f /\
  layout 20 f = Ok (g, (l, e)) /\ l = b :: r /\ b <> f_entry f.
Proof.
  destruct (built_ok entry_edits) as (M & B & T); [vm_compute; reflexivity|].
  destruct (lres_ok (layout 20 (run_get entry_edits)) [2; 1; 3] [3]) as (g & E); [vm_compute; reflexivity|].
  exists (run_get entry_edits), g. eexists _, _, _, _. repeat (split; [solve [auto]|]).
  split; [apply (dfchk_ok _ [1; 2; 3] [1; 2; 3]); auto; vm_compute; reflexivity|]. split; [exact E|]. split; [reflexivity|]. vm_compute. discriminate.
Qed.
Lemma cycle_witness : exists f, mirrored f /\ blocks_ok f /\ terms_ok f /\ no_dead_fall f /\ forall fuel, layout fuel f = NoFuel.
Proof.
  destruct (built_ok cycle_edits) as (M & B & T); [vm_compute; reflexivity|].
  exists (run_get cycle_edits). repeat (split; [solve [auto]|]).
  split; [apply (dfchk_ok _ [1; 2] [1; 2]); auto; vm_compute; reflexivity|].
  assert (H : exists g x1 x2, gen_bb_succ (run_get cycle_edits) = Ok g /\ f_entry g = 1 /\ f_block g 1 = Some x1 /\ f_block g 2 = Some x2 /\
    b_preds x1 = [2] /\ b_succs x1 = [2] /\ b_insns x1 = [] /\ b_preds x2 = [1] /\ b_succs x2 = [1] /\ b_insns x2 = []).
  { exists (get_ok empty_func (gen_bb_succ (run_get cycle_edits))). eexists _, _.
    split; [apply get_ok_spec; vm_compute; reflexivity|]. vm_compute. repeat split. }
  destruct H as (g & x1 & x2 & E & EN & B1 & B2 & P1 & S1 & I1 & P2 & S2 & I2). intros fuel. unfold layout. rewrite E. cbn [bind]. unfold gen_reachable.
  assert (F : forall k, find_chain_head k g 1 = NoFuel /\ find_chain_head k g 2 = NoFuel).
  { induction k as [|k [IH1 IH2]]; [split; reflexivity|]. split; cbn [find_chain_head]; unfold get_block.
    - rewrite B1. cbn [bind]. rewrite P1. cbn [scan_preds]. unfold get_block. rewrite B2. cbn [bind]. rewrite S2. unfold last_of. rewrite I2. cbn. auto.
    - rewrite B2. cbn [bind]. rewrite P2. cbn [scan_preds]. unfold get_block. rewrite B1. cbn [bind]. rewrite S1. unfold last_of. rewrite I1. cbn. auto. }
  destruct fuel as [|k]; [reflexivity|]. cbn [add_reach]. rewrite EN. cbn [existsb]. rewrite (proj1 (F (S k))). reflexivity.
Qed.
