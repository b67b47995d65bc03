(** Programs with uses of the frame pointer. *)
From Coq Require Import ZArith List Bool Arith Lia.
From Verif Require Import SpecWord SpecIsa SpecFlat SpecCfg SpecLift SpecIr SpecEdit SpecSsa SpecRa SpecPass SpecStrict SpecShift M_Base M_Ir M_Edit M_GenBB M_Lift M_Ra M_Pass
  L_Word L_GenBBEx L_LiftEx L_LiftWit L_PassWit L_PhiWit L_RaCheck L_RaWit L_RaLive L_FrameWit L_Shift.
Import ListNotations.
Open Scope nat_scope.

(** the program is well formed and lifts to [f], in which the frame pointer is instruction 1 *)
Definition from_bytes (p : list bpf_insn) (f : func) : Prop :=
  wf_prog p /\ (Z.of_nat (length p) <= 32768)%Z /\ ~ jump_target p 0 /\ all_reach p /\ lift 20 400 p = Ok f.
Lemma from_ok p : wf_chk p = true -> (Z.of_nat (length p) <=? 32768)%Z = true -> jt_chk p 0 = false -> reach_chk p = true ->
  is_ok (lift 20 400 p) = true -> from_bytes p (lifted p).
Proof.
  intros A L B C D. split; [now apply wf_chk_ok|]. split; [now apply Z.leb_le|]. split; [now apply jt_chk_ok|]. split; [now apply reach_chk_ok|].
  unfold lifted. destruct (lift 20 400 p); try discriminate D. reflexivity.
Qed.
Lemma from_tidy p f : from_bytes p f -> tidy f /\ fresh_ok f /\ SpecIr.linked_ok f.
Proof.
  intros (W & L & N & R & H). split; [apply (lifted_strict p 20 400 f W L N R H)|].
  destruct (lift_struct p 20 400 f W L N H) as (_ & _ & _ & _ & _ & F & K & _). auto.
Qed.

(** boolean forms *)
Definition holeb (v : value) : bool := match v_data v with VRawOff _ | VRawOffRev _ => true | _ => false end.
Definition all_insns (f : func) (P : nat -> insn -> bool) : bool :=
  forallb (fun i => match f_insn f i with Some x => P i x | None => true end) (seq 0 (f_ni f)).
Lemma all_insns_ok f P i x : fresh_ok f -> all_insns f P = true -> f_insn f i = Some x -> P i x = true.
Proof.
  intros F H X. unfold all_insns in H. rewrite forallb_forall in H. assert (L : i < f_ni f).
  { destruct (Nat.lt_ge_cases i (f_ni f)) as [L|L]; [exact L|]. rewrite (proj1 F) in X by exact L. discriminate X. }
  specialize (H i). rewrite X in H. apply H. apply in_seq. lia.
Qed.
Lemma no_holes_ok f : fresh_ok f -> all_insns f (fun _ x => forallb (fun v => negb (holeb v)) (operand_values x)) = true -> no_holes f.
Proof.
  intros F H i x v X I. pose proof (all_insns_ok f _ i x F H X) as K. cbn in K. rewrite forallb_forall in K. specialize (K v I).
  unfold holeb in K. destruct (v_data v); try discriminate K; exact I0 || exact Logic.I.
Qed.
Definition indirectb (sp : nat) (x : insn) : bool :=
  match i_op x with
  | LOADRAW | STORERAW => forallb (fun v => negb (is_use_of sp v)) (i_vals x)
  | ADD => match i_vals x with
           | [v; c] => is_use_of sp v && match v_data c, v_bi c with VConst _, B_NONE => true | _, _ => false end
           | _ => false
           end
  | _ => false
  end.
Lemma indirectb_ok sp x : indirectb sp x = true -> indirect sp x.
Proof.
  unfold indirectb. destruct (i_op x) eqn:O; try discriminate; intros H.
  - apply in_raw; [now right|]. intros v I. rewrite forallb_forall in H. specialize (H v I). now apply negb_true_iff in H.
  - apply in_raw; [now left|]. intros v I. rewrite forallb_forall in H. specialize (H v I). now apply negb_true_iff in H.
  - destruct (i_vals x) as [|v [|c [|? ?]]] eqn:V; try discriminate H. apply andb_prop in H as (U & H).
    destruct (v_data c) eqn:D; try discriminate H. destruct (v_bi c) eqn:B; try discriminate H. eapply in_add; eauto.
Qed.
Definition directb (sp : nat) (x : insn) : bool :=
  negb (match i_op x with PHI | LOAD | LOADRAW | STORERAW => true | _ => false end) &&
  negb (match i_vals x, alu_op_of (i_op x) with
        | v :: c :: _, Some _ => is_use_of sp v && match v_data c with VConst _ => true | _ => false end
        | _, _ => false
        end).
Lemma directb_ok sp x : directb sp x = true -> direct sp x.
Proof.
  unfold directb. intros H. apply andb_prop in H as (A & B). apply negb_true_iff in A, B. constructor.
  - intros K. cbn in K. destruct K as [K|[K|[K|[K|[]]]]]; rewrite <- K in A; discriminate A.
  - intros v c r k V AL U D. rewrite V, U, D in B. destruct (alu_op_of (i_op x)); [discriminate B|congruence].
Qed.
Fixpoint usersb (f : func) (sp : nat) (l : list nat) : bool :=
  match l with
  | [] => true
  | u :: r => match f_insn f u with
              | Some x => indirectb sp x || (match r with [] => true | _ => false end && directb sp x)
              | None => false
              end && usersb f sp r
  end.
Lemma usersb_ok f sp : forall m l u r x, usersb f sp m = true -> m = l ++ u :: r -> f_insn f u = Some x ->
  indirect sp x \/ (r = [] /\ direct sp x).
Proof.
  induction m as [|a m IH]; intros l u r x H E X; [destruct l; discriminate E|]. cbn [usersb] in H. apply andb_prop in H as (H & H2).
  destruct l as [|b l]; cbn in E; injection E as -> E; [|exact (IH l u r x H2 E X)]. subst m. rewrite X in H.
  apply orb_prop in H as [H|H]; [left; now apply indirectb_ok|]. apply andb_prop in H as (H & H3). right. split; [destruct r; [reflexivity|discriminate H]|now apply directb_ok].
Qed.
Definition rawb (sp : nat) (x : insn) : bool :=
  match i_op x with
  | LOADRAW | STORERAW => match a_ot (i_addr x), is_use_of sp (a_val (i_addr x)) with O_RAWOFF, true | O_CONST, false => true | _, _ => false end
  | _ => true
  end.
Definition sp_okb (f : func) (sp : nat) : bool :=
  match f_insn f sp with Some x => negb (iop_eqb (i_op x) ALLOC) | None => false end &&
  negb (existsb (Nat.eqb sp) (flat_map (insns_of f) (seq 0 (f_nb f)))) &&
  all_insns f (fun _ => rawb sp) && usersb f sp (users_of f sp).
Lemma sp_ok_ok f sp : fresh_ok f -> sp_okb f sp = true -> sp_ok f sp.
Proof.
  intros F H. unfold sp_okb in H. rewrite !andb_true_iff in H. destruct H as (((A & B) & C) & D). constructor.
  - destruct (f_insn f sp) as [x|]; [|discriminate A]. exists x. split; [reflexivity|]. apply negb_true_iff in A.
    intros K. rewrite K in A. discriminate A.
  - intros b I. apply negb_true_iff in B. rewrite <- not_true_iff_false in B. apply B. apply existsb_exists. exists sp. split; [|apply Nat.eqb_refl].
    apply in_flat_map. exists b. split; [|exact I]. apply in_seq. split; [lia|]. cbn. destruct (Nat.lt_ge_cases b (f_nb f)) as [L|L]; [exact L|].
    unfold insns_of in I. rewrite (proj2 F) in I by exact L. destruct I.
  - intros i x X O. pose proof (all_insns_ok f _ i x F C X) as K. cbn in K. unfold rawb in K.
    destruct O as [O|O]; rewrite O in K; destruct (a_ot (i_addr x)), (is_use_of sp (a_val (i_addr x))); try discriminate K; reflexivity.
  - intros l u r x E X. exact (usersb_ok f sp _ l u r x D E X).
Qed.

(** the function after the preparation *)
Definition prep (cap : nat) (f : func) : func := get_ok f0 (stack_offset_pre sp_id cap f).
(** helpers return their first argument *)
Definition w_arg : world := mkWorld (fun n id a m => ([nth 0 a 0%Z], m)) (fun _ v => v).
(** what [f] returns with its frame pointer at [z] (argument [a] in r1) *)
Definition gives (f : func) (z a : Z) : option Z :=
  ret_of (srun w_arg (fun _ => 0%Z) f 6 0 (f_entry f) (at_sp sp_id z (sst_of (st_of a 0 0 0 0 (fun _ => 0%Z))))).
Lemma not_relocated f g o z a r : gives f (z + o) a = Some r -> gives (fill o g) z a <> Some r -> f_entry g = f_entry f -> ~ relocates sp_id f g.
Proof.
  unfold gives, ret_of. intros A B En P. destruct (srun _ _ f _ _ _ _) as [q|] eqn:E; [|discriminate A]. destruct q as [| |]; try discriminate A. injection A as ->.
  destruct (P _ _ _ _ _ _ _ _ _ E) as (q & E' & S). cbn [fill f_entry] in B. rewrite En in B. fold (fill o g) in B. rewrite E' in B. inversion S; subst. now apply B.
Qed.

(** r1 = r10; r1 += -8; *(r10 - 16) = r1; r6 = *(r10 - 16); r1 = r10; call; r0 -= r6 *)
Definition p_good : list bpf_insn :=
  [ mkBpf 0xbf 1 10 0 0; mkBpf 0x07 1 0 0 (-8); mkBpf 0x7b 10 1 (-16) 0;
    mkBpf 0x79 6 10 (-16) 0; mkBpf 0xbf 1 10 0 0; Bcall 17; mkBpf 0x1f 0 6 0 0; Bexit ]%Z.
(** r2 = r10; *(r2 - 8) = r1; r0 = *(r10 - 8) *)
Definition p_copy : list bpf_insn := [ mkBpf 0xbf 2 10 0 0; mkBpf 0x7b 2 1 (-8) 0; mkBpf 0x79 0 10 (-8) 0; Bexit ]%Z.
(** r0 = r10; r0 -= 8 *)
Definition p_sub : list bpf_insn := [ mkBpf 0xbf 0 10 0 0; mkBpf 0x17 0 0 0 8; Bexit ]%Z.
(** *(r10 - 8) = r10; r0 = *(r10 - 8) *)
Definition p_keep : list bpf_insn := [ mkBpf 0x7b 10 10 (-8) 0; mkBpf 0x79 0 10 (-8) 0; Bexit ]%Z.
(** r0 = 0; if r1 == 0 goto exit; r0 = r10 *)
Definition p_phi : list bpf_insn := [ mkBpf 0xb7 0 0 0 0; mkBpf 0x15 1 0 1 0; mkBpf 0xbf 0 10 0 0; Bexit ]%Z.
(** three calls with the frame pointer as argument; the second result is returned *)
Definition p_three : list bpf_insn :=
  [ mkBpf 0xbf 1 10 0 0; Bcall 17; mkBpf 0xbf 1 10 0 0; Bcall 17; mkBpf 0xbf 6 0 0 0; mkBpf 0xbf 1 10 0 0; Bcall 17; mkBpf 0xbf 0 6 0 0; Bexit ]%Z.
(** the third is returned *)
Definition p_three' : list bpf_insn :=
  [ mkBpf 0xbf 1 10 0 0; Bcall 17; mkBpf 0xbf 1 10 0 0; Bcall 17; mkBpf 0xbf 6 0 0 0; mkBpf 0xbf 1 10 0 0; Bcall 17; Bexit ]%Z.
Definition p_two : list bpf_insn := [ mkBpf 0xbf 1 10 0 0; Bcall 17; mkBpf 0xbf 1 10 0 0; Bcall 17; Bexit ]%Z.
Definition show (p : list bpf_insn) := (users_of (lifted p) sp_id, sp_okb (lifted p) sp_id, gives (lifted p) (1000 - 64) 5, gives (fill (-64) (prep 4 (lifted p))) 1000 5).

(** [p_good], prepared, with an array of five words, up to the end of register allocation *)
Definition demo_f : outcome (func * list nat) :=
  do f <- lift 20 400 p_good; do g <- stack_offset_pre sp_id 4 f;
  do a <- create_at_bb g (f_entry g) (K_allocarray VR_64 5%Z) P_FRONT; laid (fst a).
Definition demo3 : outcome cgs :=
  do r <- demo_f; do t <- stages r; let '(_, _, _, _, _, _, s3, _) := t in Ok s3.
Definition fits_valb (o : Z) (v : value) : bool :=
  match v_data v with
  | VRawOff c => (- 2 ^ 63 <=? c + o)%Z && (c + o <? 2 ^ 63)%Z
  | VRawOffRev c => (- 2 ^ 63 <=? c - o)%Z && (c - o <? 2 ^ 63)%Z
  | _ => true
  end.
Lemma fits_valb_ok o v : fits_valb o v = true -> value_fits o v.
Proof. unfold fits_valb, value_fits. destruct (v_data v); auto; rewrite andb_true_iff, Z.leb_le, Z.ltb_lt; auto. Qed.
Definition fitsb (o : Z) (x : insn) : bool :=
  forallb (fits_valb o) (i_vals x) && forallb (fun e => fits_valb o (fst e)) (i_phi x) &&
  match i_op x with
  | LOADRAW | STORERAW =>
    forallb (fun v => negb (holeb v)) (i_vals x) && negb (holeb (a_val (i_addr x))) &&
    match a_ot (i_addr x) with
    | O_CONST => true
    | O_RAWOFF => (- 2 ^ 15 <=? a_off (i_addr x) + o)%Z && (a_off (i_addr x) + o <? 2 ^ 15)%Z
    | O_RAWOFF_REV => (- 2 ^ 15 <=? a_off (i_addr x) - o)%Z && (a_off (i_addr x) - o <? 2 ^ 15)%Z
    end
  | _ => true
  end.
Lemma holeb_ok v : negb (holeb v) = true -> no_hole v.
Proof. unfold holeb, no_hole. destruct (v_data v); auto; discriminate. Qed.
Lemma fitsb_ok o x : fitsb o x = true -> fits o x.
Proof.
  unfold fitsb. rewrite !andb_true_iff. intros ((A & B) & C). rewrite forallb_forall in A, B. constructor.
  - intros v I. apply fits_valb_ok. exact (A v I).
  - intros _ e I. apply fits_valb_ok. exact (B e I).
  - intros O. assert (K : forallb (fun v => negb (holeb v)) (i_vals x) && negb (holeb (a_val (i_addr x))) &&
      match a_ot (i_addr x) with
      | O_CONST => true
      | O_RAWOFF => (- 2 ^ 15 <=? a_off (i_addr x) + o)%Z && (a_off (i_addr x) + o <? 2 ^ 15)%Z
      | O_RAWOFF_REV => (- 2 ^ 15 <=? a_off (i_addr x) - o)%Z && (a_off (i_addr x) - o <? 2 ^ 15)%Z
      end = true) by (destruct O as [O|O]; rewrite O in C; exact C).
    rewrite !andb_true_iff in K. destruct K as ((K1 & K2) & K3). rewrite forallb_forall in K1. split; [|split].
    + intros v I. apply holeb_ok. exact (K1 v I).
    + now apply holeb_ok.
    + destruct (a_ot (i_addr x)); [exact Logic.I|..]; rewrite andb_true_iff, Z.leb_le, Z.ltb_lt in K3; exact K3.
Qed.
Definition linkedb (s : cgs) (i : nat) (P : insn -> bool) : bool :=
  existsb (Nat.eqb i) (flat_map (insns_of (c_f s)) (c_reach s)) && match f_insn (c_f s) i with Some x => P x | None => false end.
Lemma linkedb_ok s i P : linkedb s i P = true -> exists x, SpecRa.linked s i /\ f_insn (c_f s) i = Some x /\ P x = true.
Proof.
  unfold linkedb. intros H. apply andb_prop in H as (A & B). apply existsb_exists in A as (j & J & A). apply Nat.eqb_eq in A. subst j.
  destruct (f_insn (c_f s) i) as [x|]; [|discriminate B]. exists x. split; [now apply flat_linked|auto].
Qed.
Lemma filled_applies : exists s t i x j y,
  NoDup (flat_map (insns_of (c_f s)) (c_reach s)) /\ add_stack_offset s (c_off s) = Ok t /\ c_off s = (-40)%Z /\
  SpecRa.linked s i /\ f_insn (c_f s) i = Some x /\ fits (c_off s) x /\ i_op x = ADD /\ In (VRawOff (-8)) (map v_data (i_vals x)) /\
  SpecRa.linked s j /\ f_insn (c_f s) j = Some y /\ fits (c_off s) y /\ i_op y = STORERAW /\ a_ot (i_addr y) = O_RAWOFF.
Proof.
  assert (H : match demo3 with
    | Ok s => nodupb (flat_map (insns_of (c_f s)) (c_reach s)) && is_ok (add_stack_offset s (c_off s)) && (c_off s =? -40)%Z &&
        linkedb s 7 (fun x => fitsb (-40) x && iop_eqb (i_op x) ADD && existsb (fun v => match v_data v with VRawOff c => (c =? -8)%Z | _ => false end) (i_vals x)) &&
        linkedb s 8 (fun x => fitsb (-40) x && iop_eqb (i_op x) STORERAW && match a_ot (i_addr x) with O_RAWOFF => true | _ => false end)
    | _ => false end = true) by (vm_compute; reflexivity).
  destruct demo3 as [s| | | |]; try discriminate H. rewrite !andb_true_iff in H. destruct H as ((((A & B) & C) & D) & E).
  apply Z.eqb_eq in C. apply linkedb_ok in D as (x & L & X & P). apply linkedb_ok in E as (y & M & Y & Q). rewrite !andb_true_iff in P, Q.
  destruct P as ((P1 & P2) & P3), Q as ((Q1 & Q2) & Q3). destruct (add_stack_offset s (c_off s)) as [t| | | |] eqn:T; try discriminate B.
  exists s, t, 7, x, 8, y. split; [now apply nodupb_ok|]. split; [exact T|]. split; [exact C|]. rewrite C. split; [exact L|]. split; [exact X|].
  split; [now apply fitsb_ok|]. split; [unfold iop_eqb in P2; destruct (iop_eq_dec (i_op x) ADD); congruence|]. split.
  { apply existsb_exists in P3 as (v & I & P3). apply in_map_iff. exists v. split; [|exact I]. destruct (v_data v); try discriminate P3.
    apply Z.eqb_eq in P3. congruence. }
  split; [exact M|]. split; [exact Y|]. split; [now apply fitsb_ok|]. split; [unfold iop_eqb in Q2; destruct (iop_eq_dec (i_op y) STORERAW); congruence|].
  destruct (a_ot (i_addr y)); congruence.
Qed.

(** a program whose preparation gives a function that is not the moved one *)
Definition holeless (f : func) : bool := all_insns f (fun _ x => forallb (fun v => negb (holeb v)) (operand_values x)).
Definition wrong_shift (p : list bpf_insn) : Prop :=
  exists f g, from_bytes p f /\ tidy f /\ fresh_ok f /\ no_holes f /\ stack_offset_pre sp_id 4 f = Ok g /\ ~ relocates sp_id f g.
Definition oeqb (a b : option Z) : bool :=
  match a, b with Some x, Some y => (x =? y)%Z | None, None => true | _, _ => false end.
Lemma oeqb_ok a b : oeqb a b = true -> a = b.
Proof. destruct a, b; cbn; try discriminate; [rewrite Z.eqb_eq; congruence|auto]. Qed.
Definition wrongb (p : list bpf_insn) (r : Z) (q : option Z) : bool :=
  wf_chk p && (Z.of_nat (length p) <=? 32768)%Z && negb (jt_chk p 0) && reach_chk p && is_ok (lift 20 400 p) && holeless (lifted p) &&
  is_ok (stack_offset_pre sp_id 4 (lifted p)) && (f_entry (prep 4 (lifted p)) =? f_entry (lifted p)) &&
  oeqb (gives (lifted p) (1000 + -64) 5) (Some r) && oeqb (gives (fill (-64) (prep 4 (lifted p))) 1000 5) q && negb (oeqb (Some r) q).
Lemma wrong_ok p r q : wrongb p r q = true -> wrong_shift p.
Proof.
  unfold wrongb. rewrite !andb_true_iff, !negb_true_iff. intros ((((((((((A & B) & C) & D) & E) & F) & G) & H) & I) & J) & K).
  pose proof (from_ok p A B C D E) as Fr. destruct (from_tidy p _ Fr) as (T & Fs & _). exists (lifted p), (prep 4 (lifted p)).
  split; [exact Fr|]. split; [exact T|]. split; [exact Fs|]. split; [now apply no_holes_ok|]. split.
  { unfold prep. destruct (stack_offset_pre sp_id 4 (lifted p)); try discriminate G. reflexivity. }
  apply oeqb_ok in I, J. apply (not_relocated _ _ (-64) 1000 5 r); [exact I| |now apply Nat.eqb_eq].
  rewrite J. intros Q. subst q. assert (M : oeqb (Some r) (Some r) = true) by (unfold oeqb; apply Z.eqb_refl). congruence.
Qed.
Lemma copy_wrong : wrong_shift p_copy. Proof. apply (wrong_ok _ 5 (Some 0%Z)). vm_compute. reflexivity. Qed.
Lemma sub_wrong : wrong_shift p_sub. Proof. apply (wrong_ok _ 928 (Some 1056%Z)). vm_compute. reflexivity. Qed.
Lemma keep_wrong : wrong_shift p_keep. Proof. apply (wrong_ok _ 936 (Some 1000%Z)). vm_compute. reflexivity. Qed.
Lemma phi_wrong : wrong_shift p_phi. Proof. apply (wrong_ok _ 936 None). vm_compute. reflexivity. Qed.
Lemma three_wrong : wrong_shift p_three. Proof. apply (wrong_ok _ 936 (Some 1000%Z)). vm_compute. reflexivity. Qed.
Lemma three_twice : wrong_shift p_three'. Proof. apply (wrong_ok _ 936 (Some 872%Z)). vm_compute. reflexivity. Qed.
Lemma two_wrong : exists f, from_bytes p_two f /\ length (users_of f sp_id) = 2 /\ stack_offset_pre sp_id 2 f = UB.
Proof.
  exists (lifted p_two). split; [apply from_ok; vm_compute; reflexivity|]. split; [vm_compute; reflexivity|].
  assert (H : match stack_offset_pre sp_id 2 (lifted p_two) with UB => true | _ => false end = true) by (vm_compute; reflexivity).
  destruct (stack_offset_pre sp_id 2 (lifted p_two)); try discriminate H. reflexivity.
Qed.
Lemma good_applies : exists f g, from_bytes p_good f /\ tidy f /\ fresh_ok f /\ no_holes f /\ sp_ok f sp_id /\
  length (users_of f sp_id) = 4 /\ stack_offset_pre sp_id 4 f = Ok g /\
  gives f (1000 + -64) 5 = Some 8%Z /\ gives (fill (-64) g) 1000 5 = Some 8%Z.
Proof.
  pose proof (from_ok p_good ltac:(vm_compute; reflexivity) ltac:(vm_compute; reflexivity) ltac:(vm_compute; reflexivity) ltac:(vm_compute; reflexivity) ltac:(vm_compute; reflexivity)) as Fr.
  destruct (from_tidy _ _ Fr) as (T & Fs & _). exists (lifted p_good), (prep 4 (lifted p_good)).
  split; [exact Fr|]. split; [exact T|]. split; [exact Fs|]. split; [apply no_holes_ok; [exact Fs|vm_compute; reflexivity]|].
  split; [apply sp_ok_ok; [exact Fs|vm_compute; reflexivity]|]. split; [vm_compute; reflexivity|]. split.
  { assert (H : is_ok (stack_offset_pre sp_id 4 (lifted p_good)) = true) by (vm_compute; reflexivity).
    unfold prep. destruct (stack_offset_pre sp_id 4 (lifted p_good)); try discriminate H. reflexivity. }
  split; vm_compute; reflexivity.
Qed.
