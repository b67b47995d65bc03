(** The translation of ECALL instructions: consistency, and functions without them. *)
From Coq Require Import ZArith List Bool Arith Lia.
From Verif Require Import SpecIr SpecEdit M_Base M_Ir M_Edit M_EditHist M_Ra M_Pass M_Ecall L_Edit L_Uses L_Hist.
Import ListNotations.
Open Scope nat_scope.

Ltac bo H r E := apply bind_ok in H; destruct H as (r & E & H).
Lemma keeps_in_place f g i : keeps f g -> in_place f i -> in_place g i.
Proof.
  intros (A & _ & C & _) (x & X & I). destruct (C i x X) as (y & Y & P). exists y. split; [exact Y|]. rewrite P, (insns_blocks f g) by exact A. exact I.
Qed.
Lemma change_keeps f u s v g : change_value f u s v = Ok g -> keeps f g.
Proof.
  unfold change_value. intros E. apply bind_ok in E as (x & Hx & E). apply get_insn_ok in Hx.
  destruct (slot_get x s) as [old|]; [|discriminate].
  apply bind_ok in E as (f1 & E1 & E). apply L_Uses.remove_user_spec in E1 as (U1 & _).
  apply bind_ok in E as (x1 & Hx1 & E). apply get_insn_ok in Hx1. apply L_Uses.add_user_spec in E as (U2 & _).
  eapply keeps_trans; [apply users_edit_keeps; exact U1|].
  eapply keeps_trans; [|apply users_edit_keeps; exact U2].
  eapply put_keeps; eauto. destruct s; simpl; auto. destruct (nth_error (i_phi x1) k) as [[? ?]|]; auto.
Qed.
Lemma arg_keeps f i v g : add_call_arg f i v = Ok g -> keeps f g.
Proof.
  unfold add_call_arg. intros E. apply bind_ok in E as (x & Hx & E). apply get_insn_ok in Hx.
  destruct (5 <=? length (i_vals x)); [discriminate|].
  apply L_Uses.add_user_spec in E as (U & _). eapply keeps_trans; [|apply users_edit_keeps; exact U].
  eapply put_keeps; eauto.
Qed.
Lemma create_at_in_place f a k p f' i : wf_func f -> create_at f a k p = Ok (f', i) -> in_place f' i.
Proof.
  intros W E. unfold create_at in E. bo E y Hy. apply get_insn_ok in Hy. bo E r E1. destruct r as (f1 & j).
  cbn [fst snd] in E. bo E f2 E2. injection E as <- <-.
  apply create_insn_wf in E1 as (W1 & (x & Hx & Hp) & Hn & _ & _ & B & Ho); auto.
  destruct (Ho a y Hy) as [l Hy1].
  unfold insert_at in E2. rewrite (proj2 (get_insn_ok _ _ _) Hy1) in E2. cbn [bind] in E2.
  rewrite (proj2 (get_insn_ok _ _ _) Hx) in E2. cbn [bind] in E2.
  replace (i_parent (set_users l y)) with (i_parent y) in E2 by reflexivity.
  assert (K : exists b l', f2 = put_block f1 (i_parent y) (set_insns l' b) /\ In j l').
  { destruct (iop_eqb _ PHI && _).
    - unfold insert_at_bb in E2. bo E2 b Hb. injection E2 as <-. exists b, (insert_list_bb f1 j (b_insns b) P_FRONT_AFTER_PHI). split; [reflexivity|].
      destruct (insert_list_inserted f1 j (b_insns b) P_FRONT_AFTER_PHI) as (l1 & l2 & _ & ->). apply in_app_iff. right. now left.
    - bo E2 b Hb. destruct p; try discriminate; bo E2 l' E3; injection E2 as <-; exists b, l'; (split; [reflexivity|]).
      + destruct (insert_after_inserted _ _ _ _ E3) as (l1 & l2 & _ & ->). apply in_app_iff. right. now left.
      + destruct (insert_before_inserted _ _ _ _ E3) as (l1 & l2 & _ & ->). apply in_app_iff. right. now left. }
  destruct K as (b & l' & -> & I). exists x. split; [exact Hx|]. unfold insns_of. rewrite Hp, f_block_put, Nat.eqb_refl. exact I.
Qed.
Lemma offset_wf f i x o : wf_func f -> f_insn f i = Some x -> wf_func (put_insn f i (set_addr (mkAddr (a_val (i_addr x)) o (a_ot (i_addr x))) x)).
Proof.
  intros W X. eapply keeps_wf; [eapply put_keeps; [exact X|reflexivity]|exact W|]. pose proof (wf_uses _ W) as U.
  assert (O : forall j, match f_insn (put_insn f i (set_addr (mkAddr (a_val (i_addr x)) o (a_ot (i_addr x))) x)) j, f_insn f j with
                        | Some a, Some b => operand_values a = operand_values b /\ i_users a = i_users b | None, None => True | _, _ => False end).
  { intros j. rewrite f_insn_put. destruct (Nat.eqb_spec j i) as [->|]; [rewrite X; split; reflexivity|]. destruct (f_insn f j); auto. }
  intros d u. specialize (U d u). unfold uses, users_of in *. pose proof (O u) as Ou. pose proof (O d) as Od.
  set (g := put_insn f i _) in *. clearbody g. revert U. destruct (f_insn g u), (f_insn f u); try contradiction; destruct (f_insn g d), (f_insn f d); try contradiction; intros U;
    try (destruct Ou as (Ou & _); rewrite Ou); try (destruct Od as (_ & Od); rewrite Od); exact U.
Qed.
Ltac wf_edit W e E := eapply (apply_edit_wf _ e); [exact W|exact I|exact E].
Lemma heap_load_wf fuel map f i g : wf_func f -> heap_load fuel map f i = Ok g -> wf_func g.
Proof.
  intros W E. unfold heap_load in E. bo E x X. apply get_insn_ok in X. destruct (v_data (a_val (i_addr x))) as [| | |v0| |]; try (injection E as <-; exact W).
  bo E np Np. destruct np; cbn [negb] in E; [|injection E as <-; exact W]. bo E r0 E0.
  assert (W0 : wf_func (fst r0)). { destruct (a_off (i_addr x) =? 0)%Z; [injection E0 as <-; exact W|]. destruct r0. eapply create_at_wf; eauto. } clear E0.
  bo E r1 E1. assert (W1 : wf_func (fst r1)) by (destruct r1; eapply create_at_wf; eauto).
  bo E r2 E2. assert (W2 : wf_func (fst r2)) by (destruct r2; eapply create_at_wf; eauto).
  bo E r3 E3. assert (W3 : wf_func (fst r3)) by (destruct r3; eapply create_at_wf; eauto).
  bo E r4 E4. destruct r4 as (h & c). cbn [fst snd] in E. pose proof (create_at_in_place _ _ _ _ _ _ W3 E4) as P4. assert (W4 : wf_func h) by (eapply create_at_wf; eauto).
  bo E f5 E5. assert (W5 : wf_func f5) by (eapply (apply_edit_wf _ (E_add_arg _ _)); [exact W4|exact I|exact E5]).
  bo E f6 E6. assert (W6 : wf_func f6) by (eapply (apply_edit_wf _ (E_add_arg _ _)); [exact W5|exact I|exact E6]).
  bo E f7 E7. assert (W7 : wf_func f7) by (eapply (apply_edit_wf _ (E_change _ _ _)); [exact W6|exact I|exact E7]).
  bo E y Y. apply get_insn_ok in Y. pose proof (offset_wf f7 i y 0%Z W7 Y) as W8.
  assert (P8 : in_place (put_insn f7 i (set_addr (mkAddr (a_val (i_addr y)) 0 (a_ot (i_addr y))) y)) c).
  { eapply keeps_in_place; [eapply put_keeps; [exact Y|reflexivity]|]. eapply keeps_in_place; [eapply change_keeps; exact E7|].
    eapply keeps_in_place; [eapply arg_keeps; exact E6|]. eapply keeps_in_place; [eapply arg_keeps; exact E5|]. exact P4. }
  bo E e Ee. destruct e as (f9 & [(eb & nb)|]); [|discriminate E]. pose proof (error_block_wf _ _ _ _ _ W8 P8 Ee) as W9.
  bo E j Ej. injection E as <-. destruct j. eapply create_at_wf; eauto.
Qed.
Lemma heap_store_wf fuel map f i g : wf_func f -> heap_store fuel map f i = Ok g -> wf_func g.
Proof.
  intros W E. unfold heap_store in E. bo E x X. destruct (v_data (a_val (i_addr x))) as [| | |v0| |]; try (injection E as <-; exact W).
  bo E np Np. destruct np; cbn [negb] in E; [|injection E as <-; exact W]. bo E r Er. destruct r as (h & c). cbn [fst snd] in E.
  assert (Wh : wf_func h) by (eapply create_at_wf; eauto). eapply (apply_edit_wf _ (E_change _ _ _)); [exact Wh|exact I|exact E].
Qed.
Lemma ofold_wf {A} (F : func -> A -> outcome func) : (forall f a g, wf_func f -> F f a = Ok g -> wf_func g) -> forall l f g, wf_func f -> ofold F f l = Ok g -> wf_func g.
Proof. intros H. induction l as [|a l IH]; intros f g W E; cbn [ofold] in E; [now injection E as <-|]. bo E h Eh. eapply IH; [|exact E]. eapply H; eauto. Qed.
Lemma translate_wf fuel reach f i g : wf_func f -> in_place f i -> translate_heap fuel reach f i = Ok g -> wf_func g.
Proof.
  intros W P E. unfold translate_heap in E. bo E x X. destruct (i_vals x) as [|a0 [|a1 [|]]]; try discriminate E. destruct (v_data a0) as [| | |m| |]; try discriminate E. destruct (v_data a1); try discriminate E.
  bo E f1 E1. pose proof (erase_wf _ _ _ W P E1) as W1. bo E ls El. bo E ss Es. bo E f2 E2.
  eapply ofold_wf; [|eapply ofold_wf; [|exact W1|exact E2]|exact E]; [intros h a h'; apply heap_store_wf|intros h a h'; apply heap_load_wf].
Qed.
Lemma index_in : forall l i k, index_of i l = Some k -> In i l.
Proof.
  induction l as [|a l IH]; intros i k E; [discriminate E|]. cbn in E. destruct (Nat.eqb_spec a i) as [->|]; [now left|]. right. destruct (index_of i l) eqn:Q; [|discriminate E]. eapply IH; exact Q.
Qed.
Lemma walk_wf reach bb : forall fuel f nd g, wf_func f -> ecall_walk fuel reach bb f nd = Ok g -> wf_func g.
Proof.
  induction fuel as [|k IH]; intros f nd g W E; cbn [ecall_walk] in E; [discriminate E|]. destruct nd as [i|c].
  - bo E x X. bo E nx Nx. bo E f1 E1. eapply IH; [|exact E]. destruct (iop_eqb (i_op x) ECALL && (i_u x =? 0)%Z); [|injection E1 as <-; exact W].
    eapply translate_wf; [exact W| |exact E1]. unfold next_node in Nx. rewrite X in Nx. cbn [bind] in Nx. apply get_insn_ok in X. bo Nx b B. apply get_block_ok in B.
    destruct (index_of i (b_insns b)) as [n|] eqn:N; [|discriminate Nx]. exists x. split; [exact X|]. unfold insns_of. rewrite B. eapply index_in; exact N.
  - destruct (c =? bb); [|discriminate E]. now injection E as <-.
Qed.
Theorem ecalls_wf fuel reach f g : wf_func f -> handle_ecalls fuel reach f = Ok g -> wf_func g.
Proof. unfold handle_ecalls. intros W. apply (ofold_wf _); [|exact W]. intros h b h' Wh E. bo E x X. eapply walk_wf; [exact Wh|exact E]. Qed.

(** ** Nothing to do *)
Definition heap_init (f : func) (i : nat) : Prop := exists x, f_insn f i = Some x /\ i_op x = ECALL /\ i_u x = 0%Z.
Lemma index_at (l1 l2 : list nat) i : NoDup (l1 ++ i :: l2) -> index_of i (l1 ++ i :: l2) = Some (length l1).
Proof. intros N. apply index_of_app. apply NoDup_remove_2 in N. intros I. apply N, in_app_iff. now left. Qed.
Lemma walk_idle reach f b bk : f_block f b = Some bk -> linked_ok f -> NoDup (b_insns bk) -> (forall i, In i (b_insns bk) -> ~ heap_init f i) ->
  forall l2 l1 fuel, b_insns bk = l1 ++ l2 -> length l2 < fuel -> ecall_walk fuel reach b f (match l2 with i :: _ => At i | [] => Head b end) = Ok f.
Proof.
  intros B LK ND NO. induction l2 as [|i l2 IH]; intros l1 fuel E L; destruct fuel as [|k]; cbn [length] in L; try lia; cbn [ecall_walk]; [now rewrite Nat.eqb_refl|].
  destruct (LK b i) as (x & X & P). { unfold insns_of. rewrite B, E. apply in_app_iff. right. now left. }
  rewrite (proj2 (get_insn_ok f i x) X). cbn [bind]. unfold next_node. rewrite (proj2 (get_insn_ok f i x) X). cbn [bind]. rewrite P, (proj2 (get_block_ok f b bk) B). cbn [bind].
  rewrite E in ND. rewrite E, (index_at _ _ _ ND). cbn [bind].
  replace (iop_eqb (i_op x) ECALL && (i_u x =? 0)%Z) with false.
  2: { symmetry. apply not_true_iff_false. intros H. apply andb_true_iff in H as (H1 & H2). apply (NO i). { rewrite E. apply in_app_iff. right. now left. } exists x. split; [exact X|]. split; [now destruct (i_op x)|now apply Z.eqb_eq]. }
  cbn [bind]. assert (E2 : b_insns bk = (l1 ++ [i]) ++ l2) by now rewrite <- app_assoc. rewrite <- E in ND. specialize (IH (l1 ++ [i]) k E2). rewrite <- IH by lia. f_equal.
  replace (S (length l1)) with (length (l1 ++ [i])) by (rewrite app_length; cbn; lia). replace (l1 ++ i :: l2) with ((l1 ++ [i]) ++ l2) by now rewrite <- app_assoc.
  rewrite nth_error_app2 by lia. rewrite Nat.sub_diag. destruct l2; reflexivity.
Qed.
Theorem ecalls_idle fuel reach f : linked_ok f -> (forall b, NoDup (insns_of f b)) -> (forall b, In b reach -> f_block f b <> None /\ length (insns_of f b) < fuel) ->
  (forall b i, In b reach -> In i (insns_of f b) -> ~ heap_init f i) -> handle_ecalls fuel reach f = Ok f.
Proof.
  intros LK ND LE NO. unfold handle_ecalls. enough (H : forall l, incl l reach -> ofold (fun g bb => do b <- get_block g bb; ecall_walk fuel reach bb g (match b_insns b with i :: _ => At i | [] => Head bb end)) f l = Ok f) by (apply H, incl_refl).
  induction l as [|b l IH]; intros I; cbn [ofold]; [reflexivity|]. destruct (LE b) as (B & Q); [apply I; now left|]. destruct (f_block f b) as [bk|] eqn:Eb; [|congruence]. unfold insns_of in Q. rewrite Eb in Q.
  rewrite (proj2 (get_block_ok f b bk) Eb). cbn [bind]. rewrite (walk_idle reach f b bk Eb LK) with (l1 := []); auto.
  - cbn [bind]. apply IH. intros c C. apply I. now right.
  - specialize (ND b). unfold insns_of in ND. now rewrite Eb in ND.
  - intros i J. apply (NO b); [apply I; now left|]. unfold insns_of. now rewrite Eb.
Qed.
