(** Stack regions: allocation hands out disjoint ones and nothing else in the allocator changes them. *)
From Verif Require Import M_Base M_Ir M_Edit M_Norm M_Ra SpecWord SpecIr SpecRa SpecFrame L_Word L_Edit L_RaGraph L_RaLive.
Open Scope nat_scope.

Ltac bo H r E := apply bind_ok in H as (r & E & H).
Ltac oks H := injection H as H; subst.

(** ** Operations and the instruction counter under editing: ids are handed out upwards, operations
    stay, only phis disappear *)
Definition opx (f : func) (i : nat) : option iop := option_map i_op (f_insn f i).
Definition fresh (f : func) : Prop := forall i, f_ni f <= i -> f_insn f i = None.
Record ed (f g : func) : Prop := {
  ed_ni : f_ni f <= f_ni g;
  ed_op : forall i, i < f_ni f -> opx g i = opx f i \/ (opx f i = Some PHI /\ opx g i = None);
  ed_fresh : fresh f -> fresh g }.
Lemma ed_refl f : ed f f.
Proof. split; auto. Qed.
Lemma ed_trans f g h : ed f g -> ed g h -> ed f h.
Proof.
  intros [N O F] [N' O' F']. split; [lia| |auto]. intros i L. destruct (O i L) as [Q|[Q Q1]]; destruct (O' i ltac:(lia)) as [P|[P P1]].
  - left. congruence.
  - right. split; congruence.
  - right. split; congruence.
  - congruence.
Qed.
Lemma ed_put f i x y : get_insn f i = Ok x -> i_op y = i_op x -> ed f (put_insn f i y).
Proof.
  intros E Q. apply get_insn_ok in E. split; [cbn; lia| |].
  - intros j L. left. unfold opx, put_insn, with_insn, upd; cbn. destruct (Nat.eqb_spec j i) as [->|N]; [|reflexivity].
    rewrite E. cbn. congruence.
  - intros F j L. unfold put_insn, with_insn, upd; cbn in *. destruct (Nat.eqb_spec j i) as [->|N]; [|auto].
    rewrite (F i L) in E. discriminate E.
Qed.
Lemma ed_block f b x : ed f (put_block f b x).
Proof. split; [cbn; lia| |auto]. intros i L. left. reflexivity. Qed.
Lemma fold_ed {A} (g : func -> A -> outcome func) l : (forall f x f', g f x = Ok f' -> ed f f') ->
  forall f f', ofold g f l = Ok f' -> ed f f'.
Proof.
  intros G. induction l as [|a r IH]; intros f f' H; cbn [ofold] in H; [oks H; apply ed_refl|].
  bo H x E. eapply ed_trans; [exact (G _ _ _ E)|exact (IH _ _ H)].
Qed.
Lemma remove_user_ed f v u f' : remove_user f v u = Ok f' -> ed f f'.
Proof. unfold remove_user. destruct (val_target v); intros H; [bo H x E|]; oks H; [apply (ed_put _ _ _ _ E); reflexivity|apply ed_refl]. Qed.
Lemma add_user_ed f v u f' : add_user f v u = Ok f' -> ed f f'.
Proof. unfold add_user. destruct (val_target v); intros H; [bo H x E|]; oks H; [apply (ed_put _ _ _ _ E); reflexivity|apply ed_refl]. Qed.
Lemma slot_set_op x sl v : i_op (slot_set x sl v) = i_op x.
Proof. destruct sl; cbn; try reflexivity. destruct (nth_error (i_phi x) k) as [[? ?]|]; reflexivity. Qed.
Lemma change_value_ed f u sl v f' : change_value f u sl v = Ok f' -> ed f f'.
Proof.
  unfold change_value. intros H. bo H x E. destruct (slot_get x sl); [|discriminate H].
  bo H f1 E1. bo H x1 E2. eapply ed_trans; [exact (remove_user_ed _ _ _ _ E1)|].
  eapply ed_trans; [apply (ed_put _ _ _ (slot_set x1 sl v) E2), slot_set_op|exact (add_user_ed _ _ _ _ H)].
Qed.
Lemma add_user_n_ed n : forall f v u f', add_user_n n f v u = Ok f' -> ed f f'.
Proof.
  induction n as [|n IH]; intros f v u f' H; cbn [add_user_n] in H; [oks H; apply ed_refl|].
  bo H f1 E. eapply ed_trans; [exact (add_user_ed _ _ _ _ E)|exact (IH _ _ _ _ H)].
Qed.
Lemma subst_op d r x : i_op (subst_insn d r x) = i_op x.
Proof. unfold subst_insn. destruct (iop_eqb (i_op x) PHI), (iop_eqb (i_op x) LOADRAW || iop_eqb (i_op x) STORERAW); reflexivity. Qed.
Lemma replace_all_ed f d r f' : replace_all f d r = Ok f' -> ed f f'.
Proof.
  unfold replace_all. intros H. bo H x E. eapply ed_trans; [apply (ed_put _ _ _ (set_users [] x) E); reflexivity|].
  refine (fold_ed _ _ _ _ _ H). intros g u g' G. unfold replace_in_user in G. bo G y Ey.
  eapply ed_trans; [apply (ed_put _ _ _ (subst_insn d r y) Ey), subst_op|exact (add_user_n_ed _ _ _ _ _ G)].
Qed.
Lemma erase_insn_ed f i f' : opx f i = Some PHI -> erase_insn f i = Ok f' -> ed f f'.
Proof.
  unfold erase_insn. intros P H. bo H x E. destruct (existsb _ _); [discriminate H|]. bo H f1 E1. bo H f2 E2. oks H.
  assert (A : ed f f2).
  { eapply ed_trans; [refine (fold_ed _ _ _ _ _ E1); intros ? ? ?; apply remove_user_ed|].
    unfold unlink in E2. bo E2 y Ey. bo E2 b Eb. oks E2. apply ed_block. }
  destruct A as [N O F]. split; [exact N| |].
  - intros j L. unfold opx; cbn. unfold upd. destruct (Nat.eqb_spec j i) as [->|Q]; [right; split; [exact P|reflexivity]|].
    exact (O j L).
  - intros K j L. cbn in *. unfold upd. destruct (j =? i); [reflexivity|]. exact (F K j L).
Qed.
Lemma insert_at_bb_ed f n b p f' : insert_at_bb f n b p = Ok f' -> ed f f'.
Proof. unfold insert_at_bb. intros H. bo H x E. oks H. apply ed_block. Qed.
Lemma insert_at_ed f n i p f' : insert_at f n i p = Ok f' -> ed f f'.
Proof.
  unfold insert_at. intros H. bo H x E. bo H y E1. destruct (_ && _); [exact (insert_at_bb_ed _ _ _ _ _ H)|].
  bo H b E2. destruct p; try discriminate H; bo H l E3; oks H; apply ed_block.
Qed.
Lemma create_insn_ed f b k f' i : create_insn f b k = Ok (f', i) -> i = f_ni f /\ S i <= f_ni f' /\ ed f f'.
Proof.
  unfold create_insn. intros H. bo H f2 E. injection H as <- <-. set (f1 := mkFunc _ _ _ _ _ _) in E.
  assert (A : ed f1 f2) by (refine (fold_ed _ _ _ _ _ E); intros ? ? ?; apply add_user_ed).
  assert (B : ed f f1).
  { split; [cbn; lia| |].
    - intros i L. left. unfold opx, f1; cbn. unfold upd. destruct (Nat.eqb_spec i (f_ni f)); [lia|reflexivity].
    - intros K i L. unfold f1 in *; cbn in *. unfold upd. destruct (Nat.eqb_spec i (f_ni f)); [lia|]. apply K. lia. }
  split; [reflexivity|]. split; [exact (ed_ni _ _ A)|exact (ed_trans _ _ _ B A)].
Qed.
Lemma create_at_bb_ed f b k p f' i : create_at_bb f b k p = Ok (f', i) -> i = f_ni f /\ S i <= f_ni f' /\ ed f f'.
Proof.
  unfold create_at_bb. intros H. bo H r E. destruct r as [f1 j]. cbn [fst snd] in H. bo H f2 E1. injection H as <- <-.
  apply create_insn_ed in E as (-> & L & E). apply insert_at_bb_ed in E1. pose proof (ed_ni _ _ E1).
  split; [reflexivity|]. split; [lia|exact (ed_trans _ _ _ E E1)].
Qed.
Lemma create_at_ed f a k p f' i : create_at f a k p = Ok (f', i) -> i = f_ni f /\ S i <= f_ni f' /\ ed f f'.
Proof.
  unfold create_at. intros H. bo H x Ex. bo H r E. destruct r as [f1 j]. cbn [fst snd] in H. bo H f2 E1. injection H as <- <-.
  apply create_insn_ed in E as (-> & L & E). apply insert_at_ed in E1. pose proof (ed_ni _ _ E1).
  split; [reflexivity|]. split; [lia|exact (ed_trans _ _ _ E E1)].
Qed.

(** ** Steps that leave the regions alone *)
Definition kept (s t : cgs) : Prop :=
  data_below s -> data_below t /\ c_off t = c_off s /\ (forall v, region t v = region s v) /\ ed (c_f s) (c_f t).
Lemma kept_refl s : kept s s.
Proof. intros H. split; [exact H|]. split; [reflexivity|]. split; [reflexivity|apply ed_refl]. Qed.
Lemma kept_trans s t u : kept s t -> kept t u -> kept s u.
Proof.
  intros A B H. destruct (A H) as (D & O & R & M). destruct (B D) as (D' & O' & R' & M').
  split; [exact D'|]. split; [congruence|]. split; [intros v; now rewrite R'|exact (ed_trans _ _ _ M M')].
Qed.
Lemma kept_fold {A} (g : cgs -> A -> outcome cgs) l : (forall s x t, In x l -> g s x = Ok t -> kept s t) ->
  forall s t, ofold g s l = Ok t -> kept s t.
Proof.
  induction l as [|a r IH]; intros G s t H; cbn [ofold] in H; [oks H; apply kept_refl|].
  bo H x E. eapply kept_trans; [eapply G; [now left|exact E]|]. apply (IH (fun s x t I => G s x t (or_intror I)) _ _ H).
Qed.
Lemma kept_fold2 {A B} (g : cgs * B -> A -> outcome (cgs * B)) l : (forall s x t, g s x = Ok t -> kept (fst s) (fst t)) ->
  forall s t, ofold g s l = Ok t -> kept (fst s) (fst t).
Proof.
  intros G. induction l as [|a r IH]; intros s t H; cbn [ofold] in H; [oks H; apply kept_refl|].
  bo H x E. eapply kept_trans; [eapply G; exact E|]. now apply IH.
Qed.
Lemma kept_f s f : ed (c_f s) f -> kept s (with_f f s).
Proof.
  intros E H. split; [|split; [reflexivity|split; [reflexivity|exact E]]]. intros v L. cbn in *. pose proof (ed_ni _ _ E). apply H. lia.
Qed.
Lemma kept_all s l : kept s (with_all l s).
Proof. intros H. split; [exact H|]. split; [reflexivity|]. split; [reflexivity|apply ed_refl]. Qed.
Lemma kept_seo s l : kept s (with_seo l s).
Proof. intros H. split; [exact H|]. split; [reflexivity|]. split; [reflexivity|apply ed_refl]. Qed.
Lemma kept_in_func s o t : in_func s o = Ok t -> (forall f, o = Ok f -> ed (c_f s) f) -> kept s t.
Proof. unfold in_func. intros H G. bo H f E. oks H. apply kept_f. now apply G. Qed.

(** the part of the data the regions depend on *)
Definition spot (e : extra) := (vp_spilled (x_pos e), vp_size (x_pos e)).
Lemma kept_put s i e e' : c_ex s i = Some e -> spot e' = spot e -> kept s (put_ex s i e').
Proof.
  intros E Q H. split; [|split; [reflexivity|split; [|apply ed_refl]]].
  - intros v L. cbn in L. rewrite put_ex_ne; [now apply H|]. intros ->. rewrite (H i L) in E. discriminate E.
  - intros v. unfold region. destruct (Nat.eq_dec v i) as [->|N]; [|now rewrite put_ex_ne].
    rewrite put_ex_eq, E. injection Q as -> ->. reflexivity.
Qed.
(** data without a region for something that has none *)
Lemma kept_zero s i e' : region s i = None -> i < f_ni (c_f s) -> vp_spilled (x_pos e') = 0%Z -> kept s (put_ex s i e').
Proof.
  intros E L Q H. split; [|split; [reflexivity|split; [|apply ed_refl]]].
  - intros v Lv. cbn in Lv. rewrite put_ex_ne; [now apply H|]. lia.
  - intros v. unfold region at 1. destruct (Nat.eq_dec v i) as [->|N]; [|now rewrite put_ex_ne].
    rewrite put_ex_eq, Q, E. reflexivity.
Qed.
Lemma fresh_kept s f i e : i = f_ni (c_f s) /\ S i <= f_ni f /\ ed (c_f s) f -> vp_spilled (x_pos e) = 0%Z -> kept s (put_ex (with_f f s) i e).
Proof.
  intros (-> & E & M) Q H. split; [|split; [reflexivity|split; [|exact M]]].
  - intros v L. cbn in L. rewrite put_ex_ne by lia. cbn. apply H. lia.
  - intros v. unfold region at 1. destruct (Nat.eq_dec v (f_ni (c_f s))) as [->|N]; [|now rewrite put_ex_ne].
    rewrite put_ex_eq, Q. cbn. unfold region. now rewrite (H (f_ni (c_f s)) (Nat.le_refl _)).
Qed.
Lemma cg_create_bb_kept s b k p t i : cg_create_bb s b k p = Ok (t, i) -> kept s t.
Proof.
  unfold cg_create_bb. intros H. bo H r E. destruct r as [f j]. cbn [fst snd] in H. injection H as <- <-.
  apply create_at_bb_ed in E. now apply fresh_kept.
Qed.
Lemma cg_create_kept s b k p t i : cg_create s b k p = Ok (t, i) -> kept s t.
Proof.
  unfold cg_create. intros H. bo H r E. destruct r as [f j]. cbn [fst snd] in H. injection H as <- <-.
  apply create_at_ed in E. now apply fresh_kept.
Qed.
(** the new instruction has no region *)
Lemma cg_create_new s b k p t i : cg_create s b k p = Ok (t, i) ->
  i = f_ni (c_f s) /\ S i <= f_ni (c_f t) /\ region t i = None /\ exists e, c_ex t i = Some e /\ x_pos e = mkPos false 0 0 0.
Proof.
  unfold cg_create. intros H. bo H r E. destruct r as [f j]. cbn [fst snd] in H. injection H as <- <-.
  apply create_at_ed in E as (-> & E & M). split; [reflexivity|]. split; [exact E|]. unfold region. rewrite put_ex_eq. split; [reflexivity|]. eauto.
Qed.
Lemma cg_create_bb_new s b k p t i : cg_create_bb s b k p = Ok (t, i) ->
  i = f_ni (c_f s) /\ S i <= f_ni (c_f t) /\ region t i = None /\ exists e, c_ex t i = Some e /\ x_pos e = mkPos false 0 0 0.
Proof.
  unfold cg_create_bb. intros H. bo H r E. destruct r as [f j]. cbn [fst snd] in H. injection H as <- <-.
  apply create_at_bb_ed in E as (-> & E & M). split; [reflexivity|]. split; [exact E|]. unfold region. rewrite put_ex_eq. split; [reflexivity|]. eauto.
Qed.
Lemma fixed_put s i e p : c_ex s i = Some e -> region s i = None -> vp_spilled (x_pos p) = 0%Z -> kept s (put_ex s i p).
Proof.
  intros E R Q H. destruct (Nat.lt_ge_cases i (f_ni (c_f s))) as [L|L]; [exact (kept_zero _ _ _ R L Q H)|].
  rewrite (H i L) in E. discriminate E.
Qed.
Lemma region_none s i e : c_ex s i = Some e -> (region s i = None <-> vp_spilled (x_pos e) = 0%Z).
Proof. intros E. unfold region. rewrite E. destruct (Z.eqb_spec (vp_spilled (x_pos e)) 0) as [Q|Q]; split; intros K; congruence. Qed.

(** ** change_call, change_fun_arg, spill_const *)
Lemma change_call_one_kept s i t : change_call_one s i = Ok t -> kept s t.
Proof.
  unfold change_call_one. intros H. bo H x E. destruct (iop_eqb (i_op x) CALL); [|oks H; apply kept_refl].
  bo H s1 E1. bo H x1 E2. bo H e E3.
  assert (K1 : kept s s1).
  { refine (kept_fold _ _ _ _ _ E1). clear. intros s4 [k v] t4 _ H. unfold change_call_arg in H. bo H f Ef. bo H c Ec.
    destruct c as [u j]. cbn [fst snd] in H. unfold pre_color in H. bo H e Ee. oks H.
    apply get_ex_ok in Ee. destruct (cg_create_new _ _ _ _ _ _ Ec) as (_ & _ & R & _).
    eapply kept_trans; [apply (kept_f s4 f); exact (remove_user_ed _ _ _ _ Ef)|].
    eapply kept_trans; [exact (cg_create_kept _ _ _ _ _ _ Ec)|].
    apply (fixed_put _ _ _ _ Ee R). reflexivity. }
  eapply kept_trans; [exact K1|]. apply get_ex_ok in E3.
  set (s2 := with_f _ s1) in *. set (s3 := put_ex s2 i _) in *.
  assert (K3 : kept s1 s3).
  { eapply kept_trans; [apply (kept_f s1); exact (ed_put _ _ _ (set_vals [] x1) E2 eq_refl)|]. apply (kept_put _ _ _ _ E3). reflexivity. }
  eapply kept_trans; [exact K3|]. destruct (i_users x1); [oks H; apply kept_refl|].
  bo H r Er. bo H c Ec. destruct c as [u j]. cbn [fst snd] in H.
  eapply kept_trans; [exact (cg_create_kept _ _ _ _ _ _ Ec)|]. apply (kept_in_func _ _ _ H). intros f; apply replace_all_ed.
Qed.
Lemma change_call_kept s t : change_call s = Ok t -> kept s t.
Proof. unfold change_call. intros H. bo H l E. refine (kept_fold _ _ _ _ _ H). intros ? ? ? _. apply change_call_one_kept. Qed.
Lemma change_fun_arg_kept s t : change_fun_arg s = Ok t -> kept s t.
Proof.
  unfold change_fun_arg. intros H0. refine (kept_fold _ _ _ _ _ H0). clear. intros s4 [k a] t _ H. unfold change_arg in H.
  bo H x E. destruct (i_users x); [oks H; apply kept_refl|]. bo H r Er. bo H c Ec. destruct c as [u j]. cbn [fst snd] in H.
  eapply kept_trans; [exact (cg_create_bb_kept _ _ _ _ _ _ Ec)|]. apply (kept_in_func _ _ _ H). intros f; apply replace_all_ed.
Qed.
Lemma spill_const_kept s t : spill_const s = Ok t -> kept s t.
Proof.
  unfold spill_const. intros H. bo H l E. refine (kept_fold _ _ _ _ _ H). clear. intros s i t _ H. unfold spill_const_one in H.
  bo H x E. bo H s1 E1.
  assert (K : kept s s1).
  { destruct (_ && _); [|oks E1; apply kept_refl]. destruct (i_vals x) as [|v l9]; [discriminate E1|].
    destruct (is_const v); [|oks E1; apply kept_refl]. bo E1 c Ec. destruct c as [u j]. cbn [fst snd] in E1.
    eapply kept_trans; [exact (cg_create_kept _ _ _ _ _ _ Ec)|]. apply (kept_in_func _ _ _ E1). intros f; apply change_value_ed. }
  eapply kept_trans; [exact K|]. clear K E1.
  destruct (i_vals x) as [|v1 [|v0 [|v2 l9]]]; try (oks H; apply kept_refl).
  destruct (_ && _); [|oks H; apply kept_refl]. bo H c Ec. destruct c as [u j]. cbn [fst snd] in H.
  eapply kept_trans; [exact (cg_create_kept _ _ _ _ _ _ Ec)|]. apply (kept_in_func _ _ _ H). intros f; apply change_value_ed.
Qed.

(** ** The analysis *)
Lemma upd_kept (g : extra -> extra) s i t : (do e <- get_ex s i; Ok (put_ex s i (g e))) = Ok t ->
  (forall e, x_pos (g e) = x_pos e) -> kept s t.
Proof.
  intros H G. bo H e E. oks H. apply get_ex_ok in E. apply (kept_put _ _ _ _ E). unfold spot. now rewrite G.
Qed.
Lemma make_conflict_kept s a b t : make_conflict s a b = Ok t -> kept s t.
Proof.
  unfold make_conflict. intros H. destruct (a =? b); [discriminate H|]. bo H n1 E1. destruct n1 as [r1|]; [|oks H; apply kept_refl].
  bo H n2 E2. destruct n2 as [r2|]; [|oks H; apply kept_refl]. bo H s1 E3. unfold add_adj in *.
  eapply kept_trans; [exact (upd_kept _ _ _ _ E3 (fun e => eq_refl))|exact (upd_kept _ _ _ _ H (fun e => eq_refl))].
Qed.
Lemma add_in_kept s i v t : add_in s i v = Ok t -> kept s t.
Proof. intros H. exact (upd_kept _ _ _ _ H (fun e => eq_refl)). Qed.
Lemma add_out_kept s i v t : add_out s i v = Ok t -> kept s t.
Proof. intros H. exact (upd_kept _ _ _ _ H (fun e => eq_refl)). Qed.
Lemma walk_out_kept v l : forall s t, walk_out s v l = Ok t -> kept s (fst t).
Proof.
  induction l as [|i r IH]; intros s t H; cbn [walk_out] in H; [oks H; apply kept_refl|].
  bo H s1 E. bo H e Ee. eapply kept_trans; [exact (add_out_kept _ _ _ _ E)|]. destruct (x_dst e) as [d|].
  - destruct (d =? v); [oks H; apply kept_refl|]. bo H s2 E2. bo H s3 E3.
    eapply kept_trans; [exact (make_conflict_kept _ _ _ _ E2)|]. eapply kept_trans; [exact (add_in_kept _ _ _ _ E3)|]. now apply IH.
  - bo H s3 E3. eapply kept_trans; [exact (add_in_kept _ _ _ _ E3)|]. now apply IH.
Qed.
Lemma live_out_block_kept v : forall k sm n t, live_out_block k v sm n = Ok t -> kept (fst sm) (fst t).
Proof.
  induction k as [|k IH]; intros [s M] n t H; cbn [live_out_block] in H; [discriminate H|].
  destruct (M_Ra.mem n M); [oks H; apply kept_refl|]. bo H b Eb. bo H r Er. apply walk_out_kept in Er. cbn [fst].
  eapply kept_trans; [exact Er|]. destruct (snd r); [|oks H; apply kept_refl].
  exact (kept_fold2 _ _ (fun s x t => IH s x t) _ _ H).
Qed.
Lemma live_user_kept fuel v sm u t : live_user fuel v sm u = Ok t -> kept (fst sm) (fst t).
Proof.
  unfold live_user. intros H. bo H x E. destruct (iop_eqb (i_op x) PHI).
  - destruct (phi_uses v x) as [|a l]; [discriminate H|].
    exact (kept_fold2 _ _ (fun s x t => live_out_block_kept v fuel s x t) _ _ H).
  - destruct sm as [s M]. unfold live_in_stmt in H. bo H y Ey. bo H b Eb. bo H s1 E1. cbn [fst].
    eapply kept_trans; [exact (add_in_kept _ _ _ _ E1)|]. destruct (index_of u (b_insns b)); [|discriminate H].
    bo H r Er. apply walk_out_kept in Er. eapply kept_trans; [exact Er|].
    destruct (snd r); [|oks H; apply kept_refl]. exact (kept_fold2 _ _ (fun s x t => live_out_block_kept v fuel s x t) _ _ H).
Qed.
Lemma liveness_kept fuel s t : liveness fuel s = Ok t -> kept s t.
Proof.
  unfold liveness. intros H. bo H l E. refine (kept_fold _ _ _ _ _ H). clear. intros s v t _ H. unfold live_var in H.
  bo H e E. destruct (x_dst e) as [d|]; [|oks H; apply kept_refl]. destruct (x_fin e); [oks H; apply kept_refl|].
  destruct (negb _); [discriminate H|]. bo H x Ex. bo H r Er. oks H.
  apply (kept_fold2 _ _ (fun s x t => live_user_kept fuel v s x t)) in Er. cbn [fst] in Er.
  eapply kept_trans; [apply kept_all|exact Er].
Qed.
Lemma clean_one_kept s i t : clean_one s i = Ok t -> kept s t.
Proof.
  unfold clean_one. destruct (c_ex s i) as [e|] eqn:E; intros H; [|discriminate H]. oks H. apply (kept_put _ _ _ _ E).
  unfold spot. cbn. destruct (x_fin e); reflexivity.
Qed.
Lemma clean_kept s t : clean s = Ok t -> kept s t.
Proof.
  unfold clean. intros H. bo H s1 E. bo H l El. eapply kept_trans; [apply (kept_all s [])|].
  eapply kept_trans; [refine (kept_fold _ _ _ _ _ E)|refine (kept_fold _ _ _ _ _ H)].
  - intros u r v _ H1. eapply kept_trans; [apply kept_all|exact (clean_one_kept _ _ _ H1)].
  - intros u r v _ H1. exact (clean_one_kept _ _ _ H1).
Qed.
Lemma phi_conflict_kept v : forall k s n t, phi_conflict k v s n = Ok t -> kept s t.
Proof.
  induction k as [|k IH]; intros s n t H; cbn [phi_conflict] in H; [discriminate H|]. bo H b Eb.
  destruct (rev (b_insns b)) as [|z r].
  - refine (kept_fold _ _ _ _ _ H). intros ? ? ? _. apply IH.
  - bo H x Ex. bo H e Ee. refine (kept_fold _ _ _ _ _ H). clear. intros s i t _ H.
    destruct (i =? v); [oks H; apply kept_refl|exact (make_conflict_kept _ _ _ _ H)].
Qed.
Lemma conflicts_kept fuel s t : conflicts fuel s = Ok t -> kept s t.
Proof.
  unfold conflicts. intros H. bo H s1 E1. bo H l El. eapply kept_trans.
  { refine (kept_fold _ _ _ _ _ E1). intros ? ? ? _. apply make_conflict_kept. }
  refine (kept_fold _ _ _ _ _ H). clear. intros s i t _ H. unfold conflict_one in H. bo H x Ex. bo H s1 E1. bo H s2 E2.
  assert (K1 : kept s s1).
  { destruct (iop_eqb (i_op x) PHI); [|oks E1; apply kept_refl]. refine (kept_fold _ _ _ _ _ E1). intros ? ? ? _. apply phi_conflict_kept. }
  assert (K2 : kept s1 s2).
  { destruct (iop_eqb (i_op x) CALL); [|oks E2; apply kept_refl]. bo E2 e Ee. refine (kept_fold _ _ _ _ _ E2). clear.
    intros s v t _ H. destruct (M_Ra.mem v (x_out e)); [|oks H; apply kept_refl]. unfold caller_constraint in H.
    refine (kept_fold _ _ _ _ _ H). clear. intros s k t _ H. bo H r Er. exact (make_conflict_kept _ _ _ _ H). }
  eapply kept_trans; [exact K1|]. eapply kept_trans; [exact K2|].
  destruct (is_bin_alu_op (i_op x)); [|oks H; apply kept_refl]. destruct (nth_error (i_vals x) 1) as [w|]; [|discriminate H].
  destruct (val_target w); [exact (make_conflict_kept _ _ _ _ H)|oks H; apply kept_refl].
Qed.
Lemma analysis_kept fuel s t : analysis fuel s = Ok t -> kept s t.
Proof.
  unfold analysis. intros H. bo H s1 E1. bo H s2 E2. eapply kept_trans; [exact (clean_kept _ _ E1)|].
  eapply kept_trans; [exact (liveness_kept _ _ _ E2)|exact (conflicts_kept _ _ _ H)].
Qed.

(** ** pre_spill *)
Lemma mcs_loop_kept om : forall n s av t, mcs_loop om n s av = Ok t -> kept s t.
Proof.
  induction n as [|n IH]; intros s av t H; cbn [mcs_loop] in H; [oks H; apply kept_refl|].
  bo H m Em. destruct m as [v|]; [|discriminate H]. bo H e Ee. bo H s2 E2.
  eapply kept_trans; [apply kept_seo|]. eapply kept_trans; [|exact (IH _ _ _ H)].
  refine (kept_fold _ _ _ _ _ E2). clear. intros s u t _ H. unfold bump in H. destruct (M_Ra.mem u av); [|oks H; apply kept_refl].
  exact (upd_kept _ _ _ _ H (fun e => eq_refl)).
Qed.
Lemma inc_w_kept s v t : inc_w s v = Ok t -> kept s t.
Proof. intros H. exact (upd_kept _ _ _ _ H (fun e => eq_refl)). Qed.
Lemma cliques_kept l : forall ea s t, cliques ea s l = Ok t -> kept s (fst t).
Proof.
  induction l as [|v r IH]; intros ea s t H; cbn [cliques] in H; [oks H; apply kept_refl|].
  bo H q Eqq. bo H u Eu. oks H. cbn [fst]. eapply kept_trans; [|exact (IH _ _ _ Eu)].
  unfold clique_of in Eqq. bo Eqq s1 E1. bo Eqq e Ee. eapply kept_trans; [exact (inc_w_kept _ _ _ E1)|].
  refine (kept_fold2 _ _ _ _ _ Eqq). clear. intros s u t H. destruct (M_Ra.mem u ea); [|oks H; apply kept_refl].
  bo H s2 E. oks H. exact (inc_w_kept _ _ _ E).
Qed.
Lemma pre_spill_kept fuel om os s t x : pre_spill fuel om os s = Ok (t, x) -> kept s t.
Proof.
  unfold pre_spill. intros H. bo H s1 E1. bo H q Eqq. bo H r Er. injection H as <- <-.
  eapply kept_trans; [|exact (cliques_kept _ _ _ _ Eqq)]. unfold mcs in E1.
  eapply kept_trans; [apply kept_seo|exact (mcs_loop_kept _ _ _ _ _ E1)].
Qed.
Lemma spill_loop_length os s : forall k eps acc r, spill_loop k os s eps acc = Ok r -> length (fst r) <= length acc + k.
Proof.
  induction k as [|k IH]; intros eps acc r H; cbn [spill_loop] in H; [discriminate H|].
  destruct (need_spill eps); [|oks H; cbn [fst]; lia]. bo H m Em. destruct m as [v|]; [|discriminate H].
  apply IH in H. rewrite app_length in H. cbn [length] in H. lia.
Qed.
Lemma pre_spill_length fuel om os s r : pre_spill fuel om os s = Ok r -> length (fst (snd r)) <= fuel.
Proof.
  unfold pre_spill. intros H. bo H s1 E1. bo H q Eqq. bo H x Er. oks H. apply spill_loop_length in Er. exact Er.
Qed.

(** ** coloring, coalescing *)
Lemma change_reg_kept s v r t : change_reg s v r = Ok t -> kept s t.
Proof. unfold change_reg. intros H. bo H e E. oks H. apply get_ex_ok in E. apply (kept_put _ _ _ _ E). reflexivity. Qed.
Lemma coloring_kept s t : coloring s = Ok t -> kept s t.
Proof.
  unfold coloring. intros H0. refine (kept_fold _ _ _ _ _ H0). clear. intros s1 v t1 _ H. unfold color_one in H. bo H e E.
  destruct (vp_alloc (x_pos e)); [oks H; apply kept_refl|]. bo H u Eu. destruct (free_color u); [|discriminate H]. oks H.
  apply get_ex_ok in E. apply (kept_put _ _ _ _ E). reflexivity.
Qed.
Lemma coalesce_kept s a b t : coalesce s a b = Ok t -> kept s t.
Proof.
  unfold coalesce. intros H. bo H e1 E1. bo H e2 E2. destruct (_ && _); [|oks H; apply kept_refl]. bo H u1 U1. bo H u2 U2.
  destruct (x_fin e1).
  - bo H x Ex. destruct x; [oks H; apply kept_refl|exact (change_reg_kept _ _ _ _ H)].
  - destruct (x_fin e2).
    + bo H x Ex. destruct x; [oks H; apply kept_refl|exact (change_reg_kept _ _ _ _ H)].
    + destruct (free_color u2); [|oks H; apply kept_refl]. bo H s1 E3.
      eapply kept_trans; [exact (change_reg_kept _ _ _ _ E3)|exact (change_reg_kept _ _ _ _ H)].
Qed.
Lemma assign_kept s t : assign s = Ok t -> kept s t.
Proof.
  unfold assign. intros H. bo H s1 E1. eapply kept_trans; [exact (coloring_kept _ _ E1)|].
  unfold coalescing in H. bo H l El. refine (kept_fold _ _ _ _ _ H). clear. intros s i t _ H. unfold coalesce_insn in H.
  bo H p Ep. destruct p as [[a b]|]; [exact (coalesce_kept _ _ _ _ H)|oks H; apply kept_refl].
Qed.

(** ** The translation out of SSA form *)
Lemma shift_op o x : i_op (shift_insn o x) = i_op x.
Proof.
  unfold shift_insn. destruct (is_raw (i_op x)) eqn:R, (a_ot (i_addr x)), (iop_eqb (i_op x) PHI); cbn; rewrite ?R; reflexivity.
Qed.
Lemma add_stack_offset_kept s o t : add_stack_offset s o = Ok t -> kept s t.
Proof.
  unfold add_stack_offset. intros H. bo H l El. refine (kept_fold _ _ _ _ _ H). clear. intros s i t _ H. bo H x Ex. oks H.
  apply kept_f. apply (ed_put _ _ _ _ Ex). apply shift_op.
Qed.
Lemma head_phis_flat s l : forall p, head_phis s l = Ok p -> forall i, In i p -> region s i = None /\ opx (c_f s) i = Some PHI /\ has_data s i.
Proof.
  induction l as [|a r IH]; intros p H i I; cbn [head_phis] in H; [oks H; destruct I|].
  bo H x Ex. destruct (iop_eqb (i_op x) PHI) eqn:P; [|oks H; destruct I]. bo H e Ee. destruct (negb _); [discriminate H|].
  destruct (Z.eqb_spec (vp_spilled (x_pos e)) 0) as [Q|Q]; [|discriminate H]. cbn [negb] in H. bo H t Et. oks H.
  apply get_ex_ok in Ee. destruct I as [<-|I]; [|exact (IH _ Et _ I)].
  split; [now apply (region_none _ _ _ Ee)|]. split; [|exists e; exact Ee]. apply get_insn_ok in Ex. unfold opx. rewrite Ex. cbn. f_equal. unfold iop_eqb in P. destruct (iop_eq_dec (i_op x) PHI); congruence.
Qed.
Lemma all_phis_flat s l : forall p, all_phis s l = Ok p -> forall i, In i p -> region s i = None /\ opx (c_f s) i = Some PHI /\ has_data s i.
Proof.
  induction l as [|b r IH]; intros p H i I; cbn [all_phis] in H; [oks H; destruct I|].
  bo H x Ex. bo H p1 E1. bo H t Et. oks H. apply in_app_iff in I as [I|I]; [exact (head_phis_flat _ _ _ E1 _ I)|exact (IH _ Et _ I)].
Qed.
Lemma phi_copy_kept i p s e t : vp_spilled p = 0%Z -> phi_copy i p s e = Ok t -> kept s t.
Proof.
  intros Q H. unfold phi_copy in H. bo H c Ec. destruct c as [u j]. cbn [fst snd] in H. bo H y Ey.
  eapply kept_trans; [exact (cg_create_bb_kept _ _ _ _ _ _ Ec)|]. destruct (cg_create_bb_new _ _ _ _ _ _ Ec) as (_ & _ & R & _).
  apply get_ex_ok in Ey. eapply kept_trans; [apply (fixed_put _ _ _ (set_pos p y) Ey R); exact Q|].
  apply (kept_in_func _ _ _ H). intros f Hf. exact (remove_user_ed _ _ _ _ Hf).
Qed.
Lemma opx_some f i o : opx f i = Some o -> exists x, f_insn f i = Some x /\ i_op x = o.
Proof. unfold opx. destruct (f_insn f i); cbn; intros H; [|discriminate H]. injection H as <-. eauto. Qed.
Lemma opx_eq f i x : get_insn f i = Ok x -> opx f i = Some (i_op x).
Proof. intros H. apply get_insn_ok in H. unfold opx. now rewrite H. Qed.
Lemma remove_one_phi_kept s i t : region s i = None -> opx (c_f s) i = Some PHI \/ opx (c_f s) i = None ->
  remove_one_phi s i = Ok t -> kept s t.
Proof.
  intros R P0 H D. revert D. unfold remove_one_phi in H. bo H x Ex. bo H e Ee. bo H s1 E1. bo H x1 Ex1. bo H r Er. bo H s3 E3.
  assert (P : opx (c_f s) i = Some PHI) by (apply opx_eq in Ex; destruct P0; congruence).
  apply get_ex_ok in Ee. apply (region_none _ _ _ Ee) in R as Q.
  assert (K1 : kept s s1) by (refine (kept_fold _ _ _ _ _ E1); intros ? ? ? _; now apply phi_copy_kept).
  assert (K2 : kept s s3).
  { eapply kept_trans; [exact K1|]. eapply kept_trans; [apply kept_f; exact (ed_put _ _ _ (set_phi [] x1) Ex1 eq_refl)|].
    refine (kept_in_func _ _ _ E3 _). intros f. apply replace_all_ed. }
  unfold erase_cg in H. bo H f Ef. oks H. intros D. destruct (K2 D) as (D3 & O3 & R3 & M3).
  assert (L : i < f_ni (c_f s)).
  { destruct (Nat.lt_ge_cases i (f_ni (c_f s))) as [L|L]; [exact L|]. rewrite (D i L) in Ee. discriminate Ee. }
  assert (P3 : opx (c_f s3) i = Some PHI).
  { destruct (ed_op _ _ M3 i L) as [A|[_ A]]; [congruence|]. exfalso. unfold erase_insn in Ef. bo Ef y Ey. apply opx_eq in Ey. congruence. }
  apply (erase_insn_ed _ _ _ P3) in Ef. pose proof (ed_ni _ _ Ef). split; [|split; [exact O3|split]].
  - intros v Lv. cbn in *. unfold upd. destruct (v =? i); [reflexivity|]. apply D3. cbn. lia.
  - intros v. unfold region at 1. cbn. unfold upd. destruct (Nat.eqb_spec v i) as [->|N]; [now rewrite R|].
    specialize (R3 v). exact R3.
  - exact (ed_trans _ _ _ M3 Ef).
Qed.
Lemma remove_phi_kept s t : remove_phi s = Ok t -> kept s t.
Proof.
  unfold remove_phi. intros H D. bo H l El.
  assert (F : forall i, In i l -> region s i = None /\ (opx (c_f s) i = Some PHI \/ opx (c_f s) i = None) /\ i < f_ni (c_f s)).
  { intros i I. pose proof (all_phis_flat _ _ _ El i I) as (A & B & e & C). split; [exact A|]. split; [now left|].
    destruct (Nat.lt_ge_cases i (f_ni (c_f s))) as [L|L]; [exact L|]. rewrite (D i L) in C. discriminate C. }
  clear El. revert s t H D F.
  induction l as [|i r IH]; intros s t H D F; cbn [ofold] in H; [oks H; now apply kept_refl|].
  bo H s1 E. destruct (F i (or_introl eq_refl)) as (A & B & _).
  pose proof (remove_one_phi_kept _ _ _ A B E D) as (D1 & O1 & R1 & M1).
  destruct (IH _ _ H D1) as (D2 & O2 & R2 & M2).
  { intros j J. rewrite R1. destruct (F j (or_intror J)) as (A1 & B1 & L). split; [exact A1|].
    pose proof (ed_ni _ _ M1). split; [|lia].
    destruct (ed_op _ _ M1 j L) as [Q|[_ Q]]; [rewrite Q; exact B1|now right]. }
  split; [exact D2|]. split; [congruence|]. split; [intros v; now rewrite R2|exact (ed_trans _ _ _ M1 M2)].
Qed.
Lemma ssa_out_kept s t : ssa_out s = Ok t -> kept s t.
Proof.
  unfold ssa_out. intros H. bo H s1 E. eapply kept_trans; [exact (add_stack_offset_kept _ _ _ E)|exact (remove_phi_kept _ _ H)].
Qed.

(** ** Handing out regions *)
Open Scope Z_scope.
Record winv (s : cgs) : Prop := {
  wi_frame : frame_ok s; wi_data : data_below s; wi_neg : c_off s <= 0; wi_al : c_off s mod 8 = 0 }.
Lemma winv_kept s t : kept s t -> winv s -> winv t.
Proof.
  intros K [F D N A]. destruct (K D) as (D' & O & R & _). rewrite <- O in N, A. split; [|exact D'|exact N|exact A].
  destruct F as [P Q]. split.
  - intros v o n E. rewrite R in E. rewrite O. exact (P v o n E).
  - intros v w o n o' n' X E E'. rewrite R in E, E'. exact (Q v w o n o' n' X E E').
Qed.
Lemma region_put s i e v : region (put_ex s i e) v =
  if (v =? i)%nat then (if vp_spilled (x_pos e) =? 0 then None else Some (vp_spilled (x_pos e), vp_size (x_pos e))) else region s v.
Proof.
  unfold region. destruct (Nat.eqb_spec v i) as [->|N]; [now rewrite put_ex_eq|now rewrite put_ex_ne].
Qed.
(** a region of [r] bytes for [n] bytes of data *)
Lemma grant s i e e' r n : winv s -> c_ex s i = Some e -> 0 < n <= r -> r mod 8 = 0 -> - 2 ^ 31 <= c_off s - r ->
  vp_spilled (x_pos e') = s32 (c_off s - r) -> vp_size (x_pos e') = n ->
  let t := put_ex (fst (get_new_spill s r)) i e' in
  winv t /\ c_off t = c_off s - r /\ region t i = Some (c_off t, n) /\ (forall v, v <> i -> region t v = region s v).
Proof.
  intros [[P Q] D N A] E Hn Hr Hb Ep Es t. rewrite s32_small in Ep by lia.
  assert (O : c_off t = c_off s - r) by (unfold t; cbn; apply s32_small; lia).
  assert (R : forall v, region t v = if (v =? i)%nat then Some (c_off t, n) else region s v).
  { intros v. unfold t. rewrite region_put. destruct (v =? i)%nat; [|reflexivity].
    rewrite Ep, Es. destruct (Z.eqb_spec (c_off s - r) 0); [lia|]. unfold t in O. now rewrite O. }
  assert (Ri : region t i = Some (c_off t, n)) by (rewrite R, Nat.eqb_refl; reflexivity).
  assert (Rn : forall v, v <> i -> region t v = region s v).
  { intros v X. rewrite R. destruct (Nat.eqb_spec v i); [contradiction|reflexivity]. }
  assert (Ot : c_off t <= 0 /\ c_off t mod 8 = 0 /\ c_off t + n <= c_off s /\ c_off t <= c_off s).
  { rewrite O. split; [lia|]. split; [|lia]. rewrite Zminus_mod, A, Hr. reflexivity. }
  destruct Ot as (O1 & O2 & O3 & O4).
  assert (Dt : data_below t).
  { intros v L. unfold t. rewrite put_ex_ne; [exact (D v L)|]. intros ->. rewrite (D i L) in E. discriminate E. }
  clearbody t.
  split; [|split; [exact O|split; [exact Ri|exact Rn]]]. split; [split|exact Dt|exact O1|exact O2].
  - intros v o k F. destruct (Nat.eq_dec v i) as [->|X].
    + rewrite Ri in F. injection F as <- <-. (split; [exact O2 || assumption|]); lia.
    + rewrite (Rn v X) in F. destruct (P v o k F) as (? & ? & ? & ?). (split; [exact O2 || assumption|]); lia.
  - intros v w o k o' k' X F G. destruct (Nat.eq_dec v i) as [->|X1].
    + rewrite Ri in F. injection F as <- <-. rewrite (Rn w ltac:(congruence)) in G. destruct (P w o' k' G). lia.
    + destruct (Nat.eq_dec w i) as [->|X2].
      * rewrite Ri in G. injection G as <- <-. rewrite (Rn v X1) in F. destruct (P v o k F). lia.
      * rewrite (Rn v X1) in F. rewrite (Rn w X2) in G. exact (Q v w o k o' k' X F G).
Qed.

(** ** spill_array *)
Lemma words_pos n : 0 < n -> 0 < n <= 8 * words n.
Proof. intros H. unfold words. pose proof (Z.div_mod (n + 7) 8 ltac:(lia)). pose proof (Z.mod_pos_bound (n + 7) 8 ltac:(lia)). lia. Qed.
Lemma words_ge n : n <= 8 * words n.
Proof. unfold words. pose proof (Z.div_mod (n + 7) 8 ltac:(lia)). pose proof (Z.mod_pos_bound (n + 7) 8 ltac:(lia)). lia. Qed.
Lemma words_nonneg n : 0 <= n -> 0 <= words n.
Proof. intros H. unfold words. apply Z.div_pos; lia. Qed.
Lemma roundup8_ok n : 0 <= n < 2 ^ 32 - 7 -> roundup8 n = 8 * words n.
Proof.
  intros H. unfold roundup8, M_Ra.u32. rewrite (Z.mod_small (n + 7)) by (cbn in *; lia).
  replace (-8 mod 2 ^ 32) with (Z.ldiff (Z.ones 32) (Z.ones 3)) by reflexivity.
  assert (X : forall a b c, Z.land a (Z.ldiff b c) = Z.ldiff (Z.land a b) c).
  { intros a b c. apply Z.bits_inj'. intros k K. rewrite Z.land_spec, !Z.ldiff_spec, Z.land_spec. now rewrite andb_assoc. }
  rewrite X, Z.land_ones, Z.mod_small, Z.ldiff_ones_r, Z.shiftr_div_pow2, Z.shiftl_mul_pow2 by (cbn in *; lia).
  unfold words. change (2 ^ 3) with 8. lia.
Qed.
Lemma sizeof_bytes t k : sizeof_vr t = Ok k -> k = bytes t /\ 1 <= k <= 8.
Proof. destruct t; cbn; intros H; [discriminate H|..]; injection H as <-; (split; [reflexivity|lia]). Qed.
Lemma total_app f l m : total_words f (l ++ m) = total_words f l + total_words f m.
Proof. induction l as [|a l IH]; [reflexivity|]. cbn [app total_words fold_right] in *. unfold total_words in *. cbn [fold_right]. rewrite IH. lia. Qed.
Definition granted (s : cgs) (i : nat) (x : insn) : Prop := exists o, region s i = Some (o, array_bytes x).
Lemma spill_array_one_ok s i t : winv s -> spill_array_one s i = Ok t ->
  (forall x, f_insn (c_f s) i = Some x -> i_op x = ALLOCARRAY -> 0 <= i_u x) ->
  array_words (c_f s) i < 2 ^ 27 -> - 2 ^ 31 <= c_off s - 8 * array_words (c_f s) i ->
  winv t /\ c_off t = c_off s - 8 * array_words (c_f s) i /\ c_f t = c_f s /\ c_reach t = c_reach s /\
  (forall v, v <> i -> region t v = region s v) /\
  forall x, f_insn (c_f s) i = Some x -> if iop_eqb (i_op x) ALLOCARRAY then granted t i x else region t i = region s i.
Proof.
  intros W H Hu Hw Hb. unfold spill_array_one in H. bo H x Ex. apply get_insn_ok in Ex. unfold array_words in *. rewrite Ex in *.
  unfold granted in *.
  destruct (iop_eqb (i_op x) ALLOCARRAY) eqn:B.
  2:{ oks H. split; [exact W|]. split; [lia|]. split; [reflexivity|]. split; [reflexivity|]. split; [reflexivity|].
      intros y Y. injection Y as <-. rewrite B. reflexivity. }
  bo H e Ee. bo H k Ek. apply get_ex_ok in Ee. apply sizeof_bytes in Ek as (-> & K).
  assert (U : 0 <= i_u x) by (apply Hu; [reflexivity|unfold iop_eqb in B; destruct (iop_eq_dec _ _); congruence]).
  assert (Bd : 0 <= array_bytes x < 2 ^ 30).
  { split; [unfold array_bytes; nia|]. pose proof (words_ge (array_bytes x)).
    change (2 ^ 27) with 134217728 in Hw. change (2 ^ 30) with 1073741824. lia. }
  assert (Sz : M_Ra.u32 (M_Ra.u32 (i_u x) * bytes (i_vrt x)) = array_bytes x).
  { unfold M_Ra.u32. rewrite (Z.mod_small (i_u x)).
    - apply Z.mod_small. change (2 ^ 30) with 1073741824 in Bd. change (2 ^ 32) with 4294967296. fold (array_bytes x). lia.
    - split; [exact U|]. unfold array_bytes in Bd. change (2 ^ 30) with 1073741824 in Bd. change (2 ^ 32) with 4294967296. nia. }
  rewrite Sz in H. destruct (Z.eqb_spec (array_bytes x) 0) as [Q|Q]; [discriminate H|].
  rewrite roundup8_ok in H by (change (2 ^ 30) with 1073741824 in Bd; change (2 ^ 32) with 4294967296; lia).
  set (r := 8 * words (array_bytes x)) in *.
  destruct (get_new_spill s r) as [s1 o] eqn:G. oks H.
  assert (G1 : s1 = fst (get_new_spill s r)) by (rewrite G; reflexivity).
  assert (G2 : o = s32 (c_off s - r)) by (unfold get_new_spill in G; injection G; auto).
  pose proof (words_pos (array_bytes x) ltac:(lia)) as Wp.
  destruct (grant s i e (set_pos (mkPos true (array_bytes x) (vp_reg (x_pos e)) o) (set_fin true e)) r (array_bytes x) W Ee)
    as (W' & O & R & Rn).
  - exact Wp.
  - unfold r. rewrite Z.mul_comm. apply Z_mod_mult.
  - exact Hb.
  - exact G2.
  - reflexivity.
  - rewrite <- G1 in *. split; [exact W'|]. split; [exact O|]. rewrite G1. split; [reflexivity|]. split; [reflexivity|]. rewrite <- G1.
    split; [exact Rn|]. intros y Y. injection Y as <-. rewrite B. eexists. exact R.
Qed.
Lemma spill_array_fold l : forall s t, winv s -> ofold spill_array_one s l = Ok t ->
  (forall i x, In i l -> f_insn (c_f s) i = Some x -> i_op x = ALLOCARRAY -> 0 <= i_u x) ->
  total_words (c_f s) l < 2 ^ 27 -> - 2 ^ 31 <= c_off s - 8 * total_words (c_f s) l ->
  winv t /\ c_off t = c_off s - 8 * total_words (c_f s) l /\ c_f t = c_f s /\ c_reach t = c_reach s /\
  (forall v, ~ In v l -> region t v = region s v) /\
  (forall i x, In i l -> f_insn (c_f s) i = Some x -> if iop_eqb (i_op x) ALLOCARRAY then granted t i x else region t i = region s i).
Proof.
  assert (NN : forall f l, (forall i x, In i l -> f_insn f i = Some x -> i_op x = ALLOCARRAY -> 0 <= i_u x) -> 0 <= total_words f l).
  { intros f. induction l0 as [|a r IH]; intros H; [cbn; lia|]. unfold total_words in *. cbn [fold_right].
    assert (0 <= array_words f a).
    { unfold array_words. destruct (f_insn f a) as [x|] eqn:E; [|lia]. destruct (iop_eqb (i_op x) ALLOCARRAY) eqn:B; [|lia].
      apply words_nonneg. unfold array_bytes. assert (0 <= i_u x) by (apply (H a x); [now left|exact E|unfold iop_eqb in B; destruct (iop_eq_dec _ _); congruence]).
      assert (0 <= bytes (i_vrt x)) by (destruct (i_vrt x); cbn; lia). nia. }
    assert (0 <= fold_right (fun i b => array_words f i + b) 0 r) by (apply IH; intros i x I; apply H; now right). lia. }
  induction l as [|a r IH]; intros s t W H Hu Hw Hb; cbn [ofold] in H.
  - oks H. cbn [total_words fold_right]. split; [exact W|]. split; [cbn; lia|]. split; [reflexivity|]. split; [reflexivity|].
    split; [reflexivity|intros i x []].
  - bo H s1 E.
    assert (T : total_words (c_f s) (a :: r) = array_words (c_f s) a + total_words (c_f s) r) by reflexivity.
    assert (0 <= total_words (c_f s) r) by (apply NN; intros i x I; apply Hu; now right).
    assert (0 <= array_words (c_f s) a).
    { pose proof (NN (c_f s) [a]) as Q. cbn in Q. rewrite Z.add_0_r in Q. apply Q. intros i x [<-|[]]. apply Hu. now left. }
    destruct (spill_array_one_ok s a s1 W E) as (W1 & O1 & F1 & B1 & R1 & G1); [intros x; apply Hu; now left|lia|lia|].
    destruct (IH s1 t W1 H) as (W2 & O2 & F2 & B2 & R2 & G2).
    + rewrite F1. intros i x I. apply Hu. now right.
    + rewrite F1. lia.
    + rewrite F1, O1. lia.
    + rewrite F1 in *. split; [exact W2|]. split; [lia|]. split; [exact F2|]. split; [congruence|]. split.
      * intros v X. rewrite R2 by (intros I; apply X; now right). apply R1. intros ->. apply X. now left.
      * intros i x I Fi. destruct (in_dec Nat.eq_dec i r) as [J|J].
        -- specialize (G2 i x J Fi). destruct (iop_eqb (i_op x) ALLOCARRAY) eqn:B; [exact G2|]. rewrite G2.
           destruct (Nat.eq_dec i a) as [->|X]; [specialize (G1 x Fi); now rewrite B in G1|exact (R1 i X)].
        -- destruct I as [<-|I]; [|contradiction]. specialize (G1 x Fi).
           destruct (iop_eqb (i_op x) ALLOCARRAY) eqn:B; [|rewrite (R2 _ J); exact G1].
           destruct G1 as [o G1]. exists o. rewrite (R2 _ J). exact G1.
Qed.
Lemma insns_in_flat f l : forall r, insns_in f l = Ok r -> r = flat_map (insns_of f) l.
Proof.
  induction l as [|b l IH]; intros r H; cbn [insns_in] in H; [now oks H|]. bo H x E. bo H t Et. oks H.
  cbn [flat_map]. rewrite (IH _ Et). apply get_block_ok in E. unfold insns_of. now rewrite E.
Qed.
Lemma spill_array_ok s t : winv s -> spill_array s = Ok t -> counts_ok s -> arrays_words s < 2 ^ 27 ->
  - 2 ^ 31 <= c_off s - 8 * arrays_words s ->
  winv t /\ c_off t = c_off s - 8 * arrays_words s /\ c_f t = c_f s /\ (forall i x, is_array s i x -> granted t i x).
Proof.
  intros W H Hc Hw Hb. unfold spill_array in H. bo H l El. apply insns_in_flat in El. subst l.
  destruct (spill_array_fold _ _ _ W H) as (W1 & O1 & F1 & _ & _ & G1).
  - intros i x I Fi Oi. apply (Hc i x). split; [|split; assumption]. now apply flat_linked.
  - exact Hw.
  - exact Hb.
  - split; [exact W1|]. split; [exact O1|]. split; [exact F1|]. intros i x (L & Fi & Oi).
    apply flat_linked in L. specialize (G1 i x L Fi). rewrite Oi in G1. exact G1.
Qed.

(** ** spill *)
Lemma finalize_ok s a t : winv s -> finalize_stack s a = Ok t -> - 2 ^ 31 <= c_off s - 8 ->
  winv t /\ c_off t = c_off s - 8 /\ region t a = Some (c_off t, 8) /\ (forall v, v <> a -> region t v = region s v) /\ c_f t = c_f s.
Proof.
  intros W H Hb. unfold finalize_stack in H. destruct (get_new_spill s 8) as [s1 o] eqn:G. bo H e E. oks H.
  assert (G1 : s1 = fst (get_new_spill s 8)) by (rewrite G; reflexivity).
  assert (G2 : o = s32 (c_off s - 8)) by (unfold get_new_spill in G; injection G; auto).
  apply get_ex_ok in E. assert (E' : c_ex s a = Some e) by (rewrite G1 in E; exact E).
  destruct (grant s a e (set_pos (mkPos true 8 (vp_reg (x_pos e)) o) (set_fin true e)) 8 8 W E') as (W' & O & R & Rn);
    [lia|reflexivity|exact Hb|exact G2|reflexivity|].
  rewrite <- G1 in *. split; [exact W'|]. split; [exact O|]. split; [exact R|]. split; [exact Rn|]. rewrite G1. reflexivity.
Qed.
Lemma cg_load_kept s p a c : cg_load s p a = Ok c -> kept s (fst c).
Proof.
  unfold cg_load. intros H. bo H y Ey. destruct (negb _); [discriminate H|]. bo H d Ed. bo H t Et. oks H. cbn [fst].
  eapply kept_trans; [|apply kept_f; exact (ed_put _ _ _ (set_vrt (i_vrt y) t) Et eq_refl)].
  destruct d as [u j]. cbn [fst snd] in *. destruct p; [exact (cg_create_kept _ _ _ _ _ _ Ed)|exact (cg_create_bb_kept _ _ _ _ _ _ Ed)].
Qed.
Lemma spill_user_kept a v s u t : spill_user a v s u = Ok t -> kept s t.
Proof.
  unfold spill_user. intros H. bo H x Ex. destruct (_ && _); [oks H; apply kept_refl|]. destruct (iop_eqb (i_op x) PHI).
  - refine (kept_fold _ _ _ _ _ H). clear. intros s k t _ H. unfold spill_phi_slot in H. bo H y Ey.
    destruct (nth_error (i_phi y) k) as [[w bb]|]; [|discriminate H]. destruct (refers v w); [|oks H; apply kept_refl].
    bo H c Ec. eapply kept_trans; [exact (cg_load_kept _ _ _ _ Ec)|]. apply (kept_in_func _ _ _ H). intros f. apply change_value_ed.
  - bo H c Ec. eapply kept_trans; [exact (cg_load_kept _ _ _ _ Ec)|]. refine (kept_fold _ _ _ _ _ H). clear. intros s sl t _ H.
    unfold spill_slot in H. bo H y Ey. destruct (slot_get y sl); [|discriminate H]. destruct (refers v v0); [|oks H; apply kept_refl].
    apply (kept_in_func _ _ _ H). intros f. apply change_value_ed.
Qed.
Lemma kept_users a v l : forall s t, ofold (spill_user a v) s l = Ok t -> kept s t.
Proof. intros s t H. refine (kept_fold _ _ _ _ _ H). intros ? ? ? _. apply spill_user_kept. Qed.

(** a value that is spilled gets a new region of eight bytes; no other region changes *)
Lemma spill_one_ok s v t : winv s -> spill_one s v = Ok t -> - 2 ^ 31 <= c_off s - 8 ->
  winv t /\ c_off t = c_off s - 8 /\ ed (c_f s) (c_f t) /\
  exists a, region t a = Some (c_off t, 8) /\ (forall w, w <> a -> region t w = region s w) /\
    ((a = v /\ opx (c_f s) v = Some ALLOC) \/ (a = f_ni (c_f s) /\ opx (c_f s) v <> Some ALLOC)) /\
    opx (c_f s) v <> Some ALLOCARRAY.
Proof.
  intros W H Hb. unfold spill_one in H. bo H x Ex. pose proof (opx_eq _ _ _ Ex) as Ox.
  destruct (iop_eqb (i_op x) CALL || iop_eqb (i_op x) ALLOCARRAY) eqn:B; [discriminate H|].
  assert (NA : i_op x <> ALLOCARRAY).
  { intros Q. rewrite Q in B. apply orb_false_iff in B as [_ B]. discriminate B. }
  destruct (iop_eqb (i_op x) ALLOC) eqn:A.
  - assert (IA : i_op x = ALLOC) by (unfold iop_eqb in A; destruct (iop_eq_dec _ _); congruence).
    destruct (finalize_ok _ _ _ W H Hb) as (W1 & O1 & R1 & N1 & F1). split; [exact W1|]. split; [exact O1|].
    split; [rewrite F1; apply ed_refl|]. exists v. split; [exact R1|]. split; [exact N1|]. split; [left; split; congruence|congruence].
  - assert (IA : i_op x <> ALLOC) by (intros Q; rewrite Q in A; discriminate A).
    bo H c Ec. destruct c as [s1 a]. cbn [fst snd] in H. bo H d Ed. destruct d as [s2 st]. cbn [fst snd] in H. bo H s3 E3.
    pose proof (cg_create_bb_kept _ _ _ _ _ _ Ec) as K1. destruct (cg_create_bb_new _ _ _ _ _ _ Ec) as (Ia & La & _).
    pose proof (cg_create_kept _ _ _ _ _ _ Ed) as K2. pose proof (kept_users _ _ _ _ _ H) as K4.
    pose proof (kept_trans _ _ _ K1 K2) as K12. pose proof (winv_kept _ _ K12 W) as W2.
    destruct (K12 (wi_data _ W)) as (D2 & O2 & R2 & M2).
    destruct (finalize_ok _ _ _ W2 E3 ltac:(lia)) as (W3 & O3 & R3 & N3 & F3).
    pose proof (winv_kept _ _ K4 W3) as W4. destruct (K4 (wi_data _ W3)) as (D4 & O4 & R4 & M4).
    split; [exact W4|]. split; [lia|]. split; [apply (ed_trans _ _ _ M2); rewrite <- F3; exact M4|].
    exists a. split; [rewrite R4, O4; exact R3|]. split.
    + intros w X. rewrite R4, (N3 w X). apply R2.
    + split; [right; split; [exact Ia|congruence]|congruence].
Qed.
(** arrays keep their regions *)
Definition arrays_kept (s t : cgs) : Prop :=
  forall i, (i < f_ni (c_f s))%nat -> opx (c_f s) i = Some ALLOCARRAY -> opx (c_f t) i = Some ALLOCARRAY /\ region t i = region s i.
Lemma arrays_trans s t u : (f_ni (c_f s) <= f_ni (c_f t))%nat -> arrays_kept s t -> arrays_kept t u -> arrays_kept s u.
Proof. intros L A B i Li Oi. destruct (A i Li Oi) as [O R]. destruct (B i ltac:(lia) O) as [O' R']. split; [exact O'|congruence]. Qed.
Lemma kept_arrays s t : data_below s -> kept s t -> arrays_kept s t.
Proof.
  intros D K i Li Oi. destruct (K D) as (_ & _ & R & M). split; [|apply R].
  destruct (ed_op _ _ M i Li) as [Q|[Q _]]; congruence.
Qed.
Lemma spill_ok l : forall s t, winv s -> spill s l = Ok t -> - 2 ^ 31 <= c_off s - 8 * Z.of_nat (length l) ->
  winv t /\ c_off t = c_off s - 8 * Z.of_nat (length l) /\ (f_ni (c_f s) <= f_ni (c_f t))%nat /\ arrays_kept s t.
Proof.
  induction l as [|v l IH]; intros s t W H Hb; unfold spill in *; cbn [ofold] in H.
  - oks H. split; [exact W|]. split; [cbn; lia|]. split; [lia|]. intros i _ O. auto.
  - bo H s1 E. cbn [length] in *. rewrite Nat2Z.inj_succ in *.
    destruct (spill_one_ok _ _ _ W E ltac:(lia)) as (W1 & O1 & M1 & a & R1 & N1 & C1 & NA).
    destruct (IH s1 t W1 H ltac:(lia)) as (W2 & O2 & L2 & A2). split; [exact W2|]. split; [lia|].
    pose proof (ed_ni _ _ M1). split; [lia|]. apply (arrays_trans _ s1); [lia| |exact A2].
    intros i Li Oi. split; [destruct (ed_op _ _ M1 i Li) as [Q|[Q _]]; congruence|].
    apply N1. intros ->. destruct C1 as [[-> Q]|[-> _]]; [congruence|lia].
Qed.

Lemma ra_loop_ok fuel om os chk (Hc : forall s t, chk s = Ok t -> t = s) : forall n s t, winv s -> ra_loop n fuel om os chk s = Ok t ->
  - 2 ^ 31 <= c_off s - 8 * (Z.of_nat n * Z.of_nat fuel) ->
  winv t /\ c_off s - 8 * (Z.of_nat n * Z.of_nat fuel) <= c_off t <= c_off s /\ (f_ni (c_f s) <= f_ni (c_f t))%nat /\ arrays_kept s t.
Proof.
  induction n as [|n IH]; intros s t W H Hb; cbn [ra_loop] in H; [discriminate H|].
  bo H s1 E1. bo H r Er. rewrite Nat2Z.inj_succ in *. pose proof (pre_spill_length _ _ _ _ _ Er) as Ln. destruct r as [s2 [ts eps]]. cbn [fst snd] in *.
  pose proof (kept_trans _ _ _ (analysis_kept _ _ _ E1) (pre_spill_kept _ _ _ _ _ _ Er)) as K.
  pose proof (winv_kept _ _ K W) as W2. pose proof (kept_arrays _ _ (wi_data _ W) K) as A2.
  destruct (K (wi_data _ W)) as (D2 & O2 & R2 & M2). pose proof (ed_ni _ _ M2).
  destruct ts as [|v ts].
  - oks H. split; [exact W2|]. split; [nia|]. split; [lia|exact A2].
  - bo H s3 E3. bo H s4 E4. apply Hc in E4. subst s4. set (l := v :: ts) in *.
    destruct (spill_ok _ _ _ W2 E3) as (W3 & O3 & L3 & A3); [nia|].
    destruct (IH _ _ W3 H) as (W4 & O4 & L4 & A4); [nia|]. split; [exact W4|]. split; [nia|]. split; [lia|].
    apply (arrays_trans _ s3); [lia| |exact A4]. apply (arrays_trans _ s2); [lia|exact A2|exact A3].
Qed.

(** ** The allocator as a whole *)
Lemma init_winv f reach sp args s : fresh f -> (sp < f_ni f)%nat -> init_cg f reach sp args = Ok s -> winv s /\ fresh (c_f s) /\ frame_empty s.
Proof.
  intros Fr Ls H. unfold init_cg in H. bo H l El. bo H s2 E2. oks H. set (s1 := fold_left _ _ _) in E2.
  pose (good s := data_below s /\ c_off s = 0 /\ (forall v, region s v = None) /\ fresh (c_f s) /\ (f_ni f <= f_ni (c_f s))%nat).
  assert (G1 : good s1).
  { unfold s1. generalize (seq 0 10). assert (G0 : good (mkCg f reach (fun _ => None) [] sp args [] [] 0)).
    { repeat split; auto. }
    revert G0. generalize (mkCg f reach (fun _ => None) [] sp args [] [] 0). intros s G l0. revert s G.
    induction l0 as [|k r IH]; intros s (D & O & R & F & L); [cbn; repeat split; auto|]. cbn [fold_left]. apply IH. unfold new_reg. split; [|split; [reflexivity|split; [|split]]].
    - intros v Lv. cbn in *. unfold upd. destruct (Nat.eqb_spec v (f_ni (c_f s))); [lia|]. apply D. lia.
    - intros v. specialize (R v). unfold region in *. cbn. unfold upd. destruct (v =? _)%nat; [reflexivity|exact R].
    - intros v Lv. cbn in *. unfold upd. destruct (Nat.eqb_spec v (f_ni (c_f s))); [lia|]. apply F. lia.
    - cbn. lia. }
  assert (G2 : good s2).
  { clearbody s1. clear - G1 E2. revert s1 s2 G1 E2. induction l as [|i r IH]; intros s t G H; cbn [ofold] in H; [oks H; exact G|].
    bo H s1 E. apply (IH s1 t); [|exact H]. unfold init_one in E. bo E x Ex. oks E. destruct G as (D & O & R & F & L).
    apply get_insn_ok in Ex. assert (Li : (i < f_ni (c_f s))%nat).
    { destruct (Nat.lt_ge_cases i (f_ni (c_f s))) as [A|A]; [exact A|]. rewrite (F i A) in Ex. discriminate Ex. }
    split; [|split; [exact O|split; [|split; [exact F|exact L]]]].
    - intros v Lv. cbn in Lv. rewrite put_ex_ne by lia. exact (D v Lv).
    - intros v. rewrite region_put. destruct (v =? i)%nat; [reflexivity|apply R]. }
  destruct G2 as (D & O & R & F & L).
  assert (R' : forall v, region (put_ex s2 sp (ex_reg sp 10)) v = None).
  { intros v. rewrite region_put. destruct (v =? sp)%nat; [reflexivity|apply R]. }
  split; [|split; [exact F|split; [exact O|exact R']]]. split.
  - split; [intros v o n Q; rewrite R' in Q; discriminate Q|intros v w o n o' n' _ Q; rewrite R' in Q; discriminate Q].
  - intros v Lv. cbn in Lv. rewrite put_ex_ne by lia. exact (D v Lv).
  - cbn. lia.
  - cbn. now rewrite O.
Qed.

Lemma regions_ok f reach sp args fuel om os chk sc s3 s4 :
  fresh f -> (sp < f_ni f)%nat -> (forall s t, chk s = Ok t -> t = s) -> Z.of_nat fuel < 2 ^ 24 ->
  compiled f reach sp args fuel om os chk sc s3 s4 -> counts_ok sc -> arrays_words sc < 2 ^ 27 ->
  frame_ok s4 /\ frame_ok s3 /\ c_off s4 = c_off s3 /\ (forall v, region s4 v = region s3 v) /\
  forall i x, is_array sc i x -> exists o, region s4 i = Some (o, array_bytes x).
Proof.
  intros Fr Ls Hc Hf (sa & sb & sd & s1 & s2 & Ia & Ib & Ic & Id & I1 & I2 & I3 & I4) Cn Wn.
  destruct (init_winv _ _ _ _ _ Fr Ls Ia) as (Wa & Fa & Ea & _).
  pose proof (kept_trans _ _ _ (change_call_kept _ _ Ib) (change_fun_arg_kept _ _ Ic)) as Kc.
  pose proof (winv_kept _ _ Kc Wa) as Wc. destruct (Kc (wi_data _ Wa)) as (_ & Oc & _ & Mc).
  pose proof (ed_fresh _ _ Mc Fa) as Fc.
  change (2 ^ 24) with 16777216 in Hf. change (2 ^ 27) with 134217728 in Wn.
  destruct (spill_array_ok _ _ Wc Id Cn) as (Wd & Od & Fd & Gd); [exact Wn|change (2 ^ 31) with 2147483648; lia|].
  pose proof (spill_const_kept _ _ I1) as K1. pose proof (winv_kept _ _ K1 Wd) as W1.
  destruct (K1 (wi_data _ Wd)) as (_ & O1 & R1 & M1).
  destruct (ra_loop_ok _ _ _ _ Hc _ _ _ W1 I2) as (W2 & O2 & L2 & A2).
  { change (Z.of_nat 6) with 6. change (2 ^ 31) with 2147483648. lia. }
  pose proof (kept_trans _ _ _ (assign_kept _ _ I3) (ssa_out_kept _ _ I4)) as K4.
  pose proof (winv_kept _ _ K4 W2) as W4. split; [exact (wi_frame _ W4)|].
  pose proof (winv_kept _ _ (assign_kept _ _ I3) W2) as W3. destruct (ssa_out_kept _ _ I4 (wi_data _ W3)) as (_ & O4 & R43 & _).
  split; [exact (wi_frame _ W3)|]. split; [exact O4|]. split; [exact R43|].
  - intros i x Ai. destruct (Gd i x Ai) as [o Ro]. exists o. destruct Ai as (_ & Fi & Oi).
    assert (Li : (i < f_ni (c_f sd))%nat).
    { rewrite Fd. destruct (Nat.lt_ge_cases i (f_ni (c_f sc))) as [A|A]; [exact A|]. rewrite (Fc i A) in Fi. discriminate Fi. }
    assert (Oxi : opx (c_f sd) i = Some ALLOCARRAY) by (rewrite Fd; unfold opx; rewrite Fi; cbn; congruence).
    destruct (arrays_trans _ _ _ (ed_ni _ _ M1) (kept_arrays _ _ (wi_data _ Wd) K1) A2 i Li Oxi) as [_ R2].
    destruct (K4 (wi_data _ W2)) as (_ & _ & R4 & _). rewrite R4, R2. exact Ro.
Qed.

(** ** add_stack_offset *)
Lemma shift_fold o l : forall s t, NoDup l ->
  ofold (fun t i => do x <- get_insn (c_f t) i; Ok (with_f (put_insn (c_f t) i (shift_insn o x)) t)) s l = Ok t ->
  (forall v, c_ex t v = c_ex s v) /\ c_off t = c_off s /\
  (forall i, ~ In i l -> f_insn (c_f t) i = f_insn (c_f s) i) /\
  (forall i x, In i l -> f_insn (c_f s) i = Some x -> f_insn (c_f t) i = Some (shift_insn o x)).
Proof.
  induction l as [|a r IH]; intros s t Nd H; cbn [ofold] in H.
  - oks H. repeat split; auto. intros i x [].
  - bo H s1 E. bo E x Ex. oks E. apply get_insn_ok in Ex. inversion_clear Nd.
    destruct (IH _ _ H1 H) as (X & O & N & G). split; [exact X|]. split; [exact O|]. split.
    + intros i J. rewrite N by (intros I; apply J; now right). cbn. unfold upd. destruct (Nat.eqb_spec i a) as [->|Q]; [|reflexivity].
      exfalso. apply J. now left.
    + intros i y I Fi. destruct (Nat.eq_dec i a) as [->|Q].
      * rewrite (N a H0). cbn. unfold upd. rewrite Nat.eqb_refl. congruence.
      * apply G; [destruct I; [congruence|assumption]|]. cbn. unfold upd. destruct (Nat.eqb_spec i a); [contradiction|exact Fi].
Qed.
Lemma add_stack_offset_ok s t : NoDup (flat_map (insns_of (c_f s)) (c_reach s)) -> add_stack_offset s (c_off s) = Ok t ->
  - 2 ^ 15 <= c_off s < 2 ^ 15 ->
  (forall v, region t v = region s v) /\ c_off t = c_off s /\
  forall i x, linked s i -> f_insn (c_f s) i = Some x -> f_insn (c_f t) i = Some (shift_insn (c_off s) x).
Proof.
  intros Nd H Hb. unfold add_stack_offset in H. bo H l El. apply insns_in_flat in El. subst l.
  rewrite s16_small in H by exact Hb. destruct (shift_fold _ _ _ _ Nd H) as (X & O & _ & G).
  split; [intros v; unfold region; now rewrite X|]. split; [exact O|]. intros i x L. apply G. now apply flat_linked.
Qed.
Lemma own_ok s t i x k : frame_ok s -> NoDup (flat_map (insns_of (c_f s)) (c_reach s)) -> add_stack_offset s (c_off s) = Ok t ->
  - 2 ^ 15 <= c_off s <= 0 -> linked s i -> f_insn (c_f s) i = Some x -> i_op x = LOADRAW \/ i_op x = STORERAW ->
  a_ot (i_addr x) = O_RAWOFF -> - 2 ^ 15 <= a_off (i_addr x) + c_off s -> a_off (i_addr x) + k <= 0 -> 0 <= k ->
  exists y, f_insn (c_f t) i = Some y /\ a_ot (i_addr y) = O_CONST /\ a_val (i_addr y) = a_val (i_addr x) /\
    a_off (i_addr y) = a_off (i_addr x) + c_off s /\ misses t (a_off (i_addr y)) k.
Proof.
  intros F Nd H Hb L Fi Op Ot Lo Hi Hk. change (2 ^ 15) with 32768 in *.
  destruct (add_stack_offset_ok _ _ Nd H) as (R & O & G); [change (2 ^ 15) with 32768; lia|].
  exists (shift_insn (c_off s) x). split; [exact (G i x L Fi)|]. unfold shift_insn.
  assert (Rw : is_raw (i_op x) = true) by (destruct Op as [-> | ->]; reflexivity). rewrite Rw, Ot. cbn.
  split; [reflexivity|]. split; [reflexivity|].
  rewrite s16_small by (change (2 ^ 15) with 32768; lia). split; [reflexivity|].
  intros v o n Q. rewrite R in Q. destruct (fr_place _ F v o n Q) as (_ & _ & A & _). left. lia.
Qed.
Lemma computed_ok s t i x j v c : NoDup (flat_map (insns_of (c_f s)) (c_reach s)) -> add_stack_offset s (c_off s) = Ok t ->
  - 2 ^ 15 <= c_off s <= 0 -> linked s i -> f_insn (c_f s) i = Some x -> i_op x <> LOADRAW -> i_op x <> STORERAW ->
  nth_error (i_vals x) j = Some v -> v_data v = VRawOff c -> - 2 ^ 63 <= c + c_off s < 2 ^ 63 ->
  exists y v', f_insn (c_f t) i = Some y /\ i_op y = i_op x /\ nth_error (i_vals y) j = Some v' /\ v_data v' = VConst (c + c_off s).
Proof.
  intros Nd H Hb L Fi N1 N2 Hj Hv Hc. change (2 ^ 15) with 32768 in *.
  destruct (add_stack_offset_ok _ _ Nd H) as (R & O & G); [change (2 ^ 15) with 32768; lia|].
  assert (Rw : is_raw (i_op x) = false).
  { unfold is_raw, iop_eqb. destruct (iop_eq_dec (i_op x) LOADRAW); [contradiction|]. destruct (iop_eq_dec (i_op x) STORERAW); [contradiction|reflexivity]. }
  exists (shift_insn (c_off s) x), (shift_value (c_off s) v). split; [exact (G i x L Fi)|]. split; [apply shift_op|].
  assert (V : i_vals (shift_insn (c_off s) x) = map (shift_value (c_off s)) (i_vals x)).
  { unfold shift_insn. rewrite Rw. destruct (iop_eqb (i_op x) PHI); reflexivity. }
  rewrite V, nth_error_map, Hj. split; [reflexivity|]. unfold shift_value. rewrite Hv. cbn. unfold s64. rewrite sgn_small; [reflexivity|lia|exact Hc].
Qed.

Lemma spilled_region s v x t : frame_ok s -> data_below s -> c_off s <= 0 -> c_off s mod 8 = 0 -> - 2 ^ 31 <= c_off s - 8 ->
  f_insn (c_f s) v = Some x -> spill_one s v = Ok t ->
  frame_ok t /\ c_off t = c_off s - 8 /\
  exists a, region t a = Some (c_off s - 8, 8) /\ (forall w, w <> a -> region t w = region s w) /\
    a = if iop_eqb (i_op x) ALLOC then v else f_ni (c_f s).
Proof.
  intros F D N A B Fx H. destruct (spill_one_ok s v t (Build_winv _ F D N A) H B) as (W & O & _ & a & R & Rn & C & _).
  split; [exact (wi_frame _ W)|]. split; [exact O|]. exists a. rewrite <- O. split; [exact R|]. split; [exact Rn|].
  unfold opx in C. rewrite Fx in C. cbn in C. unfold iop_eqb. destruct (iop_eq_dec (i_op x) ALLOC) as [Q|Q].
  - destruct C as [[-> _]|[_ C]]; [reflexivity|congruence].
  - destruct C as [[_ C]|[-> _]]; [congruence|reflexivity].
Qed.
