(** tag_ir numbers what can be reached. *)
From Coq Require Import Lia.
From Verif Require Import M_Base M_Ir SpecIr SpecLayout M_Tag SpecTag.
Open Scope list_scope.
Open Scope nat_scope.

Lemma nth_snoc {A} (l : list A) a k c : nth_error (l ++ [a]) k = Some c <-> nth_error l k = Some c \/ (k = length l /\ c = a).
Proof.
  destruct (Nat.lt_ge_cases k (length l)) as [L|L].
  - rewrite nth_error_app1 by auto. split; [auto|]. intros [H|(H & _)]; [auto|lia].
  - rewrite nth_error_app2 by auto. assert (N : nth_error l k = None) by now apply nth_error_None. rewrite N. destruct (k - length l) as [|d] eqn:D.
    + cbn. split; [intros [= ->]; right; split; [lia|auto]|intros [[=]|(_ & ->)]; auto].
    + split; [destruct d; discriminate|]. intros [[=]|(H & _)]. lia.
Qed.
Definition nonvoid (f : func) (i : nat) : bool := match f_insn f i with Some x => negb (is_void_op (i_op x)) | None => false end.
Definition names (f : func) (b : nat) : list nat := filter (nonvoid f) (insns_of f b).
Definition indexed (P : nat -> Prop) (m : nat -> option nat) (l : list nat) : Prop := forall c k, P c -> m c = Some k <-> nth_error l k = Some c.
Lemma indexed_snoc P m l a : indexed P m l -> ~ In a l -> indexed P (upd m a (Some (length l))) (l ++ [a]).
Proof.
  intros H N c k C. rewrite nth_snoc. unfold upd. destruct (Nat.eqb_spec c a) as [->|D].
  - split; [intros [= <-]; auto|]. intros [K|(-> & _)]; [|auto]. elim N. eapply nth_error_In; eauto.
  - rewrite (H c k C). split; [auto|]. intros [K|(_ & K)]; [auto|contradiction].
Qed.
Section S.
Context (f : func) (B : blocks_ok f) (LK : linked_ok f) (ON : forall b, NoDup (insns_of f b)).
Definition linked_in (i : nat) : Prop := exists b, In i (insns_of f b).
Record tagged (vs : list nat) (s : tags) : Prop := {
  tg_nodup : NoDup vs;
  tg_live : forall b, In b vs -> f_block f b <> None;
  tg_vis : forall b, f_block f b <> None -> t_vis s b = true <-> In b vs;
  tg_bcnt : t_bcnt s = length vs;
  tg_cnt : t_cnt s = length (flat_map (names f) vs);
  tg_bid : indexed (fun b => f_block f b <> None) (t_bid s) vs;
  tg_iid : indexed linked_in (t_iid s) (flat_map (names f) vs) }.
Lemma name_all l : forall s L, indexed linked_in (t_iid s) L -> t_cnt s = length L -> NoDup l -> (forall i, In i l -> ~ In i L /\ f_insn f i <> None) ->
  exists s', ofold (name_insn f) s l = Ok s' /\ indexed linked_in (t_iid s') (L ++ filter (nonvoid f) l) /\ t_cnt s' = length (L ++ filter (nonvoid f) l) /\
    t_vis s' = t_vis s /\ t_bid s' = t_bid s /\ t_bcnt s' = t_bcnt s.
Proof.
  induction l as [|i l IH]; intros s L H C N D; cbn [ofold filter].
  - exists s. rewrite app_nil_r. auto 8.
  - destruct (D i (or_introl eq_refl)) as (NI & LI). unfold name_insn at 1, get_insn. destruct (f_insn f i) as [x|] eqn:X; [|congruence]. cbn [bind].
    assert (NV : nonvoid f i = negb (is_void_op (i_op x))) by (unfold nonvoid; now rewrite X). rewrite NV.
    apply NoDup_cons_iff in N as (NL & N). destruct (negb (is_void_op (i_op x))) eqn:V.
    + destruct (IH (mkTags (t_vis s) (t_bid s) (upd (t_iid s) i (Some (t_cnt s))) (S (t_cnt s)) (t_bcnt s)) (L ++ [i])) as (s' & E & H1 & H2 & H3 & H4 & H5).
      * cbn. rewrite C. now apply indexed_snoc.
      * cbn. rewrite app_length. cbn. lia.
      * auto.
      * intros j J. destruct (D j (or_intror J)) as (J1 & J2). split; auto. rewrite in_app_iff. cbn. intros [K|[K|[]]]; [auto|subst; contradiction].
      * exists s'. rewrite <- app_assoc in H1, H2. cbn in *. auto 8.
    + destruct (IH s L H C) as (s' & E & H1); auto. { intros j J. apply D. now right. } exists s'. auto.
Qed.
Lemma names_in b i : In i (names f b) <-> In i (insns_of f b) /\ nonvoid f i = true.
Proof. apply filter_In. Qed.
Lemma succ_live b s : In s (succs_of f b) -> f_block f s <> None.
Proof. intros I. destruct B as (_ & _ & A & _ & S). destruct (proj1 (A s) (S b s I)) as (x & ->). discriminate. Qed.
Lemma entered vs s b x : tagged vs s -> f_block f b = Some x -> t_vis s b = false -> exists s', ofold (name_insn f) (enter s b) (b_insns x) = Ok s' /\ tagged (vs ++ [b]) s'.
Proof.
  intros T X V. assert (LB : f_block f b <> None) by congruence. assert (NB : ~ In b vs) by (intros K; apply (tg_vis _ _ T b LB) in K; congruence).
  assert (IX : insns_of f b = b_insns x) by (unfold insns_of; now rewrite X).
  destruct (name_all (b_insns x) (enter s b) (flat_map (names f) vs)) as (s' & E & H1 & H2 & H3 & H4 & H5).
  - exact (tg_iid _ _ T).
  - exact (tg_cnt _ _ T).
  - rewrite <- IX. apply ON.
  - intros i I. rewrite <- IX in I. destruct (LK b i I) as (y & Y & P). split; [|congruence]. intros K. apply in_flat_map in K as (c & C & K). apply names_in in K as (K & _).
    destruct (LK c i K) as (z & Z & Q). assert (b = c) by congruence. clear P Q. subst c. contradiction.
  - exists s'. split; auto. assert (FM : flat_map (names f) (vs ++ [b]) = flat_map (names f) vs ++ filter (nonvoid f) (b_insns x)).
    { rewrite flat_map_app. cbn. rewrite app_nil_r. unfold names at 2. now rewrite IX. }
    constructor.
    + apply NoDup_Add with (a := b) (l := vs); [|split; [apply T|auto]]. replace vs with (vs ++ []) at 1 by apply app_nil_r. apply Add_app.
    + intros c C. apply in_app_iff in C as [C|[<-|[]]]; [now apply (tg_live _ _ T)|auto].
    + intros c C. rewrite H3. cbn. unfold upd. rewrite in_app_iff. cbn. destruct (Nat.eqb_spec c b) as [->|D]; [split; auto|]. rewrite (tg_vis _ _ T c C). intuition congruence.
    + rewrite H5. cbn. rewrite app_length, (tg_bcnt _ _ T). cbn. lia.
    + now rewrite FM.
    + rewrite H4. cbn. rewrite (tg_bcnt _ _ T). apply indexed_snoc; [apply T|auto].
    + now rewrite FM.
Qed.
Lemma tagged_len vs s : tagged vs s -> length vs <= length (f_all f).
Proof.
  intros T. apply NoDup_incl_length; [apply T|]. intros b I. apply (tg_live _ _ T) in I. destruct B as (_ & _ & A & _). apply A. destruct (f_block f b) as [x|]; [eauto|congruence].
Qed.
Lemma assign_ok : forall fuel b vs s, length (f_all f) < fuel + length vs -> tagged vs s -> f_block f b <> None ->
  exists s' ws, assign_id fuel f b s = Ok s' /\ tagged (vs ++ ws) s' /\ In b (vs ++ ws) /\ (forall w, In w ws -> reach f b w) /\
    (forall w c, In w ws -> In c (succs_of f w) -> In c (vs ++ ws)) /\ (~ In b vs -> exists r, ws = b :: r).
Proof.
  induction fuel as [|k IH]; intros b vs s FU T LB.
  - pose proof (tagged_len _ _ T). cbn in FU. lia.
  - cbn [assign_id]. unfold get_block. destruct (f_block f b) as [x|] eqn:X; [|congruence]. cbn [bind]. destruct (t_vis s b) eqn:V.
    { exists s, []. rewrite app_nil_r. assert (IV : In b vs) by (apply (tg_vis _ _ T); congruence). split; auto. split; auto. split; auto. split; [intros w []|]. split; [intros w c []|]. intros N. contradiction. }
    destruct (entered vs s b x T X V) as (s1 & E1 & T1). rewrite E1. cbn [bind].
    assert (SX : succs_of f b = b_succs x) by (unfold succs_of; now rewrite X).
    assert (FOLD : forall l ws0 s0, incl l (succs_of f b) -> tagged ((vs ++ [b]) ++ ws0) s0 ->
      exists s' ws, ofold (fun s n => assign_id k f n s) s0 l = Ok s' /\ tagged ((vs ++ [b]) ++ ws0 ++ ws) s' /\ (forall w, In w ws -> reach f b w) /\
        (forall c, In c l -> In c ((vs ++ [b]) ++ ws0 ++ ws)) /\ (forall w c, In w ws -> In c (succs_of f w) -> In c ((vs ++ [b]) ++ ws0 ++ ws))).
    { induction l as [|n l IL]; intros ws0 s0 SB T0; cbn [ofold].
      - exists s0, []. rewrite app_nil_r. split; auto. split; auto. split; [intros w []|]. split; [intros c []|intros w c []].
      - assert (IN : In n (succs_of f b)) by (apply SB; now left).
        destruct (IH n ((vs ++ [b]) ++ ws0) s0) as (s2 & w1 & A1 & A2 & A3 & A4 & A5 & _); [rewrite !app_length; cbn; lia|auto|eapply succ_live; eauto|].
        rewrite A1. cbn [bind]. rewrite <- (app_assoc (vs ++ [b]) ws0 w1) in A2. destruct (IL (ws0 ++ w1) s2) as (s3 & w2 & B1 & B2 & B3 & B4 & B5); [intros c C; apply SB; now right|auto|].
        exists s3, (w1 ++ w2). split; auto. rewrite <- (app_assoc ws0 w1 w2) in B2, B4, B5. split; auto. split; [|split].
        + intros w W. apply in_app_iff in W as [W|W]; [|auto]. pose proof (A4 w W) as R. clear - IN R. induction R as [a|a c d P Q I].
          * eapply reach_step; [apply reach_refl|exact IN].
          * eapply reach_step; [exact (Q IN)|exact I].
        + intros c [<-|C]; [|auto]. rewrite !in_app_iff in *. tauto.
        + intros w c W C. apply in_app_iff in W as [W|W]; [|eauto]. specialize (A5 w c W C). rewrite !in_app_iff in *. tauto. }
    destruct (FOLD (b_succs x) [] s1) as (s' & ws & F1 & F2 & F3 & F4 & F5); [rewrite SX; apply incl_refl|now rewrite app_nil_r|].
    exists s', (b :: ws). cbn [app] in *. rewrite <- app_assoc in *. cbn [app] in *. split; auto. split; auto. split; [apply in_or_app; right; now left|]. split; [|split].
    + intros w [<-|W]; [apply reach_refl|auto].
    + intros w c [<-|W] C; [|eauto]. apply F4. now rewrite <- SX.
    + intros _. eauto.
Qed.
(** cleaning *)
Lemma fold_none l : forall (m : nat -> option nat) i, fold_left (fun m i => upd m i None) l m i = if existsb (Nat.eqb i) l then None else m i.
Proof.
  induction l as [|a l IH]; intros m i; cbn; auto. rewrite IH. unfold upd. destruct (Nat.eqb_spec i a); cbn; [destruct (existsb _ l); auto|auto].
Qed.
Lemma clean_ok l : forall s, (forall b, In b l -> f_block f b <> None) -> exists s', ofold (clean_id_bb f) s l = Ok s' /\
  (forall b, In b l \/ t_bid s b = None -> t_bid s' b = None) /\ (forall i, (exists b, In b l /\ In i (insns_of f b)) \/ t_iid s i = None -> t_iid s' i = None).
Proof.
  induction l as [|a l IH]; intros s L; cbn [ofold].
  - exists s. split; auto. split; [intros b [[]|H]; auto|intros i [(b & [] & _)|H]; auto].
  - unfold clean_id_bb at 1, get_block. destruct (f_block f a) as [x|] eqn:X; [|elim (L a (or_introl eq_refl)); auto]. cbn [bind].
    set (s1 := mkTags _ _ _ _ _). destruct (IH s1) as (s' & E & H1 & H2); [intros b I; apply L; now right|]. exists s'. split; auto. split.
    + intros b H. apply H1. cbn. unfold upd. destruct (Nat.eqb_spec b a); auto. destruct H as [[H|H]|H]; auto; congruence.
    + intros i H. apply H2. cbn. rewrite fold_none. destruct (existsb (Nat.eqb i) (b_insns x)) eqn:Q; auto.
      destruct H as [(b & [<-|I] & K)|H]; eauto. exfalso. unfold insns_of in K. rewrite X in K. assert (Z : existsb (Nat.eqb i) (b_insns x) = true) by (apply existsb_exists; exists i; split; auto; apply Nat.eqb_refl). congruence.
Qed.
Lemma visited_ok l : forall s, (forall b, In b l -> f_block f b <> None) ->
  exists s', ofold (fun s b => do x <- get_block f b; Ok (mkTags (upd (t_vis s) b false) (t_bid s) (t_iid s) (t_cnt s) (t_bcnt s))) s l = Ok s' /\
  (forall b, In b l \/ t_vis s b = false -> t_vis s' b = false) /\ t_bid s' = t_bid s /\ t_iid s' = t_iid s /\ t_cnt s' = t_cnt s /\ t_bcnt s' = t_bcnt s.
Proof.
  induction l as [|a l IH]; intros s L; cbn [ofold].
  - exists s. split; auto. split; [intros b [[]|H]; auto|auto].
  - unfold get_block at 1. destruct (f_block f a) as [x|] eqn:X; [|elim (L a (or_introl eq_refl)); auto]. cbn [bind].
    set (s1 := mkTags _ _ _ _ _). destruct (IH s1) as (s' & E & H1 & H2); [intros b I; apply L; now right|]. exists s'. split; auto. split; [|exact H2].
    intros b H. apply H1. cbn. unfold upd. destruct (Nat.eqb_spec b a); auto. destruct H as [[H|H]|H]; auto; congruence.
Qed.
Lemma flat_before l : forall b l1 i l2 j l3 k m, insns_of f b = l1 ++ i :: l2 ++ j :: l3 -> NoDup (flat_map (names f) l) ->
  nth_error (flat_map (names f) l) k = Some i -> nth_error (flat_map (names f) l) m = Some j -> nonvoid f i = true -> nonvoid f j = true -> k < m.
Proof.
  intros b l1 i l2 j l3 k m L ND K M VI VJ. assert (KI := nth_error_In _ _ K). apply in_flat_map in KI as (c & C & N). apply names_in in N as (N & _).
  assert (c = b). { destruct (LK c i N) as (y & Y & P). destruct (LK b i) as (z & Z & Q); [rewrite L; apply in_or_app; right; now left|]. congruence. } subst c.
  apply in_split in C as (a1 & a2 & ->). rewrite flat_map_app in *. cbn [flat_map] in *.
  assert (NB : names f b = filter (nonvoid f) l1 ++ i :: filter (nonvoid f) l2 ++ j :: filter (nonvoid f) l3).
  { unfold names. rewrite L, filter_app. cbn [filter]. rewrite VI, filter_app. cbn [filter]. now rewrite VJ. }
  rewrite NB in *. set (A := flat_map (names f) a1) in *. set (Z := flat_map (names f) a2) in *. set (p1 := filter _ l1) in *. set (p2 := filter _ l2) in *. set (p3 := filter _ l3) in *.
  assert (K' : nth_error (A ++ (p1 ++ i :: p2 ++ j :: p3) ++ Z) (length A + length p1) = Some i).
  { rewrite <- !app_assoc, app_assoc. cbn. rewrite nth_error_app2; rewrite app_length; [|lia]. now rewrite Nat.sub_diag. }
  assert (M' : nth_error (A ++ (p1 ++ i :: p2 ++ j :: p3) ++ Z) (length A + length p1 + S (length p2)) = Some j).
  { replace (A ++ (p1 ++ i :: p2 ++ j :: p3) ++ Z) with ((A ++ p1 ++ i :: p2) ++ j :: p3 ++ Z) by (rewrite <- !app_assoc; cbn; rewrite <- !app_assoc; reflexivity).
    rewrite nth_error_app2; rewrite !app_length; cbn [length]; [|lia]. replace (_ - _) with 0 by lia. reflexivity. }
  rewrite NoDup_nth_error in ND. assert (k = length A + length p1) by (apply ND; [apply nth_error_Some; congruence|congruence]).
  assert (m = length A + length p1 + S (length p2)) by (apply ND; [apply nth_error_Some; congruence|congruence]). lia.
Qed.
Lemma flat_once l : NoDup l -> NoDup (flat_map (names f) l).
Proof.
  induction l as [|a l IH]; intros N; cbn; [constructor|]. inversion N; subst. assert (NA : NoDup (names f a)) by (apply NoDup_filter, ON).
  assert (D : forall i, In i (names f a) -> ~ In i (flat_map (names f) l)).
  { intros i I K. apply in_flat_map in K as (c & C & K). apply names_in in I as (I & _). apply names_in in K as (K & _).
    destruct (LK a i I) as (y & Y & P). destruct (LK c i K) as (z & Z & Q). assert (a = c) by congruence. clear P Q. subst c. contradiction. }
  specialize (IH H2). clear - NA D IH. induction (names f a) as [|i r IR]; cbn; auto. inversion NA; subst. constructor.
  - rewrite in_app_iff. intros [K|K]; [auto|]. apply (D i); cbn; auto.
  - apply IR; auto. intros j J. apply D. now right.
Qed.
Theorem tag_spec fuel s : length (f_all f) < fuel -> exists s', tag_ir fuel f s = Ok s' /\ numbered f s'.
Proof.
  intros FU. assert (BO := B). destruct BO as (_ & _ & A & EN & _).
  assert (LA : forall b, In b (f_all f) -> f_block f b <> None) by (intros b I; destruct (proj1 (A b) I) as (x & ->); discriminate).
  assert (AL : forall b, f_block f b <> None -> In b (f_all f)) by (intros b I; apply A; destruct (f_block f b) as [x|]; [eauto|congruence]).
  unfold tag_ir, clean_id, clean_visited. destruct (clean_ok (f_all f) s LA) as (s1 & E1 & C1 & C2). rewrite E1. cbn [bind].
  set (s1' := mkTags _ _ _ _ _). destruct (visited_ok (f_all f) s1' LA) as (s2 & E2 & V1 & V2 & V3 & V4 & V5). rewrite E2. cbn [bind].
  assert (LB : forall i b, In i (insns_of f b) -> f_block f b <> None) by (intros i b I K; unfold insns_of in I; rewrite K in I; destruct I).
  assert (T0 : tagged [] s2).
  { constructor; [apply NoDup_nil|intros b []| |exact V5|exact V4| |].
    - intros b H. split; [|intros []]. rewrite (V1 b); [discriminate|left; auto].
    - intros b k H. rewrite V2. cbn. rewrite C1 by auto. split; [discriminate|destruct k; discriminate].
    - intros i k (b & H). rewrite V3. cbn. rewrite C2 by (left; exists b; split; [apply AL, (LB i b H)|exact H]). split; [discriminate|destruct k; discriminate]. }
  destruct (assign_ok fuel (f_entry f) [] s2) as (s3 & ws & E3 & T & IE & RE & CL & HD); [cbn; lia|auto|auto|].
  cbn [app] in *. rewrite E3. cbn [bind]. destruct (visited_ok (f_all f) s3 LA) as (s4 & E4 & W1 & W2 & W3 & _). exists s4. split; auto.
  assert (IN : forall b, In b ws <-> reach f (f_entry f) b).
  { intros b. split; [apply RE|]. intros R. remember (f_entry f) as e eqn:Q. induction R; subst; eauto. }
  assert (NF := flat_once _ (tg_nodup _ _ T)).
  assert (ID : forall b i k, In i (insns_of f b) -> t_iid s4 i = Some k <-> nth_error (flat_map (names f) ws) k = Some i) by (intros b i k I; rewrite W3; apply (tg_iid _ _ T); exists b; auto).
  assert (BD : forall b k, f_block f b <> None -> t_bid s4 b = Some k <-> nth_error ws k = Some b) by (intros b k I; rewrite W2; now apply (tg_bid _ _ T)).
  constructor.
  - intros b H. rewrite <- IN. split.
    + intros (k & K). apply (BD b k H) in K. eapply nth_error_In; eauto.
    + intros I. apply In_nth_error in I as (k & K). exists k. now apply BD.
  - intros b i I. split.
    + intros (k & K). apply (ID b i k I) in K. apply nth_error_In in K. apply in_flat_map in K as (c & C & K). apply names_in in K as (K & V). exists c.
      destruct (LK c i K) as (y & Y & _). exists y. unfold nonvoid in V. rewrite Y in V. apply negb_true_iff in V. split; [now apply IN|auto].
    + intros (c & y & R & J & Y & V). assert (K : In i (flat_map (names f) ws)).
      { apply in_flat_map. exists c. split; [now apply IN|]. apply names_in. split; auto. unfold nonvoid. now rewrite Y, V. }
      apply In_nth_error in K as (k & K). exists k. now apply (ID b).
  - intros b c k Hb Hc K1 K2. apply BD in K1; auto. apply BD in K2; auto. congruence.
  - intros b c i j k I J K1 K2. apply (ID b) in K1; auto. apply (ID c) in K2; auto. congruence.
  - intros b k j H K L. apply BD in K; auto. destruct (nth_error ws j) as [c|] eqn:C.
    + assert (LC : f_block f c <> None) by (apply (tg_live _ _ T); eapply nth_error_In; eauto). exists c. split; auto. now apply BD.
    + apply nth_error_None in C. assert (k < length ws) by (apply nth_error_Some; congruence). lia.
  - intros b i k j I K L. apply (ID b) in K; auto. destruct (nth_error (flat_map (names f) ws) j) as [c|] eqn:C.
    + assert (IC := nth_error_In _ _ C). apply in_flat_map in IC as (d & _ & IC). apply names_in in IC as (IC & _). exists c, d. split; auto. now apply (ID d).
    + apply nth_error_None in C. assert (k < length (flat_map (names f) ws)) by (apply nth_error_Some; congruence). lia.
  - intros b l1 i l2 j l3 k m L K M. assert (II : In i (insns_of f b)) by (rewrite L; apply in_or_app; right; now left).
    assert (IJ : In j (insns_of f b)) by (rewrite L; apply in_or_app; right; right; apply in_or_app; right; now left).
    apply (ID b) in K; auto. apply (ID b) in M; auto. eapply flat_before; eauto.
    + apply nth_error_In in K. apply in_flat_map in K as (c & _ & K). now apply names_in in K.
    + apply nth_error_In in M. apply in_flat_map in M as (c & _ & M). now apply names_in in M.
  - apply BD; auto. destruct (HD ltac:(intros [])) as (r & ->). reflexivity.
  - intros b H. apply W1. auto.
Qed.
End S.
