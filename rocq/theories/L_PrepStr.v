(** Preparing a function for register allocation: the function after each edit, and its users lists. *)
From Coq Require Import ZArith List Bool Arith Lia.
From Verif Require Import M_Base M_Ir M_Norm M_Edit M_Ra SpecWord SpecFlat SpecProg SpecSsa SpecIr SpecEdit SpecRa SpecPass SpecShift SpecVirt
  L_Edit L_Uses L_Hist L_Ctor L_Ins L_PassPhi L_Sim L_RaGraph L_Virt L_Prep.
From Verif Require Import SpecRa SpecVirt.
Import ListNotations.
Open Scope nat_scope.
Ltac bo H r E := apply bind_ok in H as (r & E & H).
Ltac oks H := injection H as H; subst.

(** ** replace_all on users lists that are right *)
Lemma replace_all_fold d rep ex l : forall f, ~ In ex l ->
  ofold (replace_in_user d rep) f l =
  ofold (fun g u => if u =? ex then do y <- get_insn g d; Ok (put_insn g d (set_users (i_users y ++ [u]) y)) else replace_in_user d rep g u) f l.
Proof.
  induction l as [|u l IH]; intros f N; cbn [ofold]; [reflexivity|].
  destruct (Nat.eqb_spec u ex) as [->|_]; [destruct N; now left|]. destruct (replace_in_user d rep f u); cbn [bind]; auto. apply IH. intros K. apply N. now right.
Qed.
Lemma replace_fold_ni d rep l : refers d rep = false -> forall f g, ofold (replace_in_user d rep) f l = Ok g -> f_ni g = f_ni f /\ f_nb g = f_nb f.
Proof.
  intros R. induction l as [|u l IH]; intros f g H; cbn [ofold] in H; [oks H; auto|]. bo H f1 E. apply replace_in_user_spec in E as (_ & _ & _ & _ & _ & N1 & N2); auto.
  apply IH in H as (A & B). split; congruence.
Qed.
Lemma replace_all_ok f d rep g : users_ok f -> fresh_ok f -> refers d rep = false -> replace_all f d rep = Ok g ->
  users_ok g /\ (forall b, f_block g b = f_block f b) /\ f_entry g = f_entry f /\ f_ni g = f_ni f /\ f_nb g = f_nb f /\
  forall u, exists k, f_insn g u = option_map (fun x => set_users k (subst_insn d rep x)) (f_insn f u).
Proof.
  intros U Fr R H. unfold replace_all in H. bo H x X. apply get_insn_ok in X.
  set (f1 := put_insn f d (set_users [] x)) in *. set (ex := f_ni f).
  pose proof (put_users_edit f d x [] X) as UE. fold f1 in UE.
  assert (Ux : users_of f d = i_users x) by (unfold users_of; now rewrite X).
  assert (Zx : forall c, nref c (ops_of f ex) = 0). { intros c. unfold ops_of. now rewrite (proj1 Fr ex (Nat.le_refl _)). }
  assert (K : forall c u, counted f c u) by now apply users_counted.
  assert (Nx : ~ In ex (i_users x)).
  { intros I. apply count_in in I. rewrite <- Ux in I. destruct (K d ex) as (_ & K2). rewrite Zx in K2. lia. }
  destruct (replace_fold_ni _ _ _ R _ _ H) as (N1 & N2).
  rewrite (replace_all_fold d rep ex _ _ Nx) in H.
  assert (U1 : forall c, users_of f1 c = if c =? d then [] else users_of f c) by (intros c; apply users_of_put).
  apply replace_loop_ok in H as (A & B & C & D & G); auto.
  - split; [exact A|]. split; [intros b; rewrite B; apply (ue_block _ _ UE)|]. split; [rewrite C; apply (ue_entry _ _ UE)|].
    split; [rewrite N1; apply (ue_ni _ _ UE)|]. split; [rewrite N2; apply (ue_nb _ _ UE)|].
    intros u. destruct (Nat.eq_dec u ex) as [->|Nu].
    + exists []. rewrite (proj1 Fr ex (Nat.le_refl _)). cbn. unfold upto in G. assert (Q : f_insn f1 ex = None) by (apply (ue_live _ _ UE); apply Fr; reflexivity).
      rewrite Q in G. destruct (f_insn g ex); [destruct G|reflexivity].
    + destruct (D u Nu) as (k & ->). destruct (ue_rec _ _ UE u) as (k' & ->). exists k. destruct (f_insn f u); [|reflexivity]. cbn. now rewrite subst_insn_set_users.
  - intros c u N. unfold counted. rewrite (ue_ops _ _ UE), U1. destruct (Nat.eqb_spec c d); [congruence|]. apply K.
  - intros u _. rewrite U1, Nat.eqb_refl. reflexivity.
  - rewrite (ue_ops _ _ UE), U1, Nat.eqb_refl, Zx. cbn. apply Nat.eq_le_incl. apply count_occ_not_In. exact Nx.
  - rewrite (ue_ops _ _ UE), Zx. lia.
  - intros u _ P. rewrite (ue_ops _ _ UE) in P. rewrite <- Ux. apply K. exact P.
Qed.

(** ** The function, its extra data and its blocks after some edits of [s0] *)
Record skel (s0 t : cgs) (n : nat) (F : nat -> option insn) (X : nat -> option extra) (I : nat -> list nat) : Prop := {
  k_ni : f_ni (c_f t) = n;
  k_fr : (forall j, n <= j -> F j = None) /\ (forall b, f_nb (c_f t) <= b -> f_block (c_f t) b = None);
  k_insn : forall j, exists u, f_insn (c_f t) j = option_map (set_users u) (F j);
  k_ex : forall j, c_ex t j = X j;
  k_list : forall b, insns_of (c_f t) b = I b;
  k_rest : c_reach t = c_reach s0 /\ c_regs t = c_regs s0 /\ c_sp t = c_sp s0 /\ c_args t = c_args s0 /\ c_off t = c_off s0 /\ c_all t = c_all s0;
  k_cfg : f_entry (c_f t) = f_entry (c_f s0) /\ (forall b, f_block (c_f t) b = None <-> f_block (c_f s0) b = None) /\
          (forall b, succs_of (c_f t) b = succs_of (c_f s0) b) /\ (forall b, preds_of (c_f t) b = preds_of (c_f s0) b) }.
Lemma skel_refl s : fresh_ok (c_f s) -> skel s s (f_ni (c_f s)) (f_insn (c_f s)) (c_ex s) (insns_of (c_f s)).
Proof.
  intros (F1 & F2). constructor; auto; [|repeat split; auto|split; [auto|]; split; [intros; reflexivity|]; split; intros; reflexivity].
  intros j. destruct (f_insn (c_f s) j) as [x|]; [exists (i_users x)|exists []]; cbn; [now rewrite set_users_id|reflexivity].
Qed.
Lemma skel_eqv s0 t n F F' X X' I I' : skel s0 t n F X I -> (forall j, F' j = F j) -> (forall j, X' j = X j) -> (forall b, I' b = I b) -> skel s0 t n F' X' I'.
Proof.
  intros K HF HX HI. destruct K as [K1 K2 K3 K4 K5 K6 K7]. constructor; auto.
  - split; [|apply K2]. intros j L. rewrite HF. now apply K2.
  - intros j. rewrite HF. apply K3.
  - intros j. now rewrite HX, K4.
  - intros b. now rewrite HI, K5.
Qed.
Lemma skel_users s0 t f n F X I : skel s0 t n F X I -> users_edit (c_f t) f -> skel s0 (with_f f t) n F X I.
Proof.
  intros K UE. destruct K as [K1 K2 K3 K4 K5 K6 (C1 & C2 & C3 & C4)]. constructor; cbn; auto.
  - now rewrite (ue_ni _ _ UE).
  - split; [apply K2|]. intros b. rewrite (ue_nb _ _ UE), (ue_block _ _ UE). apply K2.
  - intros j. destruct (ue_rec _ _ UE j) as (l & ->). destruct (K3 j) as (u & ->). exists l. destruct (F j); reflexivity.
  - intros b. unfold insns_of. rewrite (ue_block _ _ UE). apply K5.
  - split; [rewrite (ue_entry _ _ UE); auto|]. split; [intros b; rewrite (ue_block _ _ UE); auto|].
    split; intros b; unfold succs_of, preds_of; rewrite (ue_block _ _ UE); [apply C3|apply C4].
Qed.
Lemma skel_ex s0 t i e n F X I : skel s0 t n F X I -> skel s0 (put_ex t i e) n F (upd X i (Some e)) I.
Proof.
  intros K. destruct K as [K1 K2 K3 K4 K5 K6 K7]. constructor; auto. intros j. cbn. unfold upd. destruct (j =? i); auto.
Qed.
Lemma skel_put s0 t i x y n F X I : skel s0 t n F X I -> F i = Some y -> (exists u, x = set_users u y) -> forall y' x', (exists u, x' = set_users u y') ->
  skel s0 (with_f (put_insn (c_f t) i x') t) n (upd F i (Some y')) X I.
Proof.
  intros K Hy Hx y' x' (u & ->). destruct K as [K1 K2 K3 K4 K5 K6 K7]. constructor; cbn; auto.
  - split; [|apply K2]. intros j L. unfold upd. destruct (Nat.eqb_spec j i) as [->|_]; [rewrite (proj1 K2) in Hy by auto; discriminate|]. now apply K2.
  - intros j. fold (f_insn (put_insn (c_f t) i (set_users u y')) j). unfold upd. destruct (j =? i); [now exists u|apply K3].
Qed.

(** *** creating a copy *)
Lemma build_assign_ops bb v : operands (build bb (K_assign v)) = [v].
Proof. unfold operands. cbn. reflexivity. Qed.
Lemma create_counts f bb v f' n : create_insn f bb (K_assign v) = Ok (f', n) -> fresh_ok f ->
  forall c u, cnt (users_of f' c) u = cnt (users_of f c) u + (if n =? u then nref c [v] else 0).
Proof.
  intros E Fr c u. unfold create_insn in E. set (f1 := mkFunc _ _ _ _ _ _) in E. bo E f2 E2. injection E as <- <-.
  apply fold_add_spec in E2 as (UE & UC). rewrite UC, build_assign_ops. f_equal.
  unfold users_of, f1; cbn. unfold upd. destruct (Nat.eqb_spec c (f_ni f)) as [->|]; [|reflexivity]. now rewrite (proj1 Fr _ (Nat.le_refl _)).
Qed.
Lemma users_insn f g c : (forall j, f_insn g j = f_insn f j) -> users_of g c = users_of f c.
Proof. intros H. unfold users_of. now rewrite H. Qed.
Definition bupd (I : nat -> list nat) (b : nat) (l : list nat) (c : nat) : list nat := if c =? b then l else I c.

Lemma skel_grown s0 t n F X I f bb v l i : skel s0 t n F X I -> grown (c_f t) f i bb (K_assign v) l -> f_nb f = f_nb (c_f t) ->
  i = n /\ skel s0 (put_ex (with_f f t) i (ex0 i ASSIGN)) (S n) (upd F n (Some (build bb (K_assign v)))) (upd X n (Some (ex0 n ASSIGN))) (bupd I bb l).
Proof.
  intros K G Nb. pose proof (gr_id _ _ _ _ _ _ G) as Hi. rewrite (k_ni _ _ _ _ _ _ K) in Hi. subst i. split; [reflexivity|].
  destruct K as [K1 K2 K3 K4 K5 K6 (C1 & C2 & C3 & C4)]. constructor; cbn; auto.
  - apply (gr_ni _ _ _ _ _ _ G).
  - split.
    + intros j L. unfold upd. destruct (Nat.eqb_spec j n); [lia|]. apply K2. lia.
    + intros b L. apply (gr_dom _ _ _ _ _ _ G). apply K2. congruence.
  - intros j. unfold upd. destruct (Nat.eqb_spec j n) as [->|N].
    + destruct (gr_new _ _ _ _ _ _ G) as (u & E). exists u. rewrite E. reflexivity.
    + destruct (gr_old _ _ _ _ _ _ G j N) as (u & ->). destruct (K3 j) as (u' & ->). exists u. destruct (F j); reflexivity.
  - intros j. unfold upd. destruct (j =? n); [reflexivity|apply K4].
  - intros b. rewrite (gr_insns _ _ _ _ _ _ G). unfold bupd. destruct (b =? bb); auto.
  - split; [rewrite (gr_entry _ _ _ _ _ _ G); auto|]. split; [intros b; rewrite (gr_dom _ _ _ _ _ _ G); auto|].
    split; intros b; [rewrite (gr_succs _ _ _ _ _ _ G)|rewrite (gr_preds _ _ _ _ _ _ G)]; auto.
Qed.
Lemma skel_fresh s0 t n F X I : skel s0 t n F X I -> fresh_ok (c_f t).
Proof.
  intros K. destruct K as [K1 (K2 & K2') K3 K4 K5 K6 K7]. split; [|exact K2']. intros j L. destruct (K3 j) as (u & ->). rewrite K2 by lia. reflexivity.
Qed.
Lemma skel_create s0 t n F X I i y v p l1 l2 t' m : skel s0 t n F X I -> F i = Some y -> i_op y <> PHI -> f_block (c_f s0) (i_parent y) <> None ->
  I (i_parent y) = l1 ++ i :: l2 -> ~ In i l1 -> p = P_FRONT \/ p = P_BACK -> cg_create t i (K_assign v) p = Ok (t', m) ->
  m = n /\ skel s0 t' (S n) (upd F n (Some (build (i_parent y) (K_assign v)))) (upd X n (Some (ex0 n ASSIGN)))
             (bupd I (i_parent y) (match p with P_FRONT => l1 ++ n :: i :: l2 | _ => l1 ++ i :: n :: l2 end)) /\
  forall c u, cnt (users_of (c_f t') c) u = cnt (users_of (c_f t) c) u + (if n =? u then nref c [v] else 0).
Proof.
  intros K Hy NP B L NI PP H. unfold cg_create in H. bo H r E. destruct r as [f j]. cbn [fst snd] in H. injection H as <- <-.
  destruct (k_insn _ _ _ _ _ _ K i) as (u & Hx). rewrite Hy in Hx. cbn in Hx. pose proof (skel_fresh _ _ _ _ _ _ K) as Fr.
  assert (G := grown_at (c_f t) i (set_users u y) (K_assign v) p f j l1 l2 Fr Hx).
  cbn [i_parent set_users i_op] in G.
  assert (B' : f_block (c_f t) (i_parent y) <> None). { intros Z. apply B. now apply (k_cfg _ _ _ _ _ _ K). }
  assert (L' : insns_of (c_f t) (i_parent y) = l1 ++ i :: l2) by (rewrite (k_list _ _ _ _ _ _ K); exact L).
  assert (Q : i_op (build 0 (K_assign v)) <> PHI) by discriminate.
  specialize (G B' L' NI PP Q (fun P => match NP P with end) E).
  destruct (skel_grown _ _ _ _ _ _ _ _ _ _ _ K G (gr_nb _ _ _ _ _ _ G)) as (-> & K').
  split; [reflexivity|]. split; [destruct PP as [-> | ->]; exact K'|].
  (* counts *)
  unfold create_at in E. rewrite (proj2 (get_insn_ok _ _ _) Hx) in E. cbn [bind] in E. bo E r C. destruct r as [f1 i1]. cbn [fst snd] in E. bo E f2 I2. injection E as <- ->.
  intros c u0. cbn [c_f put_ex with_f with_ex].
  assert (S : forall j, f_insn f2 j = f_insn f1 j).
  { unfold insert_at in I2. bo I2 x1 X1. bo I2 x2 X2. apply get_insn_ok in X1. cbn [i_parent set_users] in I2.
    destruct (_ && _).
    - unfold insert_at_bb in I2. bo I2 b Eb. oks I2. intros j. reflexivity.
    - bo I2 b Eb. destruct PP as [-> | ->]; bo I2 lb El; oks I2; intros j; reflexivity. }
  rewrite (users_insn _ _ _ S). now apply (create_counts _ _ _ _ _ C Fr).
Qed.
Lemma skel_create_entry s0 t n F X I v t' m bb : skel s0 t n F X I -> f_block (c_f s0) bb <> None ->
  (forall j l, I bb = j :: l -> exists y, F j = Some y /\ i_op y <> PHI) -> cg_create_bb t bb (K_assign v) P_FRONT_AFTER_PHI = Ok (t', m) ->
  m = n /\ skel s0 t' (S n) (upd F n (Some (build bb (K_assign v)))) (upd X n (Some (ex0 n ASSIGN))) (bupd I bb (n :: I bb)) /\
  forall c u, cnt (users_of (c_f t') c) u = cnt (users_of (c_f t) c) u + (if n =? u then nref c [v] else 0).
Proof.
  intros K B NP H. unfold cg_create_bb in H. bo H r E. destruct r as [f j]. cbn [fst snd] in H. injection H as <- <-. pose proof (skel_fresh _ _ _ _ _ _ K) as Fr.
  unfold create_at_bb in E. bo E r C. destruct r as [f1 i1]. cbn [fst snd] in E. bo E f2 I2. injection E as <- ->.
  pose proof (create_counts _ _ _ _ _ C Fr) as CC.
  apply create_raw in C as (C1 & C2 & C3 & C4 & C5 & C6 & C7 & C8).
  assert (B' : f_block (c_f t) bb <> None). { intros Z. apply B. now apply (k_cfg _ _ _ _ _ _ K). }
  destruct (f_block f1 bb) as [b|] eqn:Eb; [|rewrite C6 in Eb; congruence].
  destruct (insert_at_bb_places f1 j bb P_FRONT_AFTER_PHI b Eb) as (g & x & y & I' & (PL & PQ & PR) & L & O1 & O2 & O3 & O4).
  rewrite I2 in I'. injection I' as <-.
  assert (IB : insns_of f1 bb = insns_of (c_f t) bb) by (unfold insns_of; now rewrite C6).
  assert (X0 : x = []).
  { destruct x as [|a r]; [reflexivity|]. exfalso. rewrite IB, (k_list _ _ _ _ _ _ K) in PL. cbn in PL. destruct (NP a (r ++ y) PL) as (z & Z & NZ).
    destruct (PQ a (or_introl eq_refl)) as (z' & Z' & PZ). destruct (k_insn _ _ _ _ _ _ K a) as (u & Ea). rewrite Z in Ea. cbn in Ea.
    assert (a <> j). { intros ->. rewrite (proj1 Fr) in Ea by lia. discriminate. }
    destruct (C8 a H) as (u' & E8). rewrite Ea in E8. cbn in E8. rewrite E8 in Z'. injection Z' as <-. cbn in PZ. contradiction. }
  subst x. cbn [app] in L, PL. subst y.
  assert (G : grown (c_f t) f2 j bb (K_assign v) (j :: insns_of (c_f t) bb)).
  { unfold insert_at_bb, get_block in I2. rewrite Eb in I2. cbn [bind] in I2.
    assert (XX : f_ni f2 = f_ni f1 /\ f_nb f2 = f_nb f1 /\ f_entry f2 = f_entry f1 /\ forall c, f_block f2 c = None <-> f_block f1 c = None).
    { injection I2 as <-. cbn. split; [reflexivity|]. split; [reflexivity|]. split; [reflexivity|]. intros c. unfold upd.
      destruct (Nat.eqb_spec c bb) as [->|]; [rewrite Eb; split; discriminate|tauto]. }
    destruct XX as (X1 & X2 & X3 & X4).
    constructor; try congruence.
    - intros c. now rewrite X4, C6.
    - destruct C7 as (u & C7). exists u. now rewrite O4.
    - intros k N. rewrite O4. auto.
    - intros c. rewrite O2. unfold succs_of. now rewrite C6.
    - intros c. rewrite O3. unfold preds_of. now rewrite C6.
    - intros c. destruct (Nat.eqb_spec c bb) as [->|N]; [rewrite L, IB; reflexivity|]. unfold insns_of. now rewrite (O1 c N), C6. }
  destruct (skel_grown _ _ _ _ _ _ _ _ _ _ _ K G (gr_nb _ _ _ _ _ _ G)) as (-> & K').
  split; [reflexivity|]. split.
  - refine (skel_eqv _ _ _ _ _ _ _ _ _ K' _ _ _); intros; try reflexivity. unfold bupd. destruct (b0 =? bb); [|reflexivity]. now rewrite (k_list _ _ _ _ _ _ K).
  - intros c u. cbn [c_f put_ex with_f with_ex]. rewrite (users_insn _ _ _ O4). apply CC.
Qed.
(** *** replacing the uses of a value *)
Lemma skel_replace s0 t n F X I d rep f : skel s0 t n F X I -> users_ok (c_f t) -> refers d rep = false -> replace_all (c_f t) d rep = Ok f ->
  users_ok f /\ skel s0 (with_f f t) n (fun j => option_map (subst_insn d rep) (F j)) X I.
Proof.
  intros K U R H. destruct (replace_all_ok _ _ _ _ U (skel_fresh _ _ _ _ _ _ K) R H) as (A & B & C & N1 & N2 & D). split; [exact A|].
  destruct K as [K1 K2 K3 K4 K5 K6 (C1 & C2 & C3 & C4)]. constructor; cbn; auto; try congruence.
  - split; [intros j L; rewrite (proj1 K2) by auto; reflexivity|]. intros b. rewrite N2, B. apply K2.
  - intros j. destruct (D j) as (k & ->). destruct (K3 j) as (u & ->). exists k. destruct (F j); [|reflexivity]. cbn. now rewrite subst_insn_set_users.
  - intros b. unfold insns_of. rewrite B. apply K5.
  - split; [congruence|]. split; [intros b; rewrite B; auto|]. split; intros b; unfold succs_of, preds_of; rewrite B; [apply C3|apply C4].
Qed.
(** the operands are those of the skeleton *)
Lemma skel_ops s0 t n F X I u : skel s0 t n F X I -> ops_of (c_f t) u = match F u with Some x => operands x | None => [] end.
Proof. intros K. unfold ops_of. destruct (k_insn _ _ _ _ _ _ K u) as (l & ->). destruct (F u) as [x|]; [|reflexivity]. cbn [option_map]. apply operands_users. Qed.
