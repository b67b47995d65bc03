(** The memory sanitizer pass: what it adds. *)
From Coq Require Import ZArith List Bool Arith Lia.
From Verif Require Import M_Base M_Ir M_Edit M_Pass SpecWord SpecFlat SpecSsa SpecIr SpecEdit SpecPass SpecStrict SpecInstr SpecWeave SpecShadow
  L_Edit L_Uses L_Hist L_Ctor L_Ins L_PassAlloc L_SpillNew L_Weave L_Jump.
Import ListNotations.
Open Scope nat_scope.

Definition exp (sh : nat -> list nat) (i : nat) : list nat := i :: sh i.
Definition put1 (sh : nat -> list nat) (i n : nat) : nat -> list nat := fun j => if j =? i then [n] else sh j.
Lemma fm_same sh i n l : ~ In i l -> flat_map (exp (put1 sh i n)) l = flat_map (exp sh) l.
Proof.
  induction l as [|j l IH]; intros N; [reflexivity|]. cbn [flat_map]. rewrite IH by (intros I; apply N; now right). unfold exp, put1.
  destruct (Nat.eqb_spec j i) as [->|]; [exfalso; apply N; now left|reflexivity].
Qed.
Lemma fm_split sh i n l1 l2 : ~ In i l1 -> ~ In i l2 -> sh i = [] ->
  flat_map (exp sh) (l1 ++ i :: l2) = flat_map (exp sh) l1 ++ i :: flat_map (exp sh) l2 /\
  flat_map (exp (put1 sh i n)) (l1 ++ i :: l2) = flat_map (exp sh) l1 ++ i :: n :: flat_map (exp sh) l2.
Proof.
  intros N1 N2 S. rewrite !flat_map_app. cbn [flat_map]. rewrite !fm_same by assumption.
  assert (A : exp sh i = [i]) by (unfold exp; now rewrite S). assert (B : exp (put1 sh i n) i = [i; n]) by (unfold exp, put1; now rewrite Nat.eqb_refl).
  rewrite A, B. auto.
Qed.
Lemma fm_nil l : flat_map (exp (fun _ => [])) l = l.
Proof. induction l as [|i l IH]; [reflexivity|]. cbn. now rewrite IH. Qed.

(** where the instructions of [g] come from *)
Record inv (f g : func) (sp : nat) (sh : nat -> list nat) (a : nat) (ini pre post : list nat) : Prop := {
  v_cfg : cfg_ok g;
  v_kept : forall i x, f_insn f i = Some x -> exists u, f_insn g i = Some (set_users u x);
  v_entry : f_entry g = f_entry f;
  v_blocks : forall b, f_block g b = None <-> f_block f b = None;
  v_succs : forall b, succs_of g b = succs_of f b;
  v_preds : forall b, preds_of g b = preds_of f b;
  v_ni : f_ni f <= f_ni g;
  v_front : insns_of f (f_entry f) = pre ++ post /\ (forall i, In i pre -> is_phi f i) /\ (forall z r, post = z :: r -> ~ is_phi f z);
  v_list : forall b, insns_of g b = if b =? f_entry f then flat_map (exp sh) pre ++ (a :: ini) ++ flat_map (exp sh) post else flat_map (exp sh) (insns_of f b);
  v_sh : forall i n, In n (sh i) -> sh i = [n] /\ f_ni f <= n /\ exists x y, stack_access f sp i x /\ f_insn g n = Some y /\ shadow_of x y;
  v_ini : forall n, In n ini -> f_ni f <= n /\ exists k y, (0 <= k < 32)%Z /\ f_insn g n = Some y /\ fills a k y;
  v_arr : f_ni f <= a /\ exists y, f_insn g a = Some y /\ i_op y = ALLOCARRAY /\ i_vrt y = VR_64 /\ i_u y = 32%Z }.

Definition keeps (g g' : func) : Prop := forall j y, f_insn g j = Some y -> exists u, f_insn g' j = Some (set_users u y).
Lemma shadow_users x y u : shadow_of x y -> shadow_of x (set_users u y).
Proof. intros []. constructor; auto. Qed.
Lemma sh_phi f g sp sh a ini pre post i : inv f g sp sh a ini pre post -> is_phi f i -> sh i = [].
Proof.
  intros V (x & X & P). destruct (sh i) as [|n l] eqn:S; [reflexivity|]. destruct (v_sh _ _ _ _ _ _ _ _ V i n) as (_ & _ & y & z & (Y & O & _) & _); [rewrite S; now left|].
  exfalso. rewrite X in Y. injection Y as <-. destruct O; congruence.
Qed.
Lemma in_split_nodup {A} (i : A) l : In i l -> NoDup l -> exists l1 l2, l = l1 ++ i :: l2 /\ ~ In i l1 /\ ~ In i l2.
Proof.
  intros I N. apply in_split in I as (l1 & l2 & ->). exists l1, l2. split; [reflexivity|]. apply NoDup_remove_2 in N. split; intros K; apply N; apply in_or_app; auto.
Qed.
Lemma nodup_tail {A} (l1 l2 : list A) : NoDup (l1 ++ l2) -> NoDup l2.
Proof. induction l1 as [|x l1 IH]; auto. intros N. inversion N; subst. auto. Qed.
Lemma one_parent f i b c : linked_ok f -> In i (insns_of f b) -> In i (insns_of f c) -> b = c.
Proof. intros L I J. destruct (L b i I) as (x & X & P). destruct (L c i J) as (y & Y & Q). congruence. Qed.

(** a shadow access *)
Lemma inv_shadow f g sp sh a ini pre post i x k b g' n : cfg_ok f -> inv f g sp sh a ini pre post -> In i (insns_of f b) -> stack_access f sp i x -> sh i = [] ->
  quiet_op (i_op (build 0 k)) -> (forall q, shadow_of x (build q k)) -> create_at g i k P_BACK = Ok (g', n) -> inv f g' sp (put1 sh i n) a ini pre post /\ keeps g g'.
Proof.
  intros C V I SA S Q SO E. pose proof SA as (X & O & _). destruct (v_kept _ _ _ _ _ _ _ _ V i x X) as (u & GX).
  assert (PB : i_parent x = b). { destruct (cf_linked _ C b i I) as (x' & X' & P). congruence. }
  assert (NP : i_op x <> PHI) by (destruct O; congruence).
  assert (CG := v_cfg _ _ _ _ _ _ _ _ V).
  assert (FB : f_block g b <> None). { intros K. apply (v_blocks _ _ _ _ _ _ _ _ V) in K. exact (in_block _ _ _ I K). }
  assert (SP : exists l1 l2, insns_of g b = l1 ++ i :: l2 /\
     forall n, (if b =? f_entry f then flat_map (exp (put1 sh i n)) pre ++ (a :: ini) ++ flat_map (exp (put1 sh i n)) post else flat_map (exp (put1 sh i n)) (insns_of f b)) = l1 ++ i :: n :: l2).
  { rewrite (v_list _ _ _ _ _ _ _ _ V b). destruct (v_front _ _ _ _ _ _ _ _ V) as (F & FP & _). assert (ND := cf_once _ C b). destruct (Nat.eqb_spec b (f_entry f)) as [->|NE].
    - rewrite F in I, ND. assert (NI : ~ In i pre). { intros K. destruct (FP i K) as (z & Z & P). congruence. }
      apply in_app_or in I as [I|I]; [contradiction|]. assert (ND2 : NoDup post) by (apply (nodup_tail pre); exact ND).
      destruct (in_split_nodup i post I ND2) as (p1 & p2 & -> & N1 & N2). exists (flat_map (exp sh) pre ++ (a :: ini) ++ flat_map (exp sh) p1), (flat_map (exp sh) p2).
      split; [|intros m].
      + destruct (fm_split sh i 0 p1 p2 N1 N2 S) as (A & _). rewrite A, <- !app_assoc. reflexivity.
      + destruct (fm_split sh i m p1 p2 N1 N2 S) as (_ & B). rewrite B, (fm_same _ _ _ _ NI), <- !app_assoc. reflexivity.
    - destruct (in_split_nodup i _ I ND) as (p1 & p2 & -> & N1 & N2). exists (flat_map (exp sh) p1), (flat_map (exp sh) p2). split; [|intros m].
      + now destruct (fm_split sh i 0 p1 p2 N1 N2 S) as (-> & _).
      + now destruct (fm_split sh i m p1 p2 N1 N2 S) as (_ & ->). }
  destruct SP as (l1 & l2 & L & LN).
  assert (NDG := cf_once _ CG b). rewrite L in NDG. assert (N1 : ~ In i l1). { apply NoDup_remove_2 in NDG. intros K. apply NDG. apply in_or_app. auto. }
  assert (G : grown g g' n b k ((l1 ++ [i]) ++ n :: l2)).
  { rewrite <- app_assoc. cbn [app]. rewrite <- PB. change (i_parent x) with (i_parent (set_users u x)). apply (grown_at g i (set_users u x) k P_BACK g' n l1 l2); auto.
    - apply CG.
    - cbn. rewrite PB. exact FB.
    - cbn. rewrite PB. exact L.
    - apply Q.
    - cbn. intros K. contradiction. }
  assert (EN := gr_id _ _ _ _ _ _ G).
  assert (FR : forall j z, f_insn f j = Some z -> j < f_ni f). { intros j z Z. destruct (Nat.lt_ge_cases j (f_ni f)); auto. rewrite (proj1 (cf_fresh _ C)) in Z by assumption. discriminate. }
  assert (GN : forall j y, f_insn g j = Some y -> j <> n). { intros j y Y ->. rewrite EN, (proj1 (cf_fresh _ CG)) in Y by lia. discriminate. }
  assert (NG : f_ni f <= n) by (rewrite EN; apply V).
  assert (OLD : forall j y, f_insn g j = Some y -> exists u', f_insn g' j = Some (set_users u' y)).
  { intros j y Y. destruct (gr_old _ _ _ _ _ _ G j (GN j y Y)) as (u' & ->). rewrite Y. cbn. eauto. }
  split; [|exact OLD]. constructor.
  - apply (grown_cfg g g' n b k (l1 ++ [i]) l2 CG FB); [now rewrite <- app_assoc|exact G|exact Q|]. intros -> j J T.
    apply in_app_or in J as [J|[<-|[]]].
    + apply in_split in J as (m1 & m2 & ->). rewrite <- app_assoc in L. cbn [app] in L. pose proof (cf_ends _ CG b m1 j _ L T) as K. destruct m2; discriminate K.
    + destruct T as (z & Z & P). rewrite GX in Z. injection Z as <-. cbn [i_op set_users] in P. destruct O as [O|O]; rewrite O in P; cbn in P; decompose [or] P; try discriminate; contradiction.
  - intros j y Y. destruct (v_kept _ _ _ _ _ _ _ _ V j y Y) as (u1 & Y1). destruct (OLD _ _ Y1) as (u2 & Y2). exists u2. exact Y2.
  - rewrite (gr_entry _ _ _ _ _ _ G). apply V.
  - intros c. rewrite (gr_dom _ _ _ _ _ _ G). apply V.
  - intros c. rewrite (gr_succs _ _ _ _ _ _ G). apply V.
  - intros c. rewrite (gr_preds _ _ _ _ _ _ G). apply V.
  - rewrite (gr_ni _ _ _ _ _ _ G). lia.
  - apply V.
  - intros c. rewrite (gr_insns _ _ _ _ _ _ G). destruct (Nat.eqb_spec c b) as [->|NC].
    + rewrite LN, <- app_assoc. reflexivity.
    + rewrite (v_list _ _ _ _ _ _ _ _ V c). assert (NI : ~ In i (insns_of f c)). { intros K. apply NC. apply (one_parent f i); auto. apply C. }
      destruct (Nat.eqb_spec c (f_entry f)) as [->|]; [|now rewrite fm_same]. destruct (v_front _ _ _ _ _ _ _ _ V) as (F & _). rewrite F in NI.
      rewrite !fm_same; auto; intros K; apply NI; apply in_or_app; auto.
  - intros j m M. unfold put1 in *. destruct (Nat.eqb_spec j i) as [->|].
    + destruct M as [<-|[]]. split; [reflexivity|]. split; [exact NG|]. destruct (gr_new _ _ _ _ _ _ G) as (u' & Y). exists x. eexists. split; [exact SA|]. split; [exact Y|].
      apply shadow_users. apply SO.
    + destruct (v_sh _ _ _ _ _ _ _ _ V j m M) as (A & B & z & y & Z & Y & W). split; [exact A|]. split; [exact B|]. destruct (OLD _ _ Y) as (u2 & Y2). exists z. eexists. split; [exact Z|].
      split; [exact Y2|]. now apply shadow_users.
  - intros m M. destruct (v_ini _ _ _ _ _ _ _ _ V m M) as (A & k' & y & K & Y & W). split; [exact A|]. destruct (OLD _ _ Y) as (u2 & Y2). exists k'. eexists. split; [exact K|]. split; [exact Y2|exact W].
  - destruct (v_arr _ _ _ _ _ _ _ _ V) as (A & y & Y & W). split; [exact A|]. destruct (OLD _ _ Y) as (u2 & Y2). eexists. split; [exact Y2|exact W].
Qed.

(** the array *)
Lemma inv_array f sp g a : cfg_ok f ->
  create_at_bb f (f_entry f) (K_allocarray VR_64 32) P_FRONT_AFTER_PHI = Ok (g, a) ->
  exists pre post, inv f g sp (fun _ => []) a [] pre post.
Proof.
  intros C E. assert (FE := cf_entry _ C).
  destruct (new_at_bb f (f_entry f) (K_allocarray VR_64 32) P_FRONT_AFTER_PHI g a) as ((l1 & l2 & (L & P1 & P2) & G) & _); auto.
  { apply C. }
  { intros j J. destruct (cf_linked _ C _ j J) as (x & -> & _). discriminate. }
  assert (EN := gr_id _ _ _ _ _ _ G). exists l1, l2.
  assert (FR : forall j z, f_insn f j = Some z -> j <> a). { intros j z Z ->. rewrite EN, (proj1 (cf_fresh _ C)) in Z by lia. discriminate. }
  constructor.
  - apply (grown_cfg f g a (f_entry f) _ l1 l2 C FE L G).
    + split; [discriminate|]. cbn. intros K. decompose [or] K; try discriminate; contradiction.
    + intros _ j J (x & X & T). destruct (P1 j J) as (x' & X' & Q). assert (i_op x = PHI) by congruence. rewrite H in T. cbn in T. decompose [or] T; try discriminate; contradiction.
  - intros i x X. destruct (gr_old _ _ _ _ _ _ G i (FR i x X)) as (u & ->). rewrite X. cbn. eauto.
  - apply G.
  - apply G.
  - apply G.
  - apply G.
  - rewrite (gr_ni _ _ _ _ _ _ G). lia.
  - auto.
  - intros b. rewrite (gr_insns _ _ _ _ _ _ G). rewrite !fm_nil. reflexivity.
  - intros i n [].
  - intros n [].
  - split; [lia|]. destruct (gr_new _ _ _ _ _ _ G) as (u & Y). eexists. split; [exact Y|]. auto.
Qed.
(** its initialisation *)
Lemma inv_fill f g sp a ini pre post k g' n : cfg_ok f -> inv f g sp (fun _ => []) a ini pre post -> k < 32 ->
  create_at g a (K_storeraw VR_64 (addr_val (val_insn a) (Z.of_nat k * 8)) (val_const64 (-1))) P_BACK = Ok (g', n) ->
  inv f g' sp (fun _ => []) a (n :: ini) pre post /\ keeps g g' /\ exists y, f_insn g' n = Some y /\ fills a (Z.of_nat k) y.
Proof.
  intros C V K E. destruct (v_arr _ _ _ _ _ _ _ _ V) as (NA & x & X & O & VR & UU). assert (CG := v_cfg _ _ _ _ _ _ _ _ V).
  assert (L := v_list _ _ _ _ _ _ _ _ V (f_entry f)). rewrite Nat.eqb_refl, !fm_nil in L.
  assert (IA : In a (insns_of g (f_entry f))) by (rewrite L; apply in_or_app; right; now left).
  assert (PB : i_parent x = f_entry f). { destruct (cf_linked _ CG _ _ IA) as (x' & X' & P). congruence. }
  assert (FB : f_block g (f_entry f) <> None) by (exact (in_block _ _ _ IA)).
  assert (NDG := cf_once _ CG (f_entry f)). rewrite L in NDG. cbn [app] in L, NDG. assert (N1 : ~ In a pre). { apply NoDup_remove_2 in NDG. intros J. apply NDG. apply in_or_app. auto. }
  assert (G : grown g g' n (f_entry f) (K_storeraw VR_64 (addr_val (val_insn a) (Z.of_nat k * 8)) (val_const64 (-1))) ((pre ++ [a]) ++ n :: ini ++ post)).
  { rewrite <- app_assoc. cbn [app]. rewrite <- PB. apply (grown_at g a x _ P_BACK g' n pre (ini ++ post)); auto; try (rewrite PB; assumption).
    - apply CG.
    - discriminate.
    - intros J. congruence. }
  assert (EN := gr_id _ _ _ _ _ _ G).
  assert (GN : forall j y, f_insn g j = Some y -> j <> n). { intros j y Y ->. rewrite EN, (proj1 (cf_fresh _ CG)) in Y by lia. discriminate. }
  assert (NG : f_ni f <= n) by (rewrite EN; apply V).
  assert (OLD : forall j y, f_insn g j = Some y -> exists u', f_insn g' j = Some (set_users u' y)).
  { intros j y Y. destruct (gr_old _ _ _ _ _ _ G j (GN j y Y)) as (u' & ->). rewrite Y. cbn. eauto. }
  assert (NW : exists y, f_insn g' n = Some y /\ fills a (Z.of_nat k) y).
  { destruct (gr_new _ _ _ _ _ _ G) as (u & Y). eexists. split; [exact Y|]. split; [reflexivity|]. split; [reflexivity|]. split; [reflexivity|]. split; [apply Z.mul_comm|]. eexists. split; [reflexivity|]. auto. }
  split; [|split; [exact OLD|exact NW]]. constructor.
  - apply (grown_cfg g g' n (f_entry f) (K_storeraw VR_64 (addr_val (val_insn a) (Z.of_nat k * 8)) (val_const64 (-1))) (pre ++ [a]) (ini ++ post) CG FB); [now rewrite <- app_assoc|exact G| |].
    + split; [discriminate|]. cbn. intros J. decompose [or] J; try discriminate; contradiction.
    + intros EM j J T. apply in_app_or in J as [J|[<-|[]]].
      * apply in_split in J as (m1 & m2 & ->). rewrite <- app_assoc in L. cbn [app] in L. pose proof (cf_ends _ CG _ m1 j _ L T) as Q. destruct m2; discriminate Q.
      * destruct T as (z & Z & P). rewrite X in Z. injection Z as <-. rewrite O in P; cbn in P; decompose [or] P; try discriminate; contradiction.
  - intros j y Y. destruct (v_kept _ _ _ _ _ _ _ _ V j y Y) as (u1 & Y1). destruct (OLD _ _ Y1) as (u2 & Y2). exists u2. exact Y2.
  - rewrite (gr_entry _ _ _ _ _ _ G). apply V.
  - intros c. rewrite (gr_dom _ _ _ _ _ _ G). apply V.
  - intros c. rewrite (gr_succs _ _ _ _ _ _ G). apply V.
  - intros c. rewrite (gr_preds _ _ _ _ _ _ G). apply V.
  - rewrite (gr_ni _ _ _ _ _ _ G). lia.
  - apply V.
  - intros c. rewrite (gr_insns _ _ _ _ _ _ G). destruct (Nat.eqb_spec c (f_entry f)) as [->|NC].
    + rewrite !fm_nil, <- app_assoc. reflexivity.
    + rewrite (v_list _ _ _ _ _ _ _ _ V c). destruct (Nat.eqb_spec c (f_entry f)); [contradiction|reflexivity].
  - intros i m [].
  - intros m [<-|M].
    + split; [exact NG|]. destruct NW as (y & Y & W). exists (Z.of_nat k), y. split; [lia|]. auto.
    + destruct (v_ini _ _ _ _ _ _ _ _ V m M) as (A & k' & y & K' & Y & W). split; [exact A|]. destruct (OLD _ _ Y) as (u2 & Y2). exists k'. eexists. split; [exact K'|]. split; [exact Y2|exact W].
  - split; [exact NA|]. destruct (OLD _ _ X) as (u2 & Y2). eexists. split; [exact Y2|]. auto.
Qed.

(** ** the folds *)
Lemma keeps_refl g : keeps g g.
Proof. intros j y Y. exists (i_users y). rewrite Y. destruct y; reflexivity. Qed.
Lemma keeps_trans f g h : keeps f g -> keeps g h -> keeps f h.
Proof. intros A B j y Y. destruct (A j y Y) as (u & Z). destruct (B _ _ Z) as (v & W). exists v. exact W. Qed.
Definition filled (g : func) (a : nat) (ini : list nat) (k : Z) : Prop := exists n y, In n ini /\ f_insn g n = Some y /\ fills a k y.
Lemma filled_keeps g g' a ini k : keeps g g' -> filled g a ini k -> filled g' a ini k.
Proof. intros K (n & y & I & Y & F). destruct (K n y Y) as (u & Y'). exists n. eexists. split; [exact I|]. split; [exact Y'|exact F]. Qed.
Lemma fill_fold f sp a pre post : cfg_ok f -> forall l g ini g', inv f g sp (fun _ => []) a ini pre post -> (forall k, In k l -> k < 32) ->
  ofold (fun g k => do r <- create_at g a (K_storeraw VR_64 (addr_val (val_insn a) (Z.of_nat k * 8)) (val_const64 (-1))) P_BACK; Ok (fst r)) g l = Ok g' ->
  exists ini', inv f g' sp (fun _ => []) a ini' pre post /\ keeps g g' /\ (forall n, In n ini -> In n ini') /\ forall k, In k l -> filled g' a ini' (Z.of_nat k).
Proof.
  intros C. induction l as [|k l IH]; intros g ini g' V B E; cbn [ofold] in E.
  - injection E as <-. exists ini. split; [exact V|]. split; [apply keeps_refl|]. split; [auto|]. intros k [].
  - bo E g1 E1. bo E1 r E2. destruct r as [g2 n]. injection E1 as <-. cbn [fst] in *.
    destruct (inv_fill f g sp a ini pre post k g2 n C V (B k (or_introl eq_refl)) E2) as (V2 & K2 & y & Y & W).
    destruct (IH g2 (n :: ini) g' V2) as (ini' & V3 & K3 & S & A); [intros k' K; apply B; now right|exact E|].
    exists ini'. split; [exact V3|]. split; [eapply keeps_trans; eauto|]. split; [intros m M; apply S; now right|]. intros k' [<-|K]; [|now apply A].
    destruct (K3 n y Y) as (u & Y'). exists n. eexists. split; [apply S; now left|]. split; [exact Y'|exact W].
Qed.

(** the test for stack accesses *)
Lemma sp_access_spec f sp : forall fuel i b, is_sp_access fuel f sp i = Ok b -> b = true <-> from_sp f sp i.
Proof.
  induction fuel as [|k IH]; intros i b E; [discriminate E|]. cbn [is_sp_access] in E. destruct (Nat.eqb_spec i sp) as [->|N].
  { injection E as <-. split; [intros _; constructor|auto]. }
  bo E x X. apply get_insn_ok in X.
  destruct (is_bin_alu_op (i_op x)) eqn:O.
  2:{ injection E as <-. split; [discriminate|]. intros F. exfalso. inversion F; subst; congruence. }
  assert (AT : forall n b, n < 2 -> match nth_error (i_vals x) n with
      | Some v => match val_target v with Some d => is_sp_access k f sp d | None => Ok false end | None => UB end = Ok b ->
      b = true <-> exists v d, nth_error (i_vals x) n = Some v /\ v_data v = VInsn d /\ from_sp f sp d).
  { intros n c L A. destruct (nth_error (i_vals x) n) as [v|] eqn:V; [|discriminate A]. unfold val_target in A.
    destruct (v_data v) as [z|z|z|d|z|] eqn:D; try (injection A as <-; split; [discriminate|intros (v' & d' & V' & D' & _); congruence]).
    apply IH in A. rewrite A. split; [intros F; exists v, d; auto|]. intros (v' & d' & V' & D' & F). congruence. }
  bo E a A. apply (AT 0) in A; [|lia]. destruct a.
  - injection E as <-. split; [intros _|auto]. destruct (proj1 A eq_refl) as (v & d & V & D & F). apply (fs_op f sp i x 0 v d); auto.
  - apply (AT 1) in E; [|lia]. rewrite E. split.
    + intros (v & d & V & D & F). apply (fs_op f sp i x 1 v d); auto.
    + intros F. inversion F as [|i' x' n v d X' O' L V D F']; subst; [congruence|]. assert (x' = x) by congruence. subst x'.
      destruct n as [|[|n]]; [|eauto|lia]. exfalso. enough (false = true) by discriminate. apply A. eauto.
Qed.
Lemma sp_access_kept f g sp : (forall i x, f_insn f i = Some x -> exists u, f_insn g i = Some (set_users u x)) -> operands_live f ->
  forall fuel i, f_insn f i <> None -> is_sp_access fuel g sp i = is_sp_access fuel f sp i.
Proof.
  intros K OL. induction fuel as [|k IH]; intros i L; [reflexivity|]. cbn [is_sp_access]. destruct (i =? sp); [reflexivity|].
  unfold get_insn. destruct (f_insn f i) as [x|] eqn:X; [|congruence]. destruct (K i x X) as (u & ->). cbn [bind i_op i_vals set_users].
  destruct (is_bin_alu_op (i_op x)); [|reflexivity].
  assert (AT : forall n, match nth_error (i_vals x) n with Some v => match val_target v with Some d => is_sp_access k g sp d | None => Ok false end | None => UB end =
     match nth_error (i_vals x) n with Some v => match val_target v with Some d => is_sp_access k f sp d | None => Ok false end | None => UB end).
  { intros n. destruct (nth_error (i_vals x) n) as [v|] eqn:V; [|reflexivity]. unfold val_target. destruct (v_data v) as [z|z|z|d|z|] eqn:D; try reflexivity.
    apply IH. apply (OL i x v d X); auto. unfold operand_values. apply in_or_app. left. eapply nth_error_In; eauto. }
  rewrite !AT. reflexivity.
Qed.

Lemma stack_fold f sp fuel act a ini pre post o : cfg_ok f -> operands_live f -> (o = LOADRAW \/ o = STORERAW) ->
  (forall g i g', act g i = Ok g' -> exists x k n, f_insn g i = Some x /\ create_at g i k P_BACK = Ok (g', n) /\
     (i_op x = o -> quiet_op (i_op (build 0 k)) /\ forall q, shadow_of x (build q k))) ->
  forall l g sh g', inv f g sp sh a ini pre post -> NoDup l -> (forall i, In i l -> (exists b, In i (insns_of f b)) /\ (exists x, f_insn f i = Some x /\ i_op x = o) /\ sh i = []) ->
  ofold (if_stack fuel sp act) g l = Ok g' ->
  exists sh', inv f g' sp sh' a ini pre post /\ keeps g g' /\ (forall i, ~ In i l -> sh' i = sh i) /\
    forall i x, In i l -> stack_access f sp i x -> sh' i <> [].
Proof.
  intros C OL OO HA. induction l as [|i l IH]; intros g sh g' V ND B E; cbn [ofold] in E.
  { injection E as <-. exists sh. split; [exact V|]. split; [apply keeps_refl|]. split; [auto|]. intros i x []. }
  bo E g1 E1. inversion ND as [|? ? NI ND']; subst. destruct (B i (or_introl eq_refl)) as ((b & I) & (x & X & O) & S).
  destruct (v_kept _ _ _ _ _ _ _ _ V i x X) as (u & GX). unfold if_stack in E1. rewrite (proj2 (get_insn_ok _ _ _) GX) in E1. cbn [bind i_addr set_users] in E1.
  assert (K : exists sh1, inv f g1 sp sh1 a ini pre post /\ keeps g g1 /\ (forall j, j <> i -> sh1 j = sh j) /\ (forall y, stack_access f sp i y -> sh1 i <> [])).
  { unfold val_target in E1. destruct (v_data (a_val (i_addr x))) as [z|z|z|d|z|] eqn:D.
    4:{ bo E1 t T. rewrite (sp_access_kept f g sp (v_kept _ _ _ _ _ _ _ _ V) OL) in T.
        2:{ apply (OL i x (a_val (i_addr x)) d X); auto. unfold operand_values. apply in_or_app. right. rewrite O. destruct OO as [-> | ->]; now left. }
        apply sp_access_spec in T. destruct t.
        - destruct (HA _ _ _ E1) as (x' & k & n & X' & CR & HK). rewrite GX in X'. injection X' as <-. destruct (HK O) as (Q & SO).
          assert (SA : stack_access f sp i x). { split; [exact X|]. split; [rewrite O; exact OO|]. exists d. split; [exact D|]. now apply T. }
          destruct (inv_shadow f g sp sh a ini pre post i x k b g1 n C V I SA S Q) as (V1 & K1); [|exact CR|].
          { intros q. destruct (SO q). constructor; auto. }
          exists (put1 sh i n). split; [exact V1|]. split; [exact K1|]. unfold put1. split; [intros j J; destruct (Nat.eqb_spec j i); [contradiction|reflexivity]|].
          intros _ _. now rewrite Nat.eqb_refl.
        - injection E1 as <-. exists sh. split; [exact V|]. split; [apply keeps_refl|]. split; [auto|]. intros y (Y & _ & d' & D' & F). exfalso.
          assert (y = x) by congruence. subst y. assert (d' = d) by congruence. subst d'. apply T in F. discriminate F. }
    all: injection E1 as <-; exists sh; split; [exact V|]; split; [apply keeps_refl|]; split; [auto|]; intros y (Y & _ & d' & D' & F); exfalso; congruence. }
  destruct K as (sh1 & V1 & K1 & S1 & A1). destruct (IH g1 sh1 g' V1 ND') as (sh2 & V2 & K2 & S2 & A2); [|exact E|].
  { intros j J. destruct (B j (or_intror J)) as (B1 & B2 & B3). split; [exact B1|]. split; [exact B2|]. rewrite S1; [exact B3|]. intros ->. contradiction. }
  exists sh2. split; [exact V2|]. split; [eapply keeps_trans; eauto|]. split.
  - intros j J. rewrite S2 by (intros J'; apply J; now right). apply S1. intros ->. apply J. now left.
  - intros j y [<-|J] SA; [rewrite (S2 i NI); eapply A1; eauto|eapply A2; eauto].
Qed.
Lemma store_act g i g' : shadow_store g i = Ok g' -> exists x k n, f_insn g i = Some x /\ create_at g i k P_BACK = Ok (g', n) /\
  (i_op x = STORERAW -> quiet_op (i_op (build 0 k)) /\ forall q, shadow_of x (build q k)).
Proof.
  unfold shadow_store. intros E. bo E x X. apply get_insn_ok in X. bo E r R. destruct r as [h n]. injection E as <-. exists x. eexists. exists n. split; [exact X|]. split; [exact R|].
  intros O. split; [split; [discriminate|cbn; intros K; decompose [or] K; try discriminate; contradiction]|]. intros q. constructor; cbn; auto. intros _. eexists. reflexivity.
Qed.
Lemma load_act g i g' : shadow_load g i = Ok g' -> exists x k n, f_insn g i = Some x /\ create_at g i k P_BACK = Ok (g', n) /\
  (i_op x = LOADRAW -> quiet_op (i_op (build 0 k)) /\ forall q, shadow_of x (build q k)).
Proof.
  unfold shadow_load. intros E. bo E x X. apply get_insn_ok in X. bo E r R. destruct r as [h n]. injection E as <-. exists x. eexists. exists n. split; [exact X|]. split; [exact R|].
  intros O. split; [split; [discriminate|cbn; intros K; decompose [or] K; try discriminate; contradiction]|]. intros q. constructor; cbn; auto. intros O'. congruence.
Qed.

Theorem msan_inv fuel sp reach f g : cfg_ok f -> operands_live f -> NoDup reach -> msan fuel sp reach f = Ok g ->
  exists sh a ini pre post, inv f g sp sh a ini pre post /\ (forall k, (0 <= k < 32)%Z -> filled g a ini k) /\
    forall b i x, In b reach -> In i (insns_of f b) -> stack_access f sp i x -> sh i <> [].
Proof.
  intros C OL N E. unfold msan in E. bo E ss SS. bo E ls LS. bo E aa AA. destruct aa as [g0 a]. cbn [fst snd] in E. bo E f1 E1. bo E f2 E2.
  destruct (inv_array f sp g0 a C AA) as (pre & post & V0).
  assert (SQ : forall k, In k (seq 0 32) -> k < 32) by (intros k K; apply in_seq in K; lia).
  destruct (fill_fold f sp a pre post C _ _ _ _ V0 SQ E1) as (ini & V1 & _ & _ & FI).
  assert (NF := flat_once f reach C N).
  assert (NS := collect_nodup _ _ _ _ SS NF). assert (NL := collect_nodup _ _ _ _ LS NF).
  assert (PS := collect_spec _ _ _ _ SS). assert (PL := collect_spec _ _ _ _ LS).
  assert (OE : forall o o', iop_eqb o o' = true -> o = o'). { intros o o' K. unfold iop_eqb in K. destruct (iop_eq_dec o o'); congruence. }
  assert (WH : forall i, In i (flat_map (insns_of f) reach) -> exists b, In i (insns_of f b)). { intros i I. apply in_flat_map in I as (b & _ & I). eauto. }
  destruct (stack_fold f sp fuel shadow_store a ini pre post STORERAW C OL (or_intror eq_refl) store_act ss f1 (fun _ => []) f2 V1 NS) as (sh1 & V2 & K2 & S2 & A2); [|exact E2|].
  { intros i I. apply PS in I as (x & I & X & O). split; [auto|]. split; [exists x; auto|reflexivity]. }
  destruct (stack_fold f sp fuel shadow_load a ini pre post LOADRAW C OL (or_introl eq_refl) load_act ls f2 sh1 g V2 NL) as (sh2 & V3 & K3 & S3 & A3); [|exact E|].
  { intros i I. apply PL in I as (x & I & X & O). apply OE in O. split; [auto|]. split; [exists x; auto|]. rewrite S2; [reflexivity|].
    intros J. apply PS in J as (y & _ & Y & O'). apply OE in O'. congruence. }
  exists sh2, a, ini, pre, post. split; [exact V3|]. split.
  - intros k K. apply (filled_keeps _ _ _ _ _ K3), (filled_keeps _ _ _ _ _ K2). replace k with (Z.of_nat (Z.to_nat k)) by lia. apply FI. apply in_seq. lia.
  - intros b i x B I SA. pose proof SA as (X & [O|O] & _).
    + apply (A3 i x); [|exact SA]. apply PL. exists x. split; [apply in_flat_map; eauto|]. split; [exact X|]. rewrite O. reflexivity.
    + rewrite S3. { apply (A2 i x); [|exact SA]. apply PS. exists x. split; [apply in_flat_map; eauto|]. split; [exact X|]. rewrite O. reflexivity. }
      intros J. apply PL in J as (y & _ & Y & O'). apply OE in O'. congruence.
Qed.

(** ** What the result looks like *)
Lemma low_exp (P : nat -> bool) sh l : (forall i, In i l -> P i = true) -> (forall i n, In i l -> In n (sh i) -> P n = false) -> filter P (flat_map (exp sh) l) = l.
Proof.
  intros A B. induction l as [|i l IH]; [reflexivity|]. cbn [flat_map]. unfold exp at 1. cbn [app filter]. rewrite (A i (or_introl eq_refl)). rewrite filter_app.
  rewrite IH by (intros; eauto using in_cons). f_equal. assert (K : filter P (sh i) = []); [|now rewrite K].
  assert (B' : forall n, In n (sh i) -> P n = false) by (intros n I; apply (B i n); [now left|exact I]). clear -B'. induction (sh i) as [|n m IH]; [reflexivity|]. cbn. rewrite (B' n (or_introl eq_refl)). apply IH. intros k K. apply B'. now right.
Qed.
Lemma filter_none {A} (P : A -> bool) l : (forall i, In i l -> P i = false) -> filter P l = [].
Proof. induction l as [|n m IH]; intros B; [reflexivity|]. cbn. rewrite (B n (or_introl eq_refl)). apply IH. intros k K. apply B. now right. Qed.

Lemma fm_in sh i l n : In i l -> sh i = [n] -> exists l1 l2, flat_map (exp sh) l = l1 ++ i :: n :: l2.
Proof.
  intros I S. apply in_split in I as (p & q & ->). rewrite flat_map_app. cbn [flat_map]. unfold exp at 2. rewrite S. eexists. eexists. cbn [app]. reflexivity.
Qed.
Lemma fm_new sh l n : In n (flat_map (exp sh) l) -> In n l \/ exists i, In i l /\ In n (sh i).
Proof. intros I. apply in_flat_map in I as (i & I & [->|J]); eauto. Qed.

Section Shape.
Variables (f g : func) (sp : nat) (sh : nat -> list nat) (a : nat) (ini pre post : list nat) (reach : list nat).
Hypothesis C : cfg_ok f.
Hypothesis V : inv f g sp sh a ini pre post.

Lemma sh_one i n : In n (sh i) -> sh i = [n].
Proof. intros I. apply (v_sh _ _ _ _ _ _ _ _ V i n I). Qed.
Lemma placed_low b i : In i (insns_of f b) -> i < f_ni f.
Proof. intros I. destruct (cf_linked _ C b i I) as (x & X & _). destruct (Nat.lt_ge_cases i (f_ni f)); auto. rewrite (proj1 (cf_fresh _ C)) in X by assumption. discriminate. Qed.
Lemma high_none n : f_ni f <= n -> f_insn f n = None.
Proof. apply C. Qed.
Lemma shape_split b i n : In i (insns_of f b) -> sh i = [n] -> exists l1 l2, insns_of g b = l1 ++ i :: n :: l2.
Proof.
  intros I S. rewrite (v_list _ _ _ _ _ _ _ _ V b). destruct (v_front _ _ _ _ _ _ _ _ V) as (F & FP & _). destruct (Nat.eqb_spec b (f_entry f)) as [->|].
  - rewrite F in I. apply in_app_or in I as [I|I].
    + destruct (fm_in sh i pre n I S) as (l1 & l2 & ->). exists l1. eexists. rewrite <- app_assoc. reflexivity.
    + destruct (fm_in sh i post n I S) as (l1 & l2 & ->). eexists. exists l2. rewrite !app_assoc. reflexivity.
  - now apply fm_in.
Qed.
Lemma fm_phis l : (forall i, In i l -> is_phi f i) -> flat_map (exp sh) l = l.
Proof.
  induction l as [|i l IH]; intros P; [reflexivity|]. cbn [flat_map]. unfold exp at 1. rewrite (sh_phi _ _ _ _ _ _ _ _ _ V (P i (or_introl eq_refl))).
  rewrite IH; [reflexivity|]. intros j J. apply P. now right.
Qed.
Lemma shape : (forall k, (0 <= k < 32)%Z -> filled g a ini k) -> (forall b i x, In b reach -> In i (insns_of f b) -> stack_access f sp i x -> sh i <> []) ->
  shadows f g sp reach a.
Proof.
  intros FI ALL. destruct (v_front _ _ _ _ _ _ _ _ V) as (F & FP & FN).
  assert (HSH : forall i n, In n (sh i) -> (n <? f_ni f) = false). { intros i n I. apply Nat.ltb_ge. apply (v_sh _ _ _ _ _ _ _ _ V i n I). }
  constructor; try apply V.
  - intros i x X. destruct (v_kept _ _ _ _ _ _ _ _ V i x X) as (u & E). exists u, (i_parent x). rewrite E. destruct x; reflexivity.
  - intros b. rewrite (v_list _ _ _ _ _ _ _ _ V b). assert (LO : forall i, In i (insns_of f b) -> (i <? f_ni f) = true) by (intros i I; apply Nat.ltb_lt; eapply placed_low; eauto).
    destruct (Nat.eqb_spec b (f_entry f)) as [->|]; [|apply low_exp; auto; intros; eapply HSH; eauto].
    rewrite F in *. rewrite !filter_app. rewrite !low_exp; try (intros; eapply HSH; eauto); try (intros; apply LO; apply in_or_app; auto; fail).
    cbn [app filter]. rewrite (proj2 (Nat.ltb_ge a (f_ni f))) by apply (v_arr _ _ _ _ _ _ _ _ V).
    rewrite (filter_none _ ini); [reflexivity|]. intros i I. apply Nat.ltb_ge. apply (v_ini _ _ _ _ _ _ _ _ V i I).
  - destruct (v_arr _ _ _ _ _ _ _ _ V) as (A1 & A2). split; [now apply high_none|exact A2].
  - exists pre, ini, (flat_map (exp sh) post). split; [|split; [exact FP|split]].
    + rewrite (v_list _ _ _ _ _ _ _ _ V _), Nat.eqb_refl. rewrite (fm_phis pre FP). reflexivity.
    + intros z r Z. destruct post as [|z' r']; [discriminate Z|]. cbn in Z. injection Z as <- _. eapply FN; eauto.
    + exact FI.
  - intros b i x B I SA. destruct (sh i) as [|n l] eqn:S; [exfalso; eapply ALL; eauto|]. assert (IN : In n (sh i)) by (rewrite S; now left).
    destruct (v_sh _ _ _ _ _ _ _ _ V i n IN) as (S1 & HN & x' & y & SA' & Y & SO). destruct (shape_split b i n I S1) as (l1 & l2 & L).
    exists l1, n, l2, y. split; [exact L|]. split; [now apply high_none|]. split; [exact Y|]. replace x with x'; [exact SO|]. destruct SA as (A1 & _), SA' as (A2 & _). congruence.
  - intros b n I N.
    assert (ST : forall i, In i (insns_of f b) -> In n (sh i) -> exists y, f_insn g n = Some y /\ (n = a \/ (b = f_entry f /\ exists k, (0 <= k < 32)%Z /\ fills a k y) \/
       exists l1 i l2 x, insns_of g b = l1 ++ i :: n :: l2 /\ stack_access f sp i x /\ shadow_of x y)).
    { intros i II J. destruct (v_sh _ _ _ _ _ _ _ _ V i n J) as (S1 & HN & x & y & SA & Y & SO). destruct (shape_split b i n II S1) as (l1 & l2 & L).
      exists y. split; [exact Y|]. right. right. exists l1, i, l2, x. auto. }
    assert (OLD : ~ In n (insns_of f b)). { intros K. destruct (cf_linked _ C b n K) as (x & X & _). congruence. }
    rewrite (v_list _ _ _ _ _ _ _ _ V b) in I. destruct (Nat.eqb_spec b (f_entry f)) as [->|].
    + rewrite F in *. apply in_app_or in I as [I|I]; [|apply in_app_or in I as [[I|I]|I]].
      * apply fm_new in I as [I|(i & I & J)]; [exfalso; apply OLD; apply in_or_app; auto|]. apply (ST i); [apply in_or_app; auto|exact J].
      * subst n. destruct (v_arr _ _ _ _ _ _ _ _ V) as (_ & y & Y & _). exists y. auto.
      * destruct (v_ini _ _ _ _ _ _ _ _ V n I) as (_ & k & y & K & Y & W). exists y. split; [exact Y|]. right. left. eauto.
      * apply fm_new in I as [I|(i & I & J)]; [exfalso; apply OLD; apply in_or_app; auto|]. apply (ST i); [apply in_or_app; auto|exact J].
    + apply fm_new in I as [I|(i & I & J)]; [contradiction|]. apply (ST i); auto.
Qed.
End Shape.
Theorem msan_shape fuel sp reach f g : cfg_ok f -> operands_live f -> NoDup reach -> msan fuel sp reach f = Ok g -> exists a, shadows f g sp reach a.
Proof.
  intros C OL N E. destruct (msan_inv fuel sp reach f g C OL N E) as (sh & a & ini & pre & post & V & FI & ALL). exists a. eapply shape; eauto.
Qed.
