(** The instruction counter: what one check adds to the function. *)
From Coq Require Import ZArith List Bool Arith Lia.
From Verif Require Import M_Base M_Ir M_Edit M_Pass SpecWord SpecFlat SpecSsa SpecIr SpecEdit SpecPass SpecStrict SpecInstr
  L_Edit L_Uses L_Hist L_Ctor L_Ins L_Div.
Import ListNotations.
Open Scope nat_scope.

(** * A check at the end of a block that falls through *)
Record ext (f g : func) (bb succ eb t j : nat) (k : ctor) : Prop := {
  ex_eb : eb = f_nb f; ex_t : t = f_ni f; ex_j : j = S t;
  ex_ni : f_ni g = S j; ex_fnb : f_nb g = S eb; ex_entry : f_entry g = f_entry f;
  ex_dom : forall c, f_block g c <> None <-> (f_block f c <> None \/ c = eb);
  ex_insns : forall c, insns_of g c = if c =? bb then insns_of f bb ++ [j] else if c =? eb then [t] else insns_of f c;
  ex_succs : forall c, succs_of g c = if c =? bb then [succ; eb] else if c =? eb then [] else succs_of f c;
  ex_preds : forall c, preds_of g c = if c =? eb then [bb] else preds_of f c;
  ex_old : forall i, i <> t -> i <> j -> exists u, f_insn g i = option_map (set_users u) (f_insn f i);
  ex_throw : exists u, f_insn g t = Some (set_users u (build eb K_throw));
  ex_jmp : exists u, f_insn g j = Some (set_users u (build bb k)) }.

Lemma ext_ok f f2 eb f3 t f4 j g p x l succ k : cfg_ok f -> f_insn f p = Some x -> insns_of f (i_parent x) = l ++ [p] -> i_op x <> PHI ->
  i_op (build 0 k) <> PHI -> succs_of f (i_parent x) = [succ] ->
  create_bb f = (f2, eb) -> create_at_bb f2 eb K_throw P_BACK = Ok (f3, t) -> create_at f3 p k P_BACK = Ok (f4, j) -> connect_bb f4 (i_parent x) eb = Ok g ->
  ext f g (i_parent x) succ eb t j k.
Proof.
  intros C X L NP KP SU E2 E3 E4 E5. set (bb := i_parent x) in *.
  assert (BX : f_block f bb <> None). { apply (in_block f bb p). rewrite L. apply in_or_app. right. now left. }
  destruct (create_bb_spec _ _ _ E2 (cf_fresh _ C)) as (B1 & B2 & B3 & B4 & B5 & B6 & B7 & B8 & B9 & B10 & B11 & B12 & F2).
  assert (G := grown_bb _ _ _ _ _ _ B3 E3 (or_introl eq_refl)). cbn in G.
  assert (IE : insns_of f2 eb = []). { rewrite B7. unfold insns_of. now rewrite B2. }
  rewrite IE in G. cbn in G.
  assert (NBE : bb <> eb) by (intros Z; rewrite Z in BX; contradiction).
  assert (F3 : fresh_ok f3).
  { split.
    - intros i Hi. rewrite (gr_ni _ _ _ _ _ _ G) in Hi. destruct (gr_old _ _ _ _ _ _ G i) as (u & E); [lia|].
      rewrite E. rewrite (proj1 F2); [reflexivity|]. rewrite (gr_id _ _ _ _ _ _ G) in Hi. lia.
    - intros b Hb. apply (gr_dom _ _ _ _ _ _ G). apply F2. rewrite (gr_nb _ _ _ _ _ _ G) in Hb. exact Hb. }
  assert (ET : t = f_ni f) by (rewrite (gr_id _ _ _ _ _ _ G); congruence).
  assert (PT : p <> t). { intros Q. rewrite Q, ET, (proj1 (cf_fresh _ C)) in X; [discriminate|lia]. }
  destruct (gr_old _ _ _ _ _ _ G p PT) as (u & XP). rewrite B8, X in XP. cbn in XP.
  assert (ND := cf_once _ C bb). rewrite L in ND.
  assert (NI : ~ In p l). { intros I. apply NoDup_remove_2 in ND. apply ND. rewrite app_nil_r. exact I. }
  assert (LB : insns_of f3 (i_parent (set_users u x)) = l ++ p :: []).
  { cbn. fold bb. rewrite (gr_insns _ _ _ _ _ _ G). destruct (Nat.eqb_spec bb eb); [contradiction|]. now rewrite B7. }
  assert (BX3 : f_block f3 (i_parent (set_users u x)) <> None).
  { cbn. fold bb. intros Q. apply (gr_dom _ _ _ _ _ _ G) in Q. rewrite B4 in Q. destruct (bb =? eb); [discriminate|contradiction]. }
  assert (G2 := grown_at f3 p (set_users u x) k P_BACK f4 j l [] F3 XP BX3 LB NI (or_intror eq_refl) KP (fun Q => False_ind _ (NP Q)) E4).
  cbn in G2. fold bb in G2.
  destruct (connect_spec _ _ _ _ E5) as (SS & _ & _ & SU' & PR).
  assert (EJ : j = S t). { rewrite (gr_id _ _ _ _ _ _ G2). apply G. }
  constructor; auto.
  - rewrite (ss_ni _ _ SS). apply G2.
  - rewrite (ss_nb _ _ SS), (gr_nb _ _ _ _ _ _ G2), (gr_nb _ _ _ _ _ _ G). exact B10.
  - rewrite (ss_entry _ _ SS), (gr_entry _ _ _ _ _ _ G2), (gr_entry _ _ _ _ _ _ G). exact B12.
  - intros c. assert (Z := ss_dom _ _ SS c). assert (Z' := gr_dom _ _ _ _ _ _ G2 c). assert (Z'' := gr_dom _ _ _ _ _ _ G c).
    assert (Y : f_block g c <> None <-> f_block f2 c <> None) by tauto. rewrite Y, B4. destruct (Nat.eqb_spec c eb); [split; [auto|discriminate]|tauto].
  - intros c. rewrite (ss_insns _ _ SS), (gr_insns _ _ _ _ _ _ G2). destruct (Nat.eqb_spec c bb) as [->|Nc]; [rewrite L, <- app_assoc; reflexivity|].
    rewrite (gr_insns _ _ _ _ _ _ G). destruct (Nat.eqb_spec c eb); auto.
  - intros c. rewrite SU', (gr_succs _ _ _ _ _ _ G2), (gr_succs _ _ _ _ _ _ G), B5. destruct (Nat.eqb_spec c bb) as [->|Nc].
    + rewrite SU. rewrite push_unique_notin; [reflexivity|]. intros [Z|[]].
      assert (Q : In bb (preds_of f succ)) by (apply (cf_mirror _ C); rewrite SU; now left). rewrite Z in Q. unfold preds_of in Q. rewrite B2 in Q. destruct Q.
    + destruct (Nat.eqb_spec c eb) as [->|]; auto. unfold succs_of. now rewrite B2.
  - intros c. rewrite PR, (gr_preds _ _ _ _ _ _ G2), (gr_preds _ _ _ _ _ _ G), B6. destruct (Nat.eqb_spec c eb) as [->|Nc]; auto.
    unfold preds_of. rewrite B2. reflexivity.
  - intros i Ht Hj. rewrite (ss_insn _ _ SS). destruct (gr_old _ _ _ _ _ _ G2 i Hj) as (v & E). destruct (gr_old _ _ _ _ _ _ G i Ht) as (v' & E').
    exists v. rewrite E, E', B8. destruct (f_insn f i); reflexivity.
  - rewrite (ss_insn _ _ SS). destruct (gr_old _ _ _ _ _ _ G2 t) as (v & E); [lia|]. destruct (gr_new _ _ _ _ _ _ G) as (v' & E'). exists v. rewrite E, E'. reflexivity.
  - rewrite (ss_insn _ _ SS). apply G2.
Qed.

Section EXTCFG.
Variables (f g : func) (bb succ eb t j : nat) (v1 v2 : value) (o : iop) (al : alut).
Hypotheses (C : cfg_ok f) (B : f_block f bb <> None) (SU : succs_of f bb = [succ]) (CO : cmp_op_of o <> None)
  (NT : forall i, In i (insns_of f bb) -> ~ is_terminator f i)
  (G : ext f g bb succ eb t j (K_jbin v1 v2 succ eb o al)).

Lemma ext_ne : bb <> eb /\ f_block f eb = None.
Proof.
  assert (A2 : f_block f eb = None) by (apply (cf_fresh _ C); rewrite (ex_eb _ _ _ _ _ _ _ _ G); lia).
  split; auto. intros Z. rewrite Z in B. contradiction.
Qed.
Lemma ext_fresh : f_insn f t = None /\ f_insn f j = None.
Proof.
  assert (T1 := ex_t _ _ _ _ _ _ _ _ G). assert (T2 := ex_j _ _ _ _ _ _ _ _ G).
  split; apply (cf_fresh _ C); lia.
Qed.
Lemma ext_notin i b : In i (insns_of f b) -> i <> t /\ i <> j.
Proof. intros I. destruct (cf_linked _ C b i I) as (x & X & _). destruct ext_fresh as (A1 & A2). split; intros ->; congruence. Qed.
Lemma ext_like i : i <> t -> i <> j -> opt_like f g i.
Proof. intros A1 A2. apply like_users. apply (ex_old _ _ _ _ _ _ _ _ G i A1 A2). Qed.
Lemma ext_goes c e : goes g c e -> (c = bb /\ (e = succ \/ e = eb)) \/ (c <> bb /\ c <> eb /\ goes f c e).
Proof.
  intros W. destruct ext_ne as (N1 & N2). destruct (ex_jmp _ _ _ _ _ _ _ _ G) as (u & XJ). destruct (ex_throw _ _ _ _ _ _ _ _ G) as (u' & XT).
  assert (IG := ex_insns _ _ _ _ _ _ _ _ G c). assert (SG := ex_succs _ _ _ _ _ _ _ _ G c).
  destruct (Nat.eqb_spec c bb) as [->|Nb].
  { left. split; auto. apply (goes_last g bb (insns_of f bb) j) in W; auto.
    - destruct W as [(x & X & [(Y & _)|(_ & Y)])|(l' & Y)].
      + rewrite XJ in X. injection X as <-. cbn in Y. subst o. exfalso. apply CO. reflexivity.
      + rewrite XJ in X. injection X as <-. cbn in Y. auto.
      + rewrite SG in Y. injection Y as -> _. auto.
    - intros i I Z. apply (NT i I). destruct (ext_notin i bb I) as (T1 & T2). apply (like_term f g i); auto. apply ext_like; auto. }
  destruct (Nat.eqb_spec c eb) as [->|Ne].
  { exfalso. apply (goes_last g eb [] t) in W; auto.
    destruct W as [(x & X & Y)|(l' & Y)]; [|rewrite SG in Y; discriminate].
    rewrite XT in X. injection X as <-. cbn in Y. destruct Y as [(Y & _)|(Y & _)]; [discriminate|]. apply Y. reflexivity. }
  right. repeat split; auto. eapply goes_like; [| |exact W].
  - intros i I. rewrite IG in I. split; auto. destruct (ext_notin i c I). apply ext_like; auto.
  - intros c' l Y. rewrite SG in Y. eauto.
Qed.
Lemma ext_cfg : cfg_ok g.
Proof.
  destruct ext_ne as (N1 & N2). destruct ext_fresh as (F1 & F2). destruct (cf_mirror _ C) as (A & A1 & A2).
  assert (ET := ex_t _ _ _ _ _ _ _ _ G). assert (EJ := ex_j _ _ _ _ _ _ _ _ G).
  destruct (ex_jmp _ _ _ _ _ _ _ _ G) as (u & XJ). destruct (ex_throw _ _ _ _ _ _ _ _ G) as (u' & XT).
  assert (SP : forall c d, In c (succs_of f d) -> c <> eb). { intros c d I. apply A in I. intros ->. unfold preds_of in I. rewrite N2 in I. destruct I. }
  assert (PS : forall c d, In c (preds_of f d) -> c <> eb). { intros c d I. apply A in I. intros ->. unfold succs_of in I. rewrite N2 in I. destruct I. }
  constructor.
  - split; [|split].
    + intros a b. rewrite (ex_succs _ _ _ _ _ _ _ _ G), (ex_preds _ _ _ _ _ _ _ _ G). destruct (Nat.eqb_spec b eb) as [->|B2].
      * destruct (Nat.eqb_spec a bb) as [->|B3]; [cbn; tauto|]. split; [|intros [Z|[]]; congruence].
        destruct (Nat.eqb_spec a eb); [intros []|]. intros I. apply SP in I. congruence.
      * rewrite <- A. destruct (Nat.eqb_spec a bb) as [->|B3]; [rewrite SU; cbn; intuition congruence|].
        destruct (Nat.eqb_spec a eb) as [->|B4]; [|tauto]. unfold succs_of. rewrite N2. tauto.
    + intros a. rewrite (ex_succs _ _ _ _ _ _ _ _ G). destruct (Nat.eqb_spec a bb) as [->|].
      * constructor; [|repeat constructor; auto]. intros [Z|[]]. apply (SP succ bb); [rewrite SU; now left|auto].
      * destruct (a =? eb); [constructor|apply A1].
    + intros a. rewrite (ex_preds _ _ _ _ _ _ _ _ G). destruct (a =? eb); [repeat constructor; auto|apply A2].
  - split.
    + intros i Hi. rewrite (ex_ni _ _ _ _ _ _ _ _ G) in Hi. destruct (ex_old _ _ _ _ _ _ _ _ G i) as (w & E); try lia.
      rewrite E, (proj1 (cf_fresh _ C)); [reflexivity|lia].
    + intros b Hb. destruct (f_block g b) eqn:E; auto. exfalso. assert (Z : f_block g b <> None) by congruence.
      apply (ex_dom _ _ _ _ _ _ _ _ G) in Z. rewrite (ex_fnb _ _ _ _ _ _ _ _ G) in Hb. assert (E1 := ex_eb _ _ _ _ _ _ _ _ G).
      destruct Z as [Z|Z]; try lia. apply Z. apply (cf_fresh _ C). lia.
  - intros b i I. rewrite (ex_insns _ _ _ _ _ _ _ _ G) in I.
    assert (K : forall b', In i (insns_of f b') -> exists x, f_insn g i = Some x /\ i_parent x = b').
    { intros b' I'. destruct (cf_linked _ C b' i I') as (x & X & P). destruct (ext_notin i b' I') as (T1 & T2).
      destruct (ex_old _ _ _ _ _ _ _ _ G i T1 T2) as (w & E). rewrite X in E. eexists. split; [exact E|]. exact P. }
    destruct (Nat.eqb_spec b bb) as [->|B1].
    { apply in_app_or in I as [I|[<-|[]]]; auto. eexists. split; [exact XJ|]. reflexivity. }
    destruct (Nat.eqb_spec b eb) as [Q|B3]; auto. destruct I as [<-|[]]. eexists. split; [exact XT|]. cbn. auto.
  - intros b. rewrite (ex_insns _ _ _ _ _ _ _ _ G). destruct (b =? bb).
    { apply NoDup_Add with (a := j) (l := insns_of f bb ++ []); [apply Add_app|]. rewrite app_nil_r. split; [apply C|].
      intros I. apply ext_notin in I. tauto. }
    destruct (b =? eb); [repeat constructor; auto|]. apply C.
  - intros b c W. rewrite (ex_succs _ _ _ _ _ _ _ _ G). apply ext_goes in W as [(-> & W)|(Q1 & Q2 & W)].
    + rewrite Nat.eqb_refl. cbn. destruct W; auto.
    + destruct (Nat.eqb_spec b bb); [contradiction|]. destruct (Nat.eqb_spec b eb); [contradiction|]. apply (cf_goes _ C). exact W.
  - intros b k1 i k2 E T. rewrite (ex_insns _ _ _ _ _ _ _ _ G) in E.
    assert (K : forall b', In i (insns_of f b') -> is_terminator f i).
    { intros b' I. destruct (ext_notin i b' I). apply (like_term f g i); auto. apply ext_like; auto. }
    destruct (Nat.eqb_spec b bb) as [Q|B1].
    { destruct k2 as [|z k2]; auto. exfalso. destruct (exists_last (l := z :: k2)) as (y & w & W); [discriminate|]. rewrite W in E.
      rewrite app_comm_cons, app_assoc in E. apply app_inj_tail in E as (E & _).
      assert (I : In i (insns_of f bb)) by (rewrite E; apply in_or_app; right; now left). apply (NT i I). eauto. }
    destruct (Nat.eqb_spec b eb) as [Q|B3].
    { destruct k1 as [|z [|z' k1]]; [|discriminate|discriminate]. cbn in E. now injection E. }
    apply (cf_ends _ C b k1 i k2 E). apply (K b). rewrite E. apply in_or_app. right. now left.
  - rewrite (ex_entry _ _ _ _ _ _ _ _ G). apply (ex_dom _ _ _ _ _ _ _ _ G). left. apply (cf_entry _ C).
Qed.
End EXTCFG.

(** * One check *)
(** the check at the end of [bb] in [g]: its parts, and where control goes afterwards *)
Definition wov (f g : func) (cell : nat) (limit : value * Z) (bb : nat) : Prop :=
  exists body tail ld ad st j eb nb xj, insns_of f bb = body ++ tail /\ insns_of g bb = body ++ [ld; ad; st; j] /\ check g cell limit ld ad st j eb /\
    f_insn g j = Some xj /\ i_bb1 xj = nb /\ f_insn f ld = None /\ f_insn f ad = None /\ f_block g eb <> None /\ f_block f eb = None /\ (forall i, In i body -> ~ is_terminator f i) /\
    ((tail = [] /\ succs_of f bb = [nb]) \/
     exists i, tail = [i] /\ is_terminator f i /\ f_block f nb = None /\ f_block g nb <> None /\ insns_of g nb = [i] /\ succs_of g nb = succs_of f bb).
(** [g] is [f] with a check at the end of block [bb] *)
Record cstep (f g : func) (cell : nat) (limit : value * Z) (bb : nat) : Prop := {
  cs_cfg : cfg_ok g;
  cs_entry : f_entry g = f_entry f;
  cs_dom : forall c, f_block f c <> None -> f_block g c <> None;
  cs_live : forall i, f_insn f i <> None -> opt_like f g i;
  cs_block : exists body tail ld ad st j eb, insns_of f bb = body ++ tail /\ (tail = [] \/ exists i, tail = [i] /\ is_terminator f i) /\
    insns_of g bb = body ++ [ld; ad; st; j] /\ check g cell limit ld ad st j eb /\ f_insn f ad = None /\ f_block f eb = None;
  cs_new : forall c, f_block f c = None -> f_block g c <> None -> preds_of g c = [bb] /\
    forall i, In i (insns_of g c) -> is_terminator g i;
  cs_other : forall c, c <> bb -> f_block f c <> None -> insns_of g c = insns_of f c;
  cs_preds : forall c, f_block f c <> None -> length (preds_of g c) = length (preds_of f c);
  cs_from : forall c q, f_block f c <> None -> In q (preds_of g c) -> In q (preds_of f c) \/ (f_block f q = None /\ preds_of g q = [bb] /\ In bb (preds_of f c));
  cs_woven : wov f g cell limit bb;
  cs_succs : forall c, c <> bb -> f_block f c <> None -> succs_of g c = succs_of f c }.

Lemma erase_length x l : In x l -> NoDup l -> length (erase_first x l) = pred (length l).
Proof.
  induction l as [|a l IH]; intros I ND; [destruct I|]. cbn. destruct (Nat.eqb_spec a x); auto. destruct I as [I|I]; [congruence|].
  inversion ND; subst. cbn. rewrite IH; auto. destruct l; [destruct I|reflexivity].
Qed.
Lemma opt_like_live f g i : opt_like f g i -> f_insn f i <> None -> f_insn g i <> None.
Proof. intros (u & q & E) L. rewrite E. destruct (f_insn f i); [discriminate|congruence]. Qed.

Section STEP.
Variables (inc : value) (cell : nat).

(** the three instructions before the check *)
Lemma bump_ok f ld g ad st x l1 l2 : cfg_ok f -> f_insn f ld = Some x -> i_op x = LOAD -> insns_of f (i_parent x) = l1 ++ ld :: l2 ->
  (l2 = [] -> forall i, In i l1 -> ~ is_terminator f i) ->
  bump f ld cell inc = Ok (g, (ad, st)) ->
  cfg_ok g /\ f_entry g = f_entry f /\ f_nb g = f_nb f /\ (forall c, f_block g c = None <-> f_block f c = None) /\
  ad = f_ni f /\ st = S ad /\ f_ni g = S st /\ (forall c, succs_of g c = succs_of f c) /\ (forall c, preds_of g c = preds_of f c) /\
  (forall c, insns_of g c = if c =? i_parent x then l1 ++ ld :: ad :: st :: l2 else insns_of f c) /\
  (forall i, i <> ad -> i <> st -> opt_like f g i) /\
  (exists y, f_insn g ad = Some y /\ i_op y = ADD /\ i_vals y = [val_insn ld; inc] /\ i_alu y = A_64) /\
  (exists y, f_insn g st = Some y /\ i_op y = STORE /\ i_vals y = [val_insn cell; val_insn ad] /\ i_parent y = i_parent x).
Proof.
  intros C X O L NT E. unfold bump in E. apply bind_ok in E as ((f1 & ad') & E1 & E). cbn [fst snd] in E.
  apply bind_ok in E as ((f2 & st') & E2 & E). cbn [fst snd] in E. injection E as -> -> ->.
  set (bb := i_parent x) in *.
  assert (BX : f_block f bb <> None). { apply (in_block f bb ld). rewrite L. apply in_or_app. right. now left. }
  assert (ND := cf_once _ C bb). rewrite L in ND.
  assert (NI : ~ In ld l1). { intros I. apply NoDup_remove_2 in ND. apply ND. apply in_or_app. auto. }
  assert (G1 := grown_at f ld x (K_bin (val_insn ld) inc ADD A_64) P_BACK f1 ad l1 l2 (cf_fresh _ C) X BX L NI (or_intror eq_refl) ltac:(discriminate)
    ltac:(intros Q; congruence) E1). cbn in G1. fold bb in G1.
  assert (LT : ~ is_terminator f ld). { intros (y & Y & T). rewrite X in Y. injection Y as <-. rewrite O in T. cbn in T. intuition discriminate. }
  assert (C1 : cfg_ok f1).
  { apply (grown_cfg f f1 ad bb (K_bin (val_insn ld) inc ADD A_64) (l1 ++ [ld]) l2); auto.
    - rewrite L, <- app_assoc. reflexivity.
    - rewrite <- app_assoc. exact G1.
    - split; [discriminate|]. cbn. intuition discriminate.
    - intros Q i I. apply in_app_or in I as [I|[<-|[]]]; auto. }
  destruct (gr_new _ _ _ _ _ _ G1) as (u1 & X1). set (x1 := set_users u1 _) in X1.
  assert (L1 : insns_of f1 (i_parent x1) = (l1 ++ [ld]) ++ ad :: l2).
  { change (i_parent x1) with bb. rewrite (gr_insns _ _ _ _ _ _ G1), Nat.eqb_refl, <- app_assoc. reflexivity. }
  assert (BX1 : f_block f1 (i_parent x1) <> None). { change (i_parent x1) with bb. intros Q. apply (gr_dom _ _ _ _ _ _ G1) in Q. contradiction. }
  assert (ND1 := cf_once _ C1 bb). change (i_parent x1) with bb in L1. rewrite L1 in ND1.
  assert (NI1 : ~ In ad (l1 ++ [ld])). { intros I. apply NoDup_remove_2 in ND1. apply ND1. apply in_or_app. auto. }
  assert (G2 := grown_at f1 ad x1 (K_store cell (val_insn ad)) P_BACK g st (l1 ++ [ld]) l2 (cf_fresh _ C1) X1 BX1 L1 NI1 (or_intror eq_refl) ltac:(discriminate)
    ltac:(intros Q; discriminate Q) E2). change (i_parent x1) with bb in G2. cbn in G2. rewrite <- app_assoc in G2. cbn in G2.
  assert (LT1 : ~ is_terminator f1 ad). { intros (y & Y & T). rewrite X1 in Y. injection Y as <-. cbn in T. intuition discriminate. }
  assert (LK1 : forall i, i <> ad -> opt_like f f1 i) by apply (grown_like _ _ _ _ _ _ G1).
  assert (LDA : ld <> ad) by (intros Q; apply NI1; rewrite Q; apply in_or_app; right; now left).
  assert (C2 : cfg_ok g).
  { apply (grown_cfg f1 g st bb (K_store cell (val_insn ad)) (l1 ++ [ld; ad]) l2); auto.
    - rewrite L1, <- !app_assoc. reflexivity.
    - rewrite <- app_assoc. exact G2.
    - split; [discriminate|]. cbn. intuition discriminate.
    - intros Q i I. apply in_app_or in I as [I|[<-|[<-|[]]]]; auto.
      + intros T. apply (NT Q i I). apply (like_term f f1 i); auto. apply LK1. intros ->. apply NI1. apply in_or_app. auto.
      + intros T. apply LT. apply (like_term f f1 ld); auto. }
  assert (ES : st = S ad). { rewrite (gr_id _ _ _ _ _ _ G2). apply G1. }
  destruct (gr_old _ _ _ _ _ _ G2 ad) as (u2 & X2); [lia|]. rewrite X1 in X2. cbn in X2.
  destruct (gr_new _ _ _ _ _ _ G2) as (u3 & X3).
  split; [exact C2|]. split; [rewrite (gr_entry _ _ _ _ _ _ G2); apply G1|]. split; [rewrite (gr_nb _ _ _ _ _ _ G2); apply G1|].
  split; [intros c; assert (Z1 := gr_dom _ _ _ _ _ _ G1 c); assert (Z2 := gr_dom _ _ _ _ _ _ G2 c); tauto|].
  split; [apply G1|]. split; [exact ES|]. split; [apply G2|].
  split; [intros c; rewrite (gr_succs _ _ _ _ _ _ G2); apply G1|]. split; [intros c; rewrite (gr_preds _ _ _ _ _ _ G2); apply G1|].
  split. { intros c. rewrite (gr_insns _ _ _ _ _ _ G2), (gr_insns _ _ _ _ _ _ G1). fold bb. destruct (c =? bb); reflexivity. }
  split. { intros i N1 N2. eapply like_trans; [apply LK1; auto|]. apply (grown_like _ _ _ _ _ _ G2); auto. }
  split; eexists; (split; [first [exact X2|exact X3]|]); cbn; auto.
Qed.
End STEP.

Lemma live_ne f i j : fresh_ok f -> f_insn f i <> None -> f_ni f <= j -> i <> j.
Proof. intros F L N ->. apply L. apply F. exact N. Qed.

(** the check before jump [i] *)
Definition jump_check (inc : value) (limit : Z) (alloc : nat) (f : func) (i : nat) : outcome func :=
  do l <- create_at f i (K_load (val_insn alloc)) P_FRONT;
  do r <- bump (fst l) (snd l) alloc inc;
  let '(f1, (added, store)) := r in
  do e <- create_error_block f1 store P_BACK;
  match e with
  | (_, None) => Err
  | (f2, Some (eb, nb)) =>
    do j <- create_at f2 store (K_jbin (val_insn added) (val_const32 limit) nb eb JGT A_64) P_BACK;
    Ok (fst j)
  end.
Lemma jump_check_ok inc limit cell f bb i l g : cfg_ok f -> insns_of f bb = l ++ [i] -> is_terminator f i -> jump_check inc limit cell f i = Ok g ->
  cstep f g cell (inc, limit) bb.
Proof.
  intros C L T E. unfold jump_check in E.
  assert (BX : f_block f bb <> None) by (intros Q; unfold insns_of in L; rewrite Q in L; destruct l; discriminate).
  apply bind_ok in E as ((f1 & ld) & E1 & E). cbn [fst snd] in E.
  apply bind_ok in E as ((f2 & (ad & st)) & E2 & E). apply bind_ok in E as ((f3 & r) & E3 & E).
  destruct r as [[eb nb]|]; [|discriminate]. apply bind_ok in E as ((g' & j) & E4 & E). cbn [fst snd] in E. injection E as ->.
  destruct (cf_linked _ C bb i) as (x & X & PX); [rewrite L; apply in_or_app; right; now left|].
  assert (L0 : insns_of f (i_parent x) = l ++ i :: []) by now rewrite PX.
  assert (ND := cf_once _ C bb). rewrite L in ND.
  assert (NI : ~ In i l). { intros I. apply NoDup_remove_2 in ND. apply ND. rewrite app_nil_r. auto. }
  assert (NP : i_op x <> PHI). { intros Q. destruct T as (y & Y & T). rewrite X in Y. injection Y as <-. rewrite Q in T. cbn in T. intuition discriminate. }
  assert (BX' : f_block f (i_parent x) <> None) by now rewrite PX.
  assert (G1 := grown_at f i x (K_load (val_insn cell)) P_FRONT f1 ld l [] (cf_fresh _ C) X BX' L0 NI (or_introl eq_refl) ltac:(discriminate) ltac:(intros Q; contradiction) E1).
  cbn in G1. rewrite PX in G1.
  assert (C1 : cfg_ok f1).
  { apply (grown_cfg f f1 ld bb (K_load (val_insn cell)) l [i]); auto. - split; [discriminate|]. cbn. intuition discriminate. - discriminate. }
  destruct (gr_new _ _ _ _ _ _ G1) as (u1 & X1). set (x1 := set_users u1 _) in X1.
  assert (L1 : insns_of f1 (i_parent x1) = l ++ ld :: [i]).
  { change (i_parent x1) with bb. rewrite (gr_insns _ _ _ _ _ _ G1), Nat.eqb_refl. reflexivity. }
  destruct (bump_ok inc cell f1 ld f2 ad st x1 l [i] C1 X1 eq_refl L1 ltac:(discriminate) E2) as (C2 & A1 & A2 & A3 & A4 & A5 & A6 & A7 & A8 & A9 & A10 & (xa & XA & OA) & (xs & XS & OS & VS & PS)).
  change (i_parent x1) with bb in A9, PS.
  assert (L2 : insns_of f2 (i_parent xs) = (l ++ [ld; ad]) ++ st :: [i]) by (rewrite PS, A9, Nat.eqb_refl, <- app_assoc; reflexivity).
  destruct (cut_err f2 st xs (l ++ [ld; ad]) [i] (K_jbin (val_insn ad) (val_const32 limit) nb eb JGT A_64) C2 XS L2 ltac:(discriminate) ltac:(discriminate)
    ltac:(intros Q; congruence) f3 eb nb j g E3 E4) as (EN & t & G).
  rewrite <- EN in G. rewrite PS in G.
  assert (LL : insns_of f2 bb = ((l ++ [ld; ad]) ++ [st]) ++ [i]) by (rewrite <- PS, L2, <- !app_assoc; reflexivity).
  assert (NN : [i] <> []) by discriminate. assert (CO : cmp_op_of JGT <> None) by discriminate.
  destruct (cut_ne _ _ _ _ _ _ _ _ _ _ _ _ _ C2 LL NN G) as (N1 & N2 & N3 & N4 & N5).
  assert (CG := cut_cfg _ _ _ _ _ _ _ _ _ _ _ _ _ C2 LL NN CO G).
  assert (LK2 : forall k, k <> t -> k <> j -> opt_like f2 g k) by (intros k K1 K2; exact (cut_like _ _ _ _ _ _ _ _ _ _ _ _ _ G k K1 K2)).
  destruct (cut_fresh _ _ _ _ _ _ _ _ _ _ _ _ _ C2 G) as (FT & FJ).
  assert (IG := ct_insns _ _ _ _ _ _ _ _ _ _ G). assert (PG := ct_preds _ _ _ _ _ _ _ _ _ _ G).
  assert (LKA : forall k, f_insn f2 k <> None -> opt_like f2 g k) by (intros k K; apply LK2; intros ->; congruence).
  assert (D1 : forall c, f_block f2 c = None <-> f_block f c = None) by (intros c; assert (Z := gr_dom _ _ _ _ _ _ G1 c); assert (Z' := A3 c); tauto).
  assert (ID := gr_id _ _ _ _ _ _ G1). assert (FN := gr_ni _ _ _ _ _ _ G1).
  assert (XL2 : exists y, f_insn f2 ld = Some y /\ i_op y = LOAD /\ i_vals y = [val_insn cell]).
  { destruct (like_some f1 f2 ld x1) as (u & q & Y); auto; [apply A10; lia|]. eexists. split; [exact Y|]. cbn. auto. }
  assert (PP : forall c, preds_of f2 c = preds_of f c) by (intros c; rewrite A8; apply G1).
  assert (SS : forall c, succs_of f2 c = succs_of f c) by (intros c; rewrite A7; apply G1).
  assert (NBX : forall c, f_block f c <> None -> c <> nb /\ c <> eb). { intros c K. rewrite D1 in N4, N5. split; intros ->; contradiction. }
  assert (CK : check g cell (inc, limit) ld ad st j eb).
  { constructor.
    - destruct XL2 as (y & Y & O & V). destruct (like_some f2 g ld y) as (u & q & Z); auto; [apply LKA; congruence|]. eexists. split; [exact Z|]. cbn. auto.
    - destruct (like_some f2 g ad xa) as (u & q & Z); auto; [apply LKA; congruence|]. eexists. split; [exact Z|]. cbn. auto.
    - destruct (like_some f2 g st xs) as (u & q & Z); auto; [apply LKA; congruence|]. eexists. split; [exact Z|]. cbn. auto.
    - destruct (ct_jmp _ _ _ _ _ _ _ _ _ _ G) as (u & Z). eexists. split; [exact Z|]. cbn. auto.
    - destruct (ct_throw _ _ _ _ _ _ _ _ _ _ G) as (u & Z). exists t. eexists. split.
         { rewrite IG. destruct (Nat.eqb_spec eb bb); [congruence|]. destruct (Nat.eqb_spec eb nb); [congruence|]. now rewrite Nat.eqb_refl. }
         split; [exact Z|split; reflexivity]. }
  assert (M := cf_mirror _ C).
  constructor.
  + exact CG.
  + rewrite (ct_entry _ _ _ _ _ _ _ _ _ _ G), A1. apply G1.
  + intros c K. apply (ct_dom _ _ _ _ _ _ _ _ _ _ G). left. rewrite D1. exact K.
  + intros k K. assert (K1 : k <> ld /\ k <> ad /\ k <> st) by (repeat split; eapply live_ne; eauto; try apply C; lia).
    assert (K2 : opt_like f f1 k) by (apply (grown_like _ _ _ _ _ _ G1); tauto). assert (K3 : opt_like f1 f2 k) by (apply A10; tauto).
    eapply like_trans; [exact K2|]. eapply like_trans; [exact K3|]. apply LKA. eapply opt_like_live; eauto. eapply opt_like_live; eauto.
  + exists l, [i], ld, ad, st, j, eb. split; auto. split; [right; eauto|]. split.
    { rewrite IG, Nat.eqb_refl, <- !app_assoc. reflexivity. }
    split.
    * exact CK.
    * split; [apply (cf_fresh _ C); lia|]. rewrite D1 in N5. exact N5.
  + intros c K1 K2. apply (ct_dom _ _ _ _ _ _ _ _ _ _ G) in K2. rewrite <- D1 in K1. destruct K2 as [K2|[-> | ->]]; [contradiction| |].
    * split; [rewrite PG, Nat.eqb_refl; reflexivity|]. intros k I. rewrite IG in I. destruct (Nat.eqb_spec nb bb); [congruence|]. rewrite Nat.eqb_refl in I.
      destruct I as [<-|[]]. destruct T as (y & Y & T). rewrite X in Y. injection Y as <-.
      assert (K3 : i <> ld /\ i <> ad /\ i <> st) by (repeat split; apply (live_ne f); try apply C; try congruence; lia).
      assert (K4 : opt_like f g i).
      { eapply like_trans; [apply (grown_like _ _ _ _ _ _ G1); tauto|]. eapply like_trans; [apply A10; tauto|]. apply LKA.
        eapply opt_like_live; [apply A10; tauto|]. eapply opt_like_live; [apply (grown_like _ _ _ _ _ _ G1); tauto|]. congruence. }
      apply (like_term f g i K4). exists x. auto.
    * split; [rewrite PG; destruct (Nat.eqb_spec eb nb); [congruence|]; rewrite Nat.eqb_refl; reflexivity|]. intros k I.
      rewrite IG in I. destruct (Nat.eqb_spec eb bb); [congruence|]. destruct (Nat.eqb_spec eb nb); [congruence|]. rewrite Nat.eqb_refl in I.
      destruct I as [<-|[]]. destruct (ct_throw _ _ _ _ _ _ _ _ _ _ G) as (u & Z). eexists. split; [exact Z|cbn; auto].
  + intros c K1 K2. destruct (NBX c K2) as (Q1 & Q2). rewrite IG. destruct (Nat.eqb_spec c bb); [contradiction|]. destruct (Nat.eqb_spec c nb); [contradiction|]. destruct (Nat.eqb_spec c eb); [contradiction|].
    rewrite A9, (gr_insns _ _ _ _ _ _ G1). destruct (Nat.eqb_spec c bb); [contradiction|]. reflexivity.
  + intros c K2. destruct (NBX c K2) as (Q1 & Q2). rewrite PG. destruct (Nat.eqb_spec c nb); [contradiction|]. destruct (Nat.eqb_spec c eb); [contradiction|].
    rewrite PP, SS. destruct (existsb (Nat.eqb c) (succs_of f bb)) eqn:Q; auto.
    apply existsb_exists in Q as (y & Y & Q). apply Nat.eqb_eq in Q. subst y. apply (proj1 M) in Y.
    rewrite app_length, erase_length; auto; [|apply M]. cbn. destruct (preds_of f c); [destruct Y|cbn; lia].
  + intros c q K2 I. destruct (NBX c K2) as (Q1 & Q2). rewrite PG in I. destruct (Nat.eqb_spec c nb); [contradiction|]. destruct (Nat.eqb_spec c eb); [contradiction|].
    rewrite PP, SS in I. destruct (existsb (Nat.eqb c) (succs_of f bb)) eqn:Q; auto.
    apply in_app_or in I as [I|[<-|[]]].
    * left. apply erase_first_in in I as (I & _); auto. apply M.
    * right. apply existsb_exists in Q as (y & Y & Q). apply Nat.eqb_eq in Q. subst y. apply (proj1 M) in Y. rewrite D1 in N4. split; auto. split; auto.
      rewrite PG, Nat.eqb_refl. reflexivity.
  + destruct (ct_jmp _ _ _ _ _ _ _ _ _ _ G) as (u & Z). exists l, [i], ld, ad, st, j, eb, nb. eexists. split; auto. split; [rewrite IG, Nat.eqb_refl, <- !app_assoc; reflexivity|]. split; [exact CK|].
    split; [exact Z|]. split; [reflexivity|]. split; [apply (cf_fresh _ C); lia|]. split; [apply (cf_fresh _ C); lia|]. split; [apply (ct_dom _ _ _ _ _ _ _ _ _ _ G); auto|]. split; [rewrite <- D1; exact N5|]. split.
    { intros k K Tk. apply in_split in K as (m1 & m2 & K). assert (Y : m2 ++ [i] = []) by (apply (cf_ends _ C bb m1 k (m2 ++ [i])); auto; rewrite L, K, <- app_assoc; reflexivity). destruct m2; discriminate. }
    right. exists i. split; auto. split; auto. split; [rewrite <- D1; exact N4|]. split; [apply (ct_dom _ _ _ _ _ _ _ _ _ _ G); auto|]. split.
    { rewrite IG, Nat.eqb_refl. destruct (Nat.eqb_spec nb bb); [congruence|reflexivity]. }
    rewrite (ct_succs _ _ _ _ _ _ _ _ _ _ G), Nat.eqb_refl. destruct (Nat.eqb_spec nb bb); [congruence|]. apply SS.
  + intros c K1 K2. destruct (NBX c K2) as (Q1 & Q2). rewrite (ct_succs _ _ _ _ _ _ _ _ _ _ G). destruct (Nat.eqb_spec c bb); [contradiction|]. destruct (Nat.eqb_spec c nb); [contradiction|]. destruct (Nat.eqb_spec c eb); [contradiction|]. apply SS.
Qed.

Lemma add_counter_ok limit cell f bb g : cfg_ok f -> add_counter limit cell f bb = Ok g -> cstep f g cell (by_size limit) bb.
Proof.
  intros C E. unfold add_counter in E. apply bind_ok in E as (b & B & E). apply get_block_ok in B.
  assert (BX : f_block f bb <> None) by congruence.
  assert (IB : insns_of f bb = b_insns b) by (unfold insns_of; now rewrite B).
  apply bind_ok in E as (last & EL & E).
  assert (LS : match last with
    | None => forall i, In i (insns_of f bb) -> ~ is_terminator f i
    | Some i => exists l, insns_of f bb = l ++ [i] /\ is_terminator f i
    end).
  { destruct (rev (b_insns b)) as [|i r] eqn:R.
    - injection EL as <-. assert (Q : b_insns b = []) by (rewrite <- (rev_involutive (b_insns b)), R; reflexivity). rewrite IB, Q. intros i [].
    - assert (Q : b_insns b = rev r ++ [i]) by (rewrite <- (rev_involutive (b_insns b)), R; reflexivity).
      apply bind_ok in EL as (x & X & EL). apply get_insn_ok in X. injection EL as <-.
      assert (T : is_jmp_op (i_op x) = true <-> is_terminator f i).
      { rewrite <- op_term. unfold op_of. rewrite X. tauto. }
      destruct (is_jmp_op (i_op x)).
      + exists (rev r). rewrite IB. split; [exact Q|]. tauto.
      + intros k K Tk. rewrite IB, Q in K. apply in_app_or in K as [K|[<-|[]]].
        * apply in_split in K as (m1 & m2 & K). assert (Z : m2 ++ [i] = []).
          { apply (cf_ends _ C bb m1 k (m2 ++ [i])); auto. rewrite IB, Q, K, <- app_assoc. reflexivity. }
          destruct m2; discriminate.
        * assert (false = true) by tauto. discriminate. }
  assert (SB : succs_of f bb = b_succs b) by (unfold succs_of; now rewrite B).
  destruct last as [i|].
  - (* before the jump *)
    destruct LS as (l & L & T). exact (jump_check_ok count_value limit cell f bb i l g C L T E).
  - (* at the end *)
    destruct (b_succs b) as [|succ [|? ?]] eqn:SC; try discriminate.
    apply bind_ok in E as ((f1 & ld) & E1 & E). cbn [fst snd] in E.
    apply bind_ok in E as ((f2 & (ad & st)) & E2 & E). destruct (create_bb f2) as [f3 eb] eqn:E3.
    apply bind_ok in E as ((f4 & t) & E4 & E). cbn [fst] in E. apply bind_ok in E as ((f5 & j) & E5 & E6). cbn [fst] in E6.
    assert (G1 := grown_bb _ _ _ _ _ _ BX E1 (or_introl eq_refl)). cbn in G1.
    assert (C1 : cfg_ok f1).
    { apply (grown_cfg f f1 ld bb (K_load (val_insn cell)) (insns_of f bb) []); auto. - now rewrite app_nil_r. - split; [discriminate|]. cbn. intuition discriminate. }
    destruct (gr_new _ _ _ _ _ _ G1) as (u1 & X1). set (x1 := set_users u1 _) in X1.
    assert (L1 : insns_of f1 (i_parent x1) = insns_of f bb ++ ld :: []).
    { change (i_parent x1) with bb. rewrite (gr_insns _ _ _ _ _ _ G1), Nat.eqb_refl. reflexivity. }
    assert (ID := gr_id _ _ _ _ _ _ G1). assert (FN := gr_ni _ _ _ _ _ _ G1).
    assert (FNI : forall c, ~ In ld (insns_of f c)) by (intros c; rewrite ID; apply fresh_not_in; apply C).
    assert (NT1 : forall k, In k (insns_of f bb) -> ~ is_terminator f1 k).
    { intros k K T. apply (LS k K). apply (like_term f f1 k); auto. apply (grown_like _ _ _ _ _ _ G1). intros ->. eapply FNI; eauto. }
    destruct (bump_ok count_value cell f1 ld f2 ad st x1 (insns_of f bb) [] C1 X1 eq_refl L1 (fun _ => NT1) E2) as (C2 & A1 & A2 & A3 & A4 & A5 & A6 & A7 & A8 & A9 & A10 & (xa & XA & OA) & (xs & XS & OS & VS & PS)).
    change (i_parent x1) with bb in A9, PS.
    assert (L2 : insns_of f2 (i_parent xs) = (insns_of f bb ++ [ld; ad]) ++ [st]) by (rewrite PS, A9, Nat.eqb_refl, <- app_assoc; reflexivity).
    assert (PP : forall c, preds_of f2 c = preds_of f c) by (intros c; rewrite A8; apply G1).
    assert (SS : forall c, succs_of f2 c = succs_of f c) by (intros c; rewrite A7; apply G1).
    assert (SU2 : succs_of f2 (i_parent xs) = [succ]) by (rewrite PS, SS; exact SB).
    rewrite <- PS in E6.
    assert (G := ext_ok f2 f3 eb f4 t f5 j g st xs (insns_of f bb ++ [ld; ad]) succ (K_jbin (val_insn ad) (val_const32 limit) succ eb JGT A_64) C2 XS L2 ltac:(congruence) ltac:(discriminate) SU2 E3 E4 E5 E6).
    rewrite PS in G, SU2.
    assert (D1 : forall c, f_block f2 c = None <-> f_block f c = None) by (intros c; assert (Z := gr_dom _ _ _ _ _ _ G1 c); assert (Z' := A3 c); tauto).
    assert (B2 : f_block f2 bb <> None) by (rewrite D1; exact BX).
    assert (CO : cmp_op_of JGT <> None) by discriminate.
    assert (XL2 : exists y, f_insn f2 ld = Some y /\ i_op y = LOAD /\ i_vals y = [val_insn cell]).
    { destruct (like_some f1 f2 ld x1) as (u & q & Y); auto; [apply A10; lia|]. eexists. split; [exact Y|]. cbn. auto. }
    assert (NT2 : forall k, In k (insns_of f2 bb) -> ~ is_terminator f2 k).
    { rewrite <- PS, L2. intros k K (y & Y & T). rewrite <- app_assoc in K. apply in_app_or in K as [K|[<-|[<-|[<-|[]]]]].
      - apply (NT1 k K). destruct (cf_linked _ C bb k K) as (z & Z & _). assert (Q : k <> ad /\ k <> st).
        { split; apply (live_ne f); try apply C; try congruence; lia. }
        apply (like_term f1 f2 k); [apply A10; tauto|]. exists y; auto.
      - destruct XL2 as (z & Z & O & _). rewrite Y in Z. injection Z as <-. rewrite O in T. cbn in T. intuition discriminate.
      - rewrite Y in XA. injection XA as <-. rewrite (proj1 OA) in T. cbn in T. intuition discriminate.
      - rewrite Y in XS. injection XS as <-. rewrite OS in T. cbn in T. intuition discriminate. }
    destruct (ext_ne _ _ _ _ _ _ _ _ _ _ _ C2 B2 G) as (N1 & N2).
    assert (CG := ext_cfg _ _ _ _ _ _ _ _ _ _ _ C2 B2 SU2 CO NT2 G).
    destruct (ext_fresh _ _ _ _ _ _ _ _ _ _ _ C2 G) as (FT & FJ).
    assert (LKA : forall k, f_insn f2 k <> None -> opt_like f2 g k).
    { intros k K. assert (k <> t) by (intros ->; congruence). assert (k <> j) by (intros ->; congruence). exact (ext_like _ _ _ _ _ _ _ _ _ _ _ G k H H0). }
    assert (IG := ex_insns _ _ _ _ _ _ _ _ G). assert (PG := ex_preds _ _ _ _ _ _ _ _ G).
    assert (NBX : forall c, f_block f c <> None -> c <> eb). { intros c K. rewrite D1 in N2. intros ->; contradiction. }
    assert (CK : check g cell (by_size limit) ld ad st j eb).
    { constructor.
      - destruct XL2 as (y & Y & O & V). destruct (like_some f2 g ld y) as (u & q & Z); auto; [apply LKA; congruence|]. eexists. split; [exact Z|]. cbn. auto.
      - destruct (like_some f2 g ad xa) as (u & q & Z); auto; [apply LKA; congruence|]. eexists. split; [exact Z|]. cbn. auto.
      - destruct (like_some f2 g st xs) as (u & q & Z); auto; [apply LKA; congruence|]. eexists. split; [exact Z|]. cbn. auto.
      - destruct (ex_jmp _ _ _ _ _ _ _ _ G) as (u & Z). eexists. split; [exact Z|]. cbn. auto.
      - destruct (ex_throw _ _ _ _ _ _ _ _ G) as (u & Z). exists t. eexists. split.
           { rewrite IG. destruct (Nat.eqb_spec eb bb); [congruence|]. now rewrite Nat.eqb_refl. }
           split; [exact Z|split; reflexivity]. }
    constructor.
    + exact CG.
    + rewrite (ex_entry _ _ _ _ _ _ _ _ G), A1. apply G1.
    + intros c K. apply (ex_dom _ _ _ _ _ _ _ _ G). left. rewrite D1. exact K.
    + intros k K. assert (K1 : k <> ld /\ k <> ad /\ k <> st) by (repeat split; eapply live_ne; eauto; try apply C; lia).
      assert (K2 : opt_like f f1 k) by (apply (grown_like _ _ _ _ _ _ G1); tauto). assert (K3 : opt_like f1 f2 k) by (apply A10; tauto).
      eapply like_trans; [exact K2|]. eapply like_trans; [exact K3|]. apply LKA. eapply opt_like_live; eauto. eapply opt_like_live; eauto.
    + exists (insns_of f bb), [], ld, ad, st, j, eb. split; [now rewrite app_nil_r|]. split; auto. split.
      { rewrite IG, Nat.eqb_refl, A9, Nat.eqb_refl, <- !app_assoc. reflexivity. }
      split.
      * exact CK.
      * split; [apply (cf_fresh _ C); lia|]. rewrite D1 in N2. exact N2.
    + intros c K1 K2. apply (ex_dom _ _ _ _ _ _ _ _ G) in K2. rewrite <- D1 in K1. destruct K2 as [K2| ->]; [contradiction|].
      split; [rewrite PG, Nat.eqb_refl; reflexivity|]. intros k I.
      rewrite IG in I. destruct (Nat.eqb_spec eb bb); [congruence|]. rewrite Nat.eqb_refl in I.
      destruct I as [<-|[]]. destruct (ex_throw _ _ _ _ _ _ _ _ G) as (u & Z). eexists. split; [exact Z|cbn; auto].
    + intros c K1 K2. assert (Q2 := NBX c K2). rewrite IG. destruct (Nat.eqb_spec c bb); [contradiction|]. destruct (Nat.eqb_spec c eb); [contradiction|].
      rewrite A9, (gr_insns _ _ _ _ _ _ G1). destruct (Nat.eqb_spec c bb); [contradiction|]. reflexivity.
    + intros c K2. assert (Q2 := NBX c K2). rewrite PG. destruct (Nat.eqb_spec c eb); [contradiction|]. now rewrite PP.
    + intros c q K2 I. assert (Q2 := NBX c K2). rewrite PG in I. destruct (Nat.eqb_spec c eb); [contradiction|]. rewrite PP in I. auto.
    + destruct (ex_jmp _ _ _ _ _ _ _ _ G) as (u & Z). exists (insns_of f bb), [], ld, ad, st, j, eb, succ. eexists. split; [now rewrite app_nil_r|]. split; [rewrite IG, Nat.eqb_refl, A9, Nat.eqb_refl, <- !app_assoc; reflexivity|]. split; [exact CK|].
      split; [exact Z|]. split; [reflexivity|]. split; [apply (cf_fresh _ C); lia|]. split; [apply (cf_fresh _ C); lia|]. split; [apply (ex_dom _ _ _ _ _ _ _ _ G); auto|]. split; [rewrite <- D1; exact N2|]. split; [exact LS|].
      left. split; [reflexivity|]. exact SB.
    + intros c K1 K2. assert (Q2 := NBX c K2). rewrite (ex_succs _ _ _ _ _ _ _ _ G). destruct (Nat.eqb_spec c bb); [contradiction|]. destruct (Nat.eqb_spec c eb); [contradiction|]. apply SS.
Qed.
