(** Example functions for translate_throw_df. *)
From Coq Require Import ZArith List Bool Arith Lia.
From Verif Require Import M_Base M_Ir M_Edit M_EditHist M_Pass SpecIr SpecEdit SpecPass SpecInstr
  L_Edit L_Uses L_Hist L_PassWit L_Ins L_InstrWit M_Layout M_Release SpecRelease L_Release L_ReleaseOut.
Import ListNotations.
Open Scope nat_scope.

(** deciders *)
Fixpoint foundb (f : func) (seen l : list nat) : bool :=
  match l with
  | [] => true
  | b :: l => ((b =? f_entry f) || existsb (fun a => memb a (preds_of f b)) seen) && foundb f (seen ++ [b]) l
  end.
Lemma foundb_ok f l : foundb f [] l = true -> discovered f l.
Proof.
  intros H l1 b l2 E. assert (G : forall l1 seen l, l = l1 ++ b :: l2 -> foundb f seen l = true -> b = f_entry f \/ exists a, In a (seen ++ l1) /\ In a (preds_of f b)).
  { clear. induction l1 as [|x l1 IH]; intros seen l -> H; cbn [app foundb] in H; apply andb_true_iff in H as (A & B).
    - apply orb_true_iff in A as [A|A]; [left; now apply Nat.eqb_eq|right]. apply existsb_exists in A as (a & I & M). apply memb_in in M. exists a. now rewrite app_nil_r.
    - destruct (IH (seen ++ [x]) _ eq_refl B) as [K|(a & K & P)]; [auto|right]. exists a. rewrite <- app_assoc in K. auto. }
  apply (G l1 [] l E H).
Qed.
Lemma found_walk f l : mirrored f -> discovered f l -> forall b, In b l -> exists p, walk f (p ++ [b]).
Proof.
  intros M D. assert (G : forall n l1 l2, length l1 = n -> l = l1 ++ l2 -> forall b, In b l1 -> exists p, walk f (p ++ [b])).
  { induction n as [|n IH]; intros l1 l2 L E b I; [destruct l1; [destruct I|discriminate]|].
    destruct (exists_last (l := l1)) as (l0 & x & ->); [destruct l1; discriminate|]. rewrite app_length in L. cbn in L.
    rewrite <- app_assoc in E. cbn in E. assert (L0 : length l0 = n) by lia. apply in_app_iff in I as [I|[<-|[]]]; [eapply IH; eauto|].
    destruct (D l0 x l2 E) as [->|(a & A & P)]; [exists []; constructor|]. destruct (IH l0 (x :: l2) L0 E a A) as (p & W).
    exists (p ++ [a]). apply wk_step; auto. now apply M. }
  intros b I. apply (G (length l) l []); auto. now rewrite app_nil_r.
Qed.
Definition completeb (f : func) (l : list nat) : bool :=
  exploredb f l && foundb f [] l && forallb (fun b => forallb (fun a => memb a l) (preds_of f b)) l.
Lemma completeb_ok f l : mirrored f -> NoDup l -> completeb f l = true -> complete f l /\ discovered f l.
Proof.
  intros M N H. apply andb_true_iff in H as (H & P). apply andb_true_iff in H as (X & D). apply foundb_ok in D. split; auto.
  apply (exploredb_ok f l N) in X. constructor; auto; try apply X.
  - intros a b I A. rewrite forallb_forall in P. specialize (P b I). rewrite forallb_forall in P. apply memb_in. auto.
  - now apply found_walk.
Qed.
Fixpoint madeb (f : func) (l : list nat) : bool :=
  match l with
  | [] => true
  | i :: l => match f_insn f i with Some x => forallb (fun j => negb (releasing x j)) l | None => true end && madeb f l
  end.
Lemma madeb_ok f : fresh_ok f -> forallb (fun b => madeb f (insns_of f b)) (seq 0 (f_nb f)) = true -> made_first f.
Proof.
  intros F H b l1 i l2 x j y L X R _ _ I.
  assert (B : b < f_nb f). { destruct (Nat.lt_ge_cases b (f_nb f)) as [?|G]; [auto|]. apply (proj2 F) in G. unfold insns_of in L. rewrite G in L. now destruct l1. }
  rewrite forallb_forall in H. specialize (H b (proj2 (in_seq _ _ _) (conj (Nat.le_0_l b) B))). rewrite L in H. clear L.
  induction l1 as [|z l1 IH]; cbn [app madeb] in H; apply andb_true_iff in H as (A & H); auto.
  rewrite X in A. rewrite forallb_forall in A. specialize (A j I). now rewrite R in A.
Qed.
Definition directb (f : func) (l : list nat) : bool :=
  forallb (fun b => forallb (fun i => match f_insn f i with
    | Some x => negb (iop_eqb (i_op x) CALL && ((i_u x =? 132)%Z || (i_u x =? 133)%Z)) ||
                existsb (fun r => releasing x r && match f_insn f r with Some y => reserving y | None => false end) (seq 0 (f_ni f))
    | None => true end) (insns_of f b)) l.
Lemma directb_ok f l : directb f l = true -> direct f l.
Proof.
  intros H b i x B I X O U. unfold directb in H. rewrite forallb_forall in H. specialize (H b B). rewrite forallb_forall in H. specialize (H i I). rewrite X, O in H.
  assert (E : (i_u x =? 132)%Z || (i_u x =? 133)%Z = true) by (destruct U as [-> | ->]; reflexivity). rewrite E in H. cbn in H.
  apply existsb_exists in H as (r & _ & H). apply andb_true_iff in H as (R & H). destruct (f_insn f r) as [y|] eqn:Y; [|discriminate]. eauto.
Qed.
Definition rankedb (f : func) (l : list nat) : bool := forallb (fun b => forallb (fun a => a <? b) (preds_of f b)) l.
Lemma rankedb_ok f l : rankedb f l = true -> loop_free f l.
Proof.
  intros H. exists (fun b => b). intros a b B A. unfold rankedb in H. rewrite forallb_forall in H. specialize (H b B). rewrite forallb_forall in H. apply Nat.ltb_lt. auto.
Qed.
(** held on every path once it is made *)
Lemma held_on f r : (forall b, fold_left (SpecRelease.after f r) (insns_of f b) true = true) -> held f [f_entry f] r = true -> forall w, walk f w -> held f w r = true.
Proof. intros S E w W. induction W as [|p a b W IH I]; auto. rewrite held_snoc, IH. apply S. Qed.

(** one reference given back on one of two ways *)
Definition two_ways : func := run_get
  [ E_create_bb; E_create_bb; E_create_bb; E_connect 1 2; E_connect 1 3; E_connect 2 4; E_connect 3 4;
    E_create_at_bb 1 (K_call 131) P_BACK;                                  (* 1 *)
    E_create_at_bb 1 (K_call 131) P_BACK;                                  (* 2 *)
    E_create_at_bb 1 (K_jbin (reg 1) (val_const32 0) 2 3 JEQ A_64) P_BACK; (* 3 *)
    E_create_at_bb 2 (K_call 132) P_BACK; E_add_arg 4 (reg 1);             (* 4 *)
    E_create_at_bb 2 (K_ja 4) P_BACK;                                      (* 5 *)
    E_create_at_bb 3 (K_ja 4) P_BACK;                                      (* 6 *)
    E_create_at_bb 4 K_throw P_BACK ].                                     (* 7 *)
Lemma two_ways_ok : cfg_ok two_ways /\ complete two_ways [1; 2; 4; 3] /\ direct two_ways [1; 2; 4; 3] /\ loop_free two_ways [1; 2; 4; 3] /\
  discovered two_ways [1; 2; 4; 3] /\ made_first two_ways /\ preds_of two_ways (f_entry two_ways) = [] /\ throws two_ways [1; 2; 4; 3] 4 [] 7.
Proof.
  assert (W := built_wf _ : wf_func two_ways). assert (C : cfg_ok two_ways) by (apply cfgb_ok; auto; vm_compute; reflexivity). split; auto.
  destruct (completeb_ok two_ways [1; 2; 4; 3] (cf_mirror _ C)) as (CP & DI); [repeat constructor; cbn; intuition discriminate|vm_compute; reflexivity|].
  split; auto. split; [apply directb_ok; vm_compute; reflexivity|]. split; [apply rankedb_ok; vm_compute; reflexivity|]. split; auto.
  split; [apply madeb_ok; [exact (wf_fresh _ W)|vm_compute; reflexivity]|]. split; [vm_compute; reflexivity|].
  split; [cbn; auto|]. split; [vm_compute; reflexivity|]. eexists. split; vm_compute; reflexivity.
Qed.
(** a throw inside a loop *)
Definition leak : func := run_get
  [ E_create_bb; E_create_bb; E_create_bb; E_connect 1 2; E_connect 2 3; E_connect 2 4; E_connect 3 2;
    E_create_at_bb 1 (K_call 131) P_BACK;                                  (* 1 *)
    E_create_at_bb 1 (K_ja 2) P_BACK;                                      (* 2 *)
    E_create_at_bb 2 (K_jbin (reg 1) (val_const32 0) 3 4 JEQ A_64) P_BACK; (* 3 *)
    E_create_at_bb 3 (K_ja 2) P_BACK;                                      (* 4 *)
    E_create_at_bb 4 K_throw P_BACK ].                                     (* 5 *)
Lemma leak_ok : cfg_ok leak /\ complete leak [1; 2; 3; 4] /\ direct leak [1; 2; 3; 4] /\ discovered leak [1; 2; 3; 4] /\ made_first leak /\
  preds_of leak (f_entry leak) = [] /\ throws leak [1; 2; 3; 4] 4 [] 5 /\ held_at leak 4 1.
Proof.
  assert (W := built_wf _ : wf_func leak). assert (C : cfg_ok leak) by (apply cfgb_ok; auto; vm_compute; reflexivity). split; auto.
  destruct (completeb_ok leak [1; 2; 3; 4] (cf_mirror _ C)) as (CP & DI); [repeat constructor; cbn; intuition discriminate|vm_compute; reflexivity|].
  split; auto. split; [apply directb_ok; vm_compute; reflexivity|]. split; auto.
  split; [apply madeb_ok; [exact (wf_fresh _ W)|vm_compute; reflexivity]|]. split; [vm_compute; reflexivity|].
  split; [split; [cbn; auto|]; split; [vm_compute; reflexivity|]; eexists; split; vm_compute; reflexivity|].
  intros p WK. apply held_on; [|vm_compute; reflexivity|exact WK].
  intros b. destruct (Nat.lt_ge_cases b 5) as [L|G].
  - do 5 (destruct b as [|b]; [vm_compute; reflexivity|]). lia.
  - unfold insns_of. rewrite (proj2 (wf_fresh _ W)); [reflexivity|exact G].
Qed.
(** the entry is part of the loop *)
Definition entry_ref : func := run_get
  [ E_create_bb; E_create_bb; E_create_bb; E_connect 1 2; E_connect 1 3; E_connect 2 4; E_connect 4 1;
    E_create_at_bb 1 (K_call 7) P_BACK;                                    (* 1 *)
    E_create_at_bb 1 (K_jbin (reg 1) (val_const32 0) 2 3 JEQ A_64) P_BACK; (* 2 *)
    E_create_at_bb 2 (K_call 131) P_BACK;                                  (* 3 *)
    E_create_at_bb 2 (K_ja 4) P_BACK;                                      (* 4 *)
    E_create_at_bb 3 K_throw P_BACK;                                       (* 5 *)
    E_create_at_bb 4 (K_ja 1) P_BACK ].                                    (* 6 *)
Lemma entry_ref_ok : cfg_ok entry_ref /\ complete entry_ref [1; 2; 4; 3] /\ direct entry_ref [1; 2; 4; 3] /\ throws entry_ref [1; 2; 4; 3] 3 [] 5 /\
  walk entry_ref [1; 3] /\ held entry_ref [1; 3] 3 = false.
Proof.
  assert (W := built_wf _ : wf_func entry_ref). assert (C : cfg_ok entry_ref) by (apply cfgb_ok; auto; vm_compute; reflexivity). split; auto.
  destruct (completeb_ok entry_ref [1; 2; 4; 3] (cf_mirror _ C)) as (CP & DI); [repeat constructor; cbn; intuition discriminate|vm_compute; reflexivity|].
  split; auto. split; [apply directb_ok; vm_compute; reflexivity|].
  split; [split; [cbn; auto 6|]; split; [vm_compute; reflexivity|]; eexists; split; vm_compute; reflexivity|].
  split; [|vm_compute; reflexivity]. apply (wk_step _ [] 1 3); [|vm_compute; auto].
  assert (E : f_entry entry_ref = 1) by (vm_compute; reflexivity). cbn [app]. rewrite <- E. constructor.
Qed.
(** the throw is listed before the block that leads to it *)
Definition late : func := run_get
  [ E_create_bb; E_connect 1 2;
    E_create_at_bb 1 (K_call 131) P_BACK;                                  (* 1 *)
    E_create_at_bb 1 (K_ja 2) P_BACK;                                      (* 2 *)
    E_create_at_bb 2 K_throw P_BACK ].                                     (* 3 *)
Lemma late_ok : cfg_ok late /\ complete late [2; 1] /\ direct late [2; 1] /\ loop_free late [2; 1] /\ made_first late /\
  preds_of late (f_entry late) = [] /\ throws late [2; 1] 2 [] 3 /\ held_at late 2 1.
Proof.
  assert (W := built_wf _ : wf_func late). assert (C : cfg_ok late) by (apply cfgb_ok; auto; vm_compute; reflexivity). split; auto.
  destruct (completeb_ok late [1; 2] (cf_mirror _ C)) as (CP & DI); [repeat constructor; cbn; intuition discriminate|vm_compute; reflexivity|].
  assert (SW : forall b, In b [2; 1] <-> In b [1; 2]) by (intros b; cbn; tauto).
  split. { constructor; [repeat constructor; cbn; intuition discriminate|apply SW, CP| | |].
    - intros a b A B. apply SW. apply (cp_succ _ _ CP a b); auto. now apply SW.
    - intros a b A B. apply SW. apply (cp_pred _ _ CP a b); auto. now apply SW.
    - intros b B. apply (cp_walk _ _ CP). now apply SW. }
  split; [apply directb_ok; vm_compute; reflexivity|]. split; [apply rankedb_ok; vm_compute; reflexivity|].
  split; [apply madeb_ok; [exact (wf_fresh _ W)|vm_compute; reflexivity]|]. split; [vm_compute; reflexivity|].
  split; [split; [cbn; auto 6|]; split; [vm_compute; reflexivity|]; eexists; split; vm_compute; reflexivity|].
  intros p WK. apply held_on; [|vm_compute; reflexivity|exact WK].
  intros b. destruct (Nat.lt_ge_cases b 3) as [L|G].
  - do 3 (destruct b as [|b]; [vm_compute; reflexivity|]). lia.
  - unfold insns_of. rewrite (proj2 (wf_fresh _ W)); [reflexivity|exact G].
Qed.
(** an order that the layout step makes: block 5 is reached first from the entry, and its chain starts at 4, before 3 that leads to 4 *)
Lemma held_inv f r (H : nat -> bool) : (H (f_entry f) = true -> fold_left (SpecRelease.after f r) (insns_of f (f_entry f)) false = true) ->
  (forall a b, In b (succs_of f a) -> H b = true -> fold_left (SpecRelease.after f r) (insns_of f b) (H a) = true) ->
  (forall b, fold_left (SpecRelease.after f r) (insns_of f b) false = true -> fold_left (SpecRelease.after f r) (insns_of f b) true = true) ->
  forall w, walk f w -> forall b, H b = true -> (exists p, w = p ++ [b]) -> held f w r = true.
Proof.
  intros E S M w W. induction W as [|p a b W IH I]; intros c HC (q & Q).
  - destruct q as [|? q]; [injection Q as Q; subst c|destruct q; discriminate]. unfold held. cbn [flat_map]. rewrite app_nil_r. auto.
  - apply app_inj_tail in Q as (_ & <-). rewrite held_snoc. specialize (S a b I HC). destruct (H a) eqn:HA.
    + rewrite (IH a); eauto.
    + destruct (held f (p ++ [a]) r); auto.
Qed.
Definition woven : func := run_get
  [ E_create_bb; E_create_bb; E_create_bb; E_create_bb; E_create_bb;
    E_connect 1 2; E_connect 1 5; E_connect 2 3; E_connect 3 4; E_connect 4 5; E_connect 4 6;
    E_create_at_bb 1 (K_call 7) P_BACK;                                    (* 1 *)
    E_create_at_bb 1 (K_jbin (reg 1) (val_const32 0) 2 5 JEQ A_64) P_BACK; (* 2 *)
    E_create_at_bb 2 (K_ja 3) P_BACK;                                      (* 3 *)
    E_create_at_bb 3 (K_call 131) P_BACK;                                  (* 4 *)
    E_create_at_bb 3 (K_ja 4) P_BACK;                                      (* 5 *)
    E_create_at_bb 4 (K_jbin (reg 1) (val_const32 1) 5 6 JEQ A_64) P_BACK; (* 6 *)
    E_create_at_bb 5 (K_ret (val_const32 0)) P_BACK;                       (* 7 *)
    E_create_at_bb 6 K_throw P_BACK ].                                     (* 8 *)
Lemma woven_ok : cfg_ok woven /\ complete woven [1; 2; 4; 5; 3; 6] /\ direct woven [1; 2; 4; 5; 3; 6] /\ loop_free woven [1; 2; 4; 5; 3; 6] /\ made_first woven /\
  preds_of woven (f_entry woven) = [] /\ throws woven [1; 2; 4; 5; 3; 6] 6 [] 8 /\ held_at woven 6 4.
Proof.
  assert (W := built_wf _ : wf_func woven). assert (C : cfg_ok woven) by (apply cfgb_ok; auto; vm_compute; reflexivity). split; auto.
  destruct (completeb_ok woven [1; 2; 3; 4; 5; 6] (cf_mirror _ C)) as (CP & DI); [repeat constructor; cbn; intuition discriminate|vm_compute; reflexivity|].
  assert (SW : forall b, In b [1; 2; 4; 5; 3; 6] <-> In b [1; 2; 3; 4; 5; 6]) by (intros b; cbn; tauto).
  split. { constructor; [repeat constructor; cbn; intuition discriminate|apply SW, CP| | |].
    - intros a b A B. apply SW. exact (cp_succ _ _ CP a b (proj1 (SW a) A) B).
    - intros a b A B. apply SW. exact (cp_pred _ _ CP a b (proj1 (SW b) A) B).
    - intros b B. exact (cp_walk _ _ CP b (proj1 (SW b) B)). }
  split; [apply directb_ok; vm_compute; reflexivity|]. split; [apply rankedb_ok; vm_compute; reflexivity|].
  split; [apply madeb_ok; [exact (wf_fresh _ W)|vm_compute; reflexivity]|]. split; [vm_compute; reflexivity|].
  split; [split; [cbn; auto 10|]; split; [vm_compute; reflexivity|]; eexists; split; vm_compute; reflexivity|].
  intros p WK. apply (held_inv woven 4 (fun b => memb b [3; 4; 6])) with (b := 6); [| | |exact WK|reflexivity|eauto].
  - vm_compute. discriminate.
  - intros a b I HB. apply memb_in in HB.
    assert (LA : a < 7). { destruct (Nat.lt_ge_cases a 7) as [?|G]; [assumption|]. exfalso. revert I. unfold succs_of. rewrite (proj2 (wf_fresh _ W) a G). exact (fun I => I). }
    destruct HB as [<-|[<-|[<-|[]]]]; do 7 (destruct a as [|a]; [revert I; vm_compute; intros I; intuition discriminate|]); lia.
  - intros b. destruct (Nat.lt_ge_cases b 7) as [L|G].
    + do 7 (destruct b as [|b]; [vm_compute; auto|]). lia.
    + unfold insns_of. rewrite (proj2 (wf_fresh _ W)); [auto|exact G].
Qed.
Lemma woven_order : exists h e, layout 50 woven = Ok (h, ([1; 2; 4; 5; 3; 6], e)) /\ (forall c, f_block h c = f_block woven c) /\ (forall i, f_insn h i = f_insn woven i).
Proof.
  do 2 eexists. split; [vm_compute; reflexivity|]. split; [|reflexivity].
  intros c. do 7 (destruct c as [|c]; [vm_compute; reflexivity|]). vm_compute. reflexivity.
Qed.
