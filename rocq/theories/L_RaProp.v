(** The statements about the allocator in the vocabulary of SpecRa. *)
From Coq Require Import ZArith List Permutation Lia.
From Verif Require Import M_Base M_Ir M_Edit M_Ra SpecIr SpecRa L_RaGraph L_RaLive L_RaMain.
Import ListNotations.
Open Scope nat_scope.

Lemma liveness_exact fuel s : ready s -> tidy s -> length (c_reach s) < fuel ->
  exists t, (do s1 <- clean s; liveness fuel s1) = Ok t /\
    (forall v b k i, tracked s v -> In b (c_reach s) -> insn_at s b k i ->
       (live_before t i v <-> live s v (b, k)) /\ (live_after t i v <-> live s v (b, S k))) /\
    (forall v i, live_before t i v \/ live_after t i v -> tracked s v) /\
    (forall v b k i d, tracked s v -> In b (c_reach s) -> insn_at s b k i -> live s v (b, S k) ->
       defines s i d -> d <> v -> interferes t v d).
Proof.
  intros R T L. destruct (clean_ok s R T) as (s1 & R1 & S1 & B1). rewrite R1. cbn [bind].
  assert (Rd : ready s1) by exact (ready_sim _ _ S1 R).
  assert (Er : c_reach s1 = c_reach s) by apply S1.
  destruct (liveness_ok fuel s1 Rd B1) as (t & Rt & St & _ & _ & _ & X & O); [congruence|].
  exists t. split; [exact Rt|]. split; [|split].
  - intros v b k i Tv Hb Hi. destruct (exact_base s s1 v t S1 (X v (tracked_sim _ _ _ S1 Tv))) as (A & B & _). auto.
  - intros v i H. apply (tracked_back _ _ _ S1), (O v i H).
  - intros v b k i d Tv Hb Hi Lv Hd Nd. destruct (exact_base s s1 v t S1 (X v (tracked_sim _ _ _ S1 Tv))) as (_ & _ & C). eauto.
Qed.

Lemma but_pos_strip e e' : but_pos e = but_pos e' -> strip_pos e = strip_pos e'.
Proof. intros H. destruct e, e'. injection H; intros; subst; reflexivity. Qed.

Lemma coloring_sound s :
  graph_ok s -> in_range s -> proper s -> (forall v, In v (c_seo s) -> has_data s v /\ v <> c_sp s) ->
  coloring s = Err \/
  exists t, coloring s = Ok t /\ same_graph s t /\ proper t /\ in_range t /\
    (forall v, In v (c_seo s) -> allocated t v) /\
    (forall v, allocated s v \/ ~ In v (c_seo s) -> position t v = position s v).
Proof.
  intros G Rg P D. destruct (color_fold (c_seo s) s G Rg D) as [E|(t & R & S1 & Q & Pt & Rt & A & K & K' & _)]; [left; exact E|].
  right. exists t. split; [exact R|]. split.
  { destruct S1 as (A1 & A2 & A3 & A4 & A5 & A6 & A7 & A8). unfold same_graph. repeat (split; [assumption|]).
    intros v. specialize (A8 v). destruct (c_ex t v) as [x|], (c_ex s v) as [y|]; cbn in A8 |- *; try discriminate; [|reflexivity].
    f_equal. apply but_pos_strip. congruence. }
  split; [auto|]. split; [exact Rt|]. split; [exact A|].
  intros v [H|H]; unfold position; [rewrite K by exact H|rewrite K' by exact H]; reflexivity.
Qed.

Lemma spilled fuel d om os s t : ready s -> tidy s -> operands_ok s -> empties_below s d ->
  length (c_reach s) < fuel -> d < fuel -> orders om -> orders os ->
  analysis fuel s = Ok t -> length (c_all t) < fuel ->
  exists t1 ts eps, pre_spill fuel om os t = Ok (t1, (ts, eps)) /\ simh but_lw t t1 /\ Permutation (c_seo t1) (c_all t) /\
    (forall v, In v ts -> tracked s v) /\ NoDup ts /\ (forall q, In q eps -> length q <= 10) /\
    (forall l1 v l2, c_seo t1 = l1 ++ v :: l2 -> exists q, In q eps /\
       forall u, In u q <-> (u = v \/ (adjacent t v u /\ In u l1)) /\ ~ In u ts) /\
    analysed s t.
Proof.
  intros R T O E L Ld Om Os Ra Lt.
  destruct (analysis_ok fuel d s R T O E L Ld) as (t' & Rt & A). rewrite Ra in Rt. injection Rt as <-.
  destruct (analysed_graph s t R T A) as (_ & _ & _ & Dt & _).
  destruct (pre_spill_ok fuel om os t Om Os) as (t1 & ts & eps & Rp & S1 & Pm & N & V & B & C).
  { apply (an_nd s t A). } { intros v Hv. apply Dt, Hv. } { intros l. apply (at_most_ten s t l R A). } { exact Lt. }
  exists t1, ts, eps. split; [exact Rp|]. split; [exact S1|]. split; [exact Pm|]. split; [|split; [exact N|split; [exact B|split; [exact C|exact A]]]].
  intros v Hv. destruct (V v Hv) as (Hv1 & Hv2). apply (an_all s t A) in Hv1. destruct Hv1 as [Hr|Hr]; [|exact Hr].
  exfalso. apply Hv2. apply In_nth_error in Hr. destruct Hr as (k & Hk). destruct (rd_reg s R k v Hk) as (e & He & _ & Hn & _).
  destruct (ssim_some _ _ _ _ (an_sim s t A) He) as (e' & He' & Ee). exists e'. split; [exact He'|]. apply stat_inj in Ee.
  destruct Ee as (_ & _ & _ & Ee). congruence.
Qed.
Lemma spill_and_color fuel d om os s t : ready s -> tidy s -> operands_ok s -> empties_below s d -> strict s ->
  length (c_reach s) < fuel -> d < fuel -> orders om -> orders os ->
  analysis fuel s = Ok t -> length (c_all t) < fuel ->
  exists t1 ts eps, pre_spill fuel om os t = Ok (t1, (ts, eps)) /\ simh but_lw t t1 /\ Permutation (c_seo t1) (c_all t) /\
    (forall v, In v ts -> tracked s v) /\ NoDup ts /\ (forall q, In q eps -> length q <= 10) /\
    (forall l1 v l2, c_seo t1 = l1 ++ v :: l2 -> exists q, In q eps /\
       forall u, In u q <-> (u = v \/ (adjacent t v u /\ In u l1)) /\ ~ In u ts) /\
    analysed s t /\ (coloring t1 = Err \/ exists u, coloring t1 = Ok u /\ placed s t u /\ sound_assignment s u).
Proof.
  intros R T O E St L Ld Om Os Ra Lt.
  destruct (spilled fuel d om os s t R T O E L Ld Om Os Ra Lt) as (t1 & ts & eps & Rp & S1 & Pm & V & N & B & C & A).
  exists t1, ts, eps. repeat (split; [assumption|]).
  destruct (coloring_placed s t t1 R T A S1 Pm) as [Ec|(u & Rc & Pl)]; [left; exact Ec|right].
  exists u. split; [exact Rc|]. split; [exact Pl|]. exact (assigned_sound s t u R O St A (pl_as _ _ _ Pl)).
Qed.

Lemma coalesced_sound s t u : ready s -> operands_ok s -> strict s -> analysed s t -> placed s t u -> copies_ok s ->
  (forall i a b, linked s i -> copies s i a b -> mergeable s t a b) ->
  exists u', coalescing u = Ok u' /\ sound_assignment s u'.
Proof.
  intros R O St A Pl C M. destruct (coalescing_placed s t u R Pl C M) as (u' & Ru & Pu).
  exists u'. split; [exact Ru|]. exact (assigned_sound s t u' R O St A (pl_as _ _ _ Pu)).
Qed.
Lemma assignment_sound fuel d om os s t t1 x u :
  ready s -> tidy s -> operands_ok s -> empties_below s d -> strict s ->
  length (c_reach s) < fuel -> d < fuel -> orders om -> orders os ->
  analysis fuel s = Ok t -> length (c_all t) < fuel -> pre_spill fuel om os t = Ok (t1, x) -> coloring t1 = Ok u ->
  sound_assignment s u.
Proof.
  intros R T O E St L Ld Om Os Ra Lt Rp Rc.
  destruct (spill_and_color fuel d om os s t R T O E St L Ld Om Os Ra Lt) as (t1' & ts & eps & Rp' & _ & _ & _ & _ & _ & _ & _ & C).
  rewrite Rp in Rp'. injection Rp' as <- _. destruct C as [C|(u' & C & _ & Sa)]; [congruence|].
  rewrite Rc in C. injection C as <-. exact Sa.
Qed.
Lemma assignment_coalesced fuel d om os s t t1 x u :
  ready s -> tidy s -> operands_ok s -> empties_below s d -> strict s ->
  length (c_reach s) < fuel -> d < fuel -> orders om -> orders os ->
  analysis fuel s = Ok t -> length (c_all t) < fuel -> pre_spill fuel om os t = Ok (t1, x) -> coloring t1 = Ok u ->
  copies_ok s -> (forall i a b, linked s i -> copies s i a b -> mergeable s t a b) ->
  exists u', coalescing u = Ok u' /\ sound_assignment s u'.
Proof.
  intros R T O E St L Ld Om Os Ra Lt Rp Rc Co M.
  destruct (spill_and_color fuel d om os s t R T O E St L Ld Om Os Ra Lt) as (t1' & ts & eps & Rp' & _ & _ & _ & _ & _ & _ & A & C).
  rewrite Rp in Rp'. injection Rp' as <- _. destruct C as [C|(u' & C & Pl & _)]; [congruence|].
  rewrite Rc in C. injection C as <-. exact (coalesced_sound s t u R O St A Pl Co M).
Qed.
Lemma fixed_kept fuel d om os s t t1 x u :
  ready s -> tidy s -> operands_ok s -> empties_below s d -> strict s ->
  length (c_reach s) < fuel -> d < fuel -> orders om -> orders os ->
  analysis fuel s = Ok t -> length (c_all t) < fuel -> pre_spill fuel om os t = Ok (t1, x) -> coloring t1 = Ok u ->
  (forall v, fixed s v -> position u v = position s v) /\
  (copies_ok s -> (forall i a b, linked s i -> copies s i a b -> mergeable s t a b) ->
   exists u', coalescing u = Ok u' /\ forall v, fixed s v -> position u' v = position s v).
Proof.
  intros R T O E St L Ld Om Os Ra Lt Rp Rc. split.
  - exact (sa_fixed s u (assignment_sound fuel d om os s t t1 x u R T O E St L Ld Om Os Ra Lt Rp Rc)).
  - intros Co M. destruct (assignment_coalesced fuel d om os s t t1 x u R T O E St L Ld Om Os Ra Lt Rp Rc Co M) as (u' & Ru & Sa).
    exists u'. split; [exact Ru|apply (sa_fixed s u' Sa)].
Qed.
Lemma mcs_lists om s :
  orders om -> NoDup (c_all s) -> (forall v, In v (c_all s) -> has_data s v) ->
  (forall v e, c_ex s v = Some e -> NoDup (x_adj e)) ->
  (forall v e, In v (c_all s) -> c_ex s v = Some e -> x_lam e = 0) ->
  exists t, mcs om s = Ok t /\ Permutation (c_seo t) (c_all s) /\ NoDup (c_seo t) /\
    forall l1 v l2 u, c_seo t = l1 ++ v :: l2 -> In u l2 -> degree_in s l1 u <= degree_in s l1 v.
Proof.
  intros Om N D A Z. destruct (mcs_ok om s Om N D A Z) as (t & R & _ & P & M). exists t. split; [exact R|]. split; [exact P|].
  split; [|exact M]. eapply Permutation_NoDup; [apply Permutation_sym, P|exact N].
Qed.
Lemma pre_spill_graph fuel om os s :
  orders om -> orders os -> NoDup (c_all s) -> (forall v, In v (c_all s) -> has_data s v) ->
  (forall l, NoDup l -> incl l (c_all s) -> (forall v, In v l -> physical s v) -> length l <= 10) ->
  length (c_all s) < fuel ->
  exists t ts eps, pre_spill fuel om os s = Ok (t, (ts, eps)) /\ Permutation (c_seo t) (c_all s) /\
    NoDup ts /\ (forall v, In v ts -> In v (c_all s) /\ ~ physical s v) /\
    (forall q, In q eps -> length q <= 10) /\
    (forall l1 v l2, c_seo t = l1 ++ v :: l2 -> exists q, In q eps /\
       forall u, In u q <-> (u = v \/ (adjacent s v u /\ In u l1)) /\ ~ In u ts).
Proof.
  intros Om Os N D Ph L. destruct (pre_spill_ok fuel om os s Om Os N D Ph L) as (t & ts & eps & R & _ & H).
  exists t, ts, eps. split; [exact R|exact H].
Qed.
Lemma coalesce_keeps s v1 v2 :
  graph_ok s -> in_range s -> proper s ->
  (forall a b, adjacent s a b -> allocated s b) ->
  allocated s v1 -> allocated s v2 -> v1 <> c_sp s -> v2 <> c_sp s ->
  fixed s v1 \/ fixed s v2 \/ ~ adjacent s v1 v2 ->
  exists t, coalesce s v1 v2 = Ok t /\ proper t /\ in_range t /\ (forall a b, adjacent t a b <-> adjacent s a b).
Proof.
  intros G Rg P A A1 A2 N1 N2 F. destruct (coalesce_ok s v1 v2 G Rg P A A1 A2 N1 N2 F) as (t & R & S1 & _ & Pt & Rt & _).
  exists t. split; [exact R|]. split; [exact Pt|]. split; [exact Rt|]. intros a b.
  pose proof (adjacent_sim shape s t a b (fun e e' H => but_pos_adj e e' (shape_pos e e' H)) S1). intuition.
Qed.
Lemma interference_complete fuel d s :
  ready s -> tidy s -> operands_ok s -> empties_below s d -> length (c_reach s) < fuel -> d < fuel ->
  exists t, analysis fuel s = Ok t /\ graph_ok t /\ proper t /\
    (strict s -> forall p a b, arrives s p -> tracked s a -> tracked s b -> a <> b ->
       live s a p -> live s b p -> interferes t a b).
Proof.
  intros R T O E L Ld. destruct (analysis_ok fuel d s R T O E L Ld) as (t & Rt & A).
  destruct (analysed_graph s t R T A) as (G & _ & P & _). exists t. split; [exact Rt|]. split; [exact G|]. split; [exact P|].
  intros St p a b Ar Ta Tb N La Lb. exact (live_together s t R A St p Ar a b Ta Tb N La Lb).
Qed.
Lemma pre_spill_after fuel d om os s t :
  ready s -> tidy s -> operands_ok s -> empties_below s d ->
  length (c_reach s) < fuel -> d < fuel -> orders om -> orders os -> analysis fuel s = Ok t -> length (c_all t) < fuel ->
  exists t1 ts eps, pre_spill fuel om os t = Ok (t1, (ts, eps)) /\ NoDup ts /\
    (forall v, In v ts -> tracked s v) /\ (forall q, In q eps -> length q <= 10) /\
    (forall l1 v l2, c_seo t1 = l1 ++ v :: l2 -> exists q, In q eps /\
       forall u, In u q <-> (u = v \/ (adjacent t v u /\ In u l1)) /\ ~ In u ts).
Proof.
  intros R T O E L Ld Om Os Ra Lt.
  destruct (spilled fuel d om os s t R T O E L Ld Om Os Ra Lt) as (t1 & ts & eps & Rp & _ & _ & V & N & B & C & _).
  exists t1, ts, eps. auto.
Qed.
Lemma seo_graph fuel d om os s t :
  ready s -> tidy s -> operands_ok s -> empties_below s d ->
  length (c_reach s) < fuel -> d < fuel -> orders om -> orders os -> analysis fuel s = Ok t -> length (c_all t) < fuel ->
  exists t1 x, pre_spill fuel om os t = Ok (t1, x) /\ graph_ok t1 /\ in_range t1 /\ proper t1 /\
    (forall v, In v (c_seo t1) -> has_data t1 v /\ v <> c_sp t1).
Proof.
  intros R T O E L Ld Om Os Ra Lt.
  destruct (spilled fuel d om os s t R T O E L Ld Om Os Ra Lt) as (t1 & ts & eps & Rp & S1 & Pm & _ & _ & _ & _ & A).
  destruct (analysed_graph s t R T A) as (G & Rg & P & D & _).
  exists t1, (ts, eps). split; [exact Rp|]. split; [exact (simh_graph but_lw t t1 but_lw_adj S1 G)|].
  assert (IR : forall v r, in_reg t1 v r -> in_reg t v r).
  { intros v r (e & He & H). destruct (simh_some' _ _ _ _ _ S1 He) as (e' & He' & Ee). exists e'. split; [exact He'|].
    destruct e, e'. cbn in Ee |- *. injection Ee; intros; subst; exact H. }
  assert (Sp : c_sp t1 = c_sp t) by apply S1.
  split; [|split].
  - intros v r N H. apply (Rg v r); [congruence|apply IR, H].
  - intros a b r Ad Ia Ib. apply (P a b r); [|apply IR, Ia|apply IR, Ib].
    apply (adjacent_sim but_lw t t1 a b but_lw_adj S1). exact Ad.
  - intros v Hv. apply (Permutation_in v Pm) in Hv. destruct (D v Hv) as (Dv & Nv). split; [eapply data_sim; eassumption|congruence].
Qed.
