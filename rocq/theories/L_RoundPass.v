(** Rounds of register allocation: the analyses and the choice of the values to spill keep what the next
    round needs. *)
From Coq Require Import ZArith List Bool Arith Lia Permutation.
From Verif Require Import M_Base M_Ir M_Norm M_Edit M_Ra SpecWord SpecFlat SpecProg SpecSsa SpecIr SpecEdit SpecPass SpecShift SpecInstr SpecFrame SpecRa SpecVirt SpecStrict SpecPrep SpecSpill SpecRound
  L_Edit L_RaGraph L_RaLive L_RaMain L_RaProp L_PrepInv L_PrepFlow L_Frame L_SpillAll L_Round L_RoundSpill.
From Verif Require Import SpecIr SpecRa SpecVirt.
Import ListNotations.
Open Scope nat_scope.

(** the same function and the same places *)
Record alike (s t : cgs) : Prop := {
  ak_f : c_f t = c_f s;
  ak_reach : c_reach t = c_reach s;
  ak_regs : c_regs t = c_regs s;
  ak_sp : c_sp t = c_sp s;
  ak_args : c_args t = c_args s;
  ak_off : c_off t = c_off s;
  ak_ex : forall v, option_map stat (c_ex t v) = option_map stat (c_ex s v) }.

Section Alike.
Context (s t : cgs).
Hypothesis K : alike s t.
Let t' := with_seo (c_seo s) t.
Lemma ak_ssim : ssim s t'. Proof. destruct K. repeat split; assumption. Qed.
Lemma ak_back : alike t s. Proof. destruct K. constructor; auto. Qed.
Lemma ak_data v e : c_ex t v = Some e -> exists e', c_ex s v = Some e' /\ x_dst e' = x_dst e /\ x_fin e' = x_fin e /\ x_pos e' = x_pos e /\ x_nonvr e' = x_nonvr e.
Proof. intros E. pose proof (ak_ex _ _ K v) as H. rewrite E in H. destruct (c_ex s v) as [e'|]; [|discriminate H]. cbn in H. unfold stat in H. injection H as H1 H2 H3 H4. exists e'. auto. Qed.
Lemma ak_linked i : linked t i <-> linked s i. Proof. unfold linked. now rewrite (ak_f _ _ K), (ak_reach _ _ K). Qed.
Lemma ak_insn i x : insn_of t i x <-> insn_of s i x. Proof. unfold insn_of. now rewrite ak_linked, (ak_f _ _ K). Qed.
Lemma ak_ready : ready s -> ready t.
Proof. intros R. pose proof (ready_sim _ _ ak_ssim R) as [A1 A2 A3 A4 A5 A6 A7 A8 A9 A10 A11 A12]. constructor; assumption. Qed.
Lemma ak_second : operands_ok s -> operands_ok t.
Proof. intros O. exact (operands_sim _ _ ak_ssim O). Qed.
Lemma ak_shallow b d : shallow s b d -> shallow t b d.
Proof. intros O. pose proof (shallow_sim _ _ b d ak_ssim O) as H. clear - H. induction H as [b d F|b d _ IH]; [apply sh_full; exact F|apply sh_empty; exact IH]. Qed.
Lemma ak_path l : ppath s l -> ppath t l.
Proof. induction 1 as [|b l c _ IH C P]; [rewrite <- (ak_f _ _ K); constructor|]. constructor; [exact IH|rewrite (ak_reach _ _ K); exact C|rewrite (ak_f _ _ K); exact P]. Qed.
End Alike.

Section Pass.
Context (s t : cgs).
Hypothesis K : alike s t.
Let Kb := ak_back _ _ K.
Lemma ak_from v e : c_ex s v = Some e -> exists e', c_ex t v = Some e' /\ x_dst e' = x_dst e /\ x_fin e' = x_fin e /\ x_pos e' = x_pos e /\ x_nonvr e' = x_nonvr e.
Proof. exact (ak_data t s Kb v e). Qed.
Lemma ak_tracked i : tracked s i -> tracked t i.
Proof. intros (L & e & E & F & D). destruct (ak_from i e E) as (e' & E' & D' & F' & _). split; [now apply (ak_linked s t K)|]. exists e'. split; [exact E'|]. split; congruence. Qed.
Lemma ak_readable d : readable s d -> readable t d.
Proof.
  unfold readable. destruct d as [| | |n| |]; auto. intros [T|(e & E & F & A & Z)]; [left; now apply ak_tracked|right]. destruct (ak_from n e E) as (e' & E' & _ & F' & P' & _). exists e'. rewrite P'. split; [exact E'|]. split; [congruence|]. auto.
Qed.
Lemma ak_fixed i : fixed s i <-> fixed t i.
Proof.
  split; intros (e & E & F); [destruct (ak_from i e E) as (e' & E' & _ & F' & _)|destruct (ak_data s t K i e E) as (e' & E' & _ & F' & _)]; exists e'; split; congruence.
Qed.
Lemma ak_stack i : on_stack s i -> on_stack t i.
Proof. intros (e & E & H). destruct (ak_from i e E) as (e' & E' & _ & _ & P' & _). exists e'. rewrite P'. auto. Qed.
Lemma ak_place i : has_place s i -> has_place t i.
Proof. unfold has_place. rewrite (ak_regs _ _ K), (ak_linked s t K). intros [I|(L & e & E & D)]; [now left|right]. split; [exact L|]. destruct (ak_from i e E) as (e' & E' & D' & _). exists e'. split; congruence. Qed.
Lemma ak_copies i a b : copies t i a b -> copies s i a b. Proof. unfold copies. now rewrite (ak_f _ _ K). Qed.
Lemma ak_val v : val_ok s v -> val_ok t v.
Proof. intros H d D. rewrite (ak_regs _ _ K), (ak_sp _ _ K). destruct (H d D) as [Q|[Q|Q]]; auto. right. right. now apply ak_tracked. Qed.
Lemma ak_region v : region t v = region s v.
Proof.
  unfold region. pose proof (ak_ex _ _ K v) as E. destruct (c_ex t v) as [e|], (c_ex s v) as [e'|]; try discriminate E; [|reflexivity]. cbn in E. unfold stat in E. injection E as H1 H2 H3 H4. rewrite ?H1, ?H2, ?H3, ?H4. reflexivity.
Qed.
Lemma ak_shape : shape s -> shape t.
Proof.
  intros Sh. constructor; rewrite ?(ak_f _ _ K), ?(ak_reach _ _ K).
  - intros b k i x Ib At X J. unfold insn_at, ends_at in *. rewrite (ak_f _ _ K) in *. exact (sh_jump _ Sh b k i x Ib At X J).
  - intros b c Ib Le. unfold leads in Le. rewrite (ak_f _ _ K) in Le. exact (sh_leads _ Sh b c Ib Le).
  - intros i x L X O. destruct (sh_phi _ Sh i x (proj1 (ak_linked s t K i) L) X O) as (P & Q & U). split; [now apply ak_tracked|]. split; [exact Q|]. intros w b I. apply ak_readable. exact (U w b I).
  - intros i [I|I]; [apply (sh_ids _ Sh); now left|]. apply (sh_ids _ Sh). right. destruct (c_ex t i) as [ei|] eqn:Ei; [|contradiction]. destruct (ak_data s t K i ei Ei) as (es & -> & _). discriminate.
  - exact (sh_refs _ Sh).
  - intros i x ei L X Ei O. destruct (ak_data s t K i ei Ei) as (es & Es & <- & _). exact (sh_dst _ Sh i x es (proj1 (ak_linked s t K i) L) X Es O).
  - intros i x d L X O Hd. apply ak_readable. exact (sh_store _ Sh i x d (proj1 (ak_linked s t K i) L) X O Hd).
  - intros i x ei X O Ei Fi. destruct (ak_data s t K i ei Ei) as (es & Es & _ & F & <- & _). apply (sh_var _ Sh i x es X O Es). congruence.
Qed.
Lemma ak_spillable : spillable s -> spillable t.
Proof.
  intros [A1 A2 A3 A4 A5 A6 A7 A8 A9]. constructor; rewrite ?(ak_f _ _ K), ?(ak_reach _ _ K), ?(ak_sp _ _ K), ?(ak_off _ _ K); auto.
  - exact (ak_ready s t K A3).
  - exact (ak_shape A4).
  - destruct A8 as (P & Q). split; [exact P|]. unfold phi_free in *. rewrite (ak_f _ _ K). exact Q.
  - destruct A9 as ([F1 F2] & P & Q). split; [|auto]. constructor.
    + intros v o n. rewrite ak_region, (ak_off _ _ K). apply F1.
    + intros v w o n o' n' N. rewrite !ak_region. apply F2. exact N.
Qed.
(** [tidy] also speaks of the data of the frame pointer *)
Lemma ak_allocable d : SpecRa.tidy t -> allocable d s -> allocable d t.
Proof.
  intros T A. constructor.
  - exact (ak_spillable (al_spill _ _ A)).
  - exact T.
  - exact (ak_second s t K (al_second _ _ A)).
  - intros i x w n L X O I. apply (ak_shallow s t K). rewrite (ak_f _ _ K) in X. exact (al_empty _ _ A i x w n (proj1 (ak_linked s t K i) L) X O I).
  - destruct (al_comp _ _ A) as [U P]. constructor; rewrite ?(ak_f _ _ K).
    + intros b u x v dd c Iu X NP Iv D Ic. destruct (U b u x v dd c Iu X NP Iv D Ic) as [H|H]; [left; exact H|right]. intros l Pl. apply H. exact (ak_path t s Kb _ Pl).
    + intros b u x v q dd c Iu X O Iv D Ic l Pl. exact (P b u x v q dd c Iu X O Iv D Ic l (ak_path t s Kb _ Pl)).
  - intros b Ib. rewrite (ak_reach _ _ K) in Ib. destruct (al_paths _ _ A b Ib) as (l & P). exists l. exact (ak_path s t K _ P).
  - intros i x L X. rewrite (ak_f _ _ K) in *. exact (al_copies _ _ A i x (proj1 (ak_linked s t K i) L) X).
  - intros i a b L C. destruct (al_merge _ _ A i a b (proj1 (ak_linked s t K i) L) (ak_copies _ _ _ C)) as (P & Q & M). split; [now apply ak_place|]. split; [now apply ak_place|]. rewrite <- !ak_fixed. destruct M as [M|[M|M]]; [left; now apply ak_stack|right; left; now apply ak_stack|auto].
  - intros i x I. exact (al_kinds _ _ A i x (proj1 (ak_insn s t K i x) I)).
  - intros i x I O. destruct (al_var _ _ A i x (proj1 (ak_insn s t K i x) I) O) as (V & e & E & F & D & H). split; [exact V|]. destruct (ak_from i e E) as (e' & E' & D' & F' & P' & _). exists e'. rewrite D', F', P', (ak_off _ _ K). auto.
  - intros i x I. exact (al_mem _ _ A i x (proj1 (ak_insn s t K i x) I)).
  - intros i x I O. destruct (al_named _ _ A i x (proj1 (ak_insn s t K i x) I) O) as (p & r & z & E & D & Lz). exists p, r, z. split; [exact E|]. split; [exact D|]. now apply (ak_linked s t K).
  - intros i x I. exact (al_load _ _ A i x (proj1 (ak_insn s t K i x) I)).
  - intros i x I O. destruct (al_store _ _ A i x (proj1 (ak_insn s t K i x) I) O) as (p & w & E & V). exists p, w. split; [exact E|]. now apply ak_val.
  - intros i x v I NL NS Iv. apply ak_val. exact (al_oper _ _ A i x v (proj1 (ak_insn s t K i x) I) NL NS Iv).
  - intros i x v I. exact (al_plain _ _ A i x v (proj1 (ak_insn s t K i x) I)).
  - intros i x I. exact (al_enc _ _ A i x (proj1 (ak_insn s t K i x) I)).
  - rewrite (ak_sp _ _ K). destruct (al_sp _ _ A) as (e & E & H). destruct (ak_from _ e E) as (e' & E' & D' & F' & P' & _). exists e'. rewrite D', F', P'. auto.
  - intros i x e I E F O. destruct (ak_data s t K i e E) as (e' & E' & _ & F' & <- & _). apply (al_fix _ _ A i x e' (proj1 (ak_insn s t K i x) I) E'); [congruence|exact O].
  - intros i x e I E V O. destruct (ak_data s t K i e E) as (e' & E' & <- & _). exact (al_dst _ _ A i x e' (proj1 (ak_insn s t K i x) I) E' V O).
  - rewrite (ak_f _ _ K), (ak_reach _ _ K). exact (al_cond _ _ A).
  - unfold next_of. rewrite (ak_f _ _ K), (ak_reach _ _ K). exact (al_open _ _ A).
  - rewrite (ak_f _ _ K), (ak_reach _ _ K). exact (al_start _ _ A).
Qed.
End Pass.

(** *** the fuel of the choice of values does not matter *)
Lemma spill_loop_more os s m : forall n eps acc r, spill_loop n os s eps acc = Ok r -> spill_loop (m + n) (fun k => os (k - m)) s eps acc = Ok r.
Proof.
  induction n as [|n IH]; intros eps acc r H; [discriminate H|]. rewrite Nat.add_succ_r. cbn [spill_loop] in *. destruct (need_spill eps) as [cur|]; [|exact H].
  replace (m + n - m) with n by lia. destruct (scan_spill s (os n cur)) as [o| | | |]; try discriminate H. cbn [bind] in *. destruct o as [v|]; [|exact H]. now apply IH.
Qed.
Lemma pre_spill_more fuel om os s t m x : pre_spill fuel om os s = Ok (t, x) -> pre_spill (m + fuel) om (fun k => os (k - m)) s = Ok (t, x).
Proof. unfold pre_spill. intros H. bo H s1 H1. bo H q H2. bo H r H3. rewrite ?H1. cbn [bind]. rewrite ?H2. cbn [bind]. rewrite (spill_loop_more _ _ m _ _ _ _ H3). exact H. Qed.

(** *** one round *)
Lemma alloc_strict d s : allocable d s -> strict s.
Proof. intros A. apply computed_strict; apply A. Qed.

Lemma stat_inj' e e' : stat e = stat e' -> x_dst e = x_dst e' /\ x_fin e = x_fin e' /\ x_pos e = x_pos e' /\ x_nonvr e = x_nonvr e'.
Proof. unfold stat. intros H. injection H. auto. Qed.
Lemma chosen fuel d om os s t t1 ts eps : allocable d s -> length (c_reach s) < fuel -> d < fuel -> orders om -> orders os ->
  analysis fuel s = Ok t -> pre_spill fuel om os t = Ok (t1, (ts, eps)) ->
  simh but_lw t t1 /\ Permutation (c_seo t1) (c_all t) /\ (forall v, In v ts -> tracked s v) /\ NoDup ts /\ analysed s t /\ alike s t1 /\ allocable d t1.
Proof.
  intros Al L Ld Om Os Ra Rp. pose proof (al_spill _ _ Al) as Sb. pose proof (sb_ready _ Sb) as R. pose proof (al_tidy _ _ Al) as T.
  destruct (analysis_ok fuel d s R T (al_second _ _ Al) (al_empty _ _ Al) L Ld) as (t' & Rt & A). rewrite Ra in Rt. injection Rt as <-.
  destruct (analysed_graph s t R T A) as (_ & _ & _ & Dt & _). pose proof (pre_spill_more _ _ _ _ _ (S (length (c_all t))) _ Rp) as Rm.
  assert (Os' : orders (fun k => os (k - S (length (c_all t))))) by (intros k l; apply Os).
  destruct (pre_spill_ok (S (length (c_all t)) + fuel) om _ t Om Os') as (t1' & ts' & eps' & Rp' & S1 & Pm & N & V & _).
  { apply (an_nd s t A). } { intros v Hv. apply Dt, Hv. } { intros l. apply (at_most_ten s t l R A). } { lia. }
  rewrite Rm in Rp'. injection Rp' as <- <- <-. split; [exact S1|]. split; [exact Pm|]. split.
  { intros v Hv. destruct (V v Hv) as (Hv1 & Hv2). apply (an_all s t A) in Hv1. destruct Hv1 as [Hr|Hr]; [|exact Hr].
    exfalso. apply Hv2. apply In_nth_error in Hr. destruct Hr as (k & Hk). destruct (rd_reg s R k v Hk) as (e & He & _ & Hn & _).
    destruct (ssim_some _ _ _ _ (an_sim s t A) He) as (e' & He' & Ee). exists e'. split; [exact He'|]. apply stat_inj' in Ee. destruct Ee as (_ & _ & _ & Ee). congruence. }
  split; [exact N|]. split; [exact A|].
  assert (K : alike s t1).
  { destruct (an_sim s t A) as (a1 & a2 & a3 & a4 & a5 & a6 & a7 & a8). destruct S1 as (b1 & b2 & b3 & b4 & b5 & b6 & b7 & b8). constructor; try congruence.
    intros v. rewrite <- a8. specialize (b8 v). destruct (c_ex t1 v) as [e|], (c_ex t v) as [e'|]; try discriminate b8; [|reflexivity]. cbn in b8 |- *. f_equal. unfold but_lw, set_lam, set_w in b8. cbn in b8. unfold stat. congruence. }
  split; [exact K|]. apply (ak_allocable s t1 K); [|exact Al].
  assert (SP : c_ex t1 (c_sp s) = c_ex s (c_sp s)).
  { assert (As : aside (c_sp s) s). { destruct (rd_sp _ R) as (P & Q). destruct (al_sp _ _ Al) as (e & E & _ & Ae & _). split; [exact P|]. split; [|exists e; auto]. intros b I. apply Q. exists b. split; [exact (sb_all _ Sb b _ I)|exact I]. }
    destruct (ke_analysis _ _ _ _ As Ra) as (E1 & Na). rewrite <- E1. apply (ke_pre _ _ _ _ _ _ _ Na) in Rp; [exact Rp|]. intros w Hw.
    destruct (mcs_perm om t Om (an_nd s t A)) as (w' & Hw' & _ & Pw); [intros v Hv; apply Dt, Hv|]. rewrite Hw in Hw'. injection Hw' as <-. intros I. apply Na. exact (Permutation_in _ Pw I). }
  destruct T as (T1 & T2). split.
  - intros v e E. rewrite (ak_regs _ _ K), (ak_sp _ _ K), (ak_linked _ _ K). destruct (ak_data _ _ K v e E) as (e' & E' & _). destruct (T1 v e' E') as [H|[H|(-> & H)]]; auto. right. right. split; [reflexivity|]. rewrite SP, E' in E. injection E as <-. exact H.
  - intros v e E F. destruct (ak_data _ _ K v e E) as (e' & E' & _ & F' & <- & _). apply (T2 v e' E'). congruence.
Qed.

(** *** the last round *)
Lemma last_round fuel d om os s t t1 eps u : allocable d s -> length (c_reach s) < fuel -> d < fuel -> orders om -> orders os ->
  analysis fuel s = Ok t -> pre_spill fuel om os t = Ok (t1, ([], eps)) -> assign t1 = Ok u -> sound_assignment s u.
Proof.
  intros Al L Ld Om Os Ra Rp Ru. destruct (chosen _ _ _ _ _ _ _ _ _ Al L Ld Om Os Ra Rp) as (S1 & Pm & _ & _ & A & K & _).
  pose proof (al_spill _ _ Al) as Sb. pose proof (sb_ready _ Sb) as R. pose proof (al_tidy _ _ Al) as T. unfold assign in Ru. bo Ru u0 Hu.
  destruct (coloring_placed s t t1 R T A S1 Pm) as [Ec|(u1 & Rc & Pl)]; [rewrite Hu in Ec; discriminate Ec|]. rewrite Hu in Rc. injection Rc as <-.
  destruct (coalesced_sound s t u0 R (al_second _ _ Al) (alloc_strict _ _ Al) A Pl (al_copies _ _ Al)) as (u' & Hu' & Sa); [|rewrite Ru in Hu'; injection Hu' as <-; exact Sa].
  intros i a b Li C. destruct (al_merge _ _ Al i a b Li C) as (P & Q & M). split; [exact P|]. split; [exact Q|]. tauto.
Qed.

(** *** all rounds *)
Lemma spill_round fuel d om os s t t1 ts eps s1 : allocable d s -> length (c_reach s) < fuel -> d < fuel -> orders om -> orders os ->
  analysis fuel s = Ok t -> pre_spill fuel om os t = Ok (t1, (ts, eps)) -> spill t1 ts = Ok s1 -> (- 2 ^ 31 <= c_off s - 8 * Z.of_nat fuel)%Z ->
  allocable d s1 /\ c_off s1 = (c_off s - 8 * Z.of_nat (length ts))%Z /\ length ts <= fuel /\ c_reach s1 = c_reach s /\ alike s t1 /\ spillable t1 /\ NoDup ts /\ (forall v, In v ts -> movable t1 v).
Proof.
  intros Al L Ld Om Os Ra Rp Sp B. destruct (chosen _ _ _ _ _ _ _ _ _ Al L Ld Om Os Ra Rp) as (_ & _ & Tr & ND & _ & K & A1).
  pose proof (pre_spill_length _ _ _ _ _ Rp) as Len. cbn [fst snd] in Len.
  assert (Mv : forall v, In v ts -> movable t1 v). { intros v I. apply (alloc_movable d t1 v A1). apply (ak_tracked s t1 K). now apply Tr. }
  pose proof (ak_off _ _ K) as Of. destruct (spill_run ts t1 s1 (al_spill _ _ A1) ND Mv Sp) as (Mo & O1 & _); [rewrite Of; lia|].
  split; [apply (spill_keeps d ts t1 s1 A1); [intros v I; apply (Mv v I)|rewrite Of; lia|exact Sp]|]. split; [rewrite O1, Of; reflexivity|]. split; [exact Len|].
  split; [destruct (mo_cfg _ _ _ Mo) as (_ & Rc & _); rewrite Rc; exact (ak_reach _ _ K)|]. split; [exact K|]. split; [exact (al_spill _ _ A1)|]. split; [exact ND|exact Mv].
Qed.
Lemma rounds_sound fuel d om os n s z u : rounds fuel om os n s z u -> allocable d s -> length (c_reach s) < fuel -> d < fuel -> (forall k, orders (om k)) -> (forall k, orders (os k)) ->
  (- 2 ^ 31 <= c_off s - 8 * Z.of_nat n * Z.of_nat fuel)%Z ->
  allocable d z /\ sound_assignment z u /\ (c_off s - 8 * Z.of_nat n * Z.of_nat fuel <= c_off z)%Z /\ c_reach z = c_reach s.
Proof.
  induction 1 as [k s t t1 eps u Ra Rp Ru|k s t t1 ts eps s1 z u Ra Rp N Sp _ IH]; intros Al L Ld Om Os B.
  - split; [exact Al|]. split; [exact (last_round _ _ _ _ _ _ _ _ _ Al L Ld (Om k) (Os k) Ra Rp Ru)|]. split; [lia|reflexivity].
  - destruct (spill_round _ _ _ _ _ _ _ _ _ _ Al L Ld (Om k) (Os k) Ra Rp Sp) as (A1 & O1 & Len & Rc & _); [lia|].
    destruct (IH A1) as (Az & Sz & Oz & Rz); try assumption; [rewrite Rc; exact L|rewrite O1; lia|]. split; [exact Az|]. split; [exact Sz|]. split; [rewrite O1 in Oz; lia|congruence].
Qed.
