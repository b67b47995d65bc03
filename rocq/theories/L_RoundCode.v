(** Rounds of register allocation: the code generated from the last round, and the runs through all
    rounds. *)
From Coq Require Import ZArith List Bool Arith Lia Permutation.
From Verif Require Import M_Base M_Ir M_Norm M_Edit M_Ra SpecWord SpecFlat SpecProg SpecNormCond SpecOut SpecSsa SpecIr SpecEdit SpecPass SpecShift SpecInstr SpecFrame SpecRa SpecVirt SpecStrict SpecPrep SpecSpill SpecRound
  L_Edit L_Word L_Norm L_Prog L_Out L_RaProp L_Virt L_SsaOut L_VirtSame L_VirtWit L_VirtCheck L_Chain L_PrepInv L_PrepFlow L_SpillMem L_SpillAll L_Back L_RoundSpill L_RoundPass L_PrepStr.
From Verif Require Import SpecIr SpecRa SpecVirt SpecPrep.
Import ListNotations.
Open Scope nat_scope.

(** ** The last round *)
Section Last.
Context (d0 : nat) (s u : cgs).
Hypothesis Al : allocable d0 s.
Hypothesis Sa : sound_assignment s u.
Hypothesis Sg : same_function s u.
Hypothesis Fi : all_fit s.
Let Sb := al_spill _ _ Al.
Let R := sb_ready _ Sb.

Lemma last_val v d : val_ok s v -> v_data v = VInsn d -> off_stack u d.
Proof.
  intros H D. destruct (H d D) as [->|[I|T]].
  - destruct (al_sp _ _ Al) as (e & E & F & _ & Z & _). destruct (kept_pos s u Sa _ _ E F) as (e' & E' & P). exists e'. rewrite P. auto.
  - apply In_nth_error in I as (k & K). destruct (rd_reg _ R k d K) as (e & E & F & _ & _ & Z & _). destruct (kept_pos s u Sa _ _ E F) as (e' & E' & P). exists e'. rewrite P. auto.
  - exact (tracked_pos s u Sa d T).
Qed.
Lemma last_slot i x : insn_of s i x -> i_op x = ALLOC -> in_slot u i.
Proof.
  intros I O. destruct (al_var _ _ Al i x I O) as (_ & e & E & F & _ & A & Z). destruct (kept_pos s u Sa _ _ E F) as (e' & E' & P). exists e'. rewrite P. split; [exact E'|]. split; [exact A|]. destruct Fi as (Ho & _). lia.
Qed.
Lemma last_name i x : insn_of s i x -> i_op x = LOAD \/ i_op x = STORE -> exists t r z, i_vals x = t :: r /\ v_data t = VInsn z /\ slot_var s u z.
Proof.
  intros I O. destruct (al_named _ _ Al i x I O) as (t & r & z & E & D & L). exists t, r, z. split; [exact E|]. split; [exact D|].
  assert (Z : exists y, f_insn (c_f s) z = Some y /\ i_op y = ALLOC).
  { destruct (al_copies _ _ Al i x (proj1 I) (proj2 I)) as (_ & K2 & K1). destruct O as [O|O].
    - destruct (K1 O) as (v0 & r0 & d & yz & E0 & D0 & Yz & Oz). rewrite E in E0. injection E0 as <- _. assert (d = z) as -> by congruence. eauto.
    - destruct (K2 O) as (v0 & w0 & r0 & d & yz & E0 & D0 & Yz & Oz). rewrite E in E0. injection E0 as <- _. assert (d = z) as -> by congruence. eauto. }
  destruct Z as (y & Y & Oy). exists y. split; [exact Y|]. split; [exact Oy|]. split; [apply (al_var _ _ Al z y (conj L Y) Oy)|exact (last_slot z y (conj L Y) Oy)].
Qed.
Lemma last_writable : writable s u (c_off s).
Proof.
  constructor.
  - apply Fi.
  - intros i x L X. exact (al_enc _ _ Al i x (conj L X)).
  - intros i x L X. destruct (al_kinds _ _ Al i x (conj L X)) as (_ & A & B). auto.
  - intros i x v L X I. exact (al_plain _ _ Al i x v (conj L X) I).
  - intros i x L X Q. destruct Fi as (_ & K). destruct (ft_raw _ _ (K i x L X) Q) as (_ & _ & H). pose proof (ec_off _ (al_enc _ _ Al i x (conj L X)) Q) as H0. unfold fill_addr, s16_range in *. destruct (a_ot (i_addr x)); cbn; auto.
  - intros i x L X. pose proof L as (b & Hb & Ib). destruct (rd_insn _ R b i Hb Ib) as (x' & e & X' & _ & E & D & _). rewrite X in X'. injection X' as <-. destruct (same_user s u Sg i e E) as (eu & Eu & Du). exists eu. rewrite Du.
    split; [exact Eu|]. split; [exact D|]. exact (al_dst _ _ Al i x e (conj L X) E).
  - intros i x v d L X NL NS I D. exact (last_val v d (al_oper _ _ Al i x v (conj L X) NL NS I) D).
  - intros i x e L X E D. pose proof L as (b & Hb & Ib). destruct (rd_insn _ R b i Hb Ib) as (x' & e0 & X' & _ & E0 & _). rewrite X in X'. injection X' as <-. destruct (iop_eqb (i_op x) ALLOC) eqn:O.
    + apply iop_eqb_ok in O. exact (last_slot i x (conj L X) O).
    + destruct (x_fin e0) eqn:F.
      * destruct (kept_pos s u Sa _ _ E0 F) as (e' & E' & P). rewrite E in E'. injection E' as <-. rewrite P. apply (al_fix _ _ Al i x e0 (conj L X) E0 F). intros Q. rewrite Q in O. discriminate O.
      * destruct (same_user s u Sg i e0 E0) as (eu & Eu & Du). rewrite E in Eu. injection Eu as <-. destruct (tracked_pos s u Sa i) as (e' & E' & Z); [split; [exact L|exists e0; split; [exact E0|split; [exact F|congruence]]]|].
        rewrite E in E'. injection E' as <-. exact Z.
  - intros i x L X O. destruct (al_mem _ _ Al i x (conj L X) (or_introl O)) as (A & B). split; [exact A|]. split; [exact B|]. destruct (last_name i x (conj L X) (or_introl O)) as (t & r & z & E & D & Z).
    destruct (al_load _ _ Al i x (conj L X) O) as (t' & E'). rewrite E in E'. injection E' as -> ->. exists t', z. auto.
  - intros i x L X O. destruct (al_mem _ _ Al i x (conj L X) (or_intror O)) as (A & B). split; [exact A|]. split; [exact B|]. destruct (last_name i x (conj L X) (or_intror O)) as (t & r & z & E & D & Z).
    destruct (al_store _ _ Al i x (conj L X) O) as (t' & v & E' & V). rewrite E in E'. injection E' as -> ->. exists t', v, z. repeat (split; [assumption || reflexivity|]). intros d. exact (last_val v d V).
Qed.
Theorem last_code w ar t p fuel code : apart ar s u -> few_args w ar -> ssa_out u = Ok t -> flatten t = Ok p -> cg_norm fuel p = Ok code -> (Z.of_nat (length code) <= 2 ^ 15)%Z ->
  exists bb, forall n prev m z q, st_ok m -> vrun w bb s (c_off s) n prev (f_entry (c_f s)) (mkV (fun _ => None) m) = Some (VDone z q) ->
    exists m', code_returns w code m z m' /\ SpecWord.mem m' = SpecWord.mem (v_st q) /\ ncall m' = ncall (v_st q).
Proof.
  intros Ap Fa So Fl Cg Le. pose proof (sb_shape _ Sb) as Sh.
  assert (Ids : map nb_id p = c_reach s) by (rewrite (flatten_ids _ _ Fl), (ssa_out_reach _ _ So); apply Sg).
  assert (Nd : NoDup (map nb_id p)) by (rewrite Ids; apply (rd_reach _ R)).
  assert (Pt : forall b nb, lookup p b = Some nb -> painted s u (c_off s) b (nb_insns nb)).
  { intros b nb Lk. destruct (out_painted s u t p R Sh Sg Sa Fi So Fl) as (u1 & X & K). destruct (lookup_in _ _ _ Lk) as (In1 & Q). destruct (K b) as (nb' & Lk' & Pn); [rewrite <- Ids, <- Q; now apply in_map|].
    rewrite Lk in Lk'. injection Lk' as <-. exact (painted_ext _ _ _ _ _ _ X Pn). }
  assert (No : exists p1, normalize p = Ok p1) by (unfold cg_norm in Cg; bo Cg p1 E1; eauto). destruct No as (p1 & No).
  destruct (counts_exist p1) as (bb & Ct); [rewrite (ids1 _ _ No); exact Nd|]. exists bb. intros n prev m z q Ok0 Ru.
  destruct (al_start _ _ Al) as (Ep & Eh). pose proof (sb_entry _ Sb) as (Ei & Ef).
  refine (exit_code w ar s u t p p1 code bb fuel n prev (f_entry (c_f s)) m z q R Sh Sg Sa Ap Fa Fi So Fl (conj Ei Ep) Ef Eh _ No Ct _ Cg Le Ok0 Ru).
  - refine (order_layout s u p (c_off s) (proj1 (rd_reach _ R)) _ _ Ids Pt (al_cond _ _ Al) (al_open _ _ Al)).
    + intros b l1 i l2 x Hb E X J. assert (K : S (length l1) = ends_at s b) by (apply (sh_jump _ Sh b (length l1) i x Hb); [unfold insn_at; rewrite E, nth_error_app2 by lia; now rewrite Nat.sub_diag|exact X|exact J]).
      unfold ends_at in K. rewrite E, app_length in K. cbn in K. destruct l2; [reflexivity|cbn in K; lia].
    + intros j x Lj Xj. apply (al_kinds _ _ Al j x (conj Lj Xj)).
  - intros k Ik. refine (painted_ok s u (c_off s) last_writable Sa _ _ _ _ (Pt _ _ (lookup_self _ _ Nd Ik))). rewrite <- Ids. now apply in_map.
Qed.
End Last.

(** ** Runs depend on the function and the places only *)
Section Runs.
Context (s t : cgs).
Hypothesis K : alike s t.
Lemma ex_same d : match c_ex t d, c_ex s d with Some e, Some e' => x_dst e = x_dst e' /\ x_fin e = x_fin e' /\ x_pos e = x_pos e' | None, None => True | _, _ => False end.
Proof. pose proof (ak_ex _ _ K d) as E. destruct (c_ex t d) as [e|], (c_ex s d) as [e'|]; try discriminate E; [|exact Logic.I]. cbn in E. unfold L_RaLive.stat in E. injection E as E1 E2 E3 E4. auto. Qed.
Lemma run_eval bi q v : veval t bi q v = veval s bi q v.
Proof.
  unfold veval. destruct (v_data v) as [| | |d| |]; auto. pose proof (ex_same d) as E. destruct (c_ex t d) as [e|], (c_ex s d) as [e'|]; try contradiction E; [|reflexivity]. destruct E as (_ & F & P). cbn [obind]. now rewrite F, P.
Qed.
Lemma run_put q d z : vput t q d z = vput s q d z.
Proof.
  unfold vput. pose proof (ex_same d) as E. destruct (c_ex t d) as [e|], (c_ex s d) as [e'|]; try contradiction E; [|reflexivity]. destruct E as (_ & F & P). cbn [obind]. now rewrite F, P.
Qed.
Lemma run_wr q i z : vwr t q i z = vwr s q i z.
Proof.
  unfold vwr. pose proof (ex_same i) as E. destruct (c_ex t i) as [e|], (c_ex s i) as [e'|]; try contradiction E; [|reflexivity]. destruct E as (D & _). cbn [obind]. rewrite D. destruct (x_dst e'); [|reflexivity]. apply run_put.
Qed.
Lemma run_addr bi q a : vaddr t bi q a = vaddr s bi q a.
Proof.
  unfold vaddr. destruct (a_ot a); auto. destruct (v_data (a_val a)) as [| | |d| |]; auto. pose proof (ex_same d) as E. destruct (c_ex t d) as [e|], (c_ex s d) as [e'|]; try contradiction E; [|reflexivity]. destruct E as (_ & F & P). cbn [obind]. now rewrite F, P.
Qed.
Lemma obind_ext {A B} (a : option A) (g h : A -> option B) : (forall x, g x = h x) -> obind a g = obind a h.
Proof. intros H. destruct a; [apply H|reflexivity]. Qed.
Lemma run_next (q q' : option vst) : q = q' -> vnext q = vnext q'. Proof. congruence. Qed.
Lemma run_exec w bi i x q : vexec w bi t i x q = vexec w bi s i x q.
Proof.
  pose proof (ak_f _ _ K) as Ef. unfold vexec. destruct (i_op x); destruct (i_vals x) as [|v1 [|v2 [|v3 l]]]; try reflexivity; rewrite ?Ef, ?run_eval, ?run_addr; try reflexivity.
  all: try (cbn [alu_op_of cmp_op_of]; repeat (apply obind_ext; intros ?); try (apply run_next); rewrite ?run_eval; try (apply run_wr); try (apply run_put); try reflexivity; fail).
  all: try (destruct (_ || _)%bool; [|reflexivity]; repeat (apply obind_ext; intros ?); apply run_next, run_wr).
  all: try (destruct (_ && _)%bool; [|reflexivity]; apply run_next, run_wr).
  all: try (repeat (apply obind_ext; intros ?); apply run_next; rewrite ?run_eval; first [apply run_wr|apply run_put]).
  all: destruct (v_data v2) as [| | |d| |]; try reflexivity. all: pose proof (ex_same d) as E; destruct (c_ex t d) as [e|], (c_ex s d) as [e'|]; try contradiction E; [|reflexivity]. 
  all: destruct E as (_ & F & P). all: cbn [obind]; rewrite F, P; destruct (_ && _)%bool; [|reflexivity].
  all: apply obind_ext; intros ?; apply run_next, run_wr.
Qed.
Lemma run_phis bi o prev q0 l : forall q, vphis bi t o prev q0 q l = vphis bi s o prev q0 q l.
Proof.
  induction l as [|i l IH]; intros q; [reflexivity|]. cbn [vphis]. rewrite (ak_f _ _ K). apply obind_ext. intros x. destruct (iop_eqb (i_op x) PHI); [|reflexivity]. apply obind_ext. intros v. rewrite run_eval. apply obind_ext. intros z. rewrite run_wr. apply obind_ext. exact IH.
Qed.
Lemma run_quiet R bi x q : quiet R bi t x q = quiet R bi s x q.
Proof. unfold quiet. now rewrite run_addr. Qed.
Lemma run_body R w bi o l : forall q, gbody R w bi t o q l = gbody R w bi s o q l.
Proof.
  induction l as [|i l IH]; intros q; [reflexivity|]. cbn [gbody]. rewrite (ak_f _ _ K). apply obind_ext. intros x. rewrite run_quiet. destruct (quiet _ _ _ _ _); [|reflexivity]. rewrite run_exec. apply obind_ext. intros r. destruct r; auto.
Qed.
Lemma run_all R w bi o k : forall c b q, grun R w bi t o k c b q = grun R w bi s o k c b q.
Proof.
  induction k as [|k IH]; intros c b q; [reflexivity|]. cbn [grun]. replace (gblock R w bi t o c b q) with (gblock R w bi s o c b q).
  - apply obind_ext. intros r. destruct r; auto.
  - unfold gblock. rewrite (ak_f _ _ K). apply obind_ext. intros y. rewrite run_phis. apply obind_ext. intros (l & q1). rewrite run_body. reflexivity.
Qed.
Lemma run_free b : phi_free s b -> phi_free t b. Proof. unfold phi_free. now rewrite (ak_f _ _ K). Qed.
End Runs.

(** ** Through all rounds *)
Lemma same_less R n l a b : same_end R n l a b -> same_end R 0 [] a b.
Proof.
  assert (Q : forall q q', same_but R n l q q' -> same_but R 0 [] q q') by (intros q q' []; constructor; auto; intros d H; lia).
  unfold same_end. destruct a, b; auto; [intros (A & B & C)|intros (A & B)]; auto.
Qed.
Theorem rounds_run fuel d om os n s z u : rounds fuel om os n s z u -> allocable d s -> length (c_reach s) < fuel -> d < fuel -> (forall k, orders (om k)) -> (forall k, orders (os k)) ->
  (- 2 ^ 31 <= c_off s - 8 * Z.of_nat n * Z.of_nat fuel)%Z ->
  (c_off z <= c_off s)%Z /\ f_entry (c_f z) = f_entry (c_f s) /\ same_function z u /\
  forall R w o bi k c b m out, st_ok m -> phi_free s b ->
    let Rs := between (rget m 10 + c_off z) (rget m 10 + c_off s) in
    (forall x, Rs x = true -> R x = true) -> hidden w Rs ->
    grun R w bi s o k c b (mkV (fun _ => None) m) = Some out ->
    exists out', grun R w bi z o k c b (mkV (fun _ => None) m) = Some out' /\ same_end Rs 0 [] out out'.
Proof.
  induction 1 as [k s t t1 eps u Ra Rp Ru|k s t t1 ts eps s1 z u Ra Rp N Sp _ IH]; intros Al L Ld Om Os B.
  - split; [lia|]. split; [reflexivity|]. split; [exact (sf_round _ _ _ _ _ _ _ _ Ra Rp Ru)|]. intros R w o bi k0 c b m out Ok0 Pf Rs Sub Hid G. exists out. split; [exact G|]. apply same_self.
  - destruct (spill_round _ _ _ _ _ _ _ _ _ _ Al L Ld (Om k) (Os k) Ra Rp Sp) as (A1 & O1 & Len & Rc & Kk & Sb & Nd & Mv); [lia|].
    pose proof (ak_off _ _ Kk) as Of. destruct (spill_run ts t1 s1 Sb Nd Mv Sp) as (Mo & O1' & Run); [lia|].
    destruct (IH A1) as (Oz & Ez & Sf & Run2); try assumption; [rewrite Rc; exact L|rewrite O1; lia|]. split; [lia|]. split; [|split; [exact Sf|]].
    + rewrite Ez. destruct (mo_cfg _ _ _ Mo) as (E & _). rewrite E. now rewrite (ak_f _ _ Kk).
    + intros R w o bi k0 c b m out Ok0 Pf Rs Sub Hid G. rewrite <- (run_all s t1 Kk) in G. set (fp := rget m 10) in *.
      assert (S1 : forall x, between (fp + c_off s1) (fp + c_off t1) x = true -> Rs x = true).
      { intros x. unfold Rs, between. rewrite !existsb_exists, Of. intros (j & Ij & E). rewrite in_seq in Ij. exists (Z.to_nat (c_off s1 - c_off z) + j). split; [rewrite in_seq; lia|].
        replace (fp + c_off z + Z.of_nat (Z.to_nat (c_off s1 - c_off z) + j))%Z with (fp + c_off s1 + Z.of_nat j)%Z by lia. exact E. }
      assert (S2 : forall x, between (fp + c_off z) (fp + c_off s1) x = true -> Rs x = true).
      { intros x. unfold Rs, between. rewrite !existsb_exists. intros (j & Ij & E). exists j. split; [|exact E]. rewrite in_seq in *. lia. }
      destruct (Run R w o bi k0 c b m out Ok0 (run_free s t1 Kk b Pf) (fun x Hx => Sub x (S1 x Hx)) (hidden_sub w Rs _ S1 Hid) G) as (out1 & G1 & E1).
      destruct (Run2 R w o bi k0 c b m out1 Ok0 (mo_free _ _ _ Mo b (run_free s t1 Kk b Pf)) (fun x Hx => Sub x (S2 x Hx)) (hidden_sub w Rs _ S2 Hid) G1) as (out2 & G2 & E2).
      exists out2. split; [exact G2|]. exact (same_trans Rs _ _ 0 0 [] [] out out1 out2 ltac:(lia) S1 S2 (same_less _ _ _ _ _ E1) E2).
Qed.
