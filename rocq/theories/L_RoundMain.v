(** The code generator with any number of rounds of spilling. *)
From Coq Require Import ZArith List Bool Arith Lia Permutation.
From Verif Require Import M_Base M_Ir M_Norm M_Edit M_Ra SpecWord SpecIsa SpecFlat SpecProg SpecNormCond SpecOut SpecSsa SpecIr SpecEdit SpecPass SpecShift SpecInstr SpecFrame SpecRa SpecVirt SpecStrict SpecPrep SpecSpill SpecGuard SpecRound
  L_Edit L_Word L_Guard L_RaProp L_SpillMem L_SpillAll L_PrepMain L_Back L_RoundSpill L_RoundPass L_RoundPrep L_RoundCode L_PrepStr.
From Verif Require Import SpecIr SpecRa SpecVirt SpecPrep.
Import ListNotations.
Open Scope nat_scope.

Lemma loop_rounds fuel om os chk n s z u : rounds fuel om os n s z u -> (forall a b, chk a = Ok b -> b = a) -> forall s3, ra_loop n fuel om os chk s = Ok s3 -> assign s3 = Ok u.
Proof.
  induction 1 as [k s t t1 eps u Ra Rp Ru|k s t t1 ts eps s1 z u Ra Rp N Sp _ IH]; intros Ck s3 H; cbn [ra_loop] in H.
  - rewrite Ra in H. cbn [bind] in H. rewrite Rp in H. cbn [bind fst snd] in H. injection H as <-. exact Ru.
  - rewrite Ra in H. cbn [bind] in H. rewrite Rp in H. cbn [bind fst snd] in H. destruct ts as [|a ts]; [contradiction|]. rewrite Sp in H. cbn [bind] in H.
    destruct (chk s1) as [s2| | | |] eqn:E; try discriminate H. apply Ck in E as ->. cbn [bind] in H. now apply IH.
Qed.
Lemma rounds_loop fuel om os chk n : (forall a b, chk a = Ok b -> b = a) -> forall s s3 u, ra_loop n fuel om os chk s = Ok s3 -> assign s3 = Ok u -> exists z, rounds fuel om os n s z u.
Proof.
  intros Ck. induction n as [|k IH]; intros s s3 u H As; cbn [ra_loop] in H; [discriminate H|]. bo H t1 E1. bo H r E2. destruct r as (t2 & ts & eps). cbn [fst snd] in H. destruct ts as [|a ts].
  - injection H as <-. exists s. now apply (rounds_last _ _ _ k s t1 t2 eps u).
  - bo H s1 E3. bo H s2 E4. apply Ck in E4 as ->. destruct (IH _ _ _ H As) as (z & R). exists z. eapply rounds_more; eauto. discriminate.
Qed.
(** every successful code generation is by rounds *)
Theorem codegen_rounds f reach sp args fuel om os chk code : (forall a b, chk a = Ok b -> b = a) -> codegen fuel om os chk f reach sp args = Ok code ->
  exists z u, by_rounds fuel om os f reach sp args z u.
Proof.
  intros Ck H. unfold codegen in H. bo H s0 E0. bo H s1 E1. bo H s2 E2. apply Ck in E2 as ->. bo H s3 E3. bo H s4 E4. destruct (rounds_loop _ _ _ _ _ Ck _ _ _ E3 E4) as (z & R). exists z, s4, s0, s1. auto.
Qed.

Theorem round_codegen f reach sp args d : compilable f reach sp args d -> phis_first f ->
  forall fuel om os chk code z u, length reach < fuel -> d < fuel -> (48 * Z.of_nat fuel <= 2 ^ 31)%Z -> (forall j, orders (om j)) -> (forall j, orders (os j)) -> (forall a b, chk a = Ok b -> b = a) ->
  codegen fuel om os chk f reach sp args = Ok code -> by_rounds fuel om os f reach sp args z u -> (Z.of_nat (length code) <= 2 ^ 15)%Z ->
  forall w ar, apart ar z u -> all_fit z -> few_args w ar -> enough_args ar f reach ->
  forall bi n prev m t r t', st_ok m -> begins sp args m t ->
  let R := between (rget m 10 + c_off z) (rget m 10) in hidden w R ->
  gsrun R w bi (fill (c_off z) f) n prev (f_entry f) t = Some (ORet r t') ->
  exists m', code_returns w code m r m' /\ agree R (s_mem t') (SpecWord.mem m') /\ ncall m' = s_nc t'.
Proof.
  intros C Ph fuel om os chk code z u LL Lf F48 Om Os Ck Cg (s0 & s & I0 & Pr & Rn) Lc w ar Ap Fi Fa Ea bi n prev m t r t' Ok0 Bg R Hid Ru.
  pose proof (prep_allocable f reach sp args d s0 s C Ph I0 Pr) as Al. pose proof (cp_prep _ _ _ _ _ C) as P. destruct (main_head _ _ _ _ _ _ P I0 Pr) as (Hr & Hs & Ha & Ho & He).
  destruct (rounds_sound _ _ _ _ _ _ _ _ Rn Al) as (Az & Sz & _ & _); auto; [now rewrite Hr|lia|].
  destruct (rounds_run _ _ _ _ _ _ _ _ Rn Al) as (_ & Ez & Sg & Run); auto; [now rewrite Hr|lia|].
  unfold codegen in Cg. rewrite I0 in Cg. cbn [bind] in Cg. rewrite Pr in Cg. cbn [bind] in Cg. bo Cg s2 E2. apply Ck in E2 as ->. bo Cg s3 E3.
  rewrite (loop_rounds _ _ _ _ _ _ _ _ Rn Ck _ E3) in Cg. cbn [bind] in Cg. bo Cg v E4. bo Cg np E5.
  destruct (last_code d z u Az Sz Sg Fi w ar v np fuel code Ap Fa E4 E5 Cg Lc) as (bb & Code).
  destruct (main_grun f reach sp args s0 s P I0 Pr R w ar (c_off z) bi bb n prev m t r t' (cp_straight _ _ _ _ _ C) Fa Ea Ok0 Bg Ru) as (q & Q & Qm & Qn).
  assert (Eb : between (rget m 10 + c_off z) (rget m 10 + c_off s) = R) by (unfold R; rewrite Ho, Z.add_0_r; reflexivity).
  specialize (Run R w (c_off z) bb n prev (f_entry f) m (VDone r q) Ok0). cbv zeta in Run. rewrite Eb in Run.
  destruct Run as (out & Gz & Se); auto; [rewrite <- He; exact (proj2 (sb_entry _ (al_spill _ _ Al)))|].
  destruct out as [|r' q']; cbn in Se; [contradiction|]. destruct Se as (<- & [_ Sc _ Sm]). apply grun_vrun in Gz. rewrite <- He, <- Ez in Gz.
  destruct (Code n prev m r q' Ok0 Gz) as (m' & Cr & Mm & Nn). exists m'. split; [exact Cr|]. rewrite Mm, Nn, <- Qm, <- Qn, Sc. auto.
Qed.
