(** From the bytecode to the generated code: the functions of the lifter, the layout and the code
    generator, one after the other. *)
From Coq Require Import ZArith List Bool Arith Lia Permutation.
From Verif Require Import SpecWord SpecIsa SpecFlat SpecCfg SpecLift SpecIr SpecSsa SpecNormCond SpecOut M_Base M_Ir M_Edit M_GenBB M_Lift M_Layout M_Norm
  L_Lift L_LiftSim L_LiftMain L_LiftSafe L_LiftProp L_LiftEx
  SpecPass SpecStrict SpecShift SpecLayout L_Layout L_LiftStrict SpecPrep L_LiftShape L_LiftLay L_Back L_Whole M_Ra SpecRa SpecVirt L_RaProp.
Import ListNotations.
Open Scope nat_scope.

(** the state of the IR at the start *)
Definition first_state (q : st) : sst :=
  mkS (fun d => if d =? sp_id then Some (rget q 10) else if (2 <=? d) && (d <=? 6) then Some (rget q (Z.of_nat (d - 1))) else None) (fun _ => None) (SpecWord.mem q) (ncall q).
Lemma first_enters q : enters q (first_state q) sp_id arg_id.
Proof.
  unfold enters, first_state, arg_id, sp_id. cbn. split; [reflexivity|]. split; [|auto]. intros r R. assert (K : r = 1%Z \/ r = 2%Z \/ r = 3%Z \/ r = 4%Z \/ r = 5%Z) by lia.
  destruct K as [->|[->|[->|[->| ->]]]]; reflexivity.
Qed.
Lemma first_begins q : begins sp_id [2;3;4;5;6] q (first_state q).
Proof.
  unfold first_state, sp_id. constructor; cbn [s_env s_mem s_nc]; auto.
  - intros j a A. do 5 (destruct j as [|j]; [injection A as <-; reflexivity|]). destruct j; discriminate A.
  - intros d N1 N2. destruct (Nat.eqb_spec d 1); [contradiction|]. destruct (Nat.leb_spec 2 d); [|reflexivity]. destruct (Nat.leb_spec d 6); [|reflexivity]. exfalso. apply N2. cbn. lia.
Qed.

(** The code generator on its own: no round spills anything and the values are kept apart. *)
Theorem back_codegen f reach sp args d : compilable f reach sp args d ->
  forall fuel om os chk code s u, length reach < fuel -> d < fuel -> (forall j, orders (om j)) -> (forall j, orders (os j)) -> (forall a b, chk a = Ok b -> b = a) ->
  codegen fuel om os chk f reach sp args = Ok code -> one_round fuel om os f reach sp args s u -> (Z.of_nat (length code) <= 2 ^ 15)%Z ->
  forall w ar, apart ar s u -> few_args w ar -> enough_args ar f reach ->
  forall bi n prev m t z t', st_ok m -> begins sp args m t -> srun w bi (fill 0 f) n prev (f_entry f) t = Some (ORet z t') ->
  exists m', code_returns w code m z m' /\ SpecWord.mem m' = s_mem t' /\ ncall m' = s_nc t'.
Proof.
  intros C fuel om os chk code s u LL Lf Om Os Ck Cg (s0 & t & t1 & eps & I0 & Pr & An & La & Ps & As) Lc w ar Ap Fa Ea bi n prev m t0 z t' Ok0 Bg Ru.
  destruct (back_assign f reach sp _ _ s0 s C I0 Pr fuel (om 5) (os 5) t t1 eps u LL Lf (Om 5) (Os 5) An La Ps As) as (Sa & Sg).
  unfold codegen in Cg. rewrite I0 in Cg. cbn [bind] in Cg. rewrite Pr in Cg. cbn [bind] in Cg. destruct (chk s) as [s'| | | |] eqn:E; try discriminate Cg. apply Ck in E as ->. cbn [bind ra_loop] in Cg.
  rewrite An in Cg. cbn [bind] in Cg. rewrite Ps in Cg. cbn [bind fst snd] in Cg. rewrite As in Cg. cbn [bind] in Cg.
  destruct (ssa_out u) as [v| | | |] eqn:So; try discriminate Cg. cbn [bind] in Cg. destruct (flatten v) as [np| | | |] eqn:Fl; try discriminate Cg. cbn [bind] in Cg.
  exact (back_code f reach sp _ _ s0 s C I0 Pr w ar u v np fuel code bi n prev m t0 z t' Sa Sg Ap So Fl Cg Lc Fa Ea Ok0 Bg Ru).
Qed.

Section End.
Variables (w : world) (ar : arity_table) (p : list bpf_insn) (m n : nat) (f : func).
Hypothesis P : liftable p.
Hypothesis Ff : fields_fit p.
Hypothesis Hl : lift m n p = Ok f.
Hypothesis Tm : tame f sp_id.
Variables (g : func) (L e : list nat) (k : nat).
Hypothesis Hk : 2 * length (f_all f) + 1 < k.
Hypothesis Hlay : layout k f = Ok (g, (L, e)).
Hypothesis Pl : forall j i, at_pos p j i -> SpecLift.plain ar i.
Hypothesis Ag : agrees ar.
Hypothesis Re : respects w ar.

Lemma end_few : few_args w (arity_of ar).
Proof.
  intros id a a' c mm E La La'. unfold arity_of in E. destruct (ar id) as [j|] eqn:J; [exact (Re id j a a' c mm J E La La')|].
  replace a' with a; [reflexivity|]. rewrite <- (firstn_all a), <- (firstn_all a'), La, La'. exact E.
Qed.
Lemma end_enough : enough_args (arity_of ar) g L.
Proof.
  intros i x Pi X O. destruct (placed_f p m n f P Hl g L e k Hk Hlay i Pi) as (b & I). destruct (lay_res p m n f P Hl g L e k Hk Hlay) as ((SI & _) & _). rewrite SI in X.
  destruct (lay_facts p m n f P Hl) as (bs & Fi & Hbo & Heo & Rc & Ops & Ph & Cf & _). destruct (Ops b i x I X) as (_ & AF & _). destruct (AF O) as (L5 & _ & a & Na & K).
  destruct (Cf b i x I X O) as (j & y & At & Cy & Iy). pose proof (Pl j y At) as (_ & _ & _ & K4). specialize (K4 Cy). rewrite Iy in K4. unfold arity_of. destruct (ar (i_u x)) as [q|] eqn:Aq; [|contradiction].
  pose proof (Ag _ _ Aq) as Q. rewrite Q in Na. injection Na as <-. destruct K as [K|K]; [|lia]. exfalso. rewrite K in Q. cbn in Q. injection Q as Q. lia.
Qed.
Theorem end_to_end fuel om os chk code s u : S (length (f_all f)) < fuel -> (forall j, orders (om j)) -> (forall j, orders (os j)) ->
  (forall a b, chk a = Ok b -> b = a) ->
  codegen fuel om os chk g L sp_id [2;3;4;5;6] = Ok code -> one_round fuel om os g L sp_id [2;3;4;5;6] s u -> apart (arity_of ar) s u ->
  (Z.of_nat (length code) <= 2 ^ 15)%Z ->
  forall q j r q' d, st_ok q -> crun w ar p j 0 q SpecLift.clean = Some (IExit r q', d) ->
  exists q'', code_returns w code q r q'' /\ SpecWord.mem q'' = SpecWord.mem q' /\ ncall q'' = ncall q'.
Proof.
  intros Lf Om Os Ck Cg Or Ap Lc q j r q' d Ok0 Ru.
  pose proof (lift_compilable p m n f P Hl g L e k Hk Hlay Tm Ff) as C.
  assert (LL : length L < fuel).
  { destruct (lay_res p m n f P Hl g L e k Hk Hlay) as (_ & (NL & _ & RL & _) & _). destruct (lift_lays p m n f P Hl) as (_ & _ & _ & _ & (_ & _ & RA & _) & _).
    assert (length L <= length (f_all f)) by (apply NoDup_incl_length; [exact NL|intros b I; apply RA, RL, I]). lia. }
  destruct P as [W Len No0 Ra].
  destruct (lift_exit w (fun _ => 0%Z) ar p m n f q (first_state q) j r q' d W Len No0 Ra Pl Ag Re Hl Ok0 (first_enters q) Ru) as (j' & t' & Sr & Mm & Nn).
  rewrite <- (lay_run p m n f P Hl g L e k Hk Hlay) in Sr. destruct (lay_res p m n f P Hl g L e k Hk Hlay) as ((_ & SE & _) & _). rewrite <- SE in Sr.
  destruct (back_codegen g L sp_id _ _ C fuel om os chk code s u LL Lf Om Os Ck Cg Or Lc w (arity_of ar) Ap end_few end_enough (fun _ => 0%Z) j' 0 q (first_state q) r t' Ok0 (first_begins q) Sr) as (q'' & Cr & M2 & N2).
  exists q''. split; [exact Cr|]. rewrite M2, N2. auto.
Qed.
End End.
