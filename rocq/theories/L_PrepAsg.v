(** Preparing a function for register allocation: the result can be given registers. *)
From Coq Require Import ZArith List Bool Arith Lia Permutation.
From Verif Require Import M_Base M_Ir M_Norm M_Edit M_Ra SpecWord SpecFlat SpecProg SpecNormCond SpecOut SpecSsa SpecIr SpecEdit SpecRa SpecPass SpecShift SpecVirt SpecStrict SpecPrep
  L_Edit L_Word L_RaProp L_Virt L_SsaOut L_VirtSame L_VirtWit L_Prep L_PrepStr L_PrepInv L_PrepFlow L_PrepAll L_PrepEnd L_PrepReady L_PrepInit L_PrepSsa L_PrepMain.
From Verif Require Import M_Ra SpecRa SpecVirt.
Import ListNotations.
Open Scope nat_scope.

Section Asg.
Context (f : func) (reach : list nat) (sp : nat) (args : list nat) (s0 s : cgs).
Hypothesis P : prepable f reach sp args.
Hypothesis I0 : init_cg f reach sp args = Ok s0.
Hypothesis Pr : prepare s0 = Ok s.
Let T := init_spec _ _ _ _ _ P I0.

Lemma steps : stepped s0 s.
Proof. exact (proj1 (main_steps _ _ _ _ _ _ P I0 Pr)). Qed.
Lemma main_flow b : succs_of (c_f s) b = succs_of f b /\ preds_of (c_f s) b = preds_of f b.
Proof. destruct (sd_flow _ _ steps b) as (A & B). rewrite A, B. split; [exact (in_succs _ _ _ _ _ T b)|exact (in_preds _ _ _ _ _ T b)]. Qed.
Lemma main_start b r : reach = b :: r -> b = f_entry f -> preds_of f b = [] -> start s b /\ phi_free s b /\ hd_error (c_reach s) = Some b.
Proof.
  intros Q1 -> Q. destruct (main_head _ _ _ _ _ _ P I0 Pr) as (Hr & _ & _ & _ & He). split; [split; [rewrite Hr, Q1; now left|]|split].
  - now rewrite (proj2 (main_flow _)).
  - rewrite <- He. apply (n_entry _ (sd_inv _ _ steps)).
  - now rewrite Hr, Q1.
Qed.
Lemma main_ops (Q : iop -> Prop) : Q ASSIGN -> (forall i x, placed_in f reach i -> f_insn f i = Some x -> Q (i_op x)) -> ops_are Q s.
Proof.
  intros Qa H. apply (sd_ops _ _ steps _ Qa). intros i x L X. destruct (linked_insn _ _ _ _ _ P T _ _ L X) as (X' & Pi). exact (H _ _ Pi X').
Qed.

(** values are computed before they are used *)
Lemma ppath_rpath l : flow_known f reach -> ppath s0 l -> rpath f l.
Proof.
  intros K. destruct (nt_rest _ _ _ _ _ T) as (Er & _). destruct (nt_f _ _ _ _ _ T) as (_ & _ & Ee & _).
  induction 1 as [|b l c H IH Hc Hp]; [rewrite Ee; constructor|]. rewrite Er in Hc. rewrite (in_preds _ _ _ _ _ T) in Hp. constructor; [exact IH|]. exact (fk_edge _ _ K _ _ Hc Hp).
Qed.
Lemma rpath_ppath l : rpath f l -> ppath s l /\ forall b r, l = b :: r -> In b reach.
Proof.
  destruct (main_head _ _ _ _ _ _ P I0 Pr) as (Hr & _ & _ & _ & He).
  induction 1 as [|b l c H (IH & IB) G]; [split; [rewrite <- He; constructor|]; intros b r Q; injection Q as <- _; apply (SpecPrep.pp_entry _ _ _ _ P)|].
  destruct (pp_goes _ _ _ _ P _ _ (IB _ _ eq_refl) G) as (Hc & _ & Hp). split; [|intros b' r' Q; injection Q as <- _; exact Hc].
  constructor; [exact IH|now rewrite Hr|]. now rewrite (proj2 (main_flow _)).
Qed.
Lemma init_computed : SpecStrict.strict f -> flow_known f reach -> computed s0.
Proof.
  intros St K. constructor.
  - intros b u x v d c Hu X O Iv D Hd. rewrite (in_list _ _ _ _ _ T) in *.
    assert (Lu : linked s0 u). { apply (in_linked _ _ _ _ _ T). exists b. split; [exact (proj2 (proj2 (pp_reach _ _ _ _ P)) _ _ Hu)|exact Hu]. }
    destruct (linked_insn _ _ _ _ _ P T _ _ Lu X) as (X' & _).
    destruct (st_use _ St b u x d c Hu X' O (use_some _ _ _ _ _ X' Iv D) Hd) as [?|H]; [now left|right]. intros l Pl. apply H. now apply ppath_rpath.
  - intros b u x v q d c Hu X O Iv D Hd l Pl. rewrite (in_list _ _ _ _ _ T) in *.
    assert (Lu : linked s0 u). { apply (in_linked _ _ _ _ _ T). exists b. split; [exact (proj2 (proj2 (pp_reach _ _ _ _ P)) _ _ Hu)|exact Hu]. }
    destruct (linked_insn _ _ _ _ _ P T _ _ Lu X) as (X' & _). exact (st_phi _ St b u x v q d c Hu X' O Iv D Hd l (ppath_rpath _ K Pl)).
Qed.
Lemma main_strict : SpecStrict.strict f -> flow_known f reach -> SpecRa.strict s.
Proof.
  intros St K. destruct (main_ready _ _ _ _ _ _ P I0 Pr) as (R & _). apply (computed_strict s R); [exact (sd_comp _ _ steps (init_computed St K))|].
  destruct (main_head _ _ _ _ _ _ P I0 Pr) as (Hr & _). intros b Hb. rewrite Hr in Hb. destruct (fk_all _ _ K _ Hb) as (l & Pl). exists l. apply rpath_ppath, Pl.
Qed.

(** copies can be merged *)
Lemma main_fit : no_copies f reach -> copies_fit s.
Proof. intros N. apply (sd_copy _ _ steps). intros i x L X O. destruct (linked_insn _ _ _ _ _ P T _ _ L X) as (X' & Pi). destruct (N _ _ Pi X' O). Qed.
Lemma main_copies_ok : straight f reach -> no_copies f reach -> copies_ok s.
Proof.
  intros G N. pose proof (main_ops (fun o => o <> STORE /\ o <> LOAD) ltac:(split; discriminate)
    ltac:(intros i x Pi X; destruct (sg_ops _ _ G _ _ Pi X) as (_ & A & B); auto)) as O.
  intros i x L X. destruct (O _ _ L X) as (A & B). split; [|split; intros Q; contradiction]. intros Oa. apply (main_fit N _ _ L X Oa).
Qed.
Lemma main_merge : straight f reach -> no_copies f reach -> sp_not_passed f reach sp -> forall t i a b, linked s i -> copies s i a b -> mergeable s t a b.
Proof.
  intros G N S t i a b L (x & X & Cp). destruct (main_steps _ _ _ _ _ _ P I0 Pr) as (St & CL & AL). pose proof (sd_inv _ _ St) as V.
  pose proof (main_ops (fun o => o <> STORE /\ o <> LOAD) ltac:(split; discriminate)
    ltac:(intros j y Pj Y; destruct (sg_ops _ _ G _ _ Pj Y) as (_ & A & B); auto)) as O. destruct (O _ _ L X) as (O1 & O2).
  destruct Cp as [(Oa & -> & v & r & Vs & D)|[(Q & _)|(Q & _)]]; [|contradiction|contradiction].
  assert (Iv : In v (operand_values x)) by (unfold operand_values; rewrite Vs; now left).
  destruct (main_fit N _ _ L X Oa) as (_ & Fx). specialize (Fx _ _ Iv D).
  assert (SA : sp_alone s).
  { apply (sd_sp _ _ St). intros j y w Lj Y Oy Iw Dw. destruct (linked_insn _ _ _ _ _ P T _ _ Lj Y) as (Y' & Pj). destruct (nt_rest _ _ _ _ _ T) as (_ & Es & _). rewrite Es in Dw.
    destruct Oy as [Oy|Oy]; [destruct (N _ _ Pj Y' Oy)|]. unfold operand_values in Iw. rewrite Oy, app_nil_r in Iw. exact (S _ _ _ Pj Y' Oy Iw Dw). }
  destruct (n_ex _ V _ _ L X) as (e & Xe & No). assert (Di : x_dst e = Some i) by (apply (no_dst _ _ _ No); rewrite Oa; [reflexivity|discriminate]).
  assert (Ha : SpecRa.has_place s i) by (right; split; [exact L|exists e; auto]).
  destruct (n_ops _ V _ _ _ _ L X Iv D) as [Qa|[->|[(Qr & _)|Qt]]].
  - destruct (no_arg s AL _ _ _ _ L X Iv D Qa).
  - destruct (SA _ _ _ L X (or_introl Oa) Iv D).
  - split; [exact Ha|]. split; [now left|]. right. right. split; [intros (F & _); now apply Fx in F|]. right. left.
    destruct (n_regs _ V) as (_ & _ & R). apply In_nth_error in Qr as (k & K). destruct (R _ _ K) as (Xr & _). exists (ex_reg b (Z.of_nat k)). auto.
  - assert (NR : ~ In b (c_regs s)). { intros Qr. destruct (n_regs _ V) as (_ & _ & R). apply In_nth_error in Qr as (k & K). destruct (R _ _ K) as (_ & NL & _). destruct Qt as (Lb & _). contradiction. }
    destruct Qt as (Lb & eb & Xb & Fb & Db). split; [exact Ha|]. split; [right; split; [exact Lb|exists eb; auto]|]. right. right. split; [intros (_ & e' & X' & F'); congruence|]. left. now apply Fx.
Qed.
End Asg.
