(** Rounds of register allocation: the prepared function meets what a round needs. *)
From Coq Require Import ZArith List Bool Arith Lia.
From Verif Require Import M_Base M_Ir M_Norm M_Edit M_Ra SpecWord SpecFlat SpecProg SpecSsa SpecIr SpecEdit SpecPass SpecShift SpecInstr SpecFrame SpecRa SpecVirt SpecStrict SpecPrep SpecSpill
  L_PrepInv L_PrepFlow L_PrepInit L_PrepAll L_PrepMain L_PrepAsg L_PrepEnd L_Back L_SpillPrep L_RoundSpill.
From Verif Require Import SpecIr SpecRa SpecVirt SpecPrep.
Import ListNotations.
Open Scope nat_scope.

Section Prep.
Context (f : func) (reach : list nat) (sp : nat) (args : list nat) (d : nat) (s0 s : cgs).
Hypothesis C : compilable f reach sp args d.
Hypothesis Ph : SpecInstr.phis_first f.
Hypothesis I0 : init_cg f reach sp args = Ok s0.
Hypothesis Pr : prepare s0 = Ok s.
Let P := cp_prep _ _ _ _ _ C.

Lemma prep_val i x v : insn_of s i x -> In v (operand_values x) -> val_ok s v.
Proof.
  intros (L & X) I d' D. destruct (main_steps _ _ _ _ _ _ P I0 Pr) as (St & CL & AL). pose proof (sd_inv _ _ St) as V. destruct (n_ops _ V _ _ _ _ L X I D) as [A|[A|[(A & _)|A]]]; auto. destruct (no_arg s AL _ _ _ _ L X I D A).
Qed.
Theorem prep_allocable : allocable d s.
Proof.
  destruct (main_steps _ _ _ _ _ _ P I0 Pr) as (St & CL & AL). pose proof (sd_inv _ _ St) as V. destruct (main_ready _ _ _ _ _ _ P I0 Pr) as (R & Ti & Sh & Oo). destruct (main_head _ _ _ _ _ _ P I0 Pr) as (Hr & Hs & _ & Ho & He).
  pose proof (back_ops _ _ _ _ _ _ _ C I0 Pr) as Op. destruct (back_start _ _ _ _ _ _ _ C I0 Pr) as ((S1 & S1') & S2 & S3).
  constructor.
  - exact (prep_spillable f reach sp args s0 s P Ph I0 Pr).
  - exact Ti.
  - exact (Oo (cp_second _ _ _ _ _ C)).
  - exact (back_empty _ _ _ _ _ _ _ C I0 Pr).
  - exact (sd_comp _ _ St (init_computed _ _ _ _ _ P I0 (cp_strict _ _ _ _ _ C) (cp_flow _ _ _ _ _ C))).
  - intros b Hb. rewrite Hr in Hb. destruct (fk_all _ _ (cp_flow _ _ _ _ _ C) _ Hb) as (l & Pl). exists l. apply (rpath_ppath _ _ _ _ _ _ P I0 Pr), Pl.
  - exact (main_copies_ok _ _ _ _ _ _ P I0 Pr (cp_straight _ _ _ _ _ C) (cp_nocopy _ _ _ _ _ C)).
  - intros i a b Li Cp. destruct (main_merge _ _ _ _ _ _ P I0 Pr (cp_straight _ _ _ _ _ C) (cp_nocopy _ _ _ _ _ C) (cp_sp _ _ _ _ _ C) s i a b Li Cp) as (Pa & Pb & M). split; [exact Pa|]. split; [exact Pb|].
    destruct M as [M|[M|(M & _)]]; auto. right. right. split; [exact M|]. destruct Cp as (x & X & Cp). destruct (Op i x Li X) as (_ & N1 & N2 & _).
    destruct Cp as [(Oa & -> & v & r & Vs & D)|[(Q & _)|(Q & _)]]; [|contradiction|contradiction].
    destruct (main_fit _ _ _ _ _ _ P I0 Pr (cp_nocopy _ _ _ _ _ C) i x Li X Oa) as (_ & Fx). specialize (Fx v b ltac:(unfold operand_values; rewrite Vs; now left) D).
    destruct (in_dec Nat.eq_dec b (c_regs s)) as [Ib|Nb]; [right|left; now apply Fx]. apply In_nth_error in Ib as (k & Kb). destruct (rd_reg _ R k b Kb) as (e & E & F & _). exists e. auto.
  - intros i x (L & X). destruct (Op i x L X) as (_ & _ & _ & A & B). split; [exact (n_arr _ V i x L X)|auto].
  - intros i x (L & X) O. destruct (Op i x L X) as (A & _). contradiction.
  - intros i x (L & X) O. destruct (Op i x L X) as (_ & A & B & _). destruct O; contradiction.
  - intros i x (L & X) O. destruct (Op i x L X) as (_ & A & B & _). destruct O; contradiction.
  - intros i x (L & X) O. destruct (Op i x L X) as (_ & A & B & _). contradiction.
  - intros i x (L & X) O. destruct (Op i x L X) as (_ & A & B & _). contradiction.
  - intros i x v I _ _ Iv. exact (prep_val i x v I Iv).
  - intros i x v (L & X) Iv. exact (n_vals _ V i x v L X Iv).
  - intros i x (L & X). exact (back_enc _ _ _ _ _ _ _ C I0 Pr i x L X).
  - destruct (n_sp _ V) as (E & _). eexists. split; [exact E|]. repeat split.
  - intros i x e (L & X) E F _. destruct (n_ex _ V i x L X) as (e' & E' & No). rewrite E in E'. injection E' as <-. destruct (no_fix _ _ _ No F) as (_ & k & _ & ->). reflexivity.
  - intros i x e (L & X) E Vo Nc. destruct (n_ex _ V i x L X) as (e' & E' & No). rewrite E in E'. injection E' as <-. exact (no_dst _ _ _ No Vo Nc).
  - exact (back_cond _ _ _ _ _ _ _ C I0 Pr).
  - exact (back_open _ _ _ _ _ _ _ C I0 Pr).
  - rewrite He. auto.
Qed.
End Prep.
