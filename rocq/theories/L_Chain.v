(** Built-in constants exist for every program with distinct block identities. *)
From Coq Require Import ZArith List Bool Arith Lia.
From Verif Require Import M_Base M_Ir M_Norm SpecFlat SpecProg.
Import ListNotations.
Open Scope nat_scope.

Lemma lookup_in p q c : lookup p q = Some c -> In c p /\ nb_id c = q.
Proof.
  induction p as [|b p IH]; cbn [lookup]; [discriminate|]. destruct (Nat.eqb_spec (nb_id b) q) as [E|E]; [intros K; injection K as <-; split; [now left|exact E]|].
  intros K. destruct (IH K) as (A & B). split; [now right|exact B].
Qed.
Lemma lookup_self p b : NoDup (map nb_id p) -> In b p -> lookup p (nb_id b) = Some b.
Proof.
  induction p as [|a p IH]; cbn [map lookup]; intros N I; [destruct I|]. inversion N as [|? ? N1 N2]; subst. destruct I as [->|I]; [now rewrite Nat.eqb_refl|].
  destruct (Nat.eqb_spec (nb_id a) (nb_id b)) as [E|E]; [|now apply IH]. destruct N1. rewrite E. now apply in_map.
Qed.

Inductive clen (p : nprog) : nblock -> Z -> list nblock -> Prop :=
| cl_stop b : (forall q, nb_preds b <> [q]) -> clen p b (insn_number b) []
| cl_counter b q c : nb_preds b = [q] -> lookup p q = Some c -> nb_counter c = true -> clen p b (insn_number b) []
| cl_more b q c z l : nb_preds b = [q] -> lookup p q = Some c -> nb_counter c = false -> clen p c z l -> clen p b (insn_number b + z) (c :: l).
Lemma clen_of p b z : chain_number p b z -> exists l, clen p b z l.
Proof.
  induction 1 as [b H|b q c A B C|b q c z A B C _ (l & IH)]; [exists []; now constructor|exists []; eapply cl_counter; eassumption|exists (c :: l); eapply cl_more; eassumption].
Qed.
Lemma clen_det p b z l : clen p b z l -> forall z' l', clen p b z' l' -> l = l'.
Proof.
  induction 1 as [b H|b q c A B C|b q c z l A B C _ IH]; intros z' l' K; destruct K as [b H'|b q' c' A' B' C'|b q' c' z' l' A' B' C' K]; try reflexivity; try (exfalso; eapply H; eassumption); try (exfalso; eapply H'; eassumption);
    assert (q' = q) by congruence; subst q'; assert (c' = c) by congruence; subst c'; try congruence.
  f_equal. eapply IH; exact K.
Qed.
Lemma clen_sub p b z l : clen p b z l -> forall c, In c l -> In c p /\ exists z' l', clen p c z' l' /\ length l' < length l.
Proof.
  induction 1 as [b H|b q c A B C|b q c z l A B C K IH]; intros x I; [destruct I|destruct I|]. destruct I as [<-|I].
  - split; [apply (lookup_in _ _ _ B)|]. exists z, l. split; [exact K|cbn; lia].
  - destruct (IH _ I) as (I1 & z' & l' & K1 & K2). split; [exact I1|]. exists z', l'. split; [exact K1|cbn; lia].
Qed.
Lemma clen_nodup p b z l : clen p b z l -> NoDup l.
Proof.
  induction 1 as [b H|b q c A B C|b q c z l A B C K IH]; constructor; [|exact IH]. intros I. destruct (clen_sub _ _ _ _ K _ I) as (_ & z' & l' & K1 & K2). rewrite (clen_det _ _ _ _ K _ _ K1) in K2. lia.
Qed.

Fixpoint cnum (k : nat) (p : nprog) (b : nblock) : Z :=
  match k with
  | O => 0%Z
  | S k => match nb_preds b with
           | [q] => match lookup p q with
                    | Some c => if nb_counter c then insn_number b else (insn_number b + cnum k p c)%Z
                    | None => 0%Z
                    end
           | _ => insn_number b
           end
  end.
Lemma cnum_clen p b z l : clen p b z l -> forall k, length l < k -> cnum k p b = z.
Proof.
  induction 1 as [b H|b q c A B C|b q c z l A B C K IH]; intros [|k] L; try (cbn in L; lia); cbn [cnum].
  - destruct (nb_preds b) as [|q [|]]; try reflexivity. destruct (H q eq_refl).
  - now rewrite A, B, C.
  - rewrite A, B, C. rewrite IH; [reflexivity|cbn in L; lia].
Qed.
Theorem counts_exist p : NoDup (map nb_id p) -> exists bi, counts p bi.
Proof.
  intros N. exists (fun i k => match lookup p i, k with Some b, B_INSN_COUNT => insn_number b | Some b, B_CRITICAL_INSN_COUNT => cnum (S (length p)) p b | _, _ => 0%Z end).
  intros b I. rewrite (lookup_self _ _ N I). split; [reflexivity|]. intros z K. destruct (clen_of _ _ _ K) as (l & C). eapply cnum_clen; [exact C|].
  assert (length l <= length p); [|lia]. apply NoDup_incl_length; [exact (clen_nodup _ _ _ _ C)|]. intros c J. apply (clen_sub _ _ _ _ C _ J).
Qed.
