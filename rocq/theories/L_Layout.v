From Verif Require Import M_Base M_Ir SpecIr M_Layout SpecLayout L_Edit.
From Coq Require Import Lia.
Open Scope nat_scope.

Inductive node (g : func) (b : nat) : option nat -> list nat -> Prop :=
| nd_end x : f_block g b = Some x -> b_succs x = [] -> node g b None []
| nd_ja x y : f_block g b = Some x -> b_succs x = [i_bb1 y] -> last_of g x = Ok (Some y) -> i_op y = JA -> node g b None [i_bb1 y]
| nd_plain x l s : f_block g b = Some x -> b_succs x = [s] -> last_of g x = Ok l -> ends_ja l = false -> node g b (Some s) []
| nd_cond x s0 s1 : f_block g b = Some x -> b_succs x = [s0; s1] -> node g b (Some s0) [s1].

Lemma node_succs g b nx sd : node g b nx sd -> succs_of g b = match nx with Some s => s :: sd | None => sd end.
Proof. unfold succs_of. inversion 1 as [x E S|x y E S|x l s E S|x s0 s1 E S]; rewrite E; auto. Qed.
Lemma node_fun g b nx sd nx' sd' : node g b nx sd -> node g b nx' sd' -> nx = nx' /\ sd = sd'.
Proof.
  inversion 1 as [x E S|x y E S T|x l s E S T U|x s0 s1 E S]; inversion 1 as [x' E' S'|x' y' E' S' T'|x' l' s' E' S' T' U'|x' s0' s1' E' S']; subst;
    rewrite E in E'; injection E' as <-; rewrite S in S'; try discriminate; auto; try (split; congruence);
    exfalso; rewrite T in T'; injection T' as T'; subst; cbn in *;
    match goal with X : i_op ?y = JA |- _ => try rewrite X in U; try rewrite X in U' end; cbn in *; discriminate.
Qed.

Lemma existsb_in b l : existsb (Nat.eqb b) l = true <-> In b l.
Proof.
  rewrite existsb_exists. split; [intros (x & I & E); apply Nat.eqb_eq in E; subst; auto|].
  intros I. exists b. split; auto. apply Nat.eqb_refl.
Qed.
Lemma existsb_nin b l : ~ In b l -> existsb (Nat.eqb b) l = false.
Proof. intros N. destruct (existsb (Nat.eqb b) l) eqn:E; auto. apply existsb_in in E. contradiction. Qed.
Lemma nodup_split {A} (x : A) a c a' c' : NoDup (a ++ x :: c) -> a ++ x :: c = a' ++ x :: c' -> a = a' /\ c = c'.
Proof.
  revert a'. induction a as [|y a IH]; intros [|z a'] ND E; cbn in E; injection E; intros; subst; auto.
  - exfalso. inversion ND as [|? ? NI _]; subst. apply NI. apply in_or_app. cbn. auto.
  - exfalso. inversion ND as [|? ? NI _]; subst. apply NI. apply in_or_app. cbn. auto.
  - inversion ND; subst. destruct (IH a') as [-> ->]; auto.
Qed.

Lemma nodup_app_l {A} (a b : list A) : NoDup (a ++ b) -> NoDup a.
Proof. induction a as [|x a IH]; [constructor|]. cbn. inversion 1 as [|? ? NI N']; subst. constructor; auto. intros X. apply NI. apply in_or_app. auto. Qed.
Lemma nodup_app_r {A} (a b : list A) : NoDup (a ++ b) -> NoDup b.
Proof. induction a as [|x a IH]; cbn; auto. inversion 1; auto. Qed.
Lemma nodup_app {A} (a b : list A) : NoDup a -> NoDup b -> (forall x, In x b -> ~ In x a) -> NoDup (a ++ b).
Proof.
  intros NA NB D. induction a as [|x a IHa]; cbn [app]; auto. inversion NA; subst. constructor.
  - intros I. apply in_app_or in I as [I|I]; auto. apply (D x); cbn; auto.
  - apply IHa; auto. intros y I J. apply (D y); cbn; auto.
Qed.

Section core.
Variable g : func.
Variable L : list nat.
Hypothesis NODE : forall b, In b (f_all g) -> exists nx sd, node g b nx sd.
Hypothesis MIR : mirrored g.
Hypothesis PALL : forall b p, In p (preds_of g b) -> In p (f_all g).
Hypothesis LALL : forall b, In b L -> In b (f_all g).
Hypothesis ND : NoDup L.
Hypothesis HD : exists r, L = f_entry g :: r.
Hypothesis REACH : forall b, In b L <-> reach g (f_entry g) b.
Hypothesis ADJ : forall b s sd, In b L -> node g b (Some s) sd -> exists a c, L = a ++ b :: s :: c.
Hypothesis DEAD : forall b s sd, node g b (Some s) sd -> In s L -> In b L.

Lemma ft_pred_in b s sd : node g b (Some s) sd -> In b (preds_of g s).
Proof. intros N. apply (proj1 MIR). rewrite (node_succs _ _ _ _ N). cbn. auto. Qed.
Lemma ft_unique p q s sd sd' : In s L -> node g p (Some s) sd -> node g q (Some s) sd' -> p = q.
Proof.
  intros I A B. destruct (ADJ p s sd) as (a & c & E1); eauto. destruct (ADJ q s sd') as (a' & c' & E2); eauto.
  assert (E : (a ++ [p]) ++ s :: c = (a' ++ [q]) ++ s :: c') by (rewrite <- !app_assoc; cbn; congruence).
  apply nodup_split in E as [E _].
  - apply app_inj_tail in E. tauto.
  - rewrite <- app_assoc. cbn. rewrite <- E1. auto.
Qed.

Lemma scan_none bb ps pred : (forall p, In p ps -> In p (preds_of g bb)) -> (forall p sd, In p ps -> ~ node g p (Some bb) sd) ->
  scan_preds g bb ps pred = Ok (Some pred).
Proof.
  induction ps as [|p ps IH]; intros S N; cbn [scan_preds]; auto.
  destruct (NODE p) as (nx & sd & ND1); [eapply PALL; apply S; cbn; auto|].
  assert (IB : In bb (succs_of g p)) by (apply (proj1 MIR); apply S; cbn; auto).
  assert (NP := N p). assert (IH' : scan_preds g bb ps pred = Ok (Some pred)).
  { apply IH; intros; [apply S|apply N]; cbn; auto. }
  rewrite (node_succs _ _ _ _ ND1) in IB. unfold get_block.
  inversion ND1 as [x E SX|x y E SX T U|x l s E SX T U|x s0 s1 E SX]; subst; rewrite E; cbn [bind]; rewrite SX.
  - destruct IB.
  - rewrite T. cbn [bind ends_ja]. rewrite U. cbn. auto.
  - destruct IB as [->|[]]. exfalso. apply (NP [] ltac:(cbn; auto)). exact ND1.
  - destruct (Nat.eqb_spec s0 bb) as [->|]; [|auto]. exfalso. apply (NP [s1] ltac:(cbn; auto)). exact ND1.
Qed.
Lemma scan_one bb p sd a c pred : node g p (Some bb) sd -> (forall q, In q (a ++ p :: c) -> In q (preds_of g bb)) ->
  (forall q sd, In q (a ++ c) -> ~ node g q (Some bb) sd) -> pred = None -> scan_preds g bb (a ++ p :: c) pred = Ok (Some (Some p)).
Proof.
  intros NP. induction a as [|q a IH]; intros S N ->; cbn [app scan_preds].
  - assert (SN : scan_preds g bb c (Some p) = Ok (Some (Some p))).
    { apply scan_none; intros; [apply S|apply N]; cbn; auto. }
    unfold get_block. inversion NP as [|x y E SX T U|x l s E SX T U|x s0 s1 E SX]; subst; rewrite E; cbn [bind]; rewrite SX.
    + rewrite T. cbn [bind]. rewrite U. auto.
    + rewrite Nat.eqb_refl. auto.
  - destruct (NODE q) as (nx & sd' & ND1); [eapply PALL; apply S; cbn; auto|].
    assert (IB : In bb (succs_of g q)) by (apply (proj1 MIR); apply S; cbn; auto).
    assert (NQ := N q). assert (IH' : scan_preds g bb (a ++ p :: c) None = Ok (Some (Some p))).
    { apply IH; auto; intros; [apply S|apply N]; cbn; auto. }
    rewrite (node_succs _ _ _ _ ND1) in IB. unfold get_block.
    inversion ND1 as [x E SX|x y E SX T U|x l s E SX T U|x s0 s1 E SX]; subst; rewrite E; cbn [bind]; rewrite SX.
    + destruct IB.
    + rewrite T. cbn [bind ends_ja]. rewrite U. cbn. auto.
    + destruct IB as [->|[]]. exfalso. apply (NQ [] ltac:(cbn; auto)). exact ND1.
    + destruct (Nat.eqb_spec s0 bb) as [->|]; [|auto]. exfalso. apply (NQ [s1] ltac:(cbn; auto)). exact ND1.
Qed.

Definition closed (acc : list nat) : Prop := forall b s sd, In s L -> node g b (Some s) sd -> (In b acc <-> In s acc).
Definition headless (h : nat) : Prop := forall b sd, ~ node g b (Some h) sd.

Lemma chain_head_ok : forall n a bb c fuel, length a <= n -> L = a ++ bb :: c -> length a < fuel ->
  exists h a' c', find_chain_head fuel g bb = Ok (Some h) /\ L = a' ++ h :: c' /\ headless h /\
    (forall acc, closed acc -> In h acc -> In bb acc) /\ length a' <= length a.
Proof.
  induction n as [|n IH]; intros a bb c fuel LA E LF; (destruct fuel as [|k]; [lia|]); cbn [find_chain_head].
  - destruct a; [|cbn in LA; lia]. cbn in E.
    assert (IL : In bb L) by (rewrite E; cbn; auto).
    destruct (NODE bb) as (nx & sd & N); [auto|]. unfold get_block.
    assert (EX : exists x, f_block g bb = Some x) by (inversion N; eauto). destruct EX as (x & EX). rewrite EX. cbn [bind].
    assert (HL : headless bb).
    { intros b sd' NB. destruct (ADJ b bb sd') as (a1 & c1 & E1); eauto. rewrite E1 in E.
      rewrite E1 in ND. change (a1 ++ b :: bb :: c1) with (a1 ++ [b] ++ bb :: c1) in *. rewrite app_assoc in *.
      destruct (nodup_split bb (a1 ++ [b]) c1 [] c) as [X _]; auto. destruct a1; discriminate. }
    rewrite scan_none.
    + exists bb, [], c. repeat split; auto.
    + intros p. unfold preds_of. now rewrite EX.
    + intros p sd' _. apply HL.
  - assert (IL : In bb L) by (rewrite E; apply in_or_app; cbn; auto).
    destruct (NODE bb) as (nx & sd & N); [auto|]. unfold get_block.
    assert (EX : exists x, f_block g bb = Some x) by (inversion N; eauto). destruct EX as (x & EX). rewrite EX. cbn [bind].
    assert (PX : b_preds x = preds_of g bb) by (unfold preds_of; now rewrite EX). rewrite PX.
    assert (D : (exists p sd, node g p (Some bb) sd) \/ headless bb).
    { assert (D : forall ps, (forall p, In p ps -> In p (preds_of g bb)) -> (exists p sd, In p ps /\ node g p (Some bb) sd) \/ (forall p sd, In p ps -> ~ node g p (Some bb) sd)).
      { induction ps as [|p ps IHp]; intros SS; [right; intros ? ? []|].
        destruct (NODE p) as (nx' & sd' & N'); [eapply PALL; apply SS; cbn; auto|].
        destruct IHp as [(q & sq & I & Q)|Q]; [intros; apply SS; cbn; auto|left; exists q, sq; cbn; auto|].
        destruct nx' as [s'|]; [destruct (Nat.eq_dec s' bb) as [->|NE]|].
        - left. exists p, sd'. cbn. auto.
        - right. intros q sq [<-|I]; [|auto]. intros X. destruct (node_fun _ _ _ _ _ _ N' X) as [X1 _]. congruence.
        - right. intros q sq [<-|I]; [|auto]. intros X. destruct (node_fun _ _ _ _ _ _ N' X) as [X1 _]. congruence. }
      destruct (D (preds_of g bb)) as [(p & sp & I & Q)|Q]; auto; [left; eauto|].
      right. intros p sp X. apply (Q p sp); auto. eapply ft_pred_in; eauto. }
    destruct D as [(p & sp & NP)|HL].
    + assert (IP : In p (preds_of g bb)) by (eapply ft_pred_in; eauto).
      apply in_split in IP as (u & w & EP). rewrite EP.
      rewrite (scan_one bb p sp u w None NP); auto.
      2:{ intros q I. rewrite EP. auto. }
      2:{ intros q sq I X. assert (q = p) by (eapply ft_unique; eauto). subst q.
          assert (NDP := proj2 (proj2 MIR) bb). rewrite EP in NDP. apply NoDup_remove_2 in NDP. auto. }
      cbn [bind]. destruct (ADJ p bb sp) as (a1 & c1 & E1); eauto.
      assert (a = a1 ++ [p] /\ c = c1) as [-> ->].
      { apply (nodup_split bb); [rewrite <- E; auto|]. rewrite <- E, E1, <- app_assoc. reflexivity. }
      rewrite app_length in *. cbn [length] in *.
      destruct (IH a1 p (bb :: c1) k) as (h & a' & c' & H1 & H2 & H3 & H4 & H5); try lia; auto.
      exists h, a', c'. split; [auto|]. split; [auto|]. split; [auto|]. split; [|lia].
      intros acc CL IA. apply (CL p bb sp); auto.
    + rewrite scan_none; auto. cbn [bind]. exists bb, a, c. repeat split; auto.
Qed.

(** the walk from a chain head covers a segment of the layout *)
Lemma walk_ok : forall c h a acc todo fuel, L = a ++ h :: c -> length c < fuel ->
  exists ch td, walk fuel g h acc todo = Ok (acc ++ h :: ch, todo ++ td) /\ (exists d, c = ch ++ d) /\ length td <= S (length ch) /\
    (forall b s sd, In b (h :: ch) -> node g b (Some s) sd -> exists u w, h :: ch = u ++ b :: s :: w) /\
    (forall s, In s ch -> exists b sd, In b (h :: ch) /\ node g b (Some s) sd) /\
    (forall b nx sd, In b (h :: ch) -> node g b nx sd -> forall s, In s sd -> In s td) /\
    (forall s, In s td -> exists b, In b (h :: ch) /\ In s (succs_of g b)).
Proof.
  induction c as [|s c IH]; intros h a acc todo fuel E LF; (destruct fuel as [|k]; [cbn in LF; lia|]); cbn [walk];
    (assert (IL : In h L) by (rewrite E; apply in_or_app; cbn; auto));
    (destruct (NODE h) as (nx & sd & N); [auto|]); unfold get_block.
  - (* last block of the layout: it cannot fall through *)
    assert (nx = None) as ->.
    { destruct nx as [s|]; auto. destruct (ADJ h s sd) as (a1 & c1 & E1); auto. exfalso.
      rewrite E1 in E. destruct (nodup_split h a1 (s :: c1) a []) as [_ X]; auto; [rewrite <- E1; auto|discriminate]. }
    exists [], sd.
    assert (HN : forall nx' sd', node g h nx' sd' -> nx' = None /\ sd' = sd) by (intros nx' sd' X; destruct (node_fun _ _ _ _ _ _ N X); auto).
    assert (W : (do x <- match f_block g h with Some x => Ok x | None => UB end;
      match b_succs x with [] => Ok (acc ++ [h], todo)
      | [s] => do l <- last_of g x; match l with Some y => if iop_eqb (i_op y) JA then Ok (acc ++ [h], todo ++ [i_bb1 y]) else walk k g s (acc ++ [h]) todo
                | None => walk k g s (acc ++ [h]) todo end
      | [s0; s1] => walk k g s0 (acc ++ [h]) (todo ++ [s1]) | _ => Err end) = Ok (acc ++ [h], todo ++ sd) /\ length sd <= 1).
    { inversion N as [x E1 S|x y E1 S T U|x l s E1 S T U|x s0 s1 E1 S]; subst; rewrite E1; cbn [bind]; rewrite S.
      - rewrite app_nil_r. auto.
      - rewrite T. cbn [bind]. rewrite U. cbn. auto. }
    destruct W as [W1 W2]. split; [exact W1|]. split; [exists []; auto|]. split; [cbn; lia|].
    split; [intros b s sd' [<-|[]] X; apply HN in X as [X _]; discriminate|]. split; [intros s []|].
    split; [intros b nx' sd' [<-|[]] X; apply HN in X as [-> ->]; auto|].
    intros s IS. exists h. split; [cbn; auto|]. rewrite (node_succs _ _ _ _ N). auto.
  - destruct nx as [s'|].
    + assert (s' = s) as ->.
      { destruct (ADJ h s' sd) as (a1 & c1 & E1); auto. rewrite E1 in E.
        destruct (nodup_split h a1 (s' :: c1) a (s :: c)) as [_ X]; auto; [rewrite <- E1; auto|congruence]. }
      destruct (IH s (a ++ [h]) (acc ++ [h]) (todo ++ sd) k) as (ch & td & W & (d & D) & LT & A1 & A2 & A3 & A4).
      { rewrite <- app_assoc. exact E. }
      { cbn in LF. lia. }
      exists (s :: ch), (sd ++ td).
      assert (HN : forall nx' sd', node g h nx' sd' -> nx' = Some s /\ sd' = sd) by (intros nx' sd' X; destruct (node_fun _ _ _ _ _ _ N X); auto).
      split; [|split; [exists d; cbn; congruence|split]].
      * replace (acc ++ h :: s :: ch) with ((acc ++ [h]) ++ s :: ch) by (rewrite <- app_assoc; auto).
        replace (todo ++ sd ++ td) with ((todo ++ sd) ++ td) by (rewrite <- app_assoc; auto).
        inversion N as [x E1 S|x y E1 S T U|x l s0 E1 S T U|x s0 s1 E1 S]; subst; rewrite E1; cbn [bind]; rewrite S.
        -- rewrite app_nil_r in *. rewrite T. cbn [bind]. destruct l as [y|]; auto. cbn in U. rewrite U. auto.
        -- auto.
      * rewrite app_length. assert (length sd <= 1) by (inversion N; cbn; auto). cbn [length]. lia.
      * split; [|split; [|split]].
        -- intros b s1 sd1 [<-|I] X.
           ++ apply HN in X as [[= ->] _]. exists [], ch. auto.
           ++ destruct (A1 b s1 sd1 I X) as (u & w & E2). exists (h :: u), w. cbn. congruence.
        -- intros s1 [<-|I].
           ++ exists h, sd. cbn. auto.
           ++ destruct (A2 s1 I) as (b & sd1 & I1 & X). exists b, sd1. split; [right; auto|auto].
        -- intros b nx' sd' [<-|I] X s1 I1; apply in_or_app.
           ++ apply HN in X as [_ ->]. auto.
           ++ right. eapply A3; eauto.
        -- intros s1 I1. apply in_app_or in I1 as [I1|I1].
           ++ exists h. split; [cbn; auto|]. rewrite (node_succs _ _ _ _ N). cbn. auto.
           ++ destruct (A4 s1 I1) as (b & I2 & X). exists b. split; [right; auto|auto].
    + exists [], sd.
      assert (HN : forall nx' sd', node g h nx' sd' -> nx' = None /\ sd' = sd) by (intros nx' sd' X; destruct (node_fun _ _ _ _ _ _ N X); auto).
      split; [|split; [exists (s :: c); auto|split]].
      * inversion N as [x E1 S|x y E1 S T U|x l s0 E1 S T U|x s0 s1 E1 S]; subst; rewrite E1; cbn [bind]; rewrite S.
        -- now rewrite app_nil_r.
        -- rewrite T. cbn [bind]. rewrite U. cbn. auto.
      * inversion N; cbn; auto.
      * split; [intros b s1 sd' [<-|[]] X; apply HN in X as [X _]; discriminate|]. split; [intros s1 []|].
        split; [intros b nx' sd' [<-|[]] X; apply HN in X as [-> ->]; auto|].
        intros s1 IS. exists h. split; [cbn; auto|]. rewrite (node_succs _ _ _ _ N). auto.
Qed.

Lemma add_reach_ok : forall m acc todo fuel, length todo + (length L - length acc) <= m -> m + length L < fuel ->
  NoDup acc -> incl acc L -> incl todo L -> closed acc ->
  (forall b, In b acc -> forall s, In s (succs_of g b) -> In s acc \/ In s todo) ->
  (forall b s sd, In b acc -> node g b (Some s) sd -> exists u w, acc = u ++ b :: s :: w) ->
  (acc = [] /\ todo = [f_entry g]) \/ (exists r, acc = f_entry g :: r) ->
  exists l, add_reach fuel g acc todo = Ok l /\ NoDup l /\ incl l L /\
    (forall b, In b l -> forall s, In s (succs_of g b) -> In s l) /\
    (forall b s sd, In b l -> node g b (Some s) sd -> exists u w, l = u ++ b :: s :: w) /\
    (exists r, l = f_entry g :: r).
Proof.
  induction m as [|m IH]; intros acc todo fuel M LF NA IA IT CL SU AD HE; (destruct fuel as [|k]; [lia|]).
  - destruct todo as [|bb r]; [|cbn in M; lia]. cbn [add_reach]. exists acc.
    repeat (split; [solve [auto]|]). split.
    + intros b I s S. destruct (SU b I s S) as [X|[]]; auto.
    + split; auto. destruct HE as [[_ X]|X]; [discriminate|auto].
  - destruct todo as [|bb r].
    { cbn [add_reach]. exists acc. repeat (split; [solve [auto]|]). split.
      + intros b I s S. destruct (SU b I s S) as [X|[]]; auto.
      + split; auto. destruct HE as [[_ X]|X]; [discriminate|auto]. }
    cbn [add_reach]. destruct (existsb (Nat.eqb bb) acc) eqn:EX.
    + apply existsb_in in EX. apply IH; auto; try (cbn in M; lia).
      * intros x I. apply IT. cbn; auto.
      * intros b I s S. destruct (SU b I s S) as [X|[->|X]]; auto.
      * destruct HE as [[-> _]|X]; [destruct EX|auto].
    + assert (NB : ~ In bb acc) by (intros X; apply existsb_in in X; congruence).
      assert (IB : In bb L) by (apply IT; cbn; auto).
      apply in_split in IB as (a & c & EL).
      assert (LEN : length L = length a + S (length c)) by (rewrite EL, app_length; auto).
      destruct (chain_head_ok (length a) a bb c (S k)) as (h & a' & c' & H1 & H2 & H3 & H4 & H5); auto; try lia.
      rewrite H1. cbn [bind]. assert (NH : ~ In h acc) by (intros X; apply NB; eapply H4; eauto).
      rewrite (existsb_nin _ _ NH).
      assert (LEN' : length L = length a' + S (length c')) by (rewrite H2, app_length; auto).
      destruct (walk_ok c' h a' acc r (S k)) as (ch & td & W & (d & D) & LT & A1 & A2 & A3 & A4); auto; try lia.
      rewrite W. cbn [bind fst snd].
      assert (SEG : incl (h :: ch) L).
      { intros x I. rewrite H2, D. apply in_or_app. right. destruct I as [->|I]; cbn; auto. right. apply in_or_app. auto. }
      assert (NDC : NoDup (h :: ch)).
      { rewrite H2, D in ND. apply nodup_app_r in ND. change (h :: ch ++ d) with ((h :: ch) ++ d) in ND. now apply nodup_app_l in ND. }
      (* no block of the chain was visited *)
      assert (DIS : forall x, In x (h :: ch) -> ~ In x acc).
      { assert (G : forall n u x w, length u <= n -> h :: ch = u ++ x :: w -> ~ In x acc).
        { induction n as [|n IHn]; intros u x w LU E.
          - destruct u; [|cbn in LU; lia]. injection E as -> _. auto.
          - destruct u as [|y u]; [injection E as -> _; auto|]. cbn in E. injection E as -> E.
            assert (IX : In x ch) by (rewrite E; apply in_or_app; cbn; auto).
            destruct (A2 x IX) as (b & sd & I1 & X). destruct (A1 b x sd I1 X) as (u1 & w1 & E1).
            assert (LU1 : u1 ++ [b] = y :: u).
            { destruct (nodup_split x (u1 ++ [b]) w1 (y :: u) w) as [Q _]; auto.
              - rewrite <- app_assoc. cbn. rewrite <- E1. auto.
              - rewrite <- app_assoc. cbn. rewrite <- E1. now rewrite E. }
            assert (LB : length u1 <= n).
            { apply (f_equal (@length nat)) in LU1. rewrite app_length in LU1. cbn in *. lia. }
            intros IA'. apply (IHn u1 b (x :: w1) LB E1). apply (CL b x sd); auto. }
        intros x I. apply in_split in I as (u & w & E). apply (G (length u) u x w); auto. }
      apply IH.
      * rewrite !app_length. cbn [length] in *.
        assert (length acc + S (length ch) <= length L).
        { assert (X : NoDup (acc ++ h :: ch)).
          { apply nodup_app; auto. }
          apply NoDup_incl_length with (l' := L) in X.
          - rewrite app_length in X. cbn in X. lia.
          - intros x I. apply in_app_or in I as [I|I]; auto. }
        lia.
      * lia.
      * apply nodup_app; auto.
      * intros x I. apply in_app_or in I as [I|I]; auto.
      * intros x I. apply in_app_or in I as [I|I]; [apply IT; cbn; auto|].
        destruct (A4 x I) as (b & I1 & X). apply REACH. eapply reach_step; [apply REACH; apply SEG; eauto|auto].
      * intros b s sd IS N. specialize (CL b s sd IS N). rewrite !in_app_iff. split.
        -- intros [I|I]; [left; tauto|]. right. destruct (A1 b s sd I N) as (u & w & E). rewrite E. apply in_or_app. cbn. auto.
        -- intros [I|I]; [left; tauto|]. right. destruct I as [->|I].
           ++ exfalso. eapply H3; eauto.
           ++ destruct (A2 s I) as (b1 & sd1 & I1 & X). assert (b1 = b) by (eapply ft_unique; eauto). subst. auto.
      * intros b I s S. apply in_app_or in I as [I|I].
        -- destruct (SU b I s S) as [X|[<-|X]]; [left; apply in_or_app; auto| |right; apply in_or_app; auto].
           (* bb itself is in the chain *)
           left. apply in_or_app. right.
           assert (CLO : closed (h :: ch)).
           { intros b' s' sd' IS N. split.
             - intros J. destruct (A1 b' s' sd' J N) as (u & w & E). rewrite E. apply in_or_app. cbn. auto.
             - intros [->|J]; [exfalso; eapply H3; eauto|].
               destruct (A2 s' J) as (b1 & sd1 & I1 & Y). assert (b1 = b') by (eapply ft_unique; eauto). subst. auto. }
           apply H4; auto. cbn. auto.
        -- destruct (NODE b) as (nx & sd & N); [apply LALL; auto|]. rewrite (node_succs _ _ _ _ N) in S.
           destruct nx as [s'|]; [destruct S as [<-|S]|].
           ++ left. apply in_or_app. right. destruct (A1 b s' sd I N) as (u & w & E). rewrite E. apply in_or_app. cbn. auto.
           ++ right. apply in_or_app. right. eapply A3; eauto.
           ++ right. apply in_or_app. right. eapply A3; eauto.
      * intros b s sd I N. apply in_app_or in I as [I|I].
        -- destruct (AD b s sd I N) as (u & w & E). exists u, (w ++ h :: ch). rewrite E, <- app_assoc. reflexivity.
        -- destruct (A1 b s sd I N) as (u & w & E). exists (acc ++ u), w. rewrite E, <- app_assoc. reflexivity.
      * right. destruct HE as [[-> [= -> ->]]|(r' & ->)]; [|eexists; reflexivity].
        destruct HD as (r' & HD'). assert (a = [] ) as ->.
        { destruct (nodup_split (f_entry g) a c [] r') as [-> _]; auto; [rewrite <- EL; auto|]. rewrite <- EL. auto. }
        destruct a' as [|x a']; [|cbn in H5; lia]. cbn in EL, H2. rewrite EL in H2. injection H2 as -> _. cbn. eauto.
Qed.
Lemma gen_reachable_ok fuel : 2 * length L + 1 < fuel ->
  exists l, gen_reachable fuel g = Ok l /\ NoDup l /\ (forall b, In b l <-> reach g (f_entry g) b) /\
    (forall b s sd, In b l -> node g b (Some s) sd -> exists u w, l = u ++ b :: s :: w) /\ (exists r, l = f_entry g :: r).
Proof.
  intros LF. unfold gen_reachable.
  destruct (add_reach_ok (length L + 1) [] [f_entry g] fuel) as (l & A & B & C & D & E & F); auto.
  - cbn. lia.
  - lia.
  - constructor.
  - intros x [].
  - intros x [<-|[]]. apply REACH. constructor.
  - intros b s sd IS N. cbn. tauto.
  - intros b s sd [].
  - exists l. split; auto. split; auto. split; [|auto]. intros b. split.
    + intros I. apply REACH. auto.
    + intros R. induction R as [|e b c R IH]; [|apply (D b); auto]. destruct F as (r & ->). cbn. auto.
Qed.
End core.

(** ** gen_bb_succ *)
Definition fixed (f h : func) (c : nat) : Prop :=
  exists x, f_block h c = Some x /\ b_insns x = insns_of f c /\ b_preds x = preds_of f c /\
    Permutation (b_succs x) (succs_of f c) /\ (exists nx sd, node h c nx sd) /\
    (forall s, falls f c s <-> exists sd, node h c (Some s) sd) /\
    (forall y, terminator f c y -> is_cond_jmp_op (i_op y) = true -> b_succs x = [i_bb1 y; i_bb2 y]).

Lemma node_ext g h b nx sd : f_insn h = f_insn g -> f_block h b = f_block g b -> node g b nx sd -> node h b nx sd.
Proof.
  intros EI EB. assert (LO : forall x, last_of h x = last_of g x).
  { intros x. unfold last_of, get_insn. destruct (rev (b_insns x)); auto. now rewrite EI. }
  inversion 1 as [x E S|x y E S T|x l s E S T|x s0 s1 E S]; subst; rewrite <- EB in E.
  - econstructor 1; eauto.
  - econstructor 2; eauto. now rewrite LO.
  - econstructor 3; eauto. now rewrite LO.
  - econstructor 4; eauto.
Qed.
Lemma fixed_ext f g h c : f_insn h = f_insn g -> f_block h c = f_block g c -> fixed f g c -> fixed f h c.
Proof.
  intros EI EB (x & A & B & C & D & (nx & sd & N) & F & G). exists x. rewrite EB. repeat (split; [solve [auto]|]). split.
  - exists nx, sd. eapply node_ext; eauto.
  - split; [|auto]. intros s. rewrite F. split; intros (sd' & X); exists sd'; (eapply node_ext; [| |exact X]; congruence).
Qed.
Lemma last_of_none f h x b : f_insn h = f_insn f -> b_insns x = insns_of f b -> insns_of f b = [] -> last_of h x = Ok None.
Proof. intros EI EX E. unfold last_of. rewrite EX, E. reflexivity. Qed.
Lemma last_of_some f h x b y : f_insn h = f_insn f -> b_insns x = insns_of f b -> terminator f b y -> last_of h x = Ok (Some y).
Proof.
  intros EI EX (l & i & E & I). unfold last_of. rewrite EX, E, rev_app_distr. cbn [rev app]. unfold get_insn. rewrite EI, I. reflexivity.
Qed.
Lemma term_cases f b : blocks_ok f -> insns_of f b = [] \/ exists y, terminator f b y.
Proof.
  intros (LK & _). destruct (insns_of f b) as [|i l] eqn:E using rev_ind; [auto|clear IHl]. right.
  destruct (LK b i) as (y & Y); [rewrite E; apply in_or_app; cbn; auto|]. exists y, l, i. auto.
Qed.
Lemma term_fun f b y z : terminator f b y -> terminator f b z -> y = z.
Proof.
  intros (l & i & E & I) (l' & i' & E' & I'). rewrite E in E'. apply app_inj_tail in E' as [_ ->]. congruence.
Qed.
Lemma jmp_cases o : is_cond_jmp_op o = true \/ o = JA \/ (o = RET \/ o = THROW) \/ (is_jmp_op o = false /\ is_cond_jmp_op o = false /\ iop_eqb o JA = false).
Proof. destruct o; vm_compute; auto 8. Qed.

Lemma fix_one f h b x : blocks_ok f -> terms_ok f -> f_insn h = f_insn f -> f_block h b = f_block f b -> f_block f b = Some x ->
  exists g, fix_succs h b = Ok g /\ f_insn g = f_insn f /\ f_entry g = f_entry h /\ f_all g = f_all h /\
    (forall c, c <> b -> f_block g c = f_block h c) /\ fixed f g b.
Proof.
  intros BO TO EI EB EX. rewrite EX in EB.
  assert (IX : b_insns x = insns_of f b) by (unfold insns_of; now rewrite EX).
  assert (PX : b_preds x = preds_of f b) by (unfold preds_of; now rewrite EX).
  assert (SX : b_succs x = succs_of f b) by (unfold succs_of; now rewrite EX).
  unfold fix_succs, get_block. rewrite EB. cbn [bind].
  destruct (term_cases f b BO) as [E|(y & T)].
  - rewrite (last_of_none f h x b) by auto. cbn [bind]. exists h. repeat (split; [solve [auto]|]).
    exists x. repeat (split; [solve [auto]|]). split; [now rewrite SX|].
    assert (NT : forall y, ~ terminator f b y). { intros y (l & i & X & _). rewrite E in X. destruct l; discriminate. }
    assert (LS := proj2 TO b E). rewrite <- SX in LS.
    destruct (b_succs x) as [|s [|? ?]] eqn:S; [| |cbn in LS; lia].
    + assert (N : node h b None []) by (econstructor 1; eauto). split; [eauto|]. split; [|intros y X; destruct (NT y X)].
      intros s. split.
      * intros [y X|y X|X Y]; [destruct (NT y X)|destruct (NT y X)|]. rewrite <- SX in Y. discriminate.
      * intros (sd & X). destruct (node_fun _ _ _ _ _ _ N X). discriminate.
    + assert (N : node h b (Some s) []). { econstructor 3; eauto. { now apply (last_of_none f h x b). } reflexivity. }
      split; [eauto|]. split; [|intros y X; destruct (NT y X)]. intros s'. split.
      * intros [y X|y X|X Y]; [destruct (NT y X)|destruct (NT y X)|]. rewrite <- SX in Y. injection Y as ->. eauto.
      * intros (sd & X). destruct (node_fun _ _ _ _ _ _ N X) as [X1 _]. injection X1 as ->. apply falls_empty; auto.
  - rewrite (last_of_some f h x b y) by auto. cbn [bind]. destruct (proj1 TO b y T) as (T1 & T2 & T3 & T4).
    assert (NE : insns_of f b <> []). { destruct T as (l & i & X & _). rewrite X. destruct l; discriminate. }
    destruct (jmp_cases (i_op y)) as [C|[J|[R|(J & C & A)]]].
    + rewrite C. specialize (T1 C). rewrite <- SX in T1. rewrite (Permutation_length T1). cbn [length Nat.eqb].
      eexists. split; [reflexivity|]. cbn [with_block f_insn f_entry f_all f_block]. repeat (split; [solve [auto]|]).
      split; [intros c NC; now rewrite upd_ne by auto|].
      exists (set_succs [i_bb1 y; i_bb2 y] x). cbn [with_block f_block]. rewrite upd_eq. split; auto. cbn [set_succs b_insns b_preds b_succs].
      repeat (split; [solve [auto]|]). split; [rewrite <- SX; now symmetry|].
      set (g := with_block _ h).
      assert (N : node g b (Some (i_bb1 y)) [i_bb2 y]). { eapply nd_cond; [apply upd_eq|reflexivity]. }
      split; [eauto|]. split.
      * intros s. split.
        -- intros [z X|z X Y|X]; [| |contradiction]; assert (z = y) by (eapply term_fun; eauto); subst.
           ++ eauto.
           ++ exfalso. revert C Y. clear. destruct (i_op y); vm_compute; discriminate.
        -- intros (sd & X). destruct (node_fun _ _ _ _ _ _ N X) as [X1 _]. injection X1 as X1. eapply falls_cond; eauto.
      * intros z X _. assert (z = y) by (eapply term_fun; eauto). now subst.
    + rewrite J. cbn [iop_eqb]. change (is_cond_jmp_op JA) with false. change (iop_eqb JA JA) with true. cbv iota.
      specialize (T2 J). rewrite <- SX in T2. rewrite T2. cbn [length Nat.eqb].
      eexists. split; [reflexivity|]. cbn [with_block f_insn f_entry f_all f_block]. repeat (split; [solve [auto]|]).
      split; [intros c NC; now rewrite upd_ne by auto|].
      exists (set_succs [i_bb1 y] x). cbn [with_block f_block]. rewrite upd_eq. split; auto. cbn [set_succs b_insns b_preds b_succs].
      repeat (split; [solve [auto]|]). split; [rewrite <- SX, T2; auto|].
      set (g := with_block _ h).
      assert (N : node g b None [i_bb1 y]).
      { eapply nd_ja; [apply upd_eq|reflexivity| |auto]. apply (last_of_some f g _ b); auto. }
      split; [eauto|]. split.
      * intros s. split.
        -- intros [z X Y|z X Y|X]; [| |contradiction]; assert (z = y) by (eapply term_fun; eauto); subst; rewrite J in Y; discriminate.
        -- intros (sd & X). destruct (node_fun _ _ _ _ _ _ N X) as [X1 _]. discriminate.
      * intros z X C. assert (z = y) by (eapply term_fun; eauto). subst. rewrite J in C. discriminate.
    + assert (is_cond_jmp_op (i_op y) = false /\ iop_eqb (i_op y) JA = false) as [C A] by (destruct R as [-> | ->]; split; reflexivity).
      rewrite C, A. exists h. repeat (split; [solve [auto]|]). exists x. repeat (split; [solve [auto]|]). split; [now rewrite SX|].
      specialize (T3 R). rewrite <- SX in T3.
      assert (N : node h b None []) by (econstructor 1; eauto). split; [eauto|]. split.
      * intros s. split.
        -- intros [z X Y|z X Y|X]; [| |contradiction]; assert (z = y) by (eapply term_fun; eauto); subst; destruct R as [R|R]; rewrite R in Y; discriminate.
        -- intros (sd & X). destruct (node_fun _ _ _ _ _ _ N X). discriminate.
      * intros z X C'. assert (z = y) by (eapply term_fun; eauto). subst. congruence.
    + rewrite C, A. exists h. repeat (split; [solve [auto]|]). exists x. repeat (split; [solve [auto]|]). split; [now rewrite SX|].
      specialize (T4 J). rewrite <- SX in T4.
      assert (CT : forall z, terminator f b z -> is_cond_jmp_op (i_op z) = true -> b_succs x = [i_bb1 z; i_bb2 z]).
      { intros z X C'. assert (z = y) by (eapply term_fun; eauto). subst. congruence. }
      destruct (b_succs x) as [|s [|? ?]] eqn:S; [| |cbn in T4; lia].
      * assert (N : node h b None []) by (econstructor 1; eauto). split; [eauto|]. split; [|auto].
        intros s. split.
        -- intros [z X Y|z X Y W|X]; [| |contradiction]; assert (z = y) by (eapply term_fun; eauto); subst; [congruence|]. rewrite <- SX in W. discriminate.
        -- intros (sd & X). destruct (node_fun _ _ _ _ _ _ N X). discriminate.
      * assert (N : node h b (Some s) []). { eapply nd_plain; eauto. { apply (last_of_some f h x b); eauto. } exact A. }
        split; [eauto|]. split; [|auto]. intros s'. split.
        -- intros [z X Y|z X Y W|X]; [| |contradiction]; assert (z = y) by (eapply term_fun; eauto); subst; [congruence|]. rewrite <- SX in W. injection W as ->. eauto.
        -- intros (sd & X). destruct (node_fun _ _ _ _ _ _ N X) as [X1 _]. injection X1 as ->. eapply falls_plain; eauto.
Qed.
Lemma fix_all f : blocks_ok f -> terms_ok f -> forall l h, NoDup l -> f_insn h = f_insn f ->
  (forall c, In c l -> f_block h c = f_block f c /\ exists x, f_block f c = Some x) ->
  exists g, ofold fix_succs h l = Ok g /\ f_insn g = f_insn f /\ f_entry g = f_entry h /\ f_all g = f_all h /\
    (forall c, ~ In c l -> f_block g c = f_block h c) /\ (forall c, In c l -> fixed f g c).
Proof.
  intros BO TO. induction l as [|b l IH]; intros h NL EI HL; cbn [ofold].
  - exists h. repeat (split; [solve [auto]|]). intros c [].
  - inversion NL as [|? ? NI NL']; subst. destruct (HL b) as [EB (x & X)]; [cbn; auto|].
    destruct (fix_one f h b x) as (h1 & E1 & I1 & N1 & A1 & O1 & F1); auto. rewrite E1. cbn [bind].
    destruct (IH h1) as (g & E2 & I2 & N2 & A2 & O2 & F2); auto.
    { intros c IC. rewrite O1 by congruence. apply HL. cbn. auto. }
    exists g. split; auto. split; auto. split; [congruence|]. split; [congruence|]. split.
    + intros c NC. rewrite O2, O1; auto; intros X'; apply NC; cbn; auto.
    + intros c [<-|IC]; auto. eapply fixed_ext; [| |exact F1]; [congruence|]. apply O2. auto.
Qed.

Lemma gen_end_ok g : forall l, (forall b, In b l -> exists x, f_block g b = Some x) ->
  exists e, gen_end g l = Ok e /\ (forall b, In b e <-> In b l /\ succs_of g b = []) /\ (NoDup l -> NoDup e).
Proof.
  induction l as [|b l IH]; intros HL; cbn [gen_end].
  - exists []. split; auto. split; [|auto]. intros b. cbn. tauto.
  - destruct (HL b) as (x & X); [cbn; auto|]. unfold get_block. rewrite X. cbn [bind].
    destruct IH as (e & E & IE & NE); [intros; apply HL; cbn; auto|]. rewrite E. cbn [bind]. eexists. split; [reflexivity|].
    assert (SX : succs_of g b = b_succs x) by (unfold succs_of; now rewrite X).
    destruct (b_succs x) as [|s r] eqn:S; (split; [intros c; cbn [In]; rewrite IE|]).
    + split; [intros [<-|[A B]]; auto|]. intros [[<-|A] B]; auto.
    + inversion 1; subst. constructor; auto. rewrite IE. tauto.
    + split; [tauto|]. intros [[<-|A] B]; auto. congruence.
    + inversion 1; auto.
Qed.

Definition layout_result (f g : func) (l e : list nat) : Prop :=
  same_flow f g /\ valid_layout f l /\ NoDup e /\ (forall b, In b e <-> In b l /\ succs_of f b = []) /\
  (forall b y, terminator f b y -> is_cond_jmp_op (i_op y) = true -> succs_of g b = [i_bb1 y; i_bb2 y]).

Theorem layout_ok f L : mirrored f -> blocks_ok f -> terms_ok f -> no_dead_fall f -> valid_layout f L ->
  forall fuel, 2 * length L + 1 < fuel -> exists g l e, layout fuel f = Ok (g, (l, e)) /\ layout_result f g l e.
Proof.
  intros MIR BO TO DF (NL & HL & RL & AL) fuel LF.
  assert (BO' := BO). destruct BO as (LK & NA & AB & EA & SA).
  destruct (fix_all f BO' TO (f_all f) f) as (g & E & EI & EE & EAl & OUT & FX); auto.
  { intros c IC. split; auto. now apply AB. }
  assert (OUT' : forall c, ~ In c (f_all f) -> f_block g c = None).
  { intros c NC. rewrite OUT by auto. destruct (f_block f c) eqn:X; auto. exfalso. apply NC. apply AB. eauto. }
  assert (SF : same_flow f g).
  { split; [auto|]. split; [auto|]. split; [auto|]. intros b. destruct (in_dec Nat.eq_dec b (f_all f)) as [I|I].
    - destruct (FX b I) as (x & X1 & X2 & X3 & X4 & _). unfold insns_of at 1, preds_of at 1, succs_of at 1. rewrite X1. auto.
    - unfold insns_of, preds_of, succs_of. rewrite (OUT b I). auto. }
  assert (SP : forall b, Permutation (succs_of g b) (succs_of f b)) by (intros b; apply SF).
  assert (RR : forall a b, reach g a b <-> reach f a b).
  { assert (IN : forall b c, In c (succs_of g b) <-> In c (succs_of f b)).
    { intros b c. split; apply Permutation_in; auto. symmetry. auto. }
    intros a b. split; induction 1; try constructor; econstructor; eauto; apply IN; auto. }
  assert (FN : forall b s, falls f b s <-> exists sd, node g b (Some s) sd).
  { intros b s. destruct (in_dec Nat.eq_dec b (f_all f)) as [I|I]; [destruct (FX b I) as (x & X); apply X|].
    assert (NB : f_block f b = None). { rewrite <- OUT by auto. auto. }
    split.
    - intros [y (l & i & X & _)|y (l & i & X & _)|_ X].
      + exfalso. unfold insns_of in X. rewrite NB in X. destruct l; discriminate.
      + exfalso. unfold insns_of in X. rewrite NB in X. destruct l; discriminate.
      + exfalso. unfold succs_of in X. rewrite NB in X. discriminate.
    - intros (sd & X). specialize (OUT' b I). inversion X; congruence. }
  unfold layout, gen_bb_succ. rewrite E. cbn [bind].
  destruct (gen_reachable_ok g L) with (fuel := fuel) as (l & GR & NDl & IL & ADJl & HDl); auto.
  - intros b I. rewrite EAl in I. destruct (FX b I) as (x & X). apply X.
  - destruct MIR as (M1 & M2 & M3). split; [|split].
    + intros a b. replace (preds_of g b) with (preds_of f b) by (symmetry; apply SF). rewrite <- M1. split; apply Permutation_in; auto. symmetry; auto.
    + intros a. eapply Permutation_NoDup; [symmetry; apply SP|]. auto.
    + intros a. replace (preds_of g a) with (preds_of f a) by (symmetry; apply SF). auto.
  - intros b p I. replace (preds_of g b) with (preds_of f b) in I by (symmetry; apply SF). rewrite EAl.
    apply AB. apply MIR in I. unfold succs_of in I. destruct (f_block f p); [eauto|destruct I].
  - intros b I. rewrite EAl. apply RL in I. revert I. induction 1; auto. eapply SA; eauto.
  - rewrite EE. auto.
  - rewrite EE. intros b. rewrite RR. apply RL.
  - intros b s sd I N. apply AL; auto. apply FN. eauto.
  - intros b s sd N I. apply RL. eapply DF; [apply FN; eauto|]. apply RL. auto.
  - rewrite GR. cbn [bind].
    destruct (gen_end_ok g l) as (e & GE & IE & NE).
    { intros b I. rewrite IL, EE, RR in I. apply RL in I.
      assert (IA : In b (f_all f)). { apply RL in I. revert I. induction 1; auto. eapply SA; eauto. }
      destruct (FX b IA) as (x & X & _). eauto. }
    rewrite GE. cbn [bind]. exists g, l, e. split; [reflexivity|]. split; auto. split; [|split; [auto|split]].
    + split; auto. rewrite EE in HDl. split; auto. split.
      * intros b. rewrite IL, EE. apply RR.
      * intros b s I F. apply FN in F as (sd & F). eapply ADJl; eauto.
    + intros b. rewrite IE. assert (succs_of g b = [] <-> succs_of f b = []); [|tauto].
      specialize (SP b). split; intros X; rewrite X in SP; [now apply Permutation_nil in SP|].
      symmetry in SP. now apply Permutation_nil in SP.
    + intros b y T C. destruct (in_dec Nat.eq_dec b (f_all f)) as [I|I].
      * destruct (FX b I) as (x & X1 & _ & _ & _ & _ & _ & X). unfold succs_of. rewrite X1. eauto.
      * destruct T as (lx & i & X & _). unfold insns_of in X. rewrite <- OUT, OUT' in X by auto. destruct lx; discriminate.
Qed.

(** ** Adjacency by construction *)
Definition next (g : func) (b s : nat) : Prop :=
  exists x, f_block g b = Some x /\
    ((exists l, b_succs x = [s] /\ last_of g x = Ok l /\ ends_ja l = false) \/ (exists s1, b_succs x = [s; s1])).
Definition adj (g : func) (l : list nat) : Prop := forall a b c s, l = a ++ b :: c -> next g b s -> exists c', c = s :: c'.
Definition adj_to (g : func) (l : list nat) (h : nat) : Prop :=
  forall a b c s, l = a ++ b :: c -> next g b s -> exists c', c ++ [h] = s :: c'.
Lemma adj_adj_to g l h : adj g l -> adj_to g l h.
Proof. intros A a b c s E N. destruct (A a b c s E N) as (c' & ->). exists (c' ++ [h]). reflexivity. Qed.
Lemma snoc_split {A} (l : list A) h a b c : l ++ [h] = a ++ b :: c -> (c = [] /\ a = l /\ b = h) \/ exists c', c = c' ++ [h] /\ l = a ++ b :: c'.
Proof.
  destruct c as [|z c _] using rev_ind; intros E.
  - apply app_inj_tail in E as [-> ->]. auto.
  - right. exists c. change (a ++ b :: c ++ [z]) with (a ++ (b :: c) ++ [z]) in E. rewrite app_assoc in E. apply app_inj_tail in E as [-> ->]. auto.
Qed.
Lemma adj_push g l h s : adj_to g l h -> next g h s -> adj_to g (l ++ [h]) s.
Proof.
  intros A N a b c s' E N'. apply snoc_split in E as [(-> & -> & ->)|(c' & -> & ->)].
  - cbn. exists []. f_equal. destruct N as (x & X & N), N' as (x' & X' & N'). rewrite X in X'. injection X' as <-.
    destruct N as [(l1 & N & _)|(s1 & N)], N' as [(l2 & N' & _)|(s2 & N')]; rewrite N in N'; congruence.
  - destruct (A a b c' s' eq_refl N') as (d & D). exists (d ++ [s]). rewrite D. reflexivity.
Qed.
Lemma adj_end g l h : adj_to g l h -> (forall s, ~ next g h s) -> adj g (l ++ [h]).
Proof.
  intros A N a b c s E N'. apply snoc_split in E as [(-> & -> & ->)|(c' & -> & ->)]; [exfalso; eapply N; eauto|].
  destruct (A a b c' s eq_refl N') as (d & D). eauto.
Qed.
Lemma walk_adj g : forall fuel h acc todo r, walk fuel g h acc todo = Ok r -> adj_to g acc h -> adj g (fst r).
Proof.
  induction fuel as [|k IH]; intros h acc todo r W A; [discriminate|]. cbn [walk] in W. unfold get_block in W.
  destruct (f_block g h) as [x|] eqn:X; [|discriminate]. cbn [bind] in W.
  destruct (b_succs x) as [|s [|s1 [|? ?]]] eqn:S.
  - injection W as <-. cbn [fst]. apply adj_end; auto. intros s (x' & X' & [(l & N & _)|(s1 & N)]); congruence.
  - destruct (last_of g x) as [l| | | |] eqn:LO; try discriminate. cbn [bind] in W.
    assert (N : ends_ja l = false -> next g h s). { intros EJ. exists x. split; auto. left. exists l. auto. }
    destruct l as [y|]; [|eapply IH; [exact W|]; apply adj_push; auto].
    destruct (iop_eqb (i_op y) JA) eqn:J; [|eapply IH; [exact W|]; apply adj_push; auto].
    injection W as <-. cbn [fst]. apply adj_end; auto. intros s' (x' & X' & [(l' & N' & LO' & EJ)|(s1 & N')]); [|congruence].
    assert (x' = x) by congruence. subst. rewrite LO in LO'. injection LO' as LO'. subst l'. cbn in EJ. congruence.
  - eapply IH; [exact W|]. apply adj_push; auto. exists x. split; auto. right. eauto.
  - discriminate.
Qed.
Lemma add_reach_adj g : forall fuel acc todo l, add_reach fuel g acc todo = Ok l -> adj g acc -> adj g l.
Proof.
  induction fuel as [|k IH]; intros acc todo l E A; [discriminate|]. cbn [add_reach] in E.
  destruct todo as [|bb r]; [injection E as <-; auto|].
  destruct (existsb (Nat.eqb bb) acc); [eapply IH; eauto|].
  destruct (find_chain_head (S k) g bb) as [[h|]| | | |]; try discriminate. cbn [bind] in E.
  destruct (existsb (Nat.eqb h) acc); [discriminate|].
  destruct (walk (S k) g h acc r) as [w| | | |] eqn:W; try discriminate. cbn [bind] in E.
  eapply IH; [exact E|]. eapply walk_adj; [exact W|]. now apply adj_adj_to.
Qed.

(** what one step of gen_bb_succ does *)
Lemma fix_succs_inv h b h' : fix_succs h b = Ok h' ->
  f_insn h' = f_insn h /\ f_all h' = f_all h /\ (forall c, insns_of h' c = insns_of h c) /\
  (forall c, c <> b -> f_block h' c = f_block h c) /\ (forall c, f_block h' c = None <-> f_block h c = None) /\
  (forall y, terminator h b y -> is_cond_jmp_op (i_op y) = true -> succs_of h' b = [i_bb1 y; i_bb2 y]).
Proof.
  unfold fix_succs, get_block. destruct (f_block h b) as [x|] eqn:X; [|discriminate]. cbn [bind].
  destruct (last_of h x) as [l| | | |] eqn:LO; try discriminate. cbn [bind]. intros E.
  assert (IX : b_insns x = insns_of h b) by (unfold insns_of; now rewrite X).
  assert (LT : forall y, terminator h b y -> l = Some y).
  { intros y T. rewrite (last_of_some h h x b y) in LO by auto. now injection LO. }
  assert (K : forall s, let g := with_block (upd (f_block h) b (Some (set_succs s x))) h in
    f_insn g = f_insn h /\ f_all g = f_all h /\ (forall c, insns_of g c = insns_of h c) /\
    (forall c, c <> b -> f_block g c = f_block h c) /\ (forall c, f_block g c = None <-> f_block h c = None) /\ succs_of g b = s).
  { intros s g. repeat (split; [reflexivity|]). split; [|split; [|split]].
    - intros c. unfold insns_of, g. cbn [with_block f_block]. destruct (Nat.eq_dec c b) as [->|]; [rewrite upd_eq, X; reflexivity|now rewrite upd_ne].
    - intros c NC. unfold g. cbn. now rewrite upd_ne.
    - intros c. unfold g. cbn [with_block f_block]. destruct (Nat.eq_dec c b) as [->|]; [rewrite upd_eq; split; congruence|now rewrite upd_ne].
    - unfold succs_of, g. cbn [with_block f_block]. now rewrite upd_eq. }
  destruct l as [y|].
  - destruct (is_cond_jmp_op (i_op y)) eqn:C.
    + destruct (length (b_succs x) =? 2); [|discriminate]. injection E as <-. destruct (K [i_bb1 y; i_bb2 y]) as (K1 & K2 & K3 & K4 & K5 & K6).
      repeat (split; [solve [auto]|]). intros z T _. specialize (LT z T). injection LT as ->. auto.
    + assert (NC : forall z, terminator h b z -> is_cond_jmp_op (i_op z) = true -> False).
      { intros z T Z. specialize (LT z T). congruence. }
      destruct (iop_eqb (i_op y) JA).
      * destruct (length (b_succs x) =? 1); [|discriminate]. injection E as <-. destruct (K [i_bb1 y]) as (K1 & K2 & K3 & K4 & K5 & K6).
        repeat (split; [solve [auto]|]). intros z T Z. destruct (NC z T Z).
      * injection E as <-. repeat (split; [solve [auto]|]). split; [tauto|]. intros z T Z. destruct (NC z T Z).
  - injection E as <-. repeat (split; [solve [auto]|]). split; [tauto|]. intros z T Z. specialize (LT z T). discriminate.
Qed.
Definition ordered (h : func) (b : nat) : Prop := forall y, terminator h b y -> is_cond_jmp_op (i_op y) = true -> succs_of h b = [i_bb1 y; i_bb2 y].
Lemma term_ext h h' b y : f_insn h' = f_insn h -> insns_of h' b = insns_of h b -> terminator h' b y -> terminator h b y.
Proof. intros A B (l & i & C & D). exists l, i. rewrite <- A, <- B. auto. Qed.
Lemma fix_fold : forall l h g, ofold fix_succs h l = Ok g ->
  f_insn g = f_insn h /\ f_all g = f_all h /\ (forall c, insns_of g c = insns_of h c) /\ (forall c, f_block g c = None <-> f_block h c = None) /\
  (forall b, In b l \/ ordered h b -> ordered g b).
Proof.
  induction l as [|b l IH]; intros h g E; cbn [ofold] in E.
  - injection E as <-. repeat (split; [solve [auto]|]). split; [tauto|]. intros b [[]|O]; auto.
  - destruct (fix_succs h b) as [h1| | | |] eqn:F; try discriminate. cbn [bind] in E.
    apply fix_succs_inv in F as (A1 & A2 & A3 & A4 & A5 & A6). apply IH in E as (B1 & B2 & B3 & B4 & B5).
    split; [congruence|]. split; [congruence|]. split; [intros; now rewrite B3, A3|]. split; [intros c; rewrite B4; apply A5|].
    intros c O. apply B5. destruct (Nat.eq_dec c b) as [->|NE].
    + right. intros y T C. apply A6; auto. eapply term_ext; eauto.
    + destruct O as [[->|I]|O]; [congruence|auto|]. right. intros y T C. unfold succs_of. rewrite A4 by auto.
      apply O; auto. eapply term_ext; eauto.
Qed.

Theorem layout_adj fuel f g l e : (forall b x, f_block f b = Some x -> In b (f_all f)) ->
  layout fuel f = Ok (g, (l, e)) -> forall a b c s, l = a ++ b :: c -> falls g b s -> exists c', c = s :: c'.
Proof.
  intros AB LY a b c s EL F. unfold layout in LY. destruct (gen_bb_succ f) as [f1| | | |] eqn:G; try discriminate. cbn [bind] in LY.
  destruct (gen_reachable fuel f1) as [l1| | | |] eqn:R; try discriminate. cbn [bind] in LY.
  destruct (gen_end f1 l1) as [e1| | | |]; try discriminate. cbn [bind] in LY. injection LY as -> -> ->.
  apply fix_fold in G as (G1 & G2 & G3 & G4 & G5).
  apply add_reach_adj in R; [|intros u v w z X; destruct u; discriminate]. apply (R a b c s EL).
  assert (BX : exists x, f_block g b = Some x).
  { destruct (f_block g b) eqn:X; eauto. destruct F as [y (k & i & Y & _)|y (k & i & Y & _)|_ Y];
      unfold insns_of, succs_of in Y; rewrite X in Y; try destruct k; discriminate. }
  destruct BX as (x & BX).
  assert (IA : In b (f_all f)). { destruct (f_block f b) eqn:Z; [eauto|]. apply G4 in Z. congruence. }
  assert (IX : b_insns x = insns_of g b) by (unfold insns_of; now rewrite BX).
  exists x. split; auto. destruct F as [y T C Y|y T J Y|N Y].
  - right. exists (i_bb2 y). subst s. rewrite <- (G5 b (or_introl IA) y T C). unfold succs_of. now rewrite BX.
  - left. exists (Some y). split; [rewrite <- Y; unfold succs_of; now rewrite BX|]. split; [now apply (last_of_some g g x b)|].
    cbn. destruct (i_op y); try reflexivity; discriminate.
  - left. exists None. split; [rewrite <- Y; unfold succs_of; now rewrite BX|]. split; [now apply (last_of_none g g x b)|reflexivity].
Qed.

(** ** A boolean test for blocks_ok and terms_ok, used in examples *)
Definition chk_block (f : func) (b : nat) : bool :=
  match f_block f b with
  | None => negb (existsb (Nat.eqb b) (f_all f))
  | Some x =>
    existsb (Nat.eqb b) (f_all f) && forallb (fun i => match f_insn f i with Some _ => true | None => false end) (b_insns x) &&
    forallb (fun s => existsb (Nat.eqb s) (f_all f)) (b_succs x) &&
    match rev (b_insns x) with
    | [] => length (b_succs x) <=? 1
    | i :: _ =>
      match f_insn f i with
      | None => false
      | Some y =>
        if is_cond_jmp_op (i_op y) then
          match b_succs x with [p; q] => ((p =? i_bb1 y) && (q =? i_bb2 y)) || ((p =? i_bb2 y) && (q =? i_bb1 y)) | _ => false end
        else if iop_eqb (i_op y) JA then match b_succs x with [p] => p =? i_bb1 y | _ => false end
        else if is_jmp_op (i_op y) then match b_succs x with [] => true | _ => false end
        else length (b_succs x) <=? 1
      end
    end
  end.
Fixpoint nodupb (l : list nat) : bool := match l with [] => true | a :: r => negb (existsb (Nat.eqb a) r) && nodupb r end.
Definition chk (f : func) : bool :=
  nodupb (f_all f) && existsb (Nat.eqb (f_entry f)) (f_all f) && forallb (chk_block f) (seq 0 (f_nb f)) && forallb (fun b => b <? f_nb f) (f_all f).
Lemma nodupb_ok l : nodupb l = true -> NoDup l.
Proof.
  induction l as [|a l IH]; cbn; [constructor|]. intros E. apply andb_prop in E as [A B]. constructor; auto.
  intros I. apply existsb_in in I. rewrite I in A. discriminate.
Qed.
Lemma chk_ok f : fresh_ok f -> chk f = true -> blocks_ok f /\ terms_ok f.
Proof.
  intros (_ & FB) C. unfold chk in C. apply andb_prop in C as [C C4]. apply andb_prop in C as [C C3]. apply andb_prop in C as [C1 C2].
  rewrite forallb_forall in C3, C4.
  assert (CB : forall b, b < f_nb f -> chk_block f b = true) by (intros b I; apply C3; apply in_seq; lia).
  assert (K : forall b x, f_block f b = Some x -> chk_block f b = true).
  { intros b x X. apply CB. destruct (Nat.lt_ge_cases b (f_nb f)); auto. rewrite FB in X by auto. discriminate. }
  assert (K1 : forall b x, f_block f b = Some x -> In b (f_all f) /\ (forall i, In i (b_insns x) -> exists y, f_insn f i = Some y) /\ (forall s, In s (b_succs x) -> In s (f_all f))).
  { intros b x X. specialize (K b x X). unfold chk_block in K. rewrite X in K. apply andb_prop in K as [K _].
    apply andb_prop in K as [K K3]. apply andb_prop in K as [K1 K2]. rewrite forallb_forall in K2, K3. apply existsb_in in K1. split; auto. split.
    - intros i I. specialize (K2 i I). destruct (f_insn f i); [eauto|discriminate].
    - intros s I. apply existsb_in. auto. }
  split.
  - split; [|split; [|split; [|split]]].
    + intros b i I. unfold insns_of in I. destruct (f_block f b) as [x|] eqn:X; [|destruct I]. destruct (K1 b x X) as (_ & Y & _). auto.
    + now apply nodupb_ok.
    + intros b. split; [|intros (x & X); exact (proj1 (K1 b x X))]. intros I. specialize (C4 b I). apply Nat.ltb_lt in C4. specialize (CB b C4).
      unfold chk_block in CB. destruct (f_block f b); [eauto|]. apply existsb_in in I. rewrite I in CB. discriminate.
    + now apply existsb_in.
    + intros b s I. unfold succs_of in I. destruct (f_block f b) as [x|] eqn:X; [|destruct I]. destruct (K1 b x X) as (_ & _ & Y). auto.
  - split.
    + intros b y (l & i & E & I). unfold insns_of in E. destruct (f_block f b) as [x|] eqn:X; [|destruct l; discriminate].
      specialize (K b x X). unfold chk_block in K. rewrite X in K. apply andb_prop in K as [_ K]. rewrite E, rev_app_distr in K. cbn [rev app] in K.
      rewrite I in K. unfold succs_of. rewrite X.
      destruct (is_cond_jmp_op (i_op y)) eqn:C.
      * split; [intros _|split; [intros J; rewrite J in C; discriminate|split; [intros [J|J]; rewrite J in C; discriminate|]]].
        -- destruct (b_succs x) as [|p [|q [|? ?]]]; try discriminate. apply orb_prop in K as [K|K]; apply andb_prop in K as [K K']; apply Nat.eqb_eq in K, K'; subst; [auto|constructor].
        -- intros J. exfalso. revert C J. destruct (i_op y); vm_compute; discriminate.
      * split; [discriminate|]. destruct (iop_eqb (i_op y) JA) eqn:J.
        -- assert (i_op y = JA) as OP by (revert J; destruct (i_op y); vm_compute; auto; discriminate).
           split; [intros _; destruct (b_succs x) as [|p [|? ?]]; try discriminate; apply Nat.eqb_eq in K; now subst|].
           rewrite OP. split; [intros [Q|Q]; discriminate|discriminate].
        -- split; [intros OP; rewrite OP in J; discriminate|]. destruct (is_jmp_op (i_op y)) eqn:M.
           ++ split; [intros _; destruct (b_succs x); auto; discriminate|discriminate].
           ++ split; [intros [Q|Q]; rewrite Q in M; discriminate|]. intros _. now apply Nat.leb_le.
    + intros b E. unfold insns_of in E. unfold succs_of. destruct (f_block f b) as [x|] eqn:X; [|cbn; lia].
      specialize (K b x X). unfold chk_block in K. rewrite X in K. apply andb_prop in K as [_ K]. rewrite E in K. cbn [rev] in K. now apply Nat.leb_le.
Qed.
Theorem layout_total f L : mirrored f -> blocks_ok f -> terms_ok f -> no_dead_fall f -> valid_layout f L ->
  exists fuel0, forall fuel, fuel0 <= fuel -> exists g l e,
    layout fuel f = Ok (g, (l, e)) /\ valid_layout f l /\ same_flow f g /\
    NoDup e /\ (forall b, In b e <-> reach f (f_entry f) b /\ succs_of f b = []) /\
    (forall b y, terminator f b y -> is_cond_jmp_op (i_op y) = true -> succs_of g b = [i_bb1 y; i_bb2 y]).
Proof.
  intros M B T D V. exists (2 * length L + 2). intros fuel LF.
  destruct (layout_ok f L M B T D V fuel) as (g & l & e & E & SF & VL & NE & IE & OR); [lia|].
  exists g, l, e. repeat (split; [solve [auto]|]). split; auto. intros b. rewrite IE.
  destruct VL as (_ & _ & R & _). now rewrite R.
Qed.
