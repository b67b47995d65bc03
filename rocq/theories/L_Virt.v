(** From virtual values to places: simulation of the virtual machine by flattened code. *)
From Coq Require Import ZArith List Bool Arith Lia.
From Verif Require Import M_Base M_Ir M_Norm M_Ra SpecWord SpecFlat SpecProg SpecSsa SpecIr SpecRa SpecPass SpecShift SpecVirt L_Word L_Norm L_RaLive.
Import ListNotations.
Open Scope Z_scope.

(** ** The same place, up to the size field *)
Definition poseq (p q : vrpos) : Prop := vp_alloc p = vp_alloc q /\ vp_reg p = vp_reg q /\ vp_spilled p = vp_spilled q.
Lemma evalv_pos bi m v v' p p' : v_data v = VFlat p -> v_data v' = VFlat p' -> poseq p' p -> evalv bi m v' = evalv bi m v.
Proof. intros A B (C & D & E). unfold evalv, slot_addr. rewrite A, B, C, D, E. reflexivity. Qed.
Lemma wr_pos m p p' z : poseq p' p -> wr m p' z = wr m p z.
Proof. intros (C & D & E). unfold wr, slot_addr. rewrite C, D, E. reflexivity. Qed.

Lemma call_rget w id s r : st_ok s -> 6 <= r <= 10 -> rget (call_helper w id s) r = rget s r.
Proof.
  intros [L _] H. unfold call_helper. destruct (helper _ _ _ _ _) as [q mm]. unfold rget; cbn [regs].
  destruct (regs s) as [|a0 [|a1 [|a2 [|a3 [|a4 [|a5 t]]]]]]; try discriminate L.
  cbn [map app skipn]. assert (K : exists k, Z.to_nat r = S (S (S (S (S (S k)))))) by (exists (Z.to_nat (r - 6)); lia).
  destruct K as [k ->]. reflexivity.
Qed.

(** ** What flattening makes of an instruction: [x] has its holes filled, [u] has the places *)
Definition fval (u : cgs) (v v' : value) : Prop :=
  match v_data v with
  | VInsn d => exists e p, c_ex u d = Some e /\ v_data v' = VFlat p /\ poseq p (x_pos e)
  | VConst _ => v' = v
  | _ => True
  end.
Record shown (s u : cgs) (i : nat) (x : insn) (n : ninsn) : Prop := {
  so_op : i_op (n_i n) = i_op x;
  so_vals : Forall2 (fval u) (i_vals x) (i_vals (n_i n));
  so_vrt : if iop_eqb (i_op x) LOAD || iop_eqb (i_op x) STORE
           then forall v r, i_vals x = v :: r -> forall a y, v_data v = VInsn a -> f_insn (c_f s) a = Some y -> i_op y = ALLOC -> i_vrt (n_i n) = i_vrt y
           else i_vrt (n_i n) = i_vrt x;
  so_alu : i_alu (n_i n) = i_alu x;
  so_bb : i_bb1 (n_i n) = i_bb1 x /\ i_bb2 (n_i n) = i_bb2 x;
  so_misc : i_u (n_i n) = i_u x /\ i_ity (n_i n) = i_ity x /\ i_imm64 (n_i n) = i_imm64 x;
  so_addr : i_op x = LOADRAW \/ i_op x = STORERAW -> a_off (i_addr (n_i n)) = a_off (i_addr x) /\
            a_ot (i_addr (n_i n)) = a_ot (i_addr x) /\ fval u (a_val (i_addr x)) (a_val (i_addr (n_i n)));
  so_pos : forall e d, c_ex u i = Some e -> x_dst e = Some d -> exists ed, c_ex u d = Some ed /\ poseq (n_pos n) (x_pos ed);
  so_none : forall e, c_ex u i = Some e -> x_dst e = None -> vp_spilled (n_pos n) = 0%Z }.

Section Sim.
Context (w : world) (ar : arity) (s u : cgs) (o : Z).
Hypothesis R : ready s.
Hypothesis Sa : sound_assignment s u.
Hypothesis Ap : apart ar s u.
Hypothesis Sh : shape s.
Hypothesis St : forall v, option_map (fun e => (x_dst e, x_fin e)) (c_ex u v) = option_map (fun e => (x_dst e, x_fin e)) (c_ex s v).
Hypothesis Fw : few_args w ar.

Lemma ex_u v e : c_ex s v = Some e -> exists e', c_ex u v = Some e' /\ x_dst e' = x_dst e /\ x_fin e' = x_fin e.
Proof.
  intros E. specialize (St v). rewrite E in St. destruct (c_ex u v) as [e'|]; [|discriminate St]. injection St as A B. exists e'. auto.
Qed.
Lemma fixed_pos v e : c_ex s v = Some e -> x_fin e = true -> exists e', c_ex u v = Some e' /\ x_pos e' = x_pos e.
Proof.
  intros E F. assert (K : fixed s v) by (exists e; auto). pose proof (sa_fixed s u Sa v K) as P. unfold position in P. rewrite E in P. cbn in P.
  destruct (c_ex u v) as [e'|]; [|discriminate P]. injection P as P. exists e'. auto.
Qed.
Lemma fixed_in v r : fixed_reg s v r -> in_reg u v r.
Proof.
  intros (e & E & F & A & B & C). destruct (fixed_pos v e E F) as (e' & E' & P). exists e'. rewrite P. auto.
Qed.

(** ** The relation between the two machines at a point *)
Record rel (p : nat * nat) (q : vst) (m : st) : Prop := {
  re_virt : forall v z r, tracked s v -> live s v p -> v_env q v = Some z -> in_reg u v r -> rget m r = z;
  re_phys : forall r, 0 <= r < 10 -> needed s ar r p -> rget m r = rget (v_st q) r;
  re_sp : rget m 10 = rget (v_st q) 10;
  re_mem : mem m = mem (v_st q);
  re_nc : ncall m = ncall (v_st q);
  re_ok : st_ok m /\ st_ok (v_st q);
  re_dom : forall v z, v_env q v = Some z -> tracked s v }.

Lemma rel_mono p p' q m : rel p q m -> (forall v, tracked s v -> live s v p' -> live s v p) ->
  (forall r, needed s ar r p' -> needed s ar r p) -> rel p' q m.
Proof.
  intros [A B C D E F G] L N. constructor; auto.
  - intros v z r T Lv. apply A; auto.
Qed.

(** operands *)
Lemma eval_sim p q m bi v v' z : rel p q m -> fval u v v' -> veval s bi q v = Some z ->
  (forall d, v_data v = VInsn d -> (tracked s d -> live s d p) /\ (forall r, fixed_reg s d r -> needed s ar r p)) ->
  evalv bi m v' = Some z.
Proof.
  intros Re F E L. unfold veval in E. unfold fval in F. destruct (v_data v) eqn:D; try discriminate E.
  - subst v'. unfold evalv in *. rewrite D in *. exact E.
  - destruct F as (e' & pp & Eu & D' & P). destruct (c_ex s i) as [e|] eqn:Es; [|discriminate E]. cbn in E. destruct (L i eq_refl) as (Lv & Ln).
    destruct (x_fin e) eqn:Fi.
    + destruct (fixed_pos i e Es Fi) as (e2 & E2 & P2). rewrite Eu in E2. injection E2 as <-. rewrite P2 in P.
      rewrite (evalv_pos bi m (placed_at v (x_pos e)) v' (x_pos e) pp eq_refl D' P). unfold evalv, placed_at in *. cbn [v_data] in *.
      destruct (vp_alloc (x_pos e)) eqn:Al; [|discriminate E]. destruct (Z.eqb_spec (vp_spilled (x_pos e)) 0) as [Sp|Sp].
      * destruct (is_reg (vp_reg (x_pos e))) eqn:Ir; [|discriminate E]. injection E as <-. f_equal. apply is_reg_range in Ir.
        assert (Fr : fixed_reg s i (vp_reg (x_pos e))) by (exists e; auto).
        destruct (Z.eq_dec (vp_reg (x_pos e)) 10) as [->|N]; [apply (re_sp _ _ _ Re)|]. apply (re_phys _ _ _ Re); [lia|]. now apply Ln.
      * unfold slot_addr in *. now rewrite (re_sp _ _ _ Re), (re_mem _ _ _ Re).
    + pose proof (re_dom _ _ _ Re i z E) as T. destruct (sa_all s u Sa i T) as (r & Ir & As). pose proof (re_virt _ _ _ Re i z r T (Lv T) E Ir) as Q.
      destruct Ir as (e3 & E3 & Al & Sp & Rg). rewrite Eu in E3. injection E3 as <-. destruct P as (P1 & P2 & P3). unfold evalv. rewrite D', P1, P2, P3, Al, Sp, Rg.
      cbn [Z.eqb]. assert (Ir : is_reg r = true) by (apply is_reg_range; unfold assignable in As; lia). rewrite Ir. now rewrite Q.
Qed.
Lemma addr_sim p q m bi a a' z : rel p q m -> fval u (a_val a) (a_val a') -> a_off a' = a_off a -> a_ot a' = a_ot a -> vaddr s bi q a = Some z ->
  (forall d, v_data (a_val a) = VInsn d -> (tracked s d -> live s d p) /\ (forall r, fixed_reg s d r -> needed s ar r p)) ->
  addr_of bi m a' = Some z.
Proof.
  intros Re F Eo Et E L. unfold vaddr in E. unfold fval in F. destruct (a_ot a) eqn:Ot; try discriminate E. destruct (v_data (a_val a)) eqn:D; try discriminate E.
  - rewrite <- F in D. unfold addr_of in *. rewrite Et, D, F, Eo. rewrite Ot, <- F, D in E. rewrite <- F; exact E.
  - destruct F as (e' & pp & Eu & D' & P). destruct (c_ex s i) as [e|] eqn:Es; [|discriminate E]. cbn in E. destruct (L i eq_refl) as (Lv & Ln).
    destruct (x_fin e) eqn:Fi.
    + destruct (fixed_pos i e Es Fi) as (e2 & E2 & P2). rewrite Eu in E2. injection E2 as <-. rewrite P2 in P. destruct P as (P1 & P3 & P4).
      unfold addr_of, placed_at in *. cbn [a_ot a_val v_data a_off] in E. rewrite Et, D', P1, P3, P4, Eo.
      destruct (vp_alloc (x_pos e)) eqn:Al; [|discriminate E]. destruct (Z.eqb_spec (vp_spilled (x_pos e)) 0) as [Sp|Sp].
      * destruct (is_reg (vp_reg (x_pos e))) eqn:Ir; [|discriminate E]. injection E as <-. do 2 f_equal. apply is_reg_range in Ir.
        assert (Fr : fixed_reg s i (vp_reg (x_pos e))) by (exists e; auto).
        destruct (Z.eq_dec (vp_reg (x_pos e)) 10) as [->|N]; [apply (re_sp _ _ _ Re)|]. apply (re_phys _ _ _ Re); [lia|]. now apply Ln.
      * unfold slot_addr in *. rewrite P4. now rewrite (re_sp _ _ _ Re).
    + destruct (v_env q i) as [y|] eqn:Ev; [|discriminate E]. cbn in E. injection E as <-.
      pose proof (re_dom _ _ _ Re i y Ev) as T. destruct (sa_all s u Sa i T) as (r & Ir & As). pose proof (re_virt _ _ _ Re i y r T (Lv T) Ev Ir) as Q.
      destruct Ir as (e3 & E3 & Al & Sp & Rg). rewrite Eu in E3. injection E3 as <-. destruct P as (P1 & P2 & P3). unfold addr_of. rewrite Et, D', P1, P2, P3, Al, Sp, Rg, Eo.
      cbn [Z.eqb]. assert (Ir : is_reg r = true) by (apply is_reg_range; unfold assignable in As; lia). rewrite Ir. now rewrite Q.
Qed.

(** results: [d] is written, and the relation holds at [p'] *)
Lemma put_sim p p' q m d z q' pp ed : rel p q m -> vput s q d z = Some q' -> c_ex u d = Some ed -> poseq pp (x_pos ed) ->
  (forall e, c_ex s d = Some e -> x_fin e = false -> tracked s d) ->
  (forall v, tracked s v -> live s v p' -> v <> d -> live s v p /\ ~ share u d v) ->
  (forall r, needed s ar r p' -> ~ fixed_reg s d r -> needed s ar r p) ->
  (forall r, needed s ar r p' -> tracked s d -> ~ in_reg u d r) ->
  exists m', wr m pp z = Some m' /\ rel p' q' m'.
Proof.
  intros Re E Ed P Td Hl Hn Ha. unfold vput in E. destruct (c_ex s d) as [e|] eqn:Es; [|discriminate E]. cbn in E. destruct (x_fin e) eqn:Fi.
  - destruct (wr (v_st q) (x_pos e) z) as [mq|] eqn:W; [|discriminate E]. cbn in E. injection E as <-.
    destruct (fixed_pos d e Es Fi) as (e2 & E2 & P2). rewrite Ed in E2. injection E2 as <-. rewrite P2 in P. rewrite (wr_pos m _ _ z P).
    destruct Re as [A B C D N [Om Oq] G]. pose proof (wr_ok _ _ _ _ Oq W) as Oq'. unfold wr in W |- *. destruct (vp_alloc (x_pos e)) eqn:Al; [|discriminate W].
    destruct (Z.eqb_spec (vp_spilled (x_pos e)) 0) as [Sp|Sp].
    + destruct (is_wreg (vp_reg (x_pos e))) eqn:Iw; [|discriminate W]. injection W as <-. eexists. split; [reflexivity|].
      assert (Fr : fixed_reg s d (vp_reg (x_pos e))) by (exists e; auto). set (r0 := vp_reg (x_pos e)) in *.
      pose proof (proj1 (is_wreg_range _) Iw) as Rg. constructor; cbn [v_env v_st].
      * intros v y r T L Ev Ir. assert (Nv : v <> d). { intros ->. destruct T as (_ & e1 & E1 & F1 & _). congruence. }
        destruct (Hl v T L Nv) as (Lp & Ns). rewrite rget_rset_other; auto; [now apply (A v y r)| |].
        { destruct (sa_all s u Sa v T) as (r1 & (e1 & E1 & _ & _ & R1) & As). destruct Ir as (e3 & E3 & _ & _ & R3). unfold assignable in As. replace r with r1 by congruence. lia. }
        intros ->. apply Ns. exists r0. split; [now apply fixed_in|exact Ir].
      * intros r Rr Nr. rewrite !rget_rset by (auto; lia). destruct (Z.eqb_spec r r0) as [->|Ne]; [reflexivity|]. apply B; [exact Rr|]. apply Hn; [exact Nr|].
        intros (e1 & E1 & _ & _ & _ & K). rewrite Es in E1. injection E1 as <-. apply Ne. symmetry. exact K.
      * rewrite !rget_rset_other by (auto; lia). exact C.
      * exact D.
      * exact N.
      * split; [now apply rset_ok|exact Oq'].
      * exact G.
    + injection W as <-. eexists. split; [reflexivity|]. constructor; cbn [v_env v_st].
      * intros v y r T L Ev Ir. assert (Nv : v <> d). { intros ->. destruct T as (_ & e1 & E1 & F1 & _). congruence. }
        exact (A v y r T (proj1 (Hl v T L Nv)) Ev Ir).
      * intros r Rr Nr. apply B; [exact Rr|]. apply Hn; [exact Nr|]. intros (e1 & E1 & _ & _ & K & _). congruence.
      * exact C.
      * cbn. unfold slot_addr. now rewrite C, D.
      * exact N.
      * split; [now apply mset_ok|exact Oq'].
      * exact G.
  - injection E as <-. pose proof (Td e eq_refl Fi) as T. destruct (sa_all s u Sa d T) as (r0 & (e1 & E1 & Al & Sp & Rg) & As). rewrite Ed in E1. injection E1 as <-.
    rewrite (wr_pos m _ _ z P). unfold wr. rewrite Al, Sp, Rg. cbn [Z.eqb]. unfold assignable in As. assert (Iw : is_wreg r0 = true) by (apply is_wreg_range; lia).
    rewrite Iw. eexists. split; [reflexivity|]. destruct Re as [A B C D N [Om Oq] G]. assert (Id : in_reg u d r0) by (exists ed; auto).
    constructor; cbn [v_env v_st].
    + intros v y r Tv L Ev Ir. unfold eupd in Ev. destruct (Nat.eqb_spec v d) as [->|Nv].
      * injection Ev as <-. assert (r = r0) as ->. { destruct Ir as (e3 & E3 & _ & _ & R3). congruence. } now apply rget_rset_same.
      * destruct (Hl v Tv L Nv) as (Lp & Ns). rewrite rget_rset_other; auto; [now apply (A v y r)| |].
        { destruct (sa_all s u Sa v Tv) as (r1 & (e1 & E1 & _ & _ & R1) & As'). destruct Ir as (e3 & E3 & _ & _ & R3). unfold assignable in As'. replace r with r1 by congruence. lia. }
        intros ->. apply Ns. exists r0. split; [exact Id|exact Ir].
    + intros r Rr Nr. rewrite rget_rset_other; auto; [|lia|].
      * apply B; [exact Rr|]. apply Hn; [exact Nr|]. intros (e1 & E1' & F1 & _). congruence.
      * intros ->. exact (Ha r0 Nr T Id).
    + rewrite rget_rset_other by (auto; lia). exact C.
    + exact D.
    + exact N.
    + split; [now apply rset_ok|exact Oq].
    + intros v y Ev. unfold eupd in Ev. destruct (Nat.eqb_spec v d) as [->|_]; [exact T|now apply (G v y)].
Qed.

(** ** One instruction *)
Section One.
Context (b k i : nat) (x : insn) (n : ninsn) (q : vst) (m : st) (bi : bconst -> Z).
Hypothesis Hb : In b (c_reach s).
Hypothesis Hi : insn_at s b k i.
Hypothesis Hx : f_insn (c_f s) i = Some x.
Hypothesis Hp : i_op x <> PHI.
Hypothesis Hn : shown s u i (fill_insn o x) n.
Hypothesis Re : rel (b, k) q m.
Hypothesis Ar : arrives s (b, k).

Lemma link_i : linked s i. Proof. exists b. split; [exact Hb|]. exact (nth_error_In _ _ Hi). Qed.
Lemma not_phi : ~ (exists x, f_insn (c_f s) i = Some x /\ i_op x = PHI).
Proof. intros (y & Y & P). rewrite Hx in Y. injection Y as <-. contradiction. Qed.
Lemma read_ok v : In v (operand_values x) -> forall d, v_data v = VInsn d ->
  (tracked s d -> live s d (b, k)) /\ (forall r, fixed_reg s d r -> needed s ar r (b, k)).
Proof.
  intros V d D. assert (Rd : reads s i d).
  { unfold reads, uses. rewrite Hx. assert (K : In v (filter (is_use_of d) (operand_values x))) by (apply filter_In; split; [exact V|]; unfold is_use_of; rewrite D; apply Nat.eqb_refl).
    destruct (filter _ _); [contradiction|cbn; lia]. }
  split.
  - intros T. exact (live_use s d b k i Hb Hi Rd not_phi).
  - intros r F. exact (need_use s ar r b k i Hb Hi (rr_op s ar i r d Rd F) not_phi).
Qed.
Lemma fill_data v d : v_data (fill_val o v) = VInsn d -> v_data v = VInsn d.
Proof. unfold fill_val. destruct (v_data v) eqn:E; cbn; congruence. Qed.
Lemma val_ok v v' z : In v (i_vals (fill_insn o x)) -> fval u v v' -> veval s bi q v = Some z -> evalv bi m v' = Some z.
Proof.
  intros V F E. refine (eval_sim (b, k) q m bi v v' z Re F E _). intros d D. cbn [fill_insn i_vals set_addr set_phi set_vals] in V.
  apply in_map_iff in V as (v0 & <- & V). apply (read_ok v0); [|now apply fill_data]. apply in_or_app. now left.
Qed.
Lemma adr_ok z : i_op x = LOADRAW \/ i_op x = STORERAW -> vaddr s bi q (i_addr (fill_insn o x)) = Some z -> addr_of bi m (i_addr (n_i n)) = Some z.
Proof.
  intros O E. destruct (so_addr _ _ _ _ _ Hn) as (A & B & C); [destruct O; auto|]. refine (addr_sim (b, k) q m bi _ _ z Re C A B E _).
  intros d D. apply (read_ok (a_val (i_addr x))).
  - apply in_or_app. right. destruct O as [-> | ->]; now left.
  - cbn in D. unfold fill_addr in D. destruct (a_ot (i_addr x)); exact D.
Qed.
Lemma dst_self e d : c_ex s i = Some e -> x_dst e = Some d -> d = i.
Proof.
  intros E D. destruct (rd_insn s R b i Hb (nth_error_In _ _ Hi)) as (x0 & e0 & _ & _ & E0 & [N|N] & _); rewrite E in E0; injection E0 as <-; congruence.
Qed.
Lemma ret_ok z q' : vwr s q i z = Some q' -> exists m', wr m (n_pos n) z = Some m' /\ rel (b, S k) q' m'.
Proof.
  unfold vwr. destruct (c_ex s i) as [e|] eqn:E; [|discriminate]. cbn. destruct (x_dst e) as [d|] eqn:D; [|discriminate]. intros P.
  pose proof (dst_self e d E D) as ->. assert (Df : defines s i i) by (exists e; auto).
  destruct (ex_u i e E) as (e' & Eu & Du & Fu). rewrite D in Du. destruct (so_pos _ _ _ _ _ Hn e' i Eu Du) as (ed & Ed & Pq).
  assert (Nc : i_op x <> CALL). { intros C. pose proof (sh_dst s Sh i x e link_i Hx E) as K. rewrite C in K. rewrite K in D; [discriminate D|cbn; auto]. }
  apply (put_sim (b, k) (b, S k) q m i z q' (n_pos n) ed Re P Ed Pq).
  - intros e1 E1 F1. split; [exact link_i|]. rewrite E in E1. injection E1 as <-. exists e. auto.
  - intros v T L Nv. split.
    + apply (live_step s v b k i Hb Hi); [|exact L]. intros (e1 & E1 & D1). rewrite E in E1. injection E1 as <-. congruence.
    + apply (sa_write s u Sa b k i i v); auto.
  - intros r N F. apply (need_step s ar r b k i Hb Hi); [|exact N]. intros [d W Fr|y Y C _].
    + destruct W as (e1 & E1 & D1). rewrite E in E1. injection E1 as <-. rewrite D in D1. injection D1 as <-. contradiction.
    + rewrite Hx in Y. injection Y as <-. contradiction.
  - intros r N T. apply (ap_write ar s u Ap b k i i r Hb Hi); auto. now left.
Qed.
Lemma stay e : c_ex s i = Some e -> x_dst e = None -> i_op x <> CALL -> rel (b, S k) q m.
Proof.
  intros E D C. refine (rel_mono _ _ _ _ Re _ _).
  - intros v T L. apply (live_step s v b k i Hb Hi); [|exact L]. intros (e1 & E1 & D1). congruence.
  - intros r N. apply (need_step s ar r b k i Hb Hi); [|exact N]. intros [d W Fr|y Y Cy _].
    + destruct W as (e1 & E1 & D1). congruence.
    + rewrite Hx in Y. injection Y as <-. contradiction.
Qed.
Lemma void_op : In (i_op x) [STORE; STORERAW; CALL] -> exists e, c_ex s i = Some e /\ x_dst e = None.
Proof.
  intros O. destruct (rd_insn s R b i Hb (nth_error_In _ _ Hi)) as (x0 & e & _ & _ & E & _). exists e. split; [exact E|]. exact (sh_dst s Sh i x e link_i Hx E O).
Qed.

Lemma alloc_step : i_op x = ALLOC \/ i_op x = ALLOCARRAY ->
  rel (b, S k) (mkV (fun v => if (v =? i)%nat then None else v_env q v) (v_st q)) m.
Proof.
  intros O. destruct Re as [A B C D N K G]. assert (Nc : i_op x <> CALL) by (destruct O; congruence). constructor; cbn [v_env v_st]; auto.
  - intros v z r T L Ev Ir. destruct (Nat.eqb_spec v i) as [->|Nv]; [discriminate Ev|]. apply (A v z r T); auto. apply (live_step s v b k i Hb Hi); [|exact L].
    intros (e1 & E1 & D1). apply Nv. exact (dst_self e1 v E1 D1).
  - intros r Rr Nr. apply B; [exact Rr|]. apply (need_step s ar r b k i Hb Hi); [|exact Nr]. intros [d W Fr|y Y Cy _].
    + destruct W as (e1 & E1 & D1). pose proof (dst_self e1 d E1 D1) as ->. destruct Fr as (e2 & E2 & F2 & _ & S2 & _).
      destruct (sh_var s Sh i x e2 Hx O E2 F2) as (_ & K2). contradiction.
    + rewrite Hx in Y. injection Y as <-. contradiction.
  - intros v z Ev. destruct (v =? i)%nat; [discriminate Ev|]. now apply (G v z).
Qed.

Lemma store_step a y z q' pp ed : i_op x = STORE -> (exists t v, i_vals x = [t; v] /\ v_data t = VInsn a) -> f_insn (c_f s) a = Some y -> i_op y = ALLOC ->
  vput s q a z = Some q' -> c_ex u a = Some ed -> poseq pp (x_pos ed) -> exists m', wr m pp z = Some m' /\ rel (b, S k) q' m'.
Proof.
  intros O (t & v0 & V & D) Y Oy P Ed Pq. destruct void_op as (ei & Ei & Di); [rewrite O; cbn; auto|].
  assert (Rd : tracked s a -> live s a (b, k)).
  { intros T. apply (read_ok t); [|exact D|exact T]. apply in_or_app. left. rewrite V. now left. }
  assert (K : readable s (v_data t)) by (apply (sh_store s Sh i x t link_i Hx O); now rewrite V). rewrite D in K.
  assert (Nc : i_op x <> CALL) by congruence.
  assert (Ba : forall v, live s v (b, S k) -> live s v (b, k)).
  { intros v L. apply (live_step s v b k i Hb Hi); [|exact L]. intros (e1 & E1 & D1). congruence. }
  apply (put_sim (b, k) (b, S k) q m a z q' pp ed Re P Ed Pq).
  - intros e E F. destruct K as [T|(e1 & E1 & F1 & _)]; [exact T|congruence].
  - intros v T L Nv. split; [auto|]. intros (r & Ia & Iv). destruct K as [Ta|(e1 & E1 & F1 & _)].
    + apply (sa_live s u Sa a v (b, k)); auto. exists r. auto.
    + destruct (sh_var s Sh a y e1 Y (or_introl Oy) E1 F1) as (_ & N). destruct (fixed_pos a e1 E1 F1) as (e2 & E2 & P2).
      destruct Ia as (e3 & E3 & _ & S3 & _). rewrite E2 in E3. injection E3 as <-. congruence.
  - intros r N F. apply (need_step s ar r b k i Hb Hi); [|exact N]. intros [d W Fr|y' Y' C _].
    + destruct W as (e1 & E1 & D1). congruence.
    + rewrite Hx in Y'. injection Y' as <-. contradiction.
  - intros r N T. apply (ap_write ar s u Ap b k i a r Hb Hi); auto. right. exists x, t, v0. auto.
Qed.
Lemma call_step : i_op x = CALL -> rel (b, S k) (mkV (v_env q) (call_helper w (i_u x) (v_st q))) (call_helper w (i_u x) m).
Proof.
  intros O. destruct void_op as (ei & Ei & Di); [rewrite O; cbn; auto|].
  assert (Ba : forall v, live s v (b, S k) -> live s v (b, k)).
  { intros v L. apply (live_step s v b k i Hb Hi); [|exact L]. intros (e1 & E1 & D1). congruence. }
  destruct Re as [A B C D N [Om Oq] G].
  assert (Ag : forall r, 1 <= r <= 5 -> r <= Z.of_nat (ar (i_u x)) -> rget m r = rget (v_st q) r).
  { intros r R1 R2. apply B; [lia|]. apply (need_use s ar r b k i Hb Hi); [|exact not_phi]. apply (rr_call s ar i r x Hx O). lia. }
  assert (Eh : helper w (ncall m) (i_u x) [rget m 1; rget m 2; rget m 3; rget m 4; rget m 5] (mem m) =
               helper w (ncall (v_st q)) (i_u x) [rget (v_st q) 1; rget (v_st q) 2; rget (v_st q) 3; rget (v_st q) 4; rget (v_st q) 5] (mem (v_st q))).
  { rewrite D, N. apply Fw; [|reflexivity|reflexivity]. destruct (ar (i_u x)) as [|[|[|[|[|a]]]]]; cbn [firstn]; repeat (f_equal; try (apply Ag; lia)). }
  assert (Hi5 : forall r, 6 <= r <= 10 -> rget (call_helper w (i_u x) m) r = rget m r) by (intros; now apply call_rget).
  assert (Hq5 : forall r, 6 <= r <= 10 -> rget (call_helper w (i_u x) (v_st q)) r = rget (v_st q) r) by (intros; now apply call_rget).
  assert (Lo : forall r, 0 <= r <= 5 -> rget (call_helper w (i_u x) m) r = rget (call_helper w (i_u x) (v_st q)) r).
  { intros r Rr. unfold call_helper. rewrite Eh. match goal with |- context [helper ?a ?b ?c ?d ?e] => destruct (helper a b c d e) as [res mm] end. unfold rget; cbn [regs]. rewrite !app_nth1 by (cbn; lia). reflexivity. }
  constructor; cbn [v_env v_st].
  - intros v z r T L Ev Ir. pose proof (Ba v L) as L0. pose proof (sa_call s u Sa b k i x v r Hb Hi Hx O T L0 L Ir) as H6. rewrite Hi5; [now apply (A v z r)|].
    destruct (sa_all s u Sa v T) as (r1 & (e1 & E1 & _ & _ & R1) & As). destruct Ir as (e3 & E3 & _ & _ & R3). unfold assignable in As. assert (r = r1) by congruence. lia.
  - intros r Rr Nr. destruct (Z.le_gt_cases r 5) as [Q|Q]; [apply Lo; lia|]. rewrite Hi5, Hq5 by lia. apply B; [lia|].
    apply (need_step s ar r b k i Hb Hi); [|exact Nr]. intros [d W Fr|y' Y' C' Q'].
    + destruct W as (e1 & E1 & D1). congruence.
    + lia.
  - rewrite Hi5, Hq5 by lia. exact C.
  - unfold call_helper. rewrite Eh. match goal with |- context [helper ?a ?b ?c ?d ?e] => destruct (helper a b c d e) as [res mm] end. reflexivity.
  - unfold call_helper. rewrite Eh. match goal with |- context [helper ?a ?b ?c ?d ?e] => destruct (helper a b c d e) as [res mm] end. cbn. now rewrite N.
  - split; now apply call_ok.
  - exact G.
Qed.
Lemma storeraw_step a k' z : i_op x = STORERAW ->
  rel (b, S k) (mkV (v_env q) (mset (v_st q) (store (mem (v_st q)) a k' z))) (mset m (store (mem m) a k' z)).
Proof.
  intros O. destruct void_op as (ei & Ei & Di); [rewrite O; cbn; auto|]. destruct (stay ei Ei Di) as [A B C D N [Om Oq] G]; [congruence|].
  constructor; cbn [v_env v_st]; auto.
  - cbn. now rewrite D.
Qed.

Definition result (t : vres) (r : fres) : Prop :=
  match t with
  | VNext q' => exists m', r = FNext m' /\ rel (b, S k) q' m'
  | VJmp c q' => q' = q /\ r = FJmp c m
  | VRet z q' => q' = q /\ exists m', r = FRet z m' /\ mem m' = mem (v_st q) /\ ncall m' = ncall (v_st q)
  end.
Lemma var_info t t' a j : variable (c_f s) t = Some (a, j) -> fval u t t' ->
  v_data t = VInsn a /\ exists y ed p, f_insn (c_f s) a = Some y /\ i_op y = ALLOC /\ vr_bytes (i_vrt y) = Some j /\
    c_ex u a = Some ed /\ v_data t' = VFlat p /\ poseq p (x_pos ed).
Proof.
  unfold variable, fval. destruct (v_data t) eqn:D; try discriminate. destruct (f_insn (c_f s) i0) as [y|] eqn:Y; [|discriminate]. cbn.
  destruct (iop_eqb (i_op y) ALLOC) eqn:O; [|discriminate]. destruct (vr_bytes (i_vrt y)) as [j0|] eqn:J; [|discriminate]. cbn.
  intros E (ed & p & A & B & C). injection E as <- <-. split; [reflexivity|]. exists y, ed, p. repeat split; auto; try apply C. now destruct (i_op y).
Qed.

Ltac step1 E := match type of E with context [obind ?e _] => let z := fresh "z" in let Q := fresh "Q" in destruct e as [z|] eqn:Q; [cbn [obind] in E|discriminate E] end.
Ltac vals F := repeat match type of F with
  | Forall2 _ [] _ => inversion F; subst; clear F
  | Forall2 _ (_ :: _) _ => let V := fresh "V" in let F' := fresh "F" in inversion F as [|? ? ? ? V F']; subst; clear F; rename F' into F
  end.
Ltac evs VO := repeat match goal with
  | Q : veval s bi q ?v = Some ?z, V : fval u ?v ?y |- context [evalv bi m ?y] => rewrite (VO v y z ltac:(cbn; auto) V Q); cbn [obind] end.
Lemma one_sim t : vexec w bi s i (fill_insn o x) q = Some t -> exists r, fexec w bi n m = Some r /\ result t r.
Proof.
  intros E. pose proof (so_op _ _ _ _ _ Hn) as Eo. pose proof (so_vals _ _ _ _ _ Hn) as Fv. pose proof (so_vrt _ _ _ _ _ Hn) as Ev.
  pose proof (so_alu _ _ _ _ _ Hn) as Ea. pose proof (so_bb _ _ _ _ _ Hn) as [E1 E2]. pose proof (so_misc _ _ _ _ _ Hn) as (Eu & Ei & E6).
  pose proof (fun v v' z => val_ok v v' z) as VO.
  unfold fexec. rewrite Eo, Ea, E1, E2, Eu, Ei, E6. unfold vexec in E. revert E Fv Ev VO.
  change (i_op (fill_insn o x)) with (i_op x). change (i_alu (fill_insn o x)) with (i_alu x). change (i_bb1 (fill_insn o x)) with (i_bb1 x).
  change (i_bb2 (fill_insn o x)) with (i_bb2 x). change (i_u (fill_insn o x)) with (i_u x). change (i_ity (fill_insn o x)) with (i_ity x).
  change (i_imm64 (fill_insn o x)) with (i_imm64 x). change (i_vrt (fill_insn o x)) with (i_vrt x).
  assert (EV : i_vals (fill_insn o x) = map (fill_val o) (i_vals x)) by reflexivity.
  generalize dependent (i_vals (fill_insn o x)). intros vs EV.
  assert (RO : forall z q', vwr s q i z = Some q' -> exists r, next (wr m (n_pos n) z) = Some r /\ result (VNext q') r).
  { intros z q' Q. destruct (ret_ok z q' Q) as (m' & W & L). exists (FNext m'). rewrite W. split; [reflexivity|]. exists m'. auto. }
  pose proof store_step as SS. pose proof call_step as CS. pose proof storeraw_step as RS. pose proof alloc_step as AS. pose proof adr_ok as AO. pose proof not_phi as NP.
  assert (O0 : exists op, i_op x = op) by eauto. destruct O0 as [op O]. rewrite O in *.
  destruct op; cbn [iop_eqb orb alu_op_of cmp_op_of].
  all: try (intros E; discriminate E).
  all: destruct vs as [|v1 [|v2 [|v3 vr]]]; try (intros E; discriminate E); intros E Fv Ev VO.
  all: vals Fv.
  all: unfold vnext in E; cbn [iop_eqb orb] in Ev, E |- *.
  all: try (injection E as <-; eexists; split; [reflexivity|]; eexists; split; [reflexivity|]; apply AS; solve [auto]).
  all: try (injection E as <-; eexists; split; [reflexivity|]; split; reflexivity).
  (* binary operators, comparisons, negation, copies *)
  all: try (repeat step1 E; evs VO; cbn [obind]; injection E as <-; solve [apply RO; assumption | eexists; split; [reflexivity|]; split; reflexivity]).
  (* the rest of those with a result *)
  all: try (destruct ((i_u x =? 16) || (i_u x =? 32) || (i_u x =? 64)); [|discriminate E]; repeat step1 E; evs VO; injection E as <-; apply RO; assumption).
  all: try (destruct ((0 <=? i_ity x) && (i_ity x <=? 6)); [|discriminate E]; repeat step1 E; injection E as <-; apply RO; assumption).
  all: try (rewrite Ev; repeat step1 E; injection E as <-; erewrite AO by (solve [auto|eassumption]); cbn [obind]; rewrite (re_mem _ _ _ Re); apply RO; assumption).
  - (* address of an array element *)
    destruct (v_data v2) eqn:D2; try discriminate E. step1 E. destruct (x_fin z && _) eqn:C; [|discriminate E]. apply andb_true_iff in C as [C1 C2].
    match goal with V : fval u v2 _ |- _ => unfold fval in V; rewrite D2 in V; destruct V as (e' & p & Ex & Dp & Pq) end. rewrite Dp.
    destruct (fixed_pos _ _ Q C1) as (e2 & E2' & P2). rewrite Ex in E2'. injection E2' as <-. rewrite P2 in Pq. destruct Pq as (P3 & P4 & P5).
    rewrite P3, P5, C2. repeat step1 E. evs VO. injection E as <-. unfold slot_addr in *. rewrite P5, (re_sp _ _ _ Re). apply RO; assumption.
  - (* store to a variable *)
    repeat step1 E. injection E as <-. destruct z as [a j].
    match goal with Q : variable _ _ = Some _, V : fval u v1 _ |- _ => destruct (var_info _ _ _ _ Q V) as (D1 & y' & ed & p & Y & Oy & J & Ed & Dp & Pq) end.
    rewrite Dp, (Ev v1 [v2] eq_refl a y' D1 Y Oy), J. cbn [obind]. evs VO. cbn [fst snd] in *.
    edestruct SS as (m' & W & L); [reflexivity| |exact Y|exact Oy|eassumption|exact Ed|exact Pq|].
    { destruct (i_vals x) as [|t1 [|t2 [|]]] eqn:Vx; try discriminate EV. cbn in EV. injection EV as Z1 Z2. exists t1, t2. split; [reflexivity|].
      rewrite Z1 in D1. now apply fill_data in D1. }
    rewrite W. exists (FNext m'). split; [reflexivity|]. exists m'. auto.
  - (* load from a variable *)
    repeat step1 E. injection E as <-. destruct z as [a j].
    match goal with Q : variable _ _ = Some _, V : fval u v1 _ |- _ => destruct (var_info _ _ _ _ Q V) as (D1 & y' & ed & p & Y & Oy & J & Ed & Dp & Pq) end.
    rewrite (Ev v1 [] eq_refl a y' D1 Y Oy), J. cbn [obind]. evs VO. apply RO; assumption.
  - (* store to memory *)
    rewrite Ev. repeat step1 E. injection E as <-. erewrite AO by (solve [auto|eassumption]). cbn [obind]. evs VO.
    eexists. split; [reflexivity|]. eexists. split; [reflexivity|]. now apply RS.
  - (* call *)
    injection E as <-. eexists. split; [reflexivity|]. eexists. split; [reflexivity|]. now apply CS.
  - (* return R0 *)
    injection E as <-. eexists. split; [reflexivity|]. split; [reflexivity|]. exists m. rewrite (re_phys _ _ _ Re 0); [|lia|].
    + split; [reflexivity|]. split; [apply (re_mem _ _ _ Re)|apply (re_nc _ _ _ Re)].
    + apply (need_use s ar 0 b k i Hb Hi); [|exact NP]. apply (rr_ret s ar i 0 x Hx O); [|reflexivity]. destruct (i_vals x); [reflexivity|discriminate EV].
  - repeat step1 E. injection E as <-. evs VO. eexists. split; [reflexivity|]. split; [reflexivity|]. eexists. split; [reflexivity|].
    split; [apply (re_mem _ _ _ Re)|apply (re_nc _ _ _ Re)].
Qed.
End One.

(** ** Copies *)
(** [n] is the copy of operand [v] of phi [j] *)
Definition copied (jv : nat * value) (n : ninsn) : Prop :=
  i_op (n_i n) = ASSIGN /\ (exists v', i_vals (n_i n) = [v'] /\ fval u (fill_val o (snd jv)) v') /\ i_alu (n_i n) <> A_32 /\
  exists e, c_ex u (fst jv) = Some e /\ poseq (n_pos n) (x_pos e).

Section Copies.
Context (b k : nat) (bi : bconst -> Z) (q : vst).
Hypothesis Hb : In b (c_reach s).
Hypothesis Cp : copy_point s b k.
Lemma past_jump v : live s v (b, ends_at s b) -> live s v (b, k).
Proof.
  intros L. destruct Cp as [k0 Ek (i & x & Ii & Ix & J)|]; [|exact L]. rewrite <- Ek in L. apply (live_step s v b k0 i Hb Ii); [|exact L].
  intros (e & E & D). assert (Li : linked s i) by (exists b; split; [exact Hb|exact (nth_error_In _ _ Ii)]). pose proof (rd_jump s R i x e Li Ix E J). congruence.
Qed.
Lemma past_jump_reg r : needed s ar r (b, ends_at s b) -> needed s ar r (b, k).
Proof.
  intros L. destruct Cp as [k0 Ek (i & x & Ii & Ix & J)|]; [|exact L]. rewrite <- Ek in L. apply (need_step s ar r b k0 i Hb Ii); [|exact L].
  assert (Li : linked s i) by (exists b; split; [exact Hb|exact (nth_error_In _ _ Ii)]).
  intros [d (e & E & D) Fr|y Y C _].
  - pose proof (rd_jump s R i x e Li Ix E J). congruence.
  - rewrite Ix in Y. injection Y as <-. rewrite C in J. discriminate J.
Qed.

Definition phi_at (jv : nat * value) : Prop := exists x, linked s (fst jv) /\ f_insn (c_f s) (fst jv) = Some x /\ i_op x = PHI /\ In (snd jv, b) (i_phi x).
Lemma in_reg_fun v r r' : in_reg u v r -> in_reg u v r' -> r = r'.
Proof. intros (e & E & _ & _ & A) (e' & E' & _ & _ & B). congruence. Qed.
Lemma reg_range v r : tracked s v -> in_reg u v r -> 0 <= r < 10.
Proof. intros T I. destruct (sa_all s u Sa v T) as (r1 & I1 & As). rewrite (in_reg_fun _ _ _ I I1). exact As. Qed.

Lemma copy_opnd j v x d : linked s j -> f_insn (c_f s) j = Some x -> i_op x = PHI -> In (v, b) (i_phi x) -> v_data (fill_val o v) = VInsn d ->
  (tracked s d -> live s d (b, k)) /\ (forall r, fixed_reg s d r -> needed s ar r (b, k)).
Proof.
  intros Lj Jx Jp Jv D. pose proof (fill_data v d D) as D0.
  assert (U : is_use_of d v = true) by (unfold is_use_of; rewrite D0; apply Nat.eqb_refl). split.
  - intros _. apply past_jump. exact (live_phi s d b j x v Lj Jx Jp Jv U).
  - intros r F. apply past_jump_reg. exact (need_phi s ar r b j x v d Lj Jx Jp Jv U F).
Qed.
Lemma copy_evals j v x v' m : linked s j -> f_insn (c_f s) j = Some x -> i_op x = PHI -> In (v, b) (i_phi x) -> fval u (fill_val o v) v' ->
  exists z, evalv bi m v' = Some z.
Proof.
  intros Lj Jx Jp Jv F. destruct (sh_phi s Sh j x Lj Jx Jp) as (_ & _ & K). specialize (K v b Jv). unfold fill_val in F. destruct (v_data v) eqn:D; try contradiction.
  - unfold fval in F. rewrite D in F. subst v'. unfold evalv. rewrite D. eauto.
  - unfold fval in F. cbn in F. subst v'. unfold evalv. cbn. eauto.
  - unfold fval in F. cbn in F. subst v'. unfold evalv. cbn. eauto.
  - unfold fval in F; cbn iota in F; rewrite D in F. destruct F as (e & p & Eu & Dp & P1 & P2 & P3). unfold evalv. rewrite Dp, P1, P2, P3. destruct K as [T|(e0 & E0 & F0 & A0 & K0)].
    + destruct (sa_all s u Sa i T) as (r & (e1 & E1 & Al & Sp & Rg) & As). rewrite Eu in E1. injection E1 as <-. rewrite Al, Sp, Rg. cbn [Z.eqb].
      assert (Ir : is_reg r = true) by (apply is_reg_range; unfold assignable in As; lia). rewrite Ir. eauto.
    + destruct (fixed_pos i e0 E0 F0) as (e1 & E1 & P). rewrite Eu in E1. injection E1 as <-. rewrite P, A0. destruct (Z.eqb_spec (vp_spilled (x_pos e0)) 0) as [Q|Q]; [|eauto].
      destruct K0 as [K0|K0]; [contradiction|]. rewrite K0. eauto.
Qed.
Lemma wr_in m j r p e z : tracked s j -> in_reg u j r -> c_ex u j = Some e -> poseq p (x_pos e) -> wr m p z = Some (rset m r z).
Proof.
  intros T I E P. pose proof (reg_range j r T I) as Rg. rewrite (wr_pos _ _ _ _ P). destruct I as (e1 & E1 & A & B & C). rewrite E in E1. injection E1 as <-.
  unfold wr. rewrite A, B, C. cbn [Z.eqb]. assert (K : is_wreg r = true) by (apply is_wreg_range; lia). now rewrite K.
Qed.
Lemma veval_range p m v z : rel p q m -> veval s bi q v = Some z -> (forall d, v_data v = VInsn d -> tracked s d -> live s d p) -> u64 z = z.
Proof.
  intros Re E L. unfold veval in E. destruct (v_data v) eqn:D; try discriminate E.
  - unfold evalv in E. rewrite D in E. injection E as <-. apply u64_u64.
  - destruct (c_ex s i) as [e|] eqn:Ee; [|discriminate E]. cbn [obind] in E. destruct (x_fin e) eqn:F.
    + destruct (re_ok _ _ _ Re) as (_ & Oq). apply u64_small. exact (evalv_range _ _ _ _ Oq E).
    + pose proof (re_dom _ _ _ Re i z E) as T. destruct (sa_all s u Sa i T) as (r & I & _). rewrite <- (re_virt _ _ _ Re i z r T (L i eq_refl T) E I).
      apply u64_rget. apply (re_ok _ _ _ Re).
Qed.

Lemma copies_sim cl lc : Forall2 copied cl lc -> Forall phi_at cl -> forall m rest, rel (b, k) q m -> exists m',
  fseq w bi (lc ++ rest) m = fseq w bi rest m' /\ rel (b, k) q m' /\
  (forall r, 0 <= r < 10 -> (forall jv, In jv cl -> ~ in_reg u (fst jv) r) -> rget m' r = rget m r) /\
  (forall c1 j v c2 z r, cl = c1 ++ (j, v) :: c2 -> (forall jv, In jv c2 -> ~ share u j (fst jv)) ->
     veval s bi q (fill_val o v) = Some z -> in_reg u j r -> rget m' r = z).
Proof.
  induction 1 as [|[j v] n cl lc Cn Cs IH]; intros Ph m rest Re.
  - exists m. split; [reflexivity|]. split; [exact Re|]. split; [reflexivity|]. intros c1 j v c2 z r E. destruct c1; discriminate E.
  - inversion Ph as [|? ? (x & Lj & Jx & Jp & Jv) Ph']; subst. cbn [fst snd] in *.
    destruct Cn as (Op & (v' & Vs & Fv) & Al & e & Eu & Pq). cbn [fst snd] in *.
    destruct (sh_phi s Sh j x Lj Jx Jp) as (Tj & _ & _). destruct (sa_all s u Sa j Tj) as (rj & Ij & As).
    destruct (copy_evals j v x v' m Lj Jx Jp Jv Fv) as (z & Ez).
    assert (Ok' : st_ok m) by apply (re_ok _ _ _ Re). assert (Wj : is_wreg rj = true) by (apply is_wreg_range; unfold assignable in As; lia).
    assert (Rz : u64 z = z) by (apply u64_small; exact (evalv_range _ _ _ _ Ok' Ez)).
    assert (Ex : fexec w bi n m = Some (FNext (rset m rj z))).
    { unfold fexec. rewrite Op, Vs, Ez. cbn [obind]. replace (match i_alu (n_i n) with A_32 => trunc false z | _ => z end) with z by (destruct (i_alu (n_i n)); congruence).
      now rewrite (wr_in m j rj _ e z Tj Ij Eu Pq). }
    assert (Old : forall y, veval s bi q (fill_val o v) = Some y -> y = z).
    { intros y Y. assert (K : evalv bi m v' = Some y); [|congruence]. refine (eval_sim (b, k) q m bi _ v' y Re Fv Y _). intros d. exact (copy_opnd j v x d Lj Jx Jp Jv). }
    assert (Re1 : rel (b, k) q (rset m rj z)).
    { destruct Re as [A B C D N [Om Oq] G]. constructor; auto.
      - intros t y r T L Ev It. destruct (Nat.eq_dec t j) as [->|Nt].
        + pose proof (in_reg_fun _ _ _ It Ij) as ->. rewrite rget_rset_same by auto. rewrite Rz. symmetry. apply Old.
          pose proof (ap_lost ar s u Ap j x v b k Lj Jx Jp Jv Cp L) as U. unfold is_use_of in U. destruct (v_data v) eqn:Dv; try discriminate U.
          apply Nat.eqb_eq in U. subst i. unfold veval, fill_val. rewrite Dv, Dv. destruct T as (_ & e0 & E0 & F0 & _). rewrite E0. cbn. now rewrite F0.
        + pose proof (reg_range t r T It). rewrite rget_rset_other; auto; [now apply (A t y r)|lia|]. intros ->.
          apply (sa_phi s u Sa j x v b k t Lj Jx Jp Jv T Nt Cp L). exists rj. auto.
      - intros r Rr Nr. rewrite rget_rset_other; auto; [lia|]. intros ->. exact (ap_copy ar s u Ap j x v b k rj Lj Jx Jp Jv Cp Nr Ij).
      - rewrite rget_rset_other; auto; [lia|]. unfold assignable in As. lia.
      - split; [now apply rset_ok|exact Oq]. }
    destruct (IH Ph' (rset m rj z) rest Re1) as (m' & F & Rm & Un & Va). exists m'. split; [|split; [exact Rm|split]].
    + cbn [app fseq]. rewrite Ex. cbn [obind]. exact F.
    + intros r Rr Hr. rewrite Un; [|exact Rr|intros jv Hjv; apply Hr; now right]. apply rget_rset_other; auto; [lia|]. intros ->. apply (Hr (j, v)); [now left|exact Ij].
    + intros c1 j' v1 c2 y r E Hc Y I. destruct c1 as [|c0 c1]; cbn in E.
      * injection E as <- <- <-. rewrite Un.
        -- pose proof (in_reg_fun _ _ _ I Ij) as ->. rewrite rget_rset_same by auto. rewrite Rz. symmetry. now apply Old.
        -- exact (reg_range j r Tj I).
        -- intros jv Hjv K. apply (Hc jv Hjv). exists r. auto.
      * injection E as <- E. exact (Va c1 j' v1 c2 y r E Hc Y I).
Qed.
End Copies.

(** ** Blocks *)
Definition phi_in (i : nat) : Prop := exists x, f_insn (c_f s) i = Some x /\ i_op x = PHI.
Definition seen (i : nat) (n : ninsn) : Prop := exists x, f_insn (c_f s) i = Some x /\ shown s u i (fill_insn o x) n /\
  (is_raw (i_op x) = false -> a_ot (i_addr (n_i n)) = a_ot (i_addr x)).
(** copies come in the order of the phis of a block *)
Definition ordered (cl : list (nat * value)) : Prop :=
  forall c1 i v c2 jv, cl = c1 ++ (i, v) :: c2 -> In jv c2 ->
    (exists b l1 l2 l3, In b (c_reach s) /\ insns_of (c_f s) b = (l1 ++ i :: l2) ++ l3 /\ Forall phi_in (l1 ++ i :: l2) /\ In (fst jv) l2) \/
    (exists b b', b <> b' /\ In b (c_reach s) /\ In b' (c_reach s) /\ In i (insns_of (c_f s) b) /\ In (fst jv) (insns_of (c_f s) b')).
Record painted (b : nat) (nb : list ninsn) : Prop := Painted {
  pt_parts : exists P M Z LM LC LZ cl,
    insns_of (c_f s) b = P ++ M ++ Z /\ Forall phi_in P /\ (forall i l, M ++ Z = i :: l -> ~ phi_in i) /\
    (Z = [] /\ (forall k, S k = ends_at s b -> ~ jump_at s b k) \/
     exists j x, Z = [j] /\ f_insn (c_f s) j = Some x /\ is_jmp_op (i_op x) = true) /\
    Forall2 seen M LM /\ Forall2 seen Z LZ /\ Forall2 copied cl LC /\ nb = LM ++ LC ++ LZ /\
    Forall (phi_at b) cl /\ ordered cl /\
    (forall c P' l i x v, In c (c_reach s) -> insns_of (c_f s) c = P' ++ l -> Forall phi_in P' -> In i P' ->
       f_insn (c_f s) i = Some x -> In (v, b) (i_phi x) -> In (i, v) cl) }.

Lemma arr_step b k i : In b (c_reach s) -> insn_at s b k i -> arrives s (b, k) -> arrives s (b, S k).
Proof. intros Hb Hi (e & S0 & Rr). exists e. split; [exact S0|]. exact (reaches_step s _ _ _ Rr (flow_step s b k i Hb Hi)). Qed.
Lemma arr_edge b c : In c (c_reach s) -> In b (preds_of (c_f s) c) -> arrives s (b, ends_at s b) -> arrives s (c, O).
Proof. intros Hc Hp (e & S0 & Rr). exists e. split; [exact S0|]. exact (reaches_step s _ _ _ Rr (flow_edge s b c Hc Hp)). Qed.

Lemma vexec_jump bi i x q c q' : vexec w bi s i (fill_insn o x) q = Some (VJmp c q') ->
  (i_op x = JA /\ i_bb1 x = c) \/ (is_cond_jmp_op (i_op x) = true /\ (i_bb1 x = c \/ i_bb2 x = c)).
Proof.
  unfold vexec. change (i_op (fill_insn o x)) with (i_op x). change (i_bb1 (fill_insn o x)) with (i_bb1 x). change (i_bb2 (fill_insn o x)) with (i_bb2 x).
  intros E. destruct (i_op x) eqn:O; cbn [alu_op_of cmp_op_of] in E; try discriminate E;
    repeat match type of E with
    | context [match ?l with [] => _ | _ :: _ => _ end] => destruct l; try discriminate E
    | vnext ?o = _ => destruct o; discriminate E
    | context [obind ?e _] => let z := fresh in let H := fresh in destruct e as [z|] eqn:H; cbn [obind] in E; try discriminate E
    | (if ?c then _ else _) = _ => destruct c; try discriminate E
    | match ?c with VConst _ => _ | _ => _ end = _ => destruct c; try discriminate E
    end; injection E as E1 E2; try (left; auto; fail); right; (split; [reflexivity|]); match type of E1 with (if ?c then _ else _) = _ => destruct c; auto end.
Qed.
Lemma vexec_ret bi i x q r q' : vexec w bi s i (fill_insn o x) q = Some (VRet r q') -> i_op x = RET.
Proof.
  unfold vexec. change (i_op (fill_insn o x)) with (i_op x).
  intros E. destruct (i_op x) eqn:O; cbn [alu_op_of cmp_op_of] in E; try discriminate E; try reflexivity;
    repeat match type of E with
    | context [match ?l with [] => _ | _ :: _ => _ end] => destruct l; try discriminate E
    | vnext ?o = _ => destruct o; discriminate E
    | context [obind ?e _] => let z := fresh in let H := fresh in destruct e as [z|] eqn:H; cbn [obind] in E; try discriminate E
    | (if ?c then _ else _) = _ => destruct c; try discriminate E
    | match ?c with VConst _ => _ | _ => _ end = _ => destruct c; try discriminate E
    end.
Qed.
Lemma vexec_phi bi i x q t : i_op x = PHI -> vexec w bi s i (fill_insn o x) q = Some t -> False.
Proof.
  intros O. unfold vexec. change (i_op (fill_insn o x)) with (i_op x). rewrite O. cbn [alu_op_of cmp_op_of]. destruct (i_vals _) as [|a [|a' [|]]]; discriminate.
Qed.

Lemma body_sim b bi z : In b (c_reach s) -> forall M LM, Forall2 seen M LM -> forall pre q m rest t,
  insns_of (c_f s) b = pre ++ M ++ z -> (z <> [] \/ forall k, S k = ends_at s b -> ~ jump_at s b k) ->
  rel (b, length pre) q m -> arrives s (b, length pre) -> vbody w bi s o q (M ++ z) = Some t ->
  exists q' m', vbody w bi s o q' z = Some t /\ fseq w bi (LM ++ rest) m = fseq w bi rest m' /\
    rel (b, (length pre + length M)%nat) q' m' /\ arrives s (b, (length pre + length M)%nat).
Proof.
  intros Hb M LM F. induction F as [|i n M LM (x & Ix & Sx & _) F IH]; intros pre q m rest t Ei Hz Re Ar E.
  - exists q, m. cbn [app length]. rewrite Nat.add_0_r. auto.
  - cbn [app vbody] in E. rewrite Ix in E. cbn [obind] in E. destruct (vexec w bi s i (fill_insn o x) q) as [t0|] eqn:V; [|discriminate E]. cbn [obind] in E.
    assert (Np : i_op x <> PHI) by (intros O; exact (vexec_phi bi i x q t0 O V)).
    assert (Ii : insn_at s b (length pre) i) by (unfold insn_at; rewrite Ei, nth_error_app2, Nat.sub_diag by lia; reflexivity).
    assert (Nj : is_jmp_op (i_op x) = false).
    { destruct (is_jmp_op (i_op x)) eqn:J; [|reflexivity]. pose proof (sh_jump s Sh b (length pre) i x Hb Ii Ix J) as K.
      destruct Hz as [Hz|Hz]; [|exfalso; apply (Hz _ K); exists i, x; auto]. unfold ends_at in K. rewrite Ei, !app_length in K. destruct z; [contradiction|cbn in K; lia]. }
    destruct (one_sim b (length pre) i x n q m bi Hb Ii Ix Np Sx Re Ar t0 V) as (r & Fx & Res). destruct t0 as [q1|c q1|y q1].
    + destruct Res as (m1 & -> & Re1). assert (Ei' : insns_of (c_f s) b = (pre ++ [i]) ++ M ++ z) by (rewrite <- app_assoc; exact Ei).
      assert (Lp : length (pre ++ [i]) = S (length pre)) by (rewrite app_length; cbn; lia).
      destruct (IH (pre ++ [i]) q1 m1 rest t Ei' Hz) as (q' & m' & B1 & B2 & B3 & B4).
      * rewrite Lp. exact Re1.
      * rewrite Lp. exact (arr_step b _ i Hb Ii Ar).
      * exact E.
      * exists q', m'. rewrite Lp in B3, B4. cbn [length]. rewrite <- plus_n_Sm. split; [exact B1|]. split; [|split; [exact B3|exact B4]].
        cbn [app fseq]. rewrite Fx. cbn [obind]. exact B2.
    + destruct (vexec_jump _ _ _ _ _ _ V) as [(O & _)|(O & _)]; [rewrite O in Nj; discriminate Nj|]. destruct (i_op x); cbn in O, Nj; discriminate.
    + rewrite (vexec_ret _ _ _ _ _ _ V) in Nj. discriminate Nj.
Qed.

(** phis *)
Lemma vphis_spec bi prev q0 l : forall q l' q1, NoDup l -> (forall i, In i l -> phi_in i -> tracked s i) ->
  vphis bi s o prev q0 q l = Some (l', q1) -> exists P, l = P ++ l' /\ Forall phi_in P /\ (forall i r, l' = i :: r -> ~ phi_in i) /\
    v_st q1 = v_st q /\ (forall i, ~ In i P -> v_env q1 i = v_env q i) /\
    (forall i, In i P -> exists x v z, f_insn (c_f s) i = Some x /\ incoming x prev = Some v /\ veval s bi q0 (fill_val o v) = Some z /\ v_env q1 i = Some (u64 z)).
Proof.
  induction l as [|i l IH]; intros q l' q1 Nd Tr E; cbn [vphis] in E.
  - injection E as <- <-. exists []. repeat split; auto; try discriminate. intros i [].
  - inversion Nd as [|? ? Ni Nd']; subst. destruct (f_insn (c_f s) i) as [x|] eqn:Ix; [|discriminate E]. cbn [obind] in E. destruct (iop_eqb (i_op x) PHI) eqn:Op.
    + assert (Po : i_op x = PHI) by (destruct (i_op x); cbn in Op; congruence). assert (Pi : phi_in i) by (exists x; auto).
      destruct (incoming x prev) as [v|] eqn:In_; [|discriminate E]. cbn [obind] in E. destruct (veval s bi q0 (fill_val o v)) as [z|] eqn:Ev; [|discriminate E]. cbn [obind] in E.
      destruct (vwr s q i z) as [q'|] eqn:W; [|discriminate E]. cbn [obind] in E. destruct (Tr i (or_introl eq_refl) Pi) as (_ & e & Ex & Fi & Dx).
      unfold vwr in W. rewrite Ex in W. cbn [obind] in W. rewrite Dx in W. unfold vput in W. rewrite Ex in W. cbn [obind] in W. rewrite Fi in W. injection W as <-.
      destruct (IH _ l' q1 Nd' (fun j Hj => Tr j (or_intror Hj)) E) as (P & -> & A & B & C & D & F). exists (i :: P). split; [reflexivity|]. split; [constructor; auto|]. split; [exact B|].
      split; [exact C|]. cbn [v_env] in *. split.
      * intros j Hj. rewrite D by (intros K; apply Hj; now right). unfold eupd. destruct (Nat.eqb_spec j i) as [->|]; [exfalso; apply Hj; now left|reflexivity].
      * intros j [<-|Hj]; [|now apply F]. exists x, v, z. repeat split; auto. rewrite D.
        -- unfold eupd. now rewrite Nat.eqb_refl.
        -- intros K. apply Ni. apply in_or_app. now left.
    + injection E as <- <-. exists []. split; [reflexivity|]. split; [constructor|]. split.
      * intros j r Er (y & Y & Yp). injection Er as <- <-. rewrite Ix in Y. injection Y as <-. rewrite Yp in Op. discriminate Op.
      * repeat split; auto. intros j [].
Qed.

Definition inv (bi : nat -> bconst -> Z) (prev b : nat) (q : vst) (m : st) : Prop :=
  In b (c_reach s) /\ forall l q1, vphis (bi prev) s o prev q q (insns_of (c_f s) b) = Some (l, q1) ->
    exists P, insns_of (c_f s) b = P ++ l /\ Forall phi_in P /\ (forall i r, l = i :: r -> ~ phi_in i) /\ arrives s (b, length P) /\ rel (b, length P) q1 m.

Lemma split_same (P P' l l' : list nat) : P ++ l = P' ++ l' -> Forall phi_in P -> Forall phi_in P' ->
  (forall i r, l = i :: r -> ~ phi_in i) -> (forall i r, l' = i :: r -> ~ phi_in i) -> P = P' /\ l = l'.
Proof.
  revert P'. induction P as [|a P IH]; intros [|a' P'] E F F' N N'; cbn in E.
  - auto.
  - inversion F'; subst. exfalso. exact (N a' _ eq_refl H1).
  - inversion F; subst. exfalso. exact (N' a _ eq_refl H1).
  - injection E as -> E. inversion F; subst. inversion F'; subst. destruct (IH P' E) as [-> ->]; auto.
Qed.

Lemma vexec_no_next bi i x q q' : is_jmp_op (i_op x) = true -> vexec w bi s i (fill_insn o x) q = Some (VNext q') -> False.
Proof.
  unfold vexec. change (i_op (fill_insn o x)) with (i_op x). intros J E.
  destruct (i_op x) eqn:O; try discriminate J; cbn [alu_op_of cmp_op_of] in E; try discriminate E;
    repeat match type of E with
    | context [match ?l with [] => _ | _ :: _ => _ end] => destruct l; try discriminate E
    | context [obind ?e _] => let z := fresh in let H := fresh in destruct e as [z|] eqn:H; cbn [obind] in E; try discriminate E
    end.
Qed.

Lemma at_mid c (P1 : list nat) i P2 : insns_of (c_f s) c = P1 ++ i :: P2 -> insn_at s c (length P1) i.
Proof. intros E. unfold insn_at. rewrite E, nth_error_app2, Nat.sub_diag by lia. reflexivity. Qed.
Lemma back_live c v : In c (c_reach s) -> forall P2 P1 l, insns_of (c_f s) c = P1 ++ P2 ++ l -> (forall i, In i P2 -> ~ defines s i v) ->
  live s v (c, (length P1 + length P2)%nat) -> live s v (c, length P1).
Proof.
  intros Hc. induction P2 as [|i P2 IH]; intros P1 l E N L; cbn [length] in L; [now rewrite Nat.add_0_r in L|].
  apply (live_step s v c (length P1) i Hc); [exact (at_mid c P1 i _ E)|apply N; now left|].
  assert (K : live s v (c, length (P1 ++ [i]))).
  { apply (IH (P1 ++ [i]) l); [rewrite <- app_assoc; exact E|intros j Hj; apply N; now right|]. rewrite app_length. cbn [length]. now rewrite <- Nat.add_assoc. }
  rewrite app_length in K. cbn [length] in K. now rewrite Nat.add_1_r in K.
Qed.
Lemma back_need c r : In c (c_reach s) -> forall P2 P1 l, insns_of (c_f s) c = P1 ++ P2 ++ l -> (forall i, In i P2 -> ~ writes_reg s i r) ->
  needed s ar r (c, (length P1 + length P2)%nat) -> needed s ar r (c, length P1).
Proof.
  intros Hc. induction P2 as [|i P2 IH]; intros P1 l E N L; cbn [length] in L; [now rewrite Nat.add_0_r in L|].
  apply (need_step s ar r c (length P1) i Hc); [exact (at_mid c P1 i _ E)|apply N; now left|].
  assert (K : needed s ar r (c, length (P1 ++ [i]))).
  { apply (IH (P1 ++ [i]) l); [rewrite <- app_assoc; exact E|intros j Hj; apply N; now right|]. rewrite app_length. cbn [length]. now rewrite <- Nat.add_assoc. }
  rewrite app_length in K. cbn [length] in K. now rewrite Nat.add_1_r in K.
Qed.
Lemma arr_many c : In c (c_reach s) -> forall P2 P1 l, insns_of (c_f s) c = P1 ++ P2 ++ l -> arrives s (c, length P1) -> arrives s (c, (length P1 + length P2)%nat).
Proof.
  intros Hc. induction P2 as [|i P2 IH]; intros P1 l E A; cbn [length]; [now rewrite Nat.add_0_r|].
  pose proof (IH (P1 ++ [i]) l) as K. rewrite app_length in K. cbn [length] in K. rewrite <- Nat.add_assoc in K. apply K; [rewrite <- app_assoc; exact E|].
  rewrite Nat.add_1_r. exact (arr_step c _ i Hc (at_mid c P1 i _ E) A).
Qed.
Lemma def_self b i v : In b (c_reach s) -> In i (insns_of (c_f s) b) -> defines s i v -> v = i.
Proof.
  intros Hb Hi (e & E & D). destruct (rd_insn s R b i Hb Hi) as (x0 & e0 & _ & _ & E0 & [N|N] & _); rewrite E in E0; injection E0 as <-; congruence.
Qed.
Lemma phi_linked b i : In b (c_reach s) -> In i (insns_of (c_f s) b) -> linked s i.
Proof. intros; exists b; auto. Qed.
Lemma phi_tracked b i : In b (c_reach s) -> In i (insns_of (c_f s) b) -> phi_in i -> tracked s i.
Proof. intros Hb Hi (x & Ix & Op). exact (proj1 (sh_phi s Sh i x (phi_linked b i Hb Hi) Ix Op)). Qed.
Lemma parent_is b i x : In b (c_reach s) -> In i (insns_of (c_f s) b) -> f_insn (c_f s) i = Some x -> i_parent x = b.
Proof. intros Hb Hi Ix. destruct (rd_insn s R b i Hb Hi) as (x0 & e0 & I0 & P0 & _). congruence. Qed.
Lemma phi_no_write b i r : In b (c_reach s) -> In i (insns_of (c_f s) b) -> phi_in i -> ~ writes_reg s i r.
Proof.
  intros Hb Hi Pi [d D (e & E & F & _)|x Ix C _].
  - pose proof (def_self b i d Hb Hi D) as ->. destruct (phi_tracked b i Hb Hi Pi) as (_ & e1 & E1 & F1 & _). congruence.
  - destruct Pi as (y & Iy & Oy). congruence.
Qed.
Lemma share_sym a c : share u a c -> share u c a.
Proof. intros (r & A & B). exists r. auto. Qed.

Lemma edge_sim bi b c k q m cl : In b (c_reach s) -> leads s b c -> copy_point s b k -> arrives s (b, k) -> rel (b, k) q m ->
  Forall (phi_at b) cl -> ordered cl ->
  (forall c P' l i x v, In c (c_reach s) -> insns_of (c_f s) c = P' ++ l -> Forall phi_in P' -> In i P' ->
       f_insn (c_f s) i = Some x -> In (v, b) (i_phi x) -> In (i, v) cl) ->
  (forall c1 j v c2 z r, cl = c1 ++ (j, v) :: c2 -> (forall jv, In jv c2 -> ~ share u j (fst jv)) ->
     veval s (bi b) q (fill_val o v) = Some z -> in_reg u j r -> rget m r = z) ->
  inv bi b c q m.
Proof.
  intros Hb Ld Cp Ar Re Ph Or Al Va. destruct (sh_leads s Sh b c Hb Ld) as (Hc & Hp). split; [exact Hc|]. intros l q1 E.
  destruct (vphis_spec (bi b) b q _ q l q1 (rd_once s R c Hc) (fun i Hi Pi => phi_tracked c i Hc Hi Pi) E) as (P & Ei & FP & Hl & Es & Eo & Ev).
  exists P. split; [exact Ei|]. split; [exact FP|]. split; [exact Hl|].
  assert (InP : forall i, In i P -> In i (insns_of (c_f s) c)) by (intros i Hi; rewrite Ei; apply in_or_app; now left).
  assert (ArE : arrives s (b, ends_at s b)).
  { destruct Cp as [k0 Ek (i & x & Ii & Ix & J)|]; [|exact Ar]. rewrite <- Ek. exact (arr_step b k0 i Hb Ii Ar). }
  split; [exact (arr_many c Hc P [] l Ei (arr_edge b c Hc Hp ArE))|].
  assert (BL : forall v, ~ In v P -> live s v (c, length P) -> live s v (b, k)).
  { intros v Nv L. apply (past_jump b k Hb Cp). apply (live_edge s v b c Hc Hp). apply (back_live c v Hc P [] l Ei); [|exact L].
    intros i Hi D. pose proof (def_self c i v Hc (InP i Hi) D) as ->. contradiction. }
  assert (BN : forall r, needed s ar r (c, length P) -> needed s ar r (b, k)).
  { intros r L. apply (past_jump_reg b k Hb Cp). apply (need_edge s ar r b c Hc Hp). apply (back_need c r Hc P [] l Ei); [|exact L].
    intros i Hi. apply (phi_no_write c i r Hc (InP i Hi)). rewrite Forall_forall in FP. now apply FP. }
  constructor.
  - intros v z r T L Env I. destruct (in_dec Nat.eq_dec v P) as [Hv|Nv].
    + destruct (Ev v Hv) as (x & w0 & z0 & Ix & Inc & Vz & En). rewrite En in Env. injection Env as <-.
      unfold incoming in Inc. destruct (find _ (i_phi x)) as [[w1 b1]|] eqn:Fd; [|discriminate Inc]. cbn in Inc. injection Inc as ->.
      apply find_some in Fd as (Iw & Eb). cbn in Eb. apply Nat.eqb_eq in Eb. subst b1.
      assert (Op : i_op x = PHI). { rewrite Forall_forall in FP. destruct (FP v Hv) as (y & Iy & Oy). congruence. }
      pose proof (phi_linked c v Hc (InP v Hv)) as Lv.
      assert (Rz : u64 z0 = z0).
      { refine (veval_range (bi b) q (b, k) m _ z0 Re Vz _). intros d D Td. exact (proj1 (copy_opnd b k Hb Cp v w0 x d Lv Ix Op Iw D) Td). }
      rewrite Rz. destruct (in_split _ _ (Al c P l v x w0 Hc Ei FP Hv Ix Iw)) as (c1 & c2 & Ec). apply (Va c1 v w0 c2 z0 r Ec); auto.
      intros [j vj] Hj Sj. cbn [fst] in Sj. assert (Pj : phi_at b (j, vj)). { rewrite Forall_forall in Ph. apply Ph. rewrite Ec. apply in_or_app. right. now right. }
      destruct Pj as (y & Lj & Iy & Oy & Ij). cbn [fst snd] in *.
      destruct (Or c1 v w0 c2 (j, vj) Ec Hj) as [(b1 & l1 & l2 & l3 & H1 & H2 & H3 & H4)|(b1 & b2 & Nb & H1 & H2 & H3 & H4)]; cbn [fst] in *.
      * assert (b1 = c) as ->.
        { rewrite <- (parent_is b1 v x H1 ltac:(rewrite H2; apply in_or_app; left; apply in_or_app; right; now left) Ix). exact (parent_is c v x Hc (InP v Hv) Ix). }
        apply in_split in H4 as (m1 & m2 & ->).
        assert (Pre : exists P3, P = (l1 ++ v :: m1 ++ j :: m2) ++ P3).
        { clear - H2 H3 Ei Hl. rewrite Ei in H2. clear Ei. revert H2 H3. generalize (l1 ++ v :: m1 ++ j :: m2). intros Q. revert P. induction Q as [|a Q IH]; intros P E F; [exists P; reflexivity|].
          destruct P as [|a' P]; cbn in E.
          - inversion F; subst. exfalso. exact (Hl a _ eq_refl H1).
          - injection E as -> E. inversion F; subst. destruct (IH P E H2) as (P3 & ->). exists P3. reflexivity. }
        destruct Pre as (P3 & EP). pose proof (rd_once s R c Hc) as Nd. rewrite H2 in Nd.
        assert (Nvj : v <> j). { intros ->. repeat rewrite <- app_assoc in Nd. cbn in Nd. apply NoDup_remove_2 in Nd. apply Nd. apply in_or_app. right. rewrite <- app_assoc. cbn. apply in_or_app. right. now left. }
        assert (Lj1 : live s v (c, S (length (l1 ++ v :: m1)))).
        { replace (S (length (l1 ++ v :: m1))) with (length (l1 ++ v :: m1 ++ [j])) by (rewrite !app_length; cbn; rewrite !app_length; cbn; lia).
          apply (back_live c v Hc (m2 ++ P3) _ l).
          - rewrite Ei, EP. repeat rewrite <- app_assoc. cbn. repeat rewrite <- app_assoc. reflexivity.
          - intros i Hi D. assert (Hic : In i P) by (rewrite EP; repeat rewrite <- app_assoc; cbn; apply in_or_app; right; right; rewrite <- app_assoc; apply in_or_app; right; right; exact Hi).
            pose proof (def_self c i v Hc (InP i Hic) D) as ->. pose proof (rd_once s R c Hc) as Nd'. rewrite Ei, EP in Nd'. repeat rewrite <- app_assoc in Nd'. cbn in Nd'.
            apply NoDup_remove_2 in Nd'. apply Nd'. apply in_or_app. right. rewrite <- app_assoc. apply in_or_app. right. right. rewrite app_assoc. apply in_or_app. now left.
          - replace (length (l1 ++ v :: m1 ++ [j]) + length (m2 ++ P3))%nat with (length P); [exact L|]. rewrite EP, !app_length. cbn. rewrite !app_length. cbn. lia. }
        apply (sa_write s u Sa c (length (l1 ++ v :: m1)) j j v Hc); auto; [|exact (proj1 (proj2 (rd_phi s R j y Lj Iy Oy)))|now apply share_sym].
        apply (at_mid c _ j (m2 ++ l3)). rewrite H2. repeat rewrite <- app_assoc. cbn. repeat rewrite <- app_assoc. reflexivity.
      * apply (ap_edge ar s u Ap v x w0 j y vj b Lv Ix Op Iw Lj Iy Oy Ij); [|exact Sj]. rewrite (parent_is b1 v x H1 H3 Ix), (parent_is b2 j y H2 H4 Iy). exact Nb.
    + rewrite (Eo v Nv) in Env. exact (re_virt _ _ _ Re v z r T (BL v Nv L) Env I).
  - intros r Rr Nr. rewrite Es. apply (re_phys _ _ _ Re r Rr). now apply BN.
  - rewrite Es. apply (re_sp _ _ _ Re).
  - rewrite Es. apply (re_mem _ _ _ Re).
  - rewrite Es. apply (re_nc _ _ _ Re).
  - rewrite Es. apply (re_ok _ _ _ Re).
  - intros v z Env. destruct (in_dec Nat.eq_dec v P) as [Hv|Nv].
    + apply (phi_tracked c v Hc (InP v Hv)). rewrite Forall_forall in FP. now apply FP.
    + rewrite (Eo v Nv) in Env. exact (re_dom _ _ _ Re v z Env).
Qed.

(** ** Runs *)
Context (p : nprog) (bi : nat -> bconst -> Z).
Hypothesis Pt : forall b, In b (c_reach s) -> exists nb, lookup p b = Some nb /\ painted b (nb_insns nb).

Lemma block_sim prev b q m t : inv bi prev b q m -> vblock w bi s o prev b q = Some t ->
  match t with
  | VNext _ => False
  | VJmp c q' => exists m', pstep w bi (next_of s) p b m = Some (PGo c m') /\ inv bi b c q' m'
  | VRet z q' => exists m', pstep w bi (next_of s) p b m = Some (PRet z m') /\ mem m' = mem (v_st q') /\ ncall m' = ncall (v_st q')
  end.
Proof.
  intros (Hb & Iv) E. destruct (Pt b Hb) as (nb & Lk & [(P & M & Z & LM & LC & LZ & cl & Ei & FP & Nh & Hz & FM & FZ & FC & En & Ph & Or & Al)]).
  unfold vblock in E. destruct (f_block (c_f s) b) as [kb|] eqn:Kb; [|discriminate E]. cbn [obind] in E.
  assert (EI : insns_of (c_f s) b = b_insns kb) by (unfold insns_of; now rewrite Kb). rewrite <- EI in E.
  destruct (vphis _ s o prev q q _) as [[l q1]|] eqn:Vp; [|discriminate E]. cbn [obind] in E.
  destruct (Iv l q1 eq_refl) as (P' & Ei' & FP' & Nh' & Ar & Re). rewrite Ei in Ei'.
  destruct (split_same _ _ _ _ Ei' FP FP' Nh Nh') as [<- <-].
  destruct (vbody w (bi b) s o q1 (M ++ Z)) as [t0|] eqn:Vb; [|discriminate E]. cbn [obind] in E.
  assert (Hz' : Z <> [] \/ forall k, S k = ends_at s b -> ~ jump_at s b k).
  { destruct Hz as [(_ & K)|(j & x & -> & _)]; [right; exact K|left; discriminate]. }
  destruct (body_sim b (bi b) Z Hb M LM FM P q1 m (LC ++ LZ) t0 Ei Hz' Re Ar Vb) as (q2 & m2 & Vz & F1 & Re2 & Ar2).
  set (k := (length P + length M)%nat) in *.
  assert (Cp : copy_point s b k).
  { destruct Hz as [(-> & K)|(j & x & -> & Ij & J)].
    - replace k with (ends_at s b); [apply cp_end; exact K|]. unfold ends_at, k. rewrite Ei, app_nil_r, app_length. reflexivity.
    - apply cp_jump; [unfold ends_at, k; rewrite Ei, !app_length; cbn; lia|]. exists j, x. split; [|auto]. unfold insn_at, k. rewrite Ei, app_assoc, <- app_length, nth_error_app2, Nat.sub_diag by lia. reflexivity. }
  destruct (copies_sim b k (bi b) q2 Hb Cp cl LC FC Ph m2 LZ Re2) as (m3 & F2 & Re3 & _ & Va).
  assert (Fs : fseq w (bi b) (nb_insns nb) m = fseq w (bi b) LZ m3) by (rewrite En, F1; exact F2).
  unfold pstep. rewrite Lk, Fs. destruct Hz as [(-> & K)|(j & x & -> & Ij & J)].
  - inversion FZ; subst LZ. cbn [vbody] in Vz. injection Vz as <-. cbn [fseq]. destruct (b_succs kb) as [|c r] eqn:Sc; [discriminate E|]. injection E as <-.
    assert (Nx : (next_of s) b = Some c) by (unfold next_of, succs_of; rewrite Kb, Sc; reflexivity). rewrite Nx. exists m3. split; [reflexivity|].
    apply (edge_sim bi b c k q2 m3 cl Hb); auto. right. exact Nx.
  - inversion FZ as [|? n ? ? (x' & Ij' & Sj & _) F0]; subst. inversion F0; subst. rewrite Ij in Ij'. injection Ij' as <-.
    cbn [vbody] in Vz. rewrite Ij in Vz. cbn [obind] in Vz. destruct (vexec w (bi b) s j (fill_insn o x) q2) as [t1|] eqn:Vx; [|discriminate Vz]. cbn [obind] in Vz.
    assert (Ik : insn_at s b k j) by (unfold insn_at, k; rewrite Ei, app_assoc, <- app_length, nth_error_app2, Nat.sub_diag by lia; reflexivity).
    assert (Np : i_op x <> PHI) by (intros O; rewrite O in J; discriminate J).
    destruct (one_sim b k j x n q2 m3 (bi b) Hb Ik Ij Np Sj Re3 Ar2 t1 Vx) as (r & Fx & Res). cbn [fseq]. rewrite Fx. cbn [obind].
    destruct t1 as [q3|c q3|z q3].
    + exfalso. exact (vexec_no_next _ _ _ _ _ J Vx).
    + destruct Res as (-> & ->). injection Vz as <-. injection E as <-. exists m3. split; [reflexivity|]. apply (edge_sim bi b c k q2 m3 cl Hb); auto.
      left. exists j, x. split; [rewrite Ei; apply in_or_app; right; apply in_or_app; right; now left|]. split; [exact Ij|]. exact (vexec_jump _ _ _ _ _ _ Vx).
    + destruct Res as (-> & m4 & -> & A & B). injection Vz as <-. injection E as <-. exists m4. auto.
Qed.
Lemma run_sim n : forall prev b q m out, inv bi prev b q m -> vrun w bi s o n prev b q = Some out ->
  match out with
  | VAt prev' b' q' => exists m', prun w bi (next_of s) p n b m = Some (PGo b' m') /\ inv bi prev' b' q' m'
  | VDone z q' => exists m', prun w bi (next_of s) p n b m = Some (PRet z m') /\ mem m' = mem (v_st q') /\ ncall m' = ncall (v_st q')
  end.
Proof.
  induction n as [|n IH]; intros prev b q m out Iv E; cbn [vrun] in E.
  - injection E as <-. exists m. auto.
  - destruct (vblock w bi s o prev b q) as [t|] eqn:Vb; [|discriminate E]. cbn [obind] in E. pose proof (block_sim prev b q m t Iv Vb) as K. cbn [prun].
    destruct t as [q'|c q'|z q'].
    + contradiction.
    + destruct K as (m' & St' & Iv'). rewrite St'. exact (IH b c q' m' out Iv' E).
    + destruct K as (m' & St' & A). injection E as <-. rewrite St'. exists m'. auto.
Qed.
(** start at a block without phis, with nothing virtual defined *)
Lemma inv_start prev b q : start s b -> st_ok (v_st q) -> (forall v, v_env q v = None) ->
  (forall i l, insns_of (c_f s) b = i :: l -> ~ phi_in i) -> inv bi prev b q (v_st q).
Proof.
  intros (Hb & Np) Ok' En Nh. split; [exact Hb|]. intros l q1 E. assert (K : l = insns_of (c_f s) b /\ q1 = q).
  { destruct (insns_of (c_f s) b) as [|i r] eqn:Ei; cbn [vphis] in E; [injection E as <- <-; auto|]. destruct (f_insn (c_f s) i) as [x|] eqn:Ix; [|discriminate E]. cbn [obind] in E.
    destruct (iop_eqb (i_op x) PHI) eqn:Op; [|injection E as <- <-; auto]. exfalso. apply (Nh i r eq_refl). exists x. split; [exact Ix|]. destruct (i_op x); cbn in Op; congruence. }
  destruct K as [-> ->]. exists []. split; [reflexivity|]. split; [constructor|]. split; [exact Nh|]. split.
  - exists b. split; [split; auto|apply reaches_refl].
  - constructor; auto; try (intros v z; rewrite En; discriminate). 
Qed.
End Sim.
