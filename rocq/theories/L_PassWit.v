(** Deciding the hypotheses of the pass theorems on concrete functions; witnesses. *)
From Coq Require Import Lia.
From Verif Require Import SpecWord SpecFlat SpecSsa.
From Verif Require Import M_Base M_Ir M_Edit M_EditHist M_Ra M_Pass M_Check.
From Verif Require Import SpecIr SpecEdit SpecPass SpecCheck L_Edit L_Uses L_Hist L_Sim L_PassDce L_PassAlloc L_PassThrow L_PassCompact L_Check.
Open Scope nat_scope.

(** ** Deciders *)
Definition placedb (f : func) : bool :=
  forallb (fun u => match f_insn f u with
                    | Some x => existsb (Nat.eqb u) (insns_of f (i_parent x))
                    | None => true
                    end) (seq 0 (f_ni f)).
Lemma wf_tidy f : wf_func f -> placedb f = true -> tidy f.
Proof.
  intros W P. constructor; [|apply W|apply W|].
  - intros u d. pose proof (wf_uses _ W d u) as E. rewrite (count_occ_In Nat.eq_dec). split; lia.
  - intros u d U. unfold uses in U. destruct (f_insn f u) as [x|] eqn:Hx; [|lia]. exists x. split; [reflexivity|].
    unfold placedb in P. rewrite forallb_forall in P. assert (L : u < f_ni f).
    { destruct (Nat.lt_ge_cases u (f_ni f)) as [?|G]; [assumption|]. destruct (wf_fresh _ W) as [K _]. rewrite (K u G) in Hx. discriminate Hx. }
    specialize (P u). rewrite Hx in P. assert (In u (seq 0 (f_ni f))) as I by (apply in_seq; lia). specialize (P I).
    apply existsb_exists in P as (z & Z & E). apply Nat.eqb_eq in E. now subst z.
Qed.
Lemma built_wf l : wf_func (run_get l).
Proof. exact (reachable_wf _ _ empty_func_wf (run_get_reachable l)). Qed.
Lemma built_tidy l : placedb (run_get l) = true -> tidy (run_get l).
Proof. apply wf_tidy, built_wf. Qed.

Definition cell_useb (f : func) (u a : nat) : bool :=
  match f_insn f u, f_insn f a with
  | Some x, Some y =>
    negb (iop_eqb (i_op y) ALLOC) || (uses f u a =? 0) ||
    match i_op x, i_vals x with
    | LOAD, [_] => true
    | STORE, [_; w] => negb (is_use_of a w)
    | _, _ => false
    end
  | _, _ => true
  end.
Definition cells_okb (f : func) : bool :=
  forallb (fun u => forallb (cell_useb f u) (seq 0 (f_ni f))) (seq 0 (f_ni f)).
Lemma live_below f i x : fresh_ok f -> f_insn f i = Some x -> In i (seq 0 (f_ni f)).
Proof.
  intros [K _] E. apply in_seq. destruct (Nat.lt_ge_cases i (f_ni f)) as [?|G]; [lia|]. rewrite (K i G) in E. discriminate E.
Qed.
Lemma cells_okb_ok f : fresh_ok f -> cells_okb f = true -> cells_ok f.
Proof.
  intros F C u x a y Hx Hy O U. unfold cells_okb in C. rewrite forallb_forall in C. specialize (C u (live_below _ _ _ F Hx)).
  rewrite forallb_forall in C. specialize (C a (live_below _ _ _ F Hy)). unfold cell_useb in C. rewrite Hx, Hy, O in C.
  destruct (uses f u a =? 0) eqn:Z; [apply Nat.eqb_eq in Z; lia|]. cbn in C.
  destruct (i_op x); try discriminate C; destruct (i_vals x) as [|v [|w [|z r]]]; try discriminate C.
  - right. split; [reflexivity|]. exists v, w. split; [reflexivity|]. now apply negb_true_iff in C.
  - left. split; [reflexivity|]. now exists v.
Qed.

Definition closedb (f : func) (reach : list nat) : bool :=
  forallb (fun b =>
    forallb (fun i => match f_insn f i with
                      | Some x => (negb (iop_eqb (i_op x) JA) || existsb (Nat.eqb (i_bb1 x)) reach) &&
                                  match cmp_op_of (i_op x) with
                                  | Some _ => existsb (Nat.eqb (i_bb1 x)) reach && existsb (Nat.eqb (i_bb2 x)) reach
                                  | None => true
                                  end
                      | None => true
                      end) (insns_of f b) &&
    match succs_of f b with c :: _ => existsb (Nat.eqb c) reach | [] => true end) reach.
Lemma existsb_in i l : existsb (Nat.eqb i) l = true -> In i l.
Proof. intros H. apply existsb_exists in H as (z & Z & E). apply Nat.eqb_eq in E. now subst z. Qed.
Lemma closedb_ok f reach : closedb f reach = true -> closed f reach.
Proof.
  intros C b c B G. unfold closedb in C. rewrite forallb_forall in C. specialize (C b B). apply andb_true_iff in C as [C1 C2].
  rewrite forallb_forall in C1. destruct G as [i x I Hx O|i x o I Hx O|i x o I Hx O|d l S].
  - specialize (C1 i I). rewrite Hx, O in C1. cbn in C1. rewrite andb_true_r in C1. now apply existsb_in.
  - specialize (C1 i I). rewrite Hx, O in C1. apply andb_true_iff in C1 as [_ C1]. apply andb_true_iff in C1 as [C1 _]. now apply existsb_in.
  - specialize (C1 i I). rewrite Hx, O in C1. apply andb_true_iff in C1 as [_ C1]. apply andb_true_iff in C1 as [_ C1]. now apply existsb_in.
  - rewrite S in C2. now apply existsb_in.
Qed.

(** ** The optimiser as a whole *)
Lemma optimize_ok fuel nd no reach f g : tidy f -> cells_ok f -> no_ecall f reach -> (forall b, In b reach -> f_block f b <> None) ->
  optimize_ir fuel nd no reach f = Ok g -> size_of f reach < fuel -> tidy g /\ preserves f g /\ exists rm, without rm f g /\
    forall j, In j rm -> exists x, f_insn f j = Some x /\ i_op x <> CALL /\ is_jmp_op (i_op x) = false.
Proof.
  intros T C N X E L. unfold optimize_ir in E. destruct no.
  { injection E as <-. split; [exact T|]. split; [apply preserves_refl|]. exists []. split; [apply without_refl|intros j []]. }
  apply bind_ok in E as (h & Eh & E).
  assert (K : tidy h /\ preserves f h /\ exists rm, without rm f h /\ forall j, In j rm -> exists x, f_insn f j = Some x /\ i_op x <> CALL /\ is_jmp_op (i_op x) = false).
  { destruct nd.
    - injection Eh as <-. split; [exact T|]. split; [apply preserves_refl|]. exists []. split; [apply without_refl|intros j []].
    - destruct (dce_ok fuel reach f T X L) as (h' & rm & E' & D & _ & P). assert (h' = h) by congruence. subst h'.
      split; [apply D|]. split; [exact (P N)|]. exists rm. split; [apply D|]. intros j J. destruct (dc_rm _ _ _ D j J) as (x & Hx & V & NC). exists x. split; [exact Hx|]. split; [exact NC|].
      destruct (i_op x); try discriminate V; reflexivity. }
  destruct K as (Th & Ph & rm & W & RM).
  assert (Ch : cells_ok h).
  { intros u x a y Hx Hy O U. destruct (without_back _ _ _ _ _ W Hx) as (N1 & x0 & l1 & Hx0 & ->).
    destruct (without_back _ _ _ _ _ W Hy) as (N2 & y0 & l2 & Hy0 & ->). apply (C u x0 a y0 Hx0 Hy0 O).
    now rewrite <- (without_uses _ _ _ u a W N1). }
  destruct (remove_unused_ok reach h g Th Ch E) as (rm2 & A).
  split; [apply A|]. split; [eapply preserves_trans; [exact Ph|apply A]|]. exists (rm ++ rm2). split; [eapply without_trans; [exact W|apply A]|].
  intros j J. apply in_app_or in J as [J|J]; [now apply RM|].
  assert (G : exists y, f_insn h j = Some y /\ (i_op y = ALLOC \/ i_op y = STORE)).
  { destruct (ao_gone _ _ _ A j J) as (a & y & Hy & O & _ & [->|(x & v & w & Hx & O' & _)]); eauto. }
  destruct G as (y & Hy & O). destruct (without_back _ _ _ _ _ W Hy) as (_ & x & l & Hx & ->). exists x. split; [exact Hx|]. cbn in O. destruct O as [-> | ->]; split; try discriminate; reflexivity.
Qed.

(** ** C40 *)
Definition reg (i : nat) : value := val_insn i.
Definition zext_edits (aw ar : alut) : list edit :=
  [ E_create_at_bb 1 (K_call 7) P_BACK;                                   (* 1 *)
    E_create_at_bb 1 (K_bin (reg 1) (val_const32 32) LSH aw) P_BACK;      (* 2 *)
    E_create_at_bb 1 (K_bin (reg 2) (val_const32 32) RSH ar) P_BACK;      (* 3 *)
    E_create_at_bb 1 (K_ret (reg 3)) P_BACK ].                            (* 4 *)
Definition zext (aw ar : alut) : func := run_get (zext_edits aw ar).
Definition w_one (z : Z) : world := mkWorld (fun n id a m => ([z], m)) (fun _ v => v).
Definition s_zero : sst := mkS (fun _ => None) (fun _ => None) (fun _ => 0%Z) 0.
Definition ret_of (o : option sout) : option Z := match o with Some (ORet r _) => Some r | _ => None end.
Definition returned (f : func) (z : Z) : option Z := ret_of (srun (w_one z) (fun _ => 0%Z) f 3 0 (f_entry f) s_zero).
Definition compacted (f : func) : func := get_ok empty_func (compaction [1] f).

Lemma not_preserved f g z a b : returned f z = Some a -> returned g z = Some b -> f_entry g = f_entry f -> a <> b -> ~ preserves f g.
Proof.
  unfold returned, ret_of. intros A B En N P. destruct (srun _ _ f 3 0 (f_entry f) s_zero) as [o|] eqn:E; [|discriminate A].
  rewrite <- L_Gs.gsrun_nowhere in E.
  destruct (P _ _ _ _ _ _ _ _ E) as (o' & E' & S). rewrite L_Gs.gsrun_nowhere in E'. rewrite En, E' in B. destruct S; congruence.
Qed.
Lemma mixed_wit aw ar : tidy (zext aw ar) /\ exists g, compaction [1] (zext aw ar) = Ok g.
Proof.
  split; [apply built_tidy|eexists; apply get_ok_spec with (d := empty_func)]; destruct aw, ar; vm_compute; reflexivity.
Qed.
Definition zext_used : func := run_get
  [ E_create_at_bb 1 (K_call 7) P_BACK;                                   (* 1 *)
    E_create_at_bb 1 (K_bin (reg 1) (val_const32 32) LSH A_64) P_BACK;    (* 2 *)
    E_create_at_bb 1 (K_bin (reg 2) (val_const32 32) RSH A_64) P_BACK;    (* 3 *)
    E_create_at_bb 1 (K_bin (reg 3) (reg 2) ADD A_64) P_BACK;             (* 4 *)
    E_create_at_bb 1 (K_ret (reg 4)) P_BACK ].
(** decides [pairs_ok]: every matching pair is adjacent *)
Definition pairb (f : func) (b i : nat) : bool :=
  match f_insn f i with
  | Some y =>
    match i_op y, i_vals y with
    | RSH, e :: d :: ry =>
      match v_data e, v_data d with
      | VInsn l, VConst dd =>
        match f_insn f l with
        | Some x =>
          match i_op x, i_vals x with
          | LSH, w :: c :: rx =>
            match v_data c with
            | VConst cc =>
              negb ((dd =? 32)%Z && (cc =? 32)%Z) ||
              (match ry, rx with [], [] => true | _, _ => false end &&
               match v_bi c, v_bi d with B_NONE, B_NONE => true | _, _ => false end &&
               negb (is_use_of l w) &&
               match i_alu x, i_alu y with A_32, A_32 | A_64, A_64 => true | _, _ => false end &&
               existsb (fun k => match nth_error (insns_of f b) k, nth_error (insns_of f b) (S k) with
                                 | Some p, Some q => (p =? l) && (q =? i)
                                 | _, _ => false
                                 end) (seq 0 (length (insns_of f b))))
            | _ => true
            end
          | _, _ => true
          end
        | None => true
        end
      | _, _ => true
      end
    | _, _ => true
    end
  | None => true
  end.
Lemma nth_pair (A : Type) (l : list A) k p q : nth_error l k = Some p -> nth_error l (S k) = Some q -> exists l1 l2, l = l1 ++ p :: q :: l2.
Proof.
  revert l. induction k as [|k IH]; intros [|a l] P Q; try discriminate P.
  - injection P as ->. destruct l as [|z l]; [discriminate Q|]. injection Q as ->. now exists [], l.
  - destruct (IH l P Q) as (l1 & l2 & ->). now exists (a :: l1), l2.
Qed.
Lemma pairs_okb f reach : forallb (fun b => forallb (pairb f b) (insns_of f b)) reach = true -> pairs_ok f reach.
Proof.
  intros H b i y e d ry l x w c rx B I Hy Oy Vy De Dd Hx Ox Vx Dc. rewrite forallb_forall in H. specialize (H b B).
  rewrite forallb_forall in H. specialize (H i I). unfold pairb in H. rewrite Hy, Oy, Vy, De, Dd, Hx, Ox, Vx, Dc in H.
  change ((32 =? 32)%Z) with true in H. cbn [andb negb orb] in H. rewrite !andb_true_iff in H. destruct H as ((((H1 & H2) & H3) & H4) & H5).
  destruct ry; [|discriminate H1]. destruct rx; [|discriminate H1]. apply existsb_exists in H5 as (k & _ & H5). split.
  - destruct (nth_error (insns_of f b) k) as [p|] eqn:P; [|discriminate H5]. destruct (nth_error (insns_of f b) (S k)) as [q|] eqn:Q; [|discriminate H5].
    apply andb_true_iff in H5 as [E1 E2]. apply Nat.eqb_eq in E1, E2. subst p q. eapply nth_pair; eassumption.
  - exists x, y, w, c, d. repeat (split; [assumption|]). split; [destruct (v_bi c); congruence|]. split; [now apply negb_true_iff|].
    split; [exists e; split; assumption|]. split; [assumption|]. split; [destruct (v_bi c), (v_bi d); congruence|].
    destruct (i_alu x), (i_alu y); try discriminate H4; split; congruence.
Qed.
Lemma zext_pairs : pairs_ok (zext A_64 A_64) [1].
Proof. apply pairs_okb. vm_compute. reflexivity. Qed.

(** ** C42 *)
Definition two_stores : func := run_get
  [ E_create_at_bb 1 (K_alloc VR_64) P_BACK;                 (* 1 *)
    E_create_at_bb 1 (K_store 1 (val_const32 5)) P_BACK;     (* 2 *)
    E_create_at_bb 1 (K_store 1 (val_const32 6)) P_BACK;     (* 3 *)
    E_create_at_bb 1 (K_ret (val_const32 0)) P_BACK ].       (* 4 *)
(** something to remove and something to keep *)
Definition opt_demo : func := run_get
  [ E_create_at_bb 1 (K_call 7) P_BACK;                              (* 1 *)
    E_create_at_bb 1 (K_bin (reg 1) (val_const32 3) ADD A_64) P_BACK;(* 2, used by 3 only *)
    E_create_at_bb 1 (K_bin (reg 2) (val_const32 3) MUL A_64) P_BACK;(* 3, unused *)
    E_create_at_bb 1 (K_alloc VR_64) P_BACK;                         (* 4 *)
    E_create_at_bb 1 (K_store 4 (reg 1)) P_BACK;                     (* 5 *)
    E_create_at_bb 1 (K_alloc VR_64) P_BACK;                         (* 6, read *)
    E_create_at_bb 1 (K_store 6 (reg 1)) P_BACK;                     (* 7 *)
    E_create_at_bb 1 (K_load (reg 6)) P_BACK;                        (* 8 *)
    E_create_at_bb 1 (K_ret (reg 8)) P_BACK ].

(** ** C43 *)
Definition thr_demo : func := run_get
  [ E_create_bb; E_create_bb; E_connect 1 2; E_connect 1 3;
    E_create_at_bb 1 (K_call 7) P_BACK;                                    (* 1 *)
    E_create_at_bb 1 (K_jbin (reg 1) (val_const32 0) 2 3 JEQ A_64) P_BACK; (* 2 *)
    E_create_at_bb 2 (K_ret (reg 1)) P_BACK;                               (* 3 *)
    E_create_at_bb 3 K_throw P_BACK ].                                     (* 4 *)

(** ** C44 *)
(** adds the frame pointer and the five arguments, which are in no block *)
Definition with_special (f : func) : func := fold_left (fun g i => put_insn g i (insn0 0)) (seq 50 6) f.
Definition accepted (f : func) (reach : list nat) : Prop := prog_check f reach 50 (seq 51 5) = Ok tt.
(** a phi that does not name one of the two predecessors of its block *)
Definition short_phi : func := with_special (run_get
  [ E_create_bb; E_create_bb; E_connect 1 2; E_connect 1 3; E_connect 2 3;
    E_create_at_bb 1 (K_call 7) P_BACK;                                    (* 1 *)
    E_create_at_bb 1 (K_jbin (reg 1) (val_const32 0) 2 3 JEQ A_64) P_BACK; (* 2 *)
    E_create_at_bb 2 (K_ja 3) P_BACK;                                      (* 3 *)
    E_create_at_bb 3 K_phi P_FRONT;                                        (* 4 *)
    E_phi_add 4 1 (reg 1);
    E_create_at_bb 3 (K_ret (reg 4)) P_BACK ]).                            (* 5 *)
(** a value used before it is computed *)
Definition early_use : func := with_special (run_get
  [ E_create_at_bb 1 (K_call 7) P_BACK;                               (* 1 *)
    E_create_at_bb 1 (K_ret (reg 1)) P_BACK;                          (* 2 *)
    E_create_at_bb 1 (K_bin (reg 1) (val_const32 3) ADD A_64) P_FRONT (* 3 *) ]).
(** an assignment without operand; the checker does not look at its operand count *)
Definition bad_assign : func := with_special (run_get
  [ E_create_at_bb 1 (K_assign (val_const32 1)) P_BACK;               (* 1 *)
    E_create_at_bb 1 (K_ret (reg 1)) P_BACK ]).
Definition no_operand (f : func) (i : nat) : func :=
  match f_insn f i with Some x => put_insn f i (set_vals [] x) | None => f end.
Definition ok_demo : func := with_special thr_demo.
Lemma checked_jump f reach sp args u : prog_check f reach sp args = Ok u -> forall w bi prev b s c s', In b reach ->
  sblock w bi f prev b s = Some (SJmp c s') -> In c (succs_of f b) /\ In b (preds_of f c).
Proof.
  intros C w bi prev b s c s' B E. pose proof (good_block f reach sp args u C b B) as G. pose proof (good_goes f b c G (block_goes _ _ _ _ _ _ _ _ E)) as S.
  split; [exact S|]. exact (bg_succs _ _ G c S).
Qed.
Lemma dead_code fuel reach f :
  tidy f -> (forall b, In b reach -> f_block f b <> None) -> size_of f reach < fuel ->
  exists g rm, dce fuel reach f = Ok g /\ tidy g /\ without rm f g /\
    (forall j, In j rm -> exists x, f_insn f j = Some x /\ (pure_op (i_op x) \/ i_op x = ECALL)) /\
    (forall j u, In j rm -> 0 < uses f u j -> In u rm) /\
    (forall b i x, In b reach -> In i (insns_of g b) -> f_insn g i = Some x ->
       is_void_op (i_op x) = false -> i_op x <> CALL -> i_users x <> []) /\
    (no_ecall f reach -> preserves f g).
Proof.
  intros T X L. destruct (dce_ok fuel reach f T X L) as (g & rm & E & D & R & P). exists g, rm. split; [exact E|]. split; [apply D|].
  split; [apply D|]. split; [|split; [|split; [|exact P]]].
  - intros j J. destruct (dc_rm _ _ _ D j J) as (x & Hx & V & C). exists x. split; [exact Hx|].
    destruct (iop_eq_dec (i_op x) ECALL) as [O|O]; [now right|left]. intros K. destruct (i_op x); try discriminate V; cbn in K; intuition congruence.
  - intros j u J U. destruct (in_dec Nat.eq_dec u rm) as [I|N]; [exact I|]. exfalso.
    rewrite <- (without_uses _ _ _ u j (dc_wo _ _ _ D) N) in U. destruct (td_users _ (dc_tidy _ _ _ D) u j) as [K _]. specialize (K U).
    unfold users_of in K. rewrite (wo_rm _ _ _ (dc_wo _ _ _ D) j J) in K. destruct K.
  - intros b i x B I Hx V C U. exact (R b i x B I Hx (conj V (conj C U))).
Qed.
Lemma unused_variables reach f g : tidy f -> cells_ok f -> remove_unused_alloc reach f = Ok g ->
  exists rm, tidy g /\ without rm f g /\ preserves f g /\ forall j, In j rm -> gone f j.
Proof. intros T C E. destruct (remove_unused_ok reach f g T C E) as (rm & A). exists rm. destruct A. auto. Qed.
Lemma placed_in_blocks f reach i : in_blocks f reach i = true <-> placed_in f reach i.
Proof. apply in_blocks_iff. Qed.
Lemma throw_exact reach f g : translate_throw reach f = Ok g ->
  (forall b, f_block g b = f_block f b) /\ f_entry g = f_entry f /\
  (forall i x, f_insn f i = Some x -> i_op x <> THROW \/ ~ placed_in f reach i -> f_insn g i = Some x) /\
  (forall i x, f_insn f i = Some x -> i_op x = THROW -> placed_in f reach i ->
     f_insn g i = Some (set_vals [mkVal (VConst 1) A_32 B_NONE] (set_op RET x))) /\
  (forall i, f_insn f i = None -> f_insn g i = None).
Proof.
  intros E. destruct (throw_spec reach f g E) as [S I]. split; [apply S|]. split; [apply S|]. split; [|split].
  - intros i x Hx K. rewrite I, Hx. destruct (in_blocks f reach i) eqn:B; [|reflexivity]. cbn. f_equal. apply thrown_other.
    destruct K as [K|K]; [exact K|]. apply placed_in_blocks in B. contradiction.
  - intros i x Hx O K. apply placed_in_blocks in K. rewrite I, K, Hx. cbn. unfold thrown. rewrite O. reflexivity.
  - intros i N. rewrite I, N. destruct (in_blocks f reach i); reflexivity.
Qed.
Lemma throw_runs reach f g : translate_throw reach f = Ok g -> closed f reach -> In (f_entry f) reach ->
  (forall b i x, In b reach -> In i (insns_of f b) -> f_insn f i = Some x -> i_op x = THROW -> i_vals x = []) ->
  ops_in g reach (fun o => o <> THROW) /\
  forall w bi n s, srun w bi g n 0 (f_entry g) s = option_map thr_out (srun w bi f n 0 (f_entry f) s).
Proof.
  intros E C En V. destruct (throw_spec reach f g E) as [S I]. split.
  - intros b i x B J Hx. assert (J' : In i (insns_of f b)) by (unfold insns_of in *; now rewrite (ss_block _ _ S) in J).
    assert (IB : in_blocks f reach i = true) by (apply in_blocks_iff; eauto). rewrite I, IB in Hx. destruct (f_insn f i) as [y|]; [|discriminate Hx].
    cbn in Hx. injection Hx as <-. unfold thrown, iop_eqb. destruct (iop_eq_dec (i_op y) THROW); [discriminate|assumption].
  - intros w bi n s. rewrite (ss_entry _ _ S). apply run_throw with (reach := reach); assumption.
Qed.
Lemma ops_inb f reach (P : iop -> bool) :
  forallb (fun b => forallb (fun i => match f_insn f i with Some x => P (i_op x) | None => true end) (insns_of f b)) reach = true ->
  ops_in f reach (fun o => P o = true).
Proof.
  intros H b i x B I Hx. rewrite forallb_forall in H. specialize (H b B). rewrite forallb_forall in H. specialize (H i I). now rewrite Hx in H.
Qed.
Lemma no_ecallb f reach :
  forallb (fun b => forallb (fun i => match f_insn f i with Some x => negb (iop_eqb (i_op x) ECALL) | None => true end) (insns_of f b)) reach = true ->
  no_ecall f reach.
Proof.
  intros H b i x B I Hx O. pose proof (ops_inb f reach (fun o => negb (iop_eqb o ECALL)) H b i x B I Hx) as K. cbn beta in K. rewrite O in K. discriminate K.
Qed.
Lemma short_phi_wit : exists f b i x p, accepted f [1; 2; 3] /\ In i (insns_of f b) /\ f_insn f i = Some x /\ i_op x = PHI /\
  In p (preds_of f b) /\ In p [1; 2; 3] /\ ~ In p (map snd (i_phi x)) /\ forall w bi s, sblock w bi f p b s = None.
Proof.
  exists short_phi, 3, 4, (mkInsn PHI [] VR_UNKNOWN (i_addr (insn0 0)) A_UNKNOWN 0 0 [(reg 1, 1)] 0 0 0 3 [5]), 2.
  split; [vm_compute; reflexivity|]. split; [apply existsb_in; vm_compute; reflexivity|]. split; [vm_compute; reflexivity|].
  split; [reflexivity|]. split; [apply existsb_in; vm_compute; reflexivity|]. split; [cbn; auto|].
  split; [cbn; intros [K|[]]; discriminate K|]. intros w bi s. vm_compute. reflexivity.
Qed.
