(** Functions with stack arrays and spilled values. *)
From Coq Require Import ZArith List.
From Verif Require Import SpecWord SpecIsa M_Base M_Ir M_Edit M_Layout M_Norm M_GenBB M_Lift M_Ra SpecIr SpecRa SpecFrame
  L_LiftEx L_LiftWit L_GenBBEx L_RaCheck L_RaWit L_RaLive L_Frame.
Import ListNotations.
Open Scope nat_scope.

Definition trim (f : func) : func := with_insn (fun i => if i <? f_ni f then f_insn f i else None) f.
Lemma trim_fresh f : fresh (trim f).
Proof. intros i L. unfold trim, with_insn in *. cbn [f_insn f_ni] in *. destruct (Nat.ltb_spec i (f_ni f)); [lia|reflexivity]. Qed.

(** a lifted program with an array of [n] words in front; [r] is an additional value kept alive across
    the program when [keep] *)
Definition with_array (p : list bpf_insn) (n : Z) (keep : bool) : outcome (func * list nat * nat) :=
  do f <- lift 20 400 p;
  do a <- create_at_bb f (f_entry f) (K_allocarray VR_64 n) P_FRONT;
  do g <- (if keep then
             do b <- create_at_bb (fst a) (f_entry f) (K_loadraw VR_64 (mkAddr (val_insn sp_id) (-24) O_RAWOFF)) P_FRONT;
             do c <- create_at_bb (fst b) (f_entry f) (K_storeraw VR_64 (mkAddr (val_insn sp_id) (-24) O_RAWOFF) (val_insn (snd b))) P_BACK_BEFORE_JMP;
             Ok (fst c)
           else Ok (fst a));
  do r <- laid g; Ok (trim (fst r), snd r, snd a).
Definition arr (p : list bpf_insn) (n : Z) (keep : bool) : func * list nat * nat := get_ok (f0, [], 0) (with_array p n keep).

Definition stages (r : func * list nat) : outcome (cgs * cgs * cgs * cgs * cgs * cgs * cgs * cgs) :=
  do sa <- init_cg (fst r) (snd r) sp_id [2;3;4;5;6];
  do sb <- change_call sa; do sc <- change_fun_arg sb; do sd <- spill_array sc; do s1 <- spill_const sd;
  do s2 <- ra_loop 6 100 (fun _ => ident) (fun _ => ident) Ok s1;
  do s3 <- assign s2; do s4 <- ssa_out s3;
  Ok (sa, sb, sc, sd, s1, s2, s3, s4).

Definition sums : list bpf_insn :=
  [Bst 1; Bld 0; Bld 1; Bld 2; Bld 3; Bld 4; Bld 5; Bld 6; Bld 7; Bld 8; Bld 9;
   Badd 0 1; Badd 0 2; Badd 0 3; Badd 0 4; Badd 0 5; Badd 0 6; Badd 0 7; Badd 0 8; Badd 0 9; Bexit]%Z.
Definition small : list bpf_insn := [Bst 1; Bld 0; Bexit]%Z.
Lemma stages_ok r (P : cgs -> cgs -> cgs -> bool) :
  match stages r with Ok (_, _, sc, _, _, _, s3, s4) => P sc s3 s4 | _ => false end = true ->
  exists sc s3 s4, compiled (fst r) (snd r) sp_id [2;3;4;5;6] 100 (fun _ => ident) (fun _ => ident) Ok sc s3 s4 /\ P sc s3 s4 = true.
Proof.
  destruct (stages r) as [t| | | |] eqn:E; try discriminate. unfold stages in E.
  bo E sa Ea. bo E sb Eb. bo E sc Ec. bo E sd Ed. bo E s1 E1. bo E s2 E2. bo E s3 E3. bo E s4 E4. injection E as <-. intros H.
  exists sc, s3, s4. split; [|exact H]. exists sa, sb, sd, s1, s2. auto 10.
Qed.

(** boolean forms *)
Definition countsb (s : cgs) : bool :=
  forallb (fun i => match f_insn (c_f s) i with Some x => implb (iop_eqb (i_op x) ALLOCARRAY) (0 <=? i_u x)%Z | None => true end)
    (flat_map (insns_of (c_f s)) (c_reach s)).
Lemma countsb_ok s : countsb s = true -> counts_ok s.
Proof.
  intros H i x (L & F & O). apply flat_linked in L. unfold countsb in H. rewrite forallb_forall in H. specialize (H i L).
  rewrite F, O in H. cbn in H. now apply Z.leb_le.
Qed.
Definition arrayb (s : cgs) (i : nat) (n : Z) : bool :=
  existsb (Nat.eqb i) (flat_map (insns_of (c_f s)) (c_reach s)) &&
  match f_insn (c_f s) i with Some x => iop_eqb (i_op x) ALLOCARRAY && (array_bytes x =? n)%Z | None => false end.
Lemma arrayb_ok s i n : arrayb s i n = true -> exists x, is_array s i x /\ array_bytes x = n.
Proof.
  unfold arrayb. intros H. apply andb_prop in H as [A B]. apply existsb_exists in A as (j & J & A). apply Nat.eqb_eq in A. subst j.
  destruct (f_insn (c_f s) i) as [x|] eqn:F; [|discriminate B]. apply andb_prop in B as [B C]. exists x. split; [|now apply Z.eqb_eq].
  split; [now apply flat_linked|]. split; [exact F|]. unfold iop_eqb in B. destruct (iop_eq_dec _ _); congruence.
Qed.
Definition regionb (s : cgs) (i : nat) (o n : Z) : bool :=
  match region s i with Some (a, b) => (a =? o)%Z && (b =? n)%Z | None => false end.
Lemma regionb_ok s i o n : regionb s i o n = true -> region s i = Some (o, n).
Proof.
  unfold regionb. destruct (region s i) as [[a b]|]; [|discriminate]. rewrite andb_true_iff, !Z.eqb_eq. intros [-> ->]. reflexivity.
Qed.
(** a raw access to the program's own frame *)
Definition ownb (s : cgs) (i : nat) (off : Z) : bool :=
  existsb (Nat.eqb i) (flat_map (insns_of (c_f s)) (c_reach s)) &&
  match f_insn (c_f s) i with
  | Some x => iop_eqb (i_op x) LOADRAW && match a_ot (i_addr x) with O_RAWOFF => true | _ => false end && (a_off (i_addr x) =? off)%Z &&
              match v_data (a_val (i_addr x)) with VInsn d => d =? sp_id | _ => false end
  | None => false
  end.
Lemma ownb_ok s i off : ownb s i off = true -> exists x, own_access sp_id s i x /\ a_off (i_addr x) = off.
Proof.
  unfold ownb. intros H. apply andb_prop in H as [A B]. apply existsb_exists in A as (j & J & A). apply Nat.eqb_eq in A. subst j.
  destruct (f_insn (c_f s) i) as [x|] eqn:F; [|discriminate B]. rewrite !andb_true_iff in B. destruct B as (((B & C) & D) & G). exists x.
  split; [|now apply Z.eqb_eq]. split; [now apply flat_linked|]. split; [exact F|].
  split; [unfold iop_eqb in B; destruct (iop_eq_dec _ _); congruence|].
  split; [destruct (a_ot (i_addr x)); congruence|]. destruct (v_data (a_val (i_addr x))); try discriminate G. apply Nat.eqb_eq in G. congruence.
Qed.
Definition offb (s : cgs) (i : nat) (off : Z) : bool :=
  match f_insn (c_f s) i with Some x => (a_off (i_addr x) =? off)%Z | None => false end.
Lemma offb_ok s i off : offb s i off = true -> exists x, f_insn (c_f s) i = Some x /\ a_off (i_addr x) = off.
Proof. unfold offb. destruct (f_insn (c_f s) i) as [x|]; [|discriminate]. rewrite Z.eqb_eq. eauto. Qed.

Definition demo : func * list nat := fst (arr sums 5 true).
Definition demo_arr : nat := snd (arr sums 5 true).
Definition big : func * list nat := fst (arr small 8192 true).
Definition big_arr : nat := snd (arr small 8192 true).
Definition wrap : func * list nat := fst (arr small (2 ^ 29 + 1) true).
Definition wrap_arr : nat := snd (arr small (2 ^ 29 + 1) true).
Definition huge : func * list nat := fst (arr small (2 ^ 28 + 1) true).
Definition huge_arr : nat := snd (arr small (2 ^ 28 + 1) true).


Definition sound (r : func * list nat) : Prop := fresh (fst r) /\ sp_id < f_ni (fst r).
Lemma arr_sound p n k : is_ok (with_array p n k) = true -> (sp_id <? f_ni (fst (fst (arr p n k)))) = true -> sound (fst (arr p n k)).
Proof.
  intros H L. apply Nat.ltb_lt in L. split; [|exact L]. unfold arr. unfold with_array in *. clear L.
  destruct (lift 20 400 p); try discriminate H. cbn [bind] in *.
  destruct (create_at_bb _ _ (K_allocarray _ _) _); try discriminate H. cbn [bind] in *.
  match goal with |- context [do g <- ?e; _] => destruct e; try discriminate H end. cbn [bind] in *.
  destruct (laid _); try discriminate H. cbn [bind get_ok fst snd]. apply trim_fresh.
Qed.
Lemma demo_sound : sound demo.
Proof. apply arr_sound; vm_compute; reflexivity. Qed.
Lemma demo_stages : exists sc s3 s4 x,
    compiled (fst demo) (snd demo) sp_id [2;3;4;5;6] 100 (fun _ => ident) (fun _ => ident) Ok sc s3 s4 /\
    counts_ok sc /\ (arrays_words sc < 2 ^ 27)%Z /\ is_array sc demo_arr x /\ array_bytes x = 40%Z /\
    region s4 demo_arr = Some (-40, 40)%Z /\ c_off s4 = (-56)%Z /\ (exists v w, v <> w /\ region s4 v = Some (-48, 8)%Z /\ region s4 w = Some (-56, 8)%Z).
Proof.
  destruct (stages_ok demo (fun sc s3 s4 => countsb sc && (arrays_words sc <? 2 ^ 27)%Z && arrayb sc demo_arr 40 &&
     regionb s4 demo_arr (-40) 40 && (c_off s4 =? -56)%Z && regionb s4 42 (-48) 8 && regionb s4 45 (-56) 8)) as (sc & s3 & s4 & H); [vm_compute; reflexivity|].
  rewrite !andb_true_iff in H. destruct H as (Hc & (((((A & B) & C) & D) & E) & F) & G).
  apply arrayb_ok in C as (x & C & C1). apply Z.ltb_lt in B. apply Z.eqb_eq in E. apply regionb_ok in D, F, G.
  exists sc, s3, s4, x. repeat (split; [assumption|]). split; [now apply countsb_ok|]. repeat (split; [assumption|]).
  exists 42, 45. split; [lia|]. split; assumption.
Qed.

(** the array is at the place of the program's own frame *)
Lemma big_overlap : exists sc s3 s4 i x y o n,
    compiled (fst big) (snd big) sp_id [2;3;4;5;6] 100 (fun _ => ident) (fun _ => ident) Ok sc s3 s4 /\
    own_access sp_id s3 i x /\ a_off (i_addr x) = (-8)%Z /\ f_insn (c_f s4) i = Some y /\
    region s4 big_arr = Some (o, n) /\ (o <= a_off (i_addr y))%Z /\ (a_off (i_addr y) + 8 <= o + n)%Z.
Proof.
  destruct (stages_ok big (fun sc s3 s4 => ownb s3 8 (-8) && offb s4 8 (-8) && regionb s4 big_arr (-65536) 65536))
    as (sc & s3 & s4 & H); [vm_compute; reflexivity|].
  rewrite !andb_true_iff in H. destruct H as (Hc & (A & B) & C).
  apply ownb_ok in A as (x & A & A1). apply offb_ok in B as (y & B & B1). apply regionb_ok in C.
  exists sc, s3, s4, 8, x, y, (-65536)%Z, 65536%Z. repeat (split; [assumption|]). rewrite B1. lia.
Qed.
(** an array of more than four gigabytes gets eight bytes *)
Lemma wrap_small : exists sc s3 s4 x o n,
    compiled (fst wrap) (snd wrap) sp_id [2;3;4;5;6] 100 (fun _ => ident) (fun _ => ident) Ok sc s3 s4 /\
    is_array sc wrap_arr x /\ region s4 wrap_arr = Some (o, n) /\ (n < array_bytes x)%Z.
Proof.
  destruct (stages_ok wrap (fun sc s3 s4 => arrayb sc wrap_arr (2 ^ 32 + 8) && regionb s4 wrap_arr (-8) 8))
    as (sc & s3 & s4 & H); [vm_compute; reflexivity|].
  rewrite !andb_true_iff in H. destruct H as (Hc & A & B).
  apply arrayb_ok in A as (x & A & A1). apply regionb_ok in B.
  exists sc, s3, s4, x, (-8)%Z, 8%Z. repeat (split; [assumption|]). rewrite A1. reflexivity.
Qed.
(** an array of more than two gigabytes is placed above the frame pointer *)
Lemma huge_above : exists sc s3 s4 x o n,
    compiled (fst huge) (snd huge) sp_id [2;3;4;5;6] 100 (fun _ => ident) (fun _ => ident) Ok sc s3 s4 /\
    is_array sc huge_arr x /\ region s4 huge_arr = Some (o, n) /\ (0 < o)%Z.
Proof.
  destruct (stages_ok huge (fun sc s3 s4 => arrayb sc huge_arr (2 ^ 31 + 8) && regionb s4 huge_arr (2 ^ 31 - 8) (2 ^ 31 + 8)))
    as (sc & s3 & s4 & H); [vm_compute; reflexivity|].
  rewrite !andb_true_iff in H. destruct H as (Hc & A & B).
  apply arrayb_ok in A as (x & A & A1). apply regionb_ok in B.
  exists sc, s3, s4, x, (2 ^ 31 - 8)%Z, (2 ^ 31 + 8)%Z. repeat (split; [assumption|]). reflexivity.
Qed.

Lemma demo_applies : exists sc s3 s4 x,
  (forall i, f_ni (fst demo) <= i -> f_insn (fst demo) i = None) /\ sp_id < f_ni (fst demo) /\
  compiled (fst demo) (snd demo) sp_id [2;3;4;5;6] 100 (fun _ => ident) (fun _ => ident) Ok sc s3 s4 /\
  counts_ok sc /\ (arrays_words sc < 2 ^ 27)%Z /\ is_array sc demo_arr x /\ array_bytes x = 40%Z /\
  region s4 demo_arr = Some (-40, 40)%Z /\ c_off s4 = (-56)%Z /\
  exists v w, v <> w /\ region s4 v = Some (-48, 8)%Z /\ region s4 w = Some (-56, 8)%Z.
Proof.
  destruct demo_sound as [A B]. destruct demo_stages as (sc & s3 & s4 & x & H). exists sc, s3, s4, x. split; [exact A|]. split; [exact B|]. exact H.
Qed.
Lemma shift_wrong : exists f reach sp args om os sc s3 s4 a i x y o n,
  compiled f reach sp args 100 om os Ok sc s3 s4 /\
  own_access sp s3 i x /\ a_off (i_addr x) = (-8)%Z /\ f_insn (c_f s4) i = Some y /\
  region s4 a = Some (o, n) /\ (o <= a_off (i_addr y))%Z /\ (a_off (i_addr y) + 8 <= o + n)%Z.
Proof.
  destruct big_overlap as (sc & s3 & s4 & i & x & y & o & n & H).
  exists (fst big), (snd big), sp_id, [2;3;4;5;6], (fun _ => ident), (fun _ => ident), sc, s3, s4, big_arr, i, x, y, o, n. exact H.
Qed.
Lemma size_wrong : exists f reach sp args om os sc s3 s4 a x o n,
  compiled f reach sp args 100 om os Ok sc s3 s4 /\
  is_array sc a x /\ region s4 a = Some (o, n) /\ (n < array_bytes x)%Z.
Proof.
  destruct wrap_small as (sc & s3 & s4 & x & o & n & H).
  exists (fst wrap), (snd wrap), sp_id, [2;3;4;5;6], (fun _ => ident), (fun _ => ident), sc, s3, s4, wrap_arr, x, o, n. exact H.
Qed.
Lemma above_wrong : exists f reach sp args om os sc s3 s4 a x o n,
  compiled f reach sp args 100 om os Ok sc s3 s4 /\
  is_array sc a x /\ region s4 a = Some (o, n) /\ (0 < o)%Z.
Proof.
  destruct huge_above as (sc & s3 & s4 & x & o & n & H).
  exists (fst huge), (snd huge), sp_id, [2;3;4;5;6], (fun _ => ident), (fun _ => ident), sc, s3, s4, huge_arr, x, o, n. exact H.
Qed.

(** the hypotheses of the statements on single steps *)
Lemma own_applies : exists s t i x,
  frame_ok s /\ NoDup (flat_map (insns_of (c_f s)) (c_reach s)) /\ add_stack_offset s (c_off s) = Ok t /\
  (- 2 ^ 15 <= c_off s <= 0)%Z /\ linked s i /\ f_insn (c_f s) i = Some x /\ (i_op x = LOADRAW \/ i_op x = STORERAW) /\
  a_ot (i_addr x) = O_RAWOFF /\ (- 2 ^ 15 <= a_off (i_addr x) + c_off s)%Z /\ (a_off (i_addr x) + 8 <= 0)%Z /\ region s demo_arr = Some (-40, 40)%Z.
Proof.
  destruct (stages_ok demo (fun sc s3 s4 => countsb sc && (arrays_words sc <? 2 ^ 27)%Z && nodupb (flat_map (insns_of (c_f s3)) (c_reach s3)) &&
     is_ok (add_stack_offset s3 (c_off s3)) && (c_off s3 =? -56)%Z && regionb s3 demo_arr (-40) 40 && ownb s3 8 (-8))) as (sc & s3 & s4 & H); [vm_compute; reflexivity|].
  rewrite !andb_true_iff in H. destruct H as (Hc & (((((A & B) & C) & D) & E) & F) & G).
  apply Z.ltb_lt in B. apply Z.eqb_eq in E. apply regionb_ok in F. apply ownb_ok in G as (x & (G1 & G2 & G3 & G4 & G5) & G6). destruct demo_sound as [S1 S2].
  destruct (regions_ok _ _ _ _ 100 _ _ Ok _ _ _ S1 S2 ltac:(intros s t Q; now injection Q) ltac:(reflexivity) Hc (countsb_ok _ A) B) as (_ & Fr & _).
  destruct (add_stack_offset s3 (c_off s3)) as [t| | | |] eqn:T; try discriminate D. exists s3, t, 8, x.
  split; [exact Fr|]. split; [now apply nodupb_ok|]. split; [exact T|]. rewrite E, G6. split; [split; discriminate|]. split; [exact G1|]. split; [exact G2|].
  split; [now left|]. split; [exact G4|]. split; [discriminate|]. split; [discriminate|exact F].
Qed.
Lemma spilled_applies : exists s v x t,
  frame_ok s /\ data_below s /\ (c_off s <= 0)%Z /\ (c_off s mod 8 = 0)%Z /\ (- 2 ^ 31 <= c_off s - 8)%Z /\
  f_insn (c_f s) v = Some x /\ i_op x = LOADRAW /\ i_users x <> [] /\ spill_one s v = Ok t.
Proof.
  destruct demo_sound as [S1 S2].
  destruct (init_cg (fst demo) (snd demo) sp_id [2;3;4;5;6]) as [s| | | |] eqn:I;
    [|exfalso; assert (K : is_ok (init_cg (fst demo) (snd demo) sp_id [2;3;4;5;6]) = true) by (vm_compute; reflexivity); rewrite I in K; discriminate K ..].
  destruct (init_winv _ _ _ _ _ S1 S2 I) as ([F D N A] & _ & Z0 & _).
  assert (Q : match init_cg (fst demo) (snd demo) sp_id [2;3;4;5;6] with
              | Ok s => match f_insn (c_f s) 8 with Some x => iop_eqb (i_op x) LOADRAW && negb (match i_users x with [] => true | _ => false end) | None => false end && is_ok (spill_one s 8)
              | _ => false end = true) by (vm_compute; reflexivity).
  rewrite I in Q. apply andb_prop in Q as [Q1 Q2]. destruct (f_insn (c_f s) 8) as [x|] eqn:X; [|discriminate Q1]. apply andb_prop in Q1 as [Q1 Q3].
  destruct (spill_one s 8) as [t| | | |] eqn:T; try discriminate Q2. exists s, 8, x, t. split; [exact F|]. split; [exact D|]. split; [exact N|]. split; [exact A|].
  rewrite Z0. split; [discriminate|]. split; [exact X|]. split; [unfold iop_eqb in Q1; destruct (iop_eq_dec _ _); congruence|]. split; [|exact T].
  intros U. rewrite U in Q3. discriminate Q3.
Qed.
