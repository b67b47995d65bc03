(** Numbers for printing. *)
From Verif Require Import M_Base M_Ir SpecIr SpecLayout M_Tag.
Open Scope nat_scope.

(** [i] is an instruction of a reachable block and has a result. *)
Definition shown (f : func) (i : nat) : Prop :=
  exists b x, reach f (f_entry f) b /\ In i (insns_of f b) /\ f_insn f i = Some x /\ is_void_op (i_op x) = false.
(** Exactly the reachable blocks, and the instructions in them that have results, have numbers; no number
    is given twice, and none is left out. *)
Record numbered (f : func) (s : tags) : Prop := {
  nb_block : forall b, f_block f b <> None -> (exists k, t_bid s b = Some k) <-> reach f (f_entry f) b;
  nb_insn : forall b i, In i (insns_of f b) -> (exists k, t_iid s i = Some k) <-> shown f i;
  nb_block_inj : forall b c k, f_block f b <> None -> f_block f c <> None -> t_bid s b = Some k -> t_bid s c = Some k -> b = c;
  nb_insn_inj : forall b c i j k, In i (insns_of f b) -> In j (insns_of f c) -> t_iid s i = Some k -> t_iid s j = Some k -> i = j;
  nb_block_all : forall b k j, f_block f b <> None -> t_bid s b = Some k -> j < k -> exists c, f_block f c <> None /\ t_bid s c = Some j;
  nb_insn_all : forall b i k j, In i (insns_of f b) -> t_iid s i = Some k -> j < k -> exists i' c, In i' (insns_of f c) /\ t_iid s i' = Some j;
  nb_order : forall b l1 i l2 j l3 k m, insns_of f b = l1 ++ i :: l2 ++ j :: l3 -> t_iid s i = Some k -> t_iid s j = Some m -> k < m;
  nb_entry : t_bid s (f_entry f) = Some 0;
  nb_vis : forall b, f_block f b <> None -> t_vis s b = false }.
