(** bpf_ir_printk_insns, core/aux/ir_utils.c 4-31. *)
From Verif Require Import M_Base M_Ir M_Edit M_Opts.
Open Scope nat_scope.

(** [i], [p]: where the first instruction goes; [msg]: the text, not used by the code *)
Definition printk_insns (f : func) (i : nat) (p : ipos) (msg : cstr) : outcome func :=
  do a <- create_at f i (K_allocarray VR_64 1) p;
  do s1 <- create_at (fst a) (snd a) (K_storeraw VR_8 (addr_val (val_insn (snd a)) 4) (val_const32 0)) P_BACK;
  do s2 <- create_at (fst s1) (snd s1) (K_storeraw VR_32 (addr_val (val_insn (snd a)) 0) (val_const32 1953069157)) P_BACK;
  do e <- create_at (fst s2) (snd s2) (K_getelemptr (snd a) (val_const32 0)) P_BACK;
  do c <- create_at (fst e) (snd e) (K_call 6) P_BACK;
  do f1 <- add_call_arg (fst c) (snd c) (val_insn (snd e));
  add_call_arg f1 (snd c) (val_const32 5).
