(** The passes that epasstool runs by default, from the bytecode to the generated code:
    bpf_ir_autorun, core/bpf_ir.c 1941-1990, with the pre passes of epasstool.c 10-12 (the post passes
    13-18 are off), and bpf_ir_compile, core/ir_cg.c 1316-1408, with cg_init_passes 16-25 (the third is
    off).  Every pass is followed by bpf_ir_pass_postprocess, core/bpf_ir.c 1762-1775.
    The pass runner itself is M_Run.v.  One fuel serves all loops.  Definitions only.
    Not modelled: printing, timing, and the options that switch checks off. *)
From Verif Require Import SpecWord.
From Verif Require Import SpecIsa M_Base M_Ir M_Edit M_Lift M_Layout M_Check M_Norm M_Ra M_Pass M_Ecall.
Open Scope nat_scope.

(** fun->function_arg of a lifted function (fun->sp is M_Lift.sp_id) *)
Definition arg_ids : list nat := [2; 3; 4; 5; 6].

(** bpf_ir_pass_postprocess, 1762-1775: the function and fun->reachable_bbs *)
Definition postprocess (fuel : nat) (f : func) : outcome (func * list nat) :=
  do r <- layout fuel f;
  do _ <- prog_check (fst r) (fst (snd r)) sp_id arg_ids;
  Ok (fst r, fst (snd r)).
(** run_single_pass, 1777-1791 *)
Definition then_post (fuel : nat) (pass : list nat -> func -> outcome func) (s : func * list nat) : outcome (func * list nat) :=
  do g <- pass (snd s) (fst s); postprocess fuel g.
(** bpf_ir_lift, 1910-1939, bpf_ir_run, 1822-1850, and the passes of bpf_ir_compile up to the last one *)
Definition front (fuel : nat) (no_dead no_opt : bool) (p : list bpf_insn) : outcome (func * list nat) :=
  do f <- lift fuel fuel p;
  do s0 <- postprocess fuel f;
  do s1 <- then_post fuel (remove_trivial_phi fuel) s0;
  do s2 <- then_post fuel (handle_ecalls fuel) s1;
  do s3 <- then_post fuel translate_throw s2;
  then_post fuel (optimize_ir fuel no_dead no_opt) s3.
(** the last pass, ir_cg.c 24; [cap] is the capacity of the array of the users of fun->sp *)
Definition cg_input (fuel cap : nat) (no_dead no_opt : bool) (p : list bpf_insn) : outcome (func * list nat) :=
  do s <- front fuel no_dead no_opt p;
  then_post fuel (fun _ => stack_offset_pre sp_id cap) s.
