(** C75: the disassembly of a program. *)
From Verif Require Import M_Base SpecWord SpecIsa M_Opts SpecOpts M_Tool SpecTool M_Disasm SpecDisasm L_Disasm L_DisasmList L_DisasmText.
Open Scope list_scope.
Open Scope Z_scope.

(** C75: two programs with the same listing behave alike wherever both are defined, if their 64-bit
    immediate loads have the same sources. *)
Theorem C75_listing_partial : forall p q t, print_prog p = Ok t -> print_prog q = Ok t -> Forall fits p -> Forall fits q ->
  Z.of_nat (List.length p) < 2 ^ 64 -> Z.of_nat (List.length q) < 2 ^ 64 ->
  (forall pc x y, fetch p pc = Some x -> fetch q pc = Some y -> b_code x = 24 -> b_src x = b_src y) ->
  forall w n pc s, isa_run w p n pc s <> IStuck -> isa_run w q n pc s <> IStuck -> isa_run w p n pc s = isa_run w q n pc s.
Proof. exact same_listing. Qed.
Print Assumptions C75_listing_partial.
(** An instruction that can be executed can be printed. *)
Theorem C75_prints : forall w p pc s x, fetch p pc = Some x -> fits x -> isa_step w p pc s <> IStuck ->
  exists t, print_insn x (fetch p (pc + 1)) = Ok t.
Proof. exact runs_prints. Qed.
Print Assumptions C75_prints.
(** The text of every line. *)
Theorem C75_text : forall x nx l, fits x -> describes x nx l -> print_insn x nx = Ok (line_of x l).
Proof. exact says_right. Qed.
Print Assumptions C75_text.
(** Whether a 64-bit immediate is a number or, say, a map is not printed: the two programs have the same
    listing and return different values. *)
Theorem C75_source_refuted : exists p q t w s n r r' s1 s2, Forall fits p /\ Forall fits q /\ print_prog p = Ok t /\ print_prog q = Ok t /\
  isa_run w p n 0 s = IExit r s1 /\ isa_run w q n 0 s = IExit r' s2 /\ r <> r'.
Proof.
  exists [mkBpf 24 0 0 0 7; mkBpf 0 0 0 0 0; mkBpf 149 0 0 0 0], [mkBpf 24 0 1 0 7; mkBpf 0 0 0 0 0; mkBpf 149 0 0 0 0].
  eexists. exists (mkWorld (fun _ _ _ m => ([], m)) (fun _ _ => 9)), (mkSt (repeat 0 11) (fun _ => 0) 0), 3%nat. do 4 eexists.
  assert (F : forall c d, 0 <= c < 256 -> 0 <= d < 16 -> fits (mkBpf c 0 d 0 7) /\ fits (mkBpf c 0 d 0 0)) by (intros; unfold fits; cbn; lia).
  split; [repeat constructor; apply F; lia|]. split; [repeat constructor; apply F; lia|].
  split; [vm_compute; reflexivity|]. split; [vm_compute; reflexivity|]. split; [cbv; reflexivity|]. split; [cbv; reflexivity|]. discriminate.
Qed.
Print Assumptions C75_source_refuted.
(** Printing instructions that cannot be executed may read behind a table or pass NULL for a string. *)
Theorem C75_undefined_refuted : exists x y nx, fits x /\ fits y /\ print_insn x (Some nx) = UB /\ print_insn y (Some nx) = UB /\
  b_code x mod 8 = 1 /\ b_code y mod 8 = 7.
Proof.
  exists (mkBpf 153 0 1 0 0), (mkBpf 231 0 0 0 0), (mkBpf 149 0 0 0 0). repeat split; cbn; try lia; vm_compute; reflexivity.
Qed.
Print Assumptions C75_undefined_refuted.
(** The dump of the blocks before the IR is made passes a copy of one instruction: for a 64-bit immediate
    load what follows the copy is read. *)
Theorem C75_pre_refuted : exists p x w s, fetch p 0 = Some x /\ Forall fits p /\ isa_step w p 0 s <> IStuck /\ print_pre x = UB /\
  exists t, print_insn x (fetch p 1) = Ok t.
Proof.
  exists [mkBpf 24 0 0 0 7; mkBpf 0 0 0 0 0; mkBpf 149 0 0 0 0]. eexists. exists (mkWorld (fun _ _ _ m => ([], m)) (fun _ _ => 9)), (mkSt (repeat 0 11) (fun _ => 0) 0).
  split; [reflexivity|]. split; [repeat constructor; unfold fits; cbn; lia|]. split; [cbv; discriminate|]. split; [reflexivity|].
  eexists. vm_compute. reflexivity.
Qed.
Print Assumptions C75_pre_refuted.
(** Two different programs (the fields that differ are not used) meet the hypotheses of [C75_listing_partial]. *)
Example C75_applies : exists p q t w s r s', p <> q /\ print_prog p = Ok t /\ print_prog q = Ok t /\ Forall fits p /\ Forall fits q /\
  Z.of_nat (List.length p) < 2 ^ 64 /\ Z.of_nat (List.length q) < 2 ^ 64 /\
  (forall pc x y, fetch p pc = Some x -> fetch q pc = Some y -> b_code x = 24 -> b_src x = b_src y) /\
  isa_run w p 9 0 s = IExit r s' /\ isa_run w q 9 0 s <> IStuck.
Proof.
  exists [mkBpf 183 1 0 0 (-5); mkBpf 85 1 0 1 (-5); mkBpf 95 1 1 0 3; mkBpf 191 0 1 0 0; mkBpf 149 0 0 0 0],
         [mkBpf 183 1 3 0 (-5); mkBpf 85 1 0 1 (-5); mkBpf 95 1 1 0 4; mkBpf 191 0 1 0 0; mkBpf 149 2 0 0 8].
  eexists. exists (mkWorld (fun _ _ _ m => ([], m)) (fun _ _ => 9)), (mkSt (repeat 0 11) (fun _ => 0) 0). do 2 eexists.
  split; [discriminate|]. split; [vm_compute; reflexivity|]. split; [vm_compute; reflexivity|].
  split; [repeat constructor; unfold fits; cbn; lia|]. split; [repeat constructor; unfold fits; cbn; lia|]. do 2 (split; [reflexivity|]).
  split; [|split; [cbv; reflexivity|cbv; discriminate]].
  intros pc x y FX _ C. exfalso. unfold fetch in FX. destruct (pc <? 0); [discriminate|]. apply nth_error_In in FX. cbn in FX.
  repeat (destruct FX as [<-|FX]; [discriminate C|]). exact FX.
Qed.
Example C75_demo : print_prog [mkBpf 24 2 0 0 (-1); mkBpf 0 0 0 0 1; mkBpf 97 0 1 (-4) 0; mkBpf 62 0 2 1 0; mkBpf 55 0 0 1 10; mkBpf 133 0 0 0 6; mkBpf 149 0 0 0 0] =
  match print_insn (mkBpf 24 2 0 0 (-1)) (Some (mkBpf 0 0 0 0 1)), print_insn (mkBpf 62 0 2 1 0) None with
  | Ok a, Ok b => Ok (lit "[0] " ++ a ++ lit "[2] (61) r0 = *(u32 *)(r1 -4)" ++ ["010"%char] ++ lit "[3] " ++ b ++
      lit "[4] (37) r0 s/= 10" ++ ["010"%char] ++ lit "[5] (85) call fun_+6#6" ++ ["010"%char] ++ lit "[6] (95) exit" ++ ["010"%char])
  | _, _ => UB
  end /\
  print_insn (mkBpf 24 2 0 0 (-1)) (Some (mkBpf 0 0 0 0 1)) = Ok (lit "(18) r2 = 0x1ffffffff (imm64 ld)" ++ ["010"%char]) /\
  print_insn (mkBpf 62 0 2 1 0) None = Ok (lit "(3e) if w0 >= w2 goto pc+1" ++ ["010"%char]).
Proof. split; [|split]; vm_compute; reflexivity. Qed.
(** The description is met by a line of every kind: here a signed division and a test of bits. *)
Example C75_describes : describes (mkBpf 63 3 4 1 0) None [T "r"; D 3; T " s"; T "/="; T " "; T "r"; D 4] /\
  describes (mkBpf 70 3 4 (-2) 255) None [T "if "; T "w"; D 3; T " & "; T "0x"; X 255; T " goto pc"; SD (-2)].
Proof.
  split.
  - exact (ds_signed (mkBpf 63 3 4 1 0) None true ADiv eq_refl eq_refl (or_introl eq_refl) eq_refl).
  - exact (ds_test (mkBpf 70 3 4 (-2) 255) None false eq_refl eq_refl).
Qed.
