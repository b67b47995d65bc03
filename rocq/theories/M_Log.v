(** The log buffer: core/ir_helper.c 738-786.  A message is the formatted text (a list of non-NUL
    characters); formatting itself is vsprintf's business.  The log has BPF_IR_LOG_SIZE = 100000 bytes. *)
From Verif Require Import M_Base.
From Coq Require Export Ascii.
Open Scope Z_scope.

Definition log_size : Z := 100000.
Record log := mkLog { lg_buf : Z -> ascii; lg_pos : Z }.
Definition zlen {A} (l : list A) : Z := Z.of_nat (length l).
(** memcpy (log + pos, msg, len) *)
Definition put (b : Z -> ascii) (pos : Z) (msg : list ascii) : Z -> ascii :=
  fun i => if (pos <=? i) && (i <? pos + zlen msg) then nth (Z.to_nat (i - pos)) msg zero else b i.

(** bpf_ir_print_to_log, 738-758.  buf has 200 bytes, and vsprintf appends NUL. *)
Definition print_to_log (verbose level : Z) (msg : list ascii) (l : log) : outcome log :=
  if verbose <? level then Ok l
  else if 200 <=? zlen msg then UB
  else let pos := if log_size <=? lg_pos l + zlen msg then 0 else lg_pos l in
       if log_size <? pos + zlen msg then UB
       else Ok (mkLog (put (lg_buf l) pos msg) (pos + zlen msg)).

(** bpf_ir_print_log_dbg, 761-786: the inner loop copies up to a newline or 1000 characters from
    position i; returns the line and the next position. [n] bounds the iterations. *)
Definition nl : ascii := ascii_of_nat 10.
Fixpoint copy_line (n : nat) (b : Z -> ascii) (pos i : Z) (j : Z) : outcome (list ascii * Z) :=
  match n with
  | O => NoFuel
  | S k =>
    if (i <? pos) && (j <? 1000) then
      if ascii_dec (b i) nl then (if j + 1 <? 1000 then Ok ([b i], i + 1) else UB)
      else do x <- copy_line k b pos (i + 1) (j + 1); Ok (b i :: fst x, snd x)
    else if j <? 1000 then Ok ([], i) else UB
  end.
Fixpoint print_lines (n : nat) (b : Z -> ascii) (pos i : Z) : outcome (list (list ascii)) :=
  match n with
  | O => NoFuel
  | S k =>
    if i <? pos then
      do x <- copy_line 1001 b pos i 0;
      do r <- print_lines k b pos (snd x);
      Ok (fst x :: r)
    else Ok []
  end.
(** the text printed between the header and the footer *)
Definition print_log (verbose : Z) (l : log) : outcome (list (list ascii)) :=
  if (verbose =? 0) || (lg_pos l =? 0) then Ok []
  else if log_size <=? lg_pos l then UB   (* log[log_pos] = 0 *)
  else print_lines (Z.to_nat (lg_pos l) + 1) (lg_buf l) (lg_pos l) 0.
