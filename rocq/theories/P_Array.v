(** C01: the growable array is a sequence. *)
From Verif Require Import M_Base M_Array SpecSeq L_Array.

(** For every history of calls from a fresh array: no call is undefined behaviour, every read returns
    what the same read on a plain sequence returns, and the final content is that sequence. *)
Theorem C01_array_is_sequence : forall os : list arr_op,
  exists a, arr_run arr_init os = Ok (a, snd (seq_run [] os)) /\
            arr_dump a = Ok (fst (seq_run [] os)) /\
            a_num a = length (fst (seq_run [] os)).
Proof. exact arr_refines_seq. Qed.
Print Assumptions C01_array_is_sequence.

(** A history that grows the buffer twice, erases in the middle and pushes duplicates. *)
Example C01_history :
  seq_run [] [OPush 1; OPush 2; OPush 3; OErase 1; OPushU 3; OPushU 9; OPush 4; OPush 5; OClone; OMerge [5; 6]; OGet 2; OGet 9]%Z
  = ([1; 3; 9; 4; 5; 6], [None; None; None; None; None; None; None; None; None; None; Some (Some 9); Some None])%Z.
Proof. vm_compute. reflexivity. Qed.
