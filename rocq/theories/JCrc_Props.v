From Coq Require Import NArith List Bool.
From Verif Require Import JCrc_Model JCrc_Spec JCrc_Proofs.
Import ListNotations.
Local Open Scope N_scope.

(** * C174: CRC32 is the checksum of zip

    Along every sequence of calls, getValue gives the CRC-32 of the bytes given since the
    beginning or the last reset, in whatever pieces they came, and the table is never left. *)
Theorem C174_crc32_is_the_checksum : forall cs, run cs InitialRemainder = Some (values cs []).
Proof.
  intro cs. destruct remainderOf_nil as [E W]. rewrite E. exact (run_ok cs [] W).
Qed.
(** The value of the standard for "123456789", and in two pieces. *)
Example crc_somewhere :
  values [UpdateArray [49; 50; 51; 52; 53; 54; 55; 56; 57]; GetValue] [] = [0xCBF43926] /\
  run [UpdateByte 0; Reset; UpdateArray [49; 50; 51; 52]; GetValue; UpdateByte 53; UpdateArray [54; 55; 56; 57]; GetValue] InitialRemainder = Some [0x9BE3E0A3; 0xCBF43926].
Proof. vm_compute. split; reflexivity. Qed.
Definition JCrc_theorems := C174_crc32_is_the_checksum.
Print Assumptions JCrc_theorems.
