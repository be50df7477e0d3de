(** Property theorem C10. *)
From Verif Require Import Base Res Stream_Model Stream_Spec Stream_Proofs.
Local Open Scope N_scope.

(** C10: on every buffer of bytes, every sequence of operations runs without touching a byte
    outside the buffer (the model's [UB]) and gives exactly the results, errors and final
    position of the specification: reads that fit return the bytes (big-endian numbers) and
    advance by their width, the others report an error. *)
Theorem C10_stream_safe_and_exact : forall d ops,
  Forall (fun b => b < 256) d -> N.of_nat (length d) < 2 ^ 32 -> Forall sop_ok ops ->
  m_run [] (newStream d (N.of_nat (length d))) ops = Ok (spec_run d [] 0 ops).
Proof. exact stream_ok. Qed.
Print Assumptions C10_stream_safe_and_exact.

Example C10_demo :
  m_run [] (newStream [0xCA; 0xFE; 0xBA; 0xBE; 7] 5) [Tell; Read4; Read2; Skip (2 ^ 32 - 1); Seek 0; Read2; Read 4]
  = Ok ([([0], false); ([0xCAFEBABE], false); ([0x700], true); ([], true); ([], false); ([0xCAFE], false);
         ([0; 0; 0; 0], true)], 2).
Proof. vm_compute. reflexivity. Qed.
