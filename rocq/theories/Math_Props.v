(** Properties of the integer helpers every table-sizing decision in the VM rests on. *)
From Verif Require Import Base Math_Model Math_Proofs.
Local Open Scope N_scope.

(** C51: for every request up to 2^31 the helper returns the least power of two that is
    not smaller. *)
Theorem nextPowerOfTwo_least : forall n, n <= 2 ^ 31 ->
  exists j, j <= 31 /\ nextPowerOfTwo n = Some (2 ^ j) /\ n <= 2 ^ j
            /\ (j = 0 \/ 2 ^ (j - 1) < n).
Proof. exact nextPowerOfTwo_spec. Qed.
Print Assumptions nextPowerOfTwo_least.

(** ... and above 2^31 the loop never ends, whatever number of iterations it is given. *)
Theorem nextPowerOfTwo_total_refuted : exists n, n < 2 ^ 32 /\
  forall fuel, nextPowerOfTwo_loop fuel 1 n = None.
Proof.
  exists (2 ^ 31 + 1). split; [reflexivity|].
  intro fuel. exact (nextPowerOfTwo_diverges fuel (2 ^ 31 + 1) eq_refl).
Qed.
Print Assumptions nextPowerOfTwo_total_refuted.

Theorem log_ceil : forall n, n <= 2 ^ 31 ->
  exists j, ulog n = Some j /\ n <= 2 ^ j /\ (j = 0 \/ 2 ^ (j - 1) < n).
Proof. exact ulog_spec. Qed.
Print Assumptions log_ceil.

Theorem ceilingDivide_ceil : forall n d, 0 < d -> n + d <= 2 ^ 32 ->
  exists q, ceilingDivide n d = Some q /\ d * q >= n /\ (q = 0 \/ d * (q - 1) < n).
Proof. exact ceilingDivide_spec. Qed.
Print Assumptions ceilingDivide_ceil.

Example npot_ex : nextPowerOfTwo 1000 = Some 1024 /\ nextPowerOfTwo (2 ^ 31) = Some (2 ^ 31)
  /\ ulog 1000 = Some 10 /\ ceilingDivide 130 64 = Some 3.
Proof. vm_compute. auto. Qed.
