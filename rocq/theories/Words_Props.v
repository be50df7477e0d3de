(** Property theorems C07, C16. *)
From Verif Require Import Base Res Words_Model Words_Spec Words_Proofs.
Local Open Scope N_scope.

(** C07: a field of up to 32 bits written anywhere inside the map is read back, truncated
    to its width, and every other bit of the map is unchanged. *)
Theorem C07_field_roundtrip : forall m n index v, (n <= 32)%nat -> wordsOk m ->
  index + N.of_nat n <= 64 * N.of_nat (length m) ->
  exists m', setBits m n index v = Ok m' /\ length m' = length m
    /\ getBits m' n index = Ok (v mod 2 ^ N.of_nat n)
    /\ forall k, k < index \/ index + N.of_nat n <= k -> k < 64 * N.of_nat (length m) -> getBit m' k = getBit m k.
Proof. exact field_roundtrip. Qed.
Print Assumptions C07_field_roundtrip.

(** Clearing a field reads back 0 and changes no other bit. *)
Theorem C07_clear_field : forall m n index, (n <= 32)%nat -> wordsOk m ->
  index + N.of_nat n <= 64 * N.of_nat (length m) ->
  exists m', clearBits m n index = Ok m' /\ length m' = length m
    /\ getBits m' n index = Ok 0
    /\ forall k, k < index \/ index + N.of_nat n <= k -> k < 64 * N.of_nat (length m) -> getBit m' k = getBit m k.
Proof. exact clear_roundtrip. Qed.
Print Assumptions C07_clear_field.

(** A field straddling a word boundary. *)
Example C07_demo : exists m', setBits [2 ^ 64 - 1; 0] 8 60 0xA5 = Ok m' /\ getBits m' 8 60 = Ok 0xA5
  /\ m' = [2 ^ 60 - 1 + 5 * 2 ^ 60; 10].
Proof. eexists. split; [vm_compute; reflexivity|split; vm_compute; reflexivity]. Qed.

(** C16, static tables: after any sequence of stores and object marks, every entry holds the
    last value stored into it and is reported an object iff it was marked. *)
Theorem C16_static_table : forall count ops, 0 < count < 2 ^ 31 ->
  Forall (pool_op_ok count) ops -> Forall no_float ops ->
  exists body body', makeSingletonOfSize count = Ok body /\ run count body ops = Ok body'
    /\ singletonCount body' = count
    /\ forall i, i < count -> singletonLoad body' i = Ok (stored ops i)
                           /\ singletonIsObject body' i = Ok (isObjectMarked ops i).
Proof. exact static_history. Qed.
Print Assumptions C16_static_table.

(** C16, constant pools: the same with the floating-point bits, whose position the readers
    recompute from the array length. *)
Theorem C16_constant_pool : forall count ops, 0 < count < 2 ^ 30 -> Forall (pool_op_ok count) ops ->
  exists body body', makePool count = Ok body /\ run count body ops = Ok body'
    /\ poolSize body' = count
    /\ forall i, i < count -> singletonLoad body' i = Ok (stored ops i)
                           /\ singletonIsObject body' i = Ok (isObjectMarked ops i)
                           /\ singletonBit body' (poolSize body') i = Ok (isFloatMarked ops i).
Proof. exact pool_history. Qed.
Print Assumptions C16_constant_pool.

Example C16_demo : exists b, bind (makePool 64) (fun b => run 64 b
    [Store 63 7; MarkObject 61; MarkFloat 63; MarkObject 62; MarkFloat 0; Store 0 (2 ^ 64 - 1)]) = Ok b
  /\ length b = 67%nat /\ poolSize b = 64
  /\ singletonIsObject b 61 = Ok true /\ singletonIsObject b 63 = Ok false /\ singletonBit b 64 63 = Ok true.
Proof. eexists. split; [vm_compute; reflexivity|]. repeat split; vm_compute; reflexivity. Qed.
