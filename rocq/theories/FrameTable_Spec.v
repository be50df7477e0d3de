(** What the collector must be told at a call. *)
From Coq Require Import ZArith Lia Bool List Sorted.
From Verif Require Import FrameTable_Model.
Import ListNotations.
Local Open Scope Z_scope.

(** The slots of a frame of [mapSize] slots that the map of the call has, up to the
    arguments of the call. *)
Definition slotsOf (mapSize : Z) (e : elem) : list Z :=
  filter (fun j => (j <? argumentIndex e) && Z.testbit (bits e) j)
         (map Z.of_nat (seq 0 (Z.to_nat mapSize))).

(** Calls in order of their addresses, as sorted by the compiler. *)
Definition inOrder (mapSize : Z) (es : list elem) : Prop :=
  StronglySorted (fun a b => offset a < offset b) es
  /\ Forall (fun e => 0 <= offset e < 2 ^ 31 /\ 0 <= argumentIndex e <= mapSize) es.

(** The sizes that the 32-bit arithmetic can deal with. *)
Definition fits (mapSize n : Z) : Prop :=
  0 <= mapSize /\ n * mapSize < 2 ^ 31 /\ n < 2 ^ 31
  /\ (n + (n * mapSize + 31) / 32) * mapSize + mapSize + 32 < 2 ^ 32.
