(** What the order of the machine code should be. *)
From Coq Require Import List Arith Bool.
Import ListNotations.

(** The positions of the events of instruction [i]. *)
Definition positions (i : nat) (evs : list nat) : list nat := filter (fun p => nth p evs 0 =? i) (seq 0 (length evs)).
(** All events, by instruction in bytecode order, those of one instruction in the order they were made. *)
Definition inOrder (count : nat) (evs : list nat) : list nat := flat_map (fun i => positions i evs) (seq 0 count).
(** The events of every instruction follow one another. *)
Definition together (evs : list nat) : Prop :=
  forall p q r, p < q -> q < r -> r < length evs -> nth p evs 0 = nth r evs 0 -> nth q evs 0 = nth p evs 0.
(** Nothing is compiled for an instruction after it was left, directly behind the last code of the instruction before it. *)
Definition orderly (nx : nat -> option nat) (evs : list nat) : Prop :=
  forall p, S p < length evs -> nx (nth p evs 0) = Some (nth (S p) evs 0) -> (forall q, p < q -> q < length evs -> nth q evs 0 <> nth p evs 0) ->
  forall q, q <= p -> nth q evs 0 <> nth (S p) evs 0.
