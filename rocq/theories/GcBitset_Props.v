(** Property theorem C17. *)
From Coq Require Import Sorted.
From Verif Require Import Base Res Words_Model Words_Proofs GcBitset_Model GcBitset_Proofs.
Local Open Scope N_scope.

(** C17: for an object with pointer fields at the increasing offsets [ptrs] (each with a
    flag: the referent was newly copied and must be visited), whatever words [p] the dead
    original contains and however large it is, scanning it runs without touching memory
    outside the object; the collector descends first into the first field to be visited, and
    its successive returns to the object go through all other fields to be visited, in
    order, once each, and then leave the object. *)
Theorem C17_visits_each_pending_field_once : forall ptrs p,
  StronglySorted N.lt (map fst ptrs) -> wordsOk p -> 0 < N.of_nat (length p) < 2 ^ 32 ->
  Forall (fun q => fst q < N.of_nat (length p) + 2) ptrs ->
  exists k, walkAll (newWalker p) ptrs = Ok k
    /\ visits k = N.of_nat (length (need ptrs)) /\ first k = hd 0 (need ptrs)
    /\ (1 < visits k -> forall fuel, (length ptrs <= fuel)%nat ->
          ascents fuel (bits k) (map fst ptrs) = Ok (tl (need ptrs))).
Proof. exact collect_visits. Qed.
Print Assumptions C17_visits_each_pending_field_once.

(** The bitset on its own: an offset is taken out once, the least first, until none is left. *)
Theorem C17_next_is_least : forall S p, holds S p -> (exists i, S i = true) ->
  exists i p', bitsetNext p = Ok (i, p') /\ S i = true /\ (forall j, j < i -> S j = false)
    /\ length p' = length p /\ holds (fun j => S j && negb (j =? i)) p'.
Proof. exact next_ok. Qed.
Print Assumptions C17_next_is_least.

(** An object of 202 words full of stale data, pointers on both sides of the switch to the
    extended encoding. *)
Example C17_demo :
  match walkAll (newWalker (repeat (2 ^ 64 - 1) 200))
    [(0, false); (1, true); (5, true); (40, false); (62, true); (63, true); (64, false); (126, true); (127, true); (201, true)] with
  | Ok k => first k = 1 /\ ascents 20 (bits k) [0; 1; 5; 40; 62; 63; 64; 126; 127; 201] = Ok [5; 62; 63; 126; 127; 201]
  | _ => False
  end.
Proof. vm_compute. split; reflexivity. Qed.
