(** What users expect of ConcurrentLinkedQueue: every call acts as if at one moment between
    its start and its return, on a first-in first-out queue. *)
From Coq Require Import ZArith Bool List.
Import ListNotations.
From Verif Require Import JQueue_Model.

(** [during c] lists what the queue held at each moment of the call, [changes c] what the
    steps of the call changed: (before, after). *)
Definition fifo (c : call) : Prop :=
  match op c, at_ c with
  | Add v, Returned r => r = 1%Z /\ exists l, changes c = [(l, l ++ [v])]
  | Poll true, Returned r =>
      (exists l, changes c = [(r :: l, l)]) \/ (r = 0%Z /\ changes c = [] /\ In [] (during c))
  | Poll false, Returned r =>
      changes c = [] /\ ((exists l, In (r :: l) (during c)) \/ (r = 0%Z /\ In [] (during c)))
  | _, Crashed => False
  | Add v, _ => changes c = [] \/ exists l, changes c = [(l, l ++ [v])]
  | Poll _, _ => changes c = []
  end.

(** The elements put in and taken out by the calls so far. *)
Definition put (c : call) : list Z := match op c, changes c with Add v, _ :: _ => [v] | _, _ => [] end.
Definition taken (c : call) : list Z :=
  match op c, at_ c, changes c with Poll true, Returned r, _ :: _ => [r] | _, _, _ => [] end.
