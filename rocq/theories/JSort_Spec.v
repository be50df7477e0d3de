(** What sorting and searching should do. *)
From Coq Require Import ZArith List Permutation.
Import ListNotations.
Local Open Scope Z_scope.

(** The contract of java.util.Comparator: the sign of the result turns with the arguments, and "not greater" is transitive. *)
Record comparator {A} (cmp : A -> A -> Z) : Prop := {
  turns : forall x y, Z.sgn (cmp x y) = - Z.sgn (cmp y x);
  transitive : forall x y z, cmp x y <= 0 -> cmp y z <= 0 -> cmp x z <= 0 }.
Definition sorted {A} (cmp : A -> A -> Z) (l : list A) : Prop :=
  forall i j x y, (i < j)%nat -> nth_error l i = Some x -> nth_error l j = Some y -> cmp x y <= 0.
(** Elements that compare equal stay in the order they were in. *)
Definition sameOrder {A} (cmp : A -> A -> Z) (before after : list A) : Prop :=
  forall x, filter (fun y => cmp x y =? 0) after = filter (fun y => cmp x y =? 0) before.
(** The result of a search in the part from [from] to [to] of [l]: the index of an element that compares equal, or [-(p)-1] where [p] is the place at
    which it would have to be put. *)
Definition found {A} (cmp : A -> A -> Z) (l : list A) (from to : Z) (key : A) (r : Z) : Prop :=
  (0 <= r -> from <= r < to /\ exists x, nth_error l (Z.to_nat r) = Some x /\ cmp key x = 0) /\
  (r < 0 -> let p := - r - 1 in from <= p <= to /\
     (forall i x, from <= Z.of_nat i < p -> nth_error l i = Some x -> 0 < cmp key x) /\
     (forall i x, p <= Z.of_nat i < to -> nth_error l i = Some x -> cmp key x < 0)).
