(** What the documentation of java.lang.String says, on texts alone. *)
From Coq Require Import List ZArith.
Import ListNotations.
Local Open Scope Z_scope.

Definition text := list Z.
Definition size (t : text) : Z := Z.of_nat (length t).
(** characters i up to j *)
Definition part (i j : Z) (t : text) : text := firstn (Z.to_nat (j - i)) (skipn (Z.to_nat i) t).

(** [c] is the character at [i] *)
Definition hasAt (t : text) (i c : Z) : Prop := 0 <= i /\ nth_error t (Z.to_nat i) = Some c.
(** [p] occurs at [i] *)
Definition occursAt (p t : text) (i : Z) : Prop := 0 <= i /\ exists a b, t = a ++ p ++ b /\ size a = i.

(** the first index from [start] on with a property, or -1; the last one up to [last] *)
Definition firstFrom (P : Z -> Prop) (start r : Z) : Prop :=
  (r = -1 /\ forall i, start <= i -> ~ P i) \/ (start <= r /\ P r /\ forall i, start <= i < r -> ~ P i).
Definition lastUpTo (P : Z -> Prop) (last r : Z) : Prop :=
  (r = -1 /\ forall i, i <= last -> ~ P i) \/ (r <= last /\ P r /\ forall i, r < i <= last -> ~ P i).

(** compareTo: the difference of the characters at the first index where the texts differ, or of the lengths *)
Inductive compared : text -> text -> Z -> Prop :=
| DifferAt : forall common a b s t, a <> b -> compared (common ++ a :: s) (common ++ b :: t) (a - b)
| Longer : forall common s, compared (common ++ s) common (size s)
| Shorter : forall common t, compared common (common ++ t) (- size t).

(** replacing, from the beginning on, every occurrence of [p] by [r] *)
Inductive replaced (p r : text) : text -> text -> Prop :=
| Without : forall t, (forall i, ~ occursAt p t i) -> replaced p r t t
| With : forall a b out, (forall i, i < size a -> ~ occursAt p (a ++ p ++ b) i) ->
    replaced p r b out -> replaced p r (a ++ p ++ b) (a ++ r ++ out).

(** whitespace as the class has it *)
Definition blank (c : Z) : Prop := c = 32 \/ c = 9 \/ c = 10 \/ c = 13.
