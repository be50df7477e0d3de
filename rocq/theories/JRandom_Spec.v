(** What is expected of java.util.Random. *)
From Coq Require Import ZArith List.
From Verif Require Import JRandom_Model.
Import ListNotations.
Local Open Scope Z_scope.

(** A state a Random can be in: setSeed and every draw leave 48 bits. *)
Definition isSeed (s : Z) : Prop := 0 <= s < 2 ^ 48.
(** The state after [n] calls of nextInt(). *)
Fixpoint calls (n : nat) (s : Z) : Z := match n with O => s | S m => fst (nextInt (calls m s)) end.
(** [e] gives each element of the set [P] exactly once for the numbers below [q]: [P] has [q] elements. *)
Definition enumerates (q : Z) (e : Z -> Z) (P : Z -> Prop) : Prop :=
  (forall i j, 0 <= i < q -> 0 <= j < q -> e i = e j -> i = j) /\ (forall x, P x <-> exists j, 0 <= j < q /\ x = e j).
