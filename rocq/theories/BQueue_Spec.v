(** What users expect of LinkedBlockingQueue: a first-in first-out queue of bounded length. *)
From Coq Require Import ZArith Lia Bool List.
Import ListNotations.
From Verif Require Import BQueue_Model.

Section Spec.
Context {A : Type} (eqA : A -> A -> bool) (capacity : Z).
Notation room q n := (Z.of_nat (length q) + n <= capacity)%Z.

(** The call [c] may act on the queue [q], answer [a] and leave [q']. *)
Definition does (c : operation A) (q : list (elem A)) (a : answer A) (q' : list (elem A)) : Prop :=
  match c with
  | Offer e | OfferFor e _ => (room q 1 /\ a = Is true /\ q' = q ++ [e]) \/ (~ room q 1 /\ a = Is false /\ q' = q)
  | Put e => room q 1 /\ a = Void /\ q' = q ++ [e]
  | AddAll es =>
      (room q (Z.of_nat (length es)) /\ a = Is (match es with [] => false | _ => true end) /\ q' = q ++ es) \/
      (~ room q (Z.of_nat (length es)) /\ a = Throws /\ q' = q)
  | Peek => a = Elem (hd None q) /\ q' = q
  | Poll | PollFor _ => a = Elem (hd None q) /\ q' = tl q
  | Take => exists x, q = x :: q' /\ a = Elem x
  | DrainTo m => let n := Nat.min (Z.to_nat m) (length q) in a = Drained (firstn n q) (Z.of_nat n) /\ q' = skipn n q
  | RemainingCapacity => a = Int (capacity - Z.of_nat (length q)) /\ q' = q
  | Size => a = Int (Z.of_nat (length q)) /\ q' = q
  | Contains e => q' = q /\ exists b, a = Is b /\ (b = true <-> exists x, In x q /\ equal eqA x e = true)
  | Remove e =>
      (exists q1 x q2, q = q1 ++ x :: q2 /\ equal eqA x e = true /\ (forall z, In z q1 -> equal eqA z e = false) /\ q' = q1 ++ q2 /\ a = Is true) \/
      ((forall z, In z q -> equal eqA z e = false) /\ q' = q /\ a = Is false)
  | Clear => a = Void /\ q' = []
  | ToArray => a = All q /\ q' = q
  end.
(** Calls that acted in this order, with these answers, take the queue from [q] to [q']. *)
Fixpoint history (q : list (elem A)) (l : list (nat * operation A * answer A * Z)) (q' : list (elem A)) : Prop :=
  match l with
  | [] => q = q'
  | (_, c, a, _) :: l' => exists q1, does c q a q1 /\ history q1 l' q'
  end.

(** Null elements are not allowed in the queue. *)
Definition noNull (c : operation A) : Prop :=
  match c with Offer e | OfferFor e _ | Put e => e <> None | AddAll es => ~ In None es | _ => True end.
Definition callsOf (es : list (event A)) : list (operation A) := flat_map (fun e => match e with Begin c => [c] | _ => [] end) es.

(** The elements put in and those taken out at the front, by the calls of a history. *)
Definition putIn (x : nat * operation A * answer A * Z) : list (elem A) :=
  match x with
  | (_, Offer e, Is true, _) | (_, OfferFor e _, Is true, _) | (_, Put e, _, _) => [e]
  | (_, AddAll es, Is _, _) => es
  | _ => []
  end.
Definition takenOut (x : nat * operation A * answer A * Z) : list (elem A) :=
  match x with
  | (_, Poll, Elem (Some v), _) | (_, PollFor _, Elem (Some v), _) | (_, Take, Elem (Some v), _) => [Some v]
  | (_, DrainTo _, Drained l _, _) => l
  | _ => []
  end.

(** A call waits for room, or for an element. *)
Definition waitsForRoom (c : operation A) : Prop := match c with Put _ | OfferFor _ _ => True | _ => False end.
Definition waitsForElement (c : operation A) : Prop := match c with Take | PollFor _ => True | _ => False end.
(** The call of [k] cannot make a step now. *)
Definition asleep (s : shared A) (i : nat) (k : call A) : Prop := (forall a, at_ k <> Ended a) /\ step eqA capacity i (op k) (at_ k) s = None.
(** All calls but addAll and clear, which change the queue without waking the calls that wait. *)
Definition quiet (c : operation A) : Prop := match c with AddAll _ | Clear => False | _ => True end.
(** All calls but those that take elements out elsewhere than at the front. *)
Definition inOrder (c : operation A) : Prop := match c with Remove _ | Clear => False | _ => True end.
Definition idOf (x : nat * operation A * answer A * Z) : nat := match x with (i, _, _, _) => i end.
(** What the log has of call [i]. *)
Definition entries (i : nat) (l : list (nat * operation A * answer A * Z)) := filter (fun x => Nat.eqb (idOf x) i) l.
(** A call made at [b] that gave up at [t] did so because its time was over. *)
Definition timely (c : operation A) (b : Z) (a : answer A) (t : Z) : Prop :=
  match c, a with
  | OfferFor _ l, Is false | PollFor l, Elem None => match l with Some d => (d <= t - b)%Z | None => False end
  | _, _ => True
  end.
End Spec.
