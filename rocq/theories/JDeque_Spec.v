(** What java.util.Deque and java.util.Queue promise, in terms of a list. *)
From Coq Require Import ZArith Bool List.
Import ListNotations.
Local Open Scope Z_scope.

(** One call of a user of the deque. *)
Inductive call :=
| OfferFirst (e : Z) | OfferLast (e : Z) | PollFirst | PollLast | PeekFirst | PeekLast
| Clear | Size | ToArray | Iterate | Contains (e : Z).

(** What the call returns. *)
Inductive answer := Nothing | Ref (r : Z) | Number (n : Z) | Refs (l : list Z) | Truth (b : bool).

(** The effect of a call on the elements, first to last, and its answer; 0 is null. *)
Definition expected (c : call) (l : list Z) : answer * list Z :=
  match c with
  | OfferFirst e => (Nothing, e :: l)
  | OfferLast e => (Nothing, l ++ [e])
  | PollFirst => (Ref (hd 0 l), tl l)
  | PollLast => (Ref (last l 0), removelast l)
  | PeekFirst => (Ref (hd 0 l), l)
  | PeekLast => (Ref (last l 0), l)
  | Clear => (Nothing, [])
  | Size => (Number (Z.of_nat (length l)), l)
  | ToArray | Iterate => (Refs l, l)
  | Contains e => (Truth (if in_dec Z.eq_dec e l then true else false), l)
  end.

(** The answers of a history of calls. *)
Fixpoint expectedAll (cs : list call) (l : list Z) : list answer :=
  match cs with
  | [] => []
  | c :: r => fst (expected c l) :: expectedAll r (snd (expected c l))
  end.
