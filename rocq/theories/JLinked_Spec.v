(** What is expected of a LinkedHashMap: a list of keys with values in the order of insertion. *)
From Coq Require Import List Bool Arith.
From Verif Require Import JLinked_Model.
Import ListNotations.
Section Spec.
Context {V : Type}.
Definition present (k : key) (l : list (key * V)) : bool := existsb (fun e => k =? fst e) l.
Definition valueOf (k : key) (l : list (key * V)) : option V := option_map snd (find (fun e => k =? fst e) l).
(** A key that is there keeps its place. *)
Definition putIn (k : key) (v : V) (l : list (key * V)) : list (key * V) :=
  if present k l then map (fun e => if k =? fst e then (k, v) else e) l else l ++ [(k, v)].
Definition removeFrom (k : key) (l : list (key * V)) : list (key * V) := filter (fun e => negb (k =? fst e)) l.
(** The answers, from the contents [l]. *)
Fixpoint expected (cs : list (call V)) (l : list (key * V)) : list (answer V) :=
  match cs with
  | [] => []
  | Put k v :: r => Value (valueOf k l) :: expected r (putIn k v l)
  | Remove k :: r => Value (valueOf k l) :: expected r (removeFrom k l)
  | Clear :: r => Nothing :: expected r []
  | Get k :: r => Value (valueOf k l) :: expected r l
  | Iterate :: r => Entries (Some (map (fun e => (fst e, Some (snd e))) l)) :: expected r l
  end.
(** No key is removed that was in the map before and no longer is ([seen]: the keys put so far). *)
Fixpoint tame (cs : list (call V)) (seen : list key) (l : list (key * V)) : Prop :=
  match cs with
  | [] => True
  | Put k v :: r => tame r (k :: seen) (putIn k v l)
  | Remove k :: r => (present k l = true \/ ~ In k seen) /\ tame r seen (removeFrom k l)
  | Clear :: r => tame r seen []
  | Get _ :: r | Iterate :: r => tame r seen l
  end.
End Spec.
