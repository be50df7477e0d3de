(** What users expect of TreeSet and TreeMap: a sorted list without duplicates. *)
From Coq Require Import ZArith Bool List Sorted.
Import ListNotations.
From Verif Require Import PSet_Model.

Section Spec.
Context {T : Type}.
Variable cmp : T -> T -> Z.

(** The laws of Comparator. *)
Record ordered : Prop := {
  oAnti : forall a b, Z.sgn (cmp a b) = (- Z.sgn (cmp b a))%Z;
  oTrans : forall a b c, (cmp a b <= 0 -> cmp b c <= 0 -> cmp a c <= 0)%Z }.

(** Calls of TreeSet and what they answer.  In TreeMap the elements are pairs compared by
    their keys, put is [Put], get is [Get]. *)
Inductive op := Add (x : T) | Put (x : T) | Get (x : T) | Contains (x : T) | Remove (x : T) | Size | First | Last | Up_ | Down | Clear.
Inductive answer := Element (o : option T) | Is (b : bool) | Number (n : nat) | Elements (l : list T) | Done | Throws.

Definition lookup (x : T) (l : list T) : option T := List.find (fun y => (cmp x y =? 0)%Z) l.
Definition insert (x : T) (l : list T) : list T :=
  filter (fun y => (cmp y x <? 0)%Z) l ++ [x] ++ filter (fun y => (0 <? cmp y x)%Z) l.
Definition without (x : T) (l : list T) : list T := filter (fun y => negb (cmp x y =? 0)%Z) l.
Definition isSome (o : option T) : bool := match o with Some _ => true | None => false end.

Definition spec (o : op) (l : list T) : list T * answer :=
  match o with
  | Add x => if isSome (lookup x l) then (l, Is false) else (insert x l, Is true)
  | Put x => (insert x l, Element (lookup x l))
  | Get x => (l, Element (lookup x l))
  | Contains x => (l, Is (isSome (lookup x l)))
  | Remove x => (without x l, Element (lookup x l))
  | Size => (l, Number (length l))
  | First => (l, match l with [] => Throws | x :: _ => Element (Some x) end)
  | Last => (l, match rev l with [] => Throws | x :: _ => Element (Some x) end)
  | Up_ => (l, Elements l)
  | Down => (l, Elements (rev l))
  | Clear => ([], Done)
  end.
Definition sorted (l : list T) : Prop := StronglySorted (fun a b => (cmp a b < 0)%Z) l.

Fixpoint runWith {S : Type} (step : op -> S -> S * answer) (os : list op) (s : S) : S * list answer :=
  match os with
  | [] => (s, [])
  | o :: os' => let '(s1, a) := step o s in let '(s2, l) := runWith step os' s1 in (s2, a :: l)
  end.

(** The calls of TreeSet.java 43-133 on the tree. *)
Definition exec (o : op) (s : pset T) : pset T * answer :=
  let orThrow (r : option (pset T)) (a : answer) := match r with Some s' => (s', a) | None => (s, Throws) end in
  match o with
  | Add x =>                                                      (* 67-74 *)
      let p := find cmp x s in if fresh p then orThrow (addPath p) (Is true) else (s, Is false)
  | Put x =>                                                      (* addAndReplace, 76-86 *)
      let p := find cmp x s in
      if fresh p then orThrow (addPath p) (Element None) else orThrow (replaceWith cmp p x) (Element (pathValue p))
  | Get x =>                                                      (* find, 88-91 *)
      let p := find cmp x s in (s, Element (if fresh p then None else pathValue p))
  | Contains x => (s, Is (negb (fresh (find cmp x s))))           (* 127-129 *)
  | Remove x =>                                                   (* removeCell, 98-113; cells have no next *)
      let p := find cmp x s in if fresh p then (s, Element None) else orThrow (remove p) (Element (pathValue p))
  | Size => (s, Number (size s))                                  (* 119-121 *)
  | First =>                                                      (* 43-47 *)
      if Nat.eqb (size s) 0 then (s, Throws)
      else (s, match first s with Some p => Element (pathValue p) | None => Throws end)
  | Last =>                                                       (* 49-53 *)
      if Nat.eqb (size s) 0 then (s, Throws)
      else (s, match last s with Some p => Element (pathValue p) | None => Throws end)
  | Up_ => (s, Elements (iterate (size s + 1) successor (first s)))    (* 55-57 *)
  | Down => (s, Elements (iterate (size s + 1) predecessor (last s)))  (* 59-61 *)
  | Clear => (empty, Done)                                        (* 131-133 *)
  end.

(** TreeSet.java 135-213 (MyIterator), going up, in a set without chains of cells: [icell] is the element that next
    returns without moving. *)
Record iter := { iset : pset T; ipath : option (path T); inext : option (path T); icell : option T; icanRemove : bool }.
Definition bindP {A B} (o : option A) (k : A -> option B) : option B := match o with Some a => k a | None => None end.
Definition iterator (s : pset T) : iter :=
  {| iset := s; ipath := first s; inext := bindP (first s) successor; icell := bindP (first s) pathValue; icanRemove := false |}.
Definition hasNext (i : iter) : bool := match icell i, inext i with None, None => false | _, _ => true end.
(** None: NullPointerException *)
Definition next (i : iter) : option (T * iter) :=
  match icell i with
  | Some v => Some (v, {| iset := iset i; ipath := ipath i; inext := inext i; icell := None; icanRemove := true |})
  | None =>
      match inext i with
      | None => None
      | Some q => match pathValue q with
                  | Some v => Some (v, {| iset := iset i; ipath := Some q; inext := successor q; icell := None; icanRemove := true |})
                  | None => None
                  end
      end
  end.
(** None: an exception *)
Definition iremove (i : iter) : option iter :=
  if negb (icanRemove i) then None
  else match bindP (ipath i) remove with
       | None => None
       | Some s' =>
           match inext i with
           | None => Some {| iset := s'; ipath := None; inext := None; icell := icell i; icanRemove := false |}
           | Some q => match pathValue q with
                       | None => None
                       | Some v => let p := find cmp v s' in
                                   Some {| iset := s'; ipath := Some p; inext := successor p; icell := Some v; icanRemove := false |}
                       end
           end
       end.
(** for (...) if (! keep(e)) it.remove(): the elements seen and the set in the end. *)
Fixpoint sweep (fuel : nat) (keep : T -> bool) (i : iter) : option (list T * pset T) :=
  if hasNext i then
    match fuel with
    | O => None
    | S f =>
        bindP (next i) (fun '(v, i1) =>
        bindP (if keep v then Some i1 else iremove i1) (fun i2 =>
        bindP (sweep f keep i2) (fun '(l, s) => Some (v :: l, s))))
    end
  else Some ([], iset i).

End Spec.
Arguments answer : clear implicits.
Arguments op : clear implicits.

(** *** TreeMap *)
Section Map.
Context {K V : Type}.
Variable cmpK : K -> K -> Z.
(** The entries: a value may be null. *)
Definition entry : Type := K * option V.
Definition cmpEntry (a b : entry) : Z := cmpK (fst a) (fst b).          (* TreeMap.java 33-37 *)
Inductive mapOp := MGet (k : K) | MPut (k : K) (v : option V) | MRemove (k : K) | MContainsKey (k : K).
Definition toSetOp (o : mapOp) : op entry :=                              (* 91-99, 107-110, 124-126 *)
  match o with
  | MGet k => Get (k, None) | MPut k v => Put (k, v) | MRemove k => Remove (k, None) | MContainsKey k => Contains (k, None)
  end.
Inductive mapAnswer := Value (v : option V) | Yes (b : bool) | Failed.
Definition toMapAnswer (a : answer entry) : mapAnswer :=
  match a with
  | Element (Some (_, v)) => Value v | Element None => Value None | Is b => Yes b | _ => Failed
  end.
Definition execMap (o : mapOp) (s : pset entry) : pset entry * mapAnswer :=
  let '(s', a) := exec cmpEntry (toSetOp o) s in (s', toMapAnswer a).

(** A map as a function: None where there is no entry. *)
Definition valueOf (v : option (option V)) : option V := match v with Some v => v | None => None end.
Definition specMap (o : mapOp) (m : K -> option (option V)) : (K -> option (option V)) * mapAnswer :=
  match o with
  | MGet k => (m, Value (valueOf (m k)))
  | MPut k v => (fun k' => if (cmpK k' k =? 0)%Z then Some v else m k', Value (valueOf (m k)))
  | MRemove k => (fun k' => if (cmpK k' k =? 0)%Z then None else m k', Value (valueOf (m k)))
  | MContainsKey k => (m, Yes (match m k with Some _ => true | None => false end))
  end.
Fixpoint runMap {S : Type} (step : mapOp -> S -> S * mapAnswer) (os : list mapOp) (s : S) : list mapAnswer :=
  match os with
  | [] => []
  | o :: os' => let '(s1, a) := step o s in a :: runMap step os' s1
  end.
(** KeySet.add, TreeMap.java 191-193 *)
Definition keySetAdd (k : K) (s : pset entry) : pset entry * bool :=
  let '(s', a) := exec cmpEntry (Put (k, None)) s in (s', match a with Element (Some _) => true | _ => false end).
End Map.
Arguments mapOp : clear implicits.
Arguments mapAnswer : clear implicits.
