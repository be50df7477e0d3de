(** java.util.ArrayList: classpath/java/util/ArrayList.java, and its iterator, Collections.java 462-511. *)
From Coq Require Import ZArith List Bool Lia.
Import ListNotations.
From Verif Require Import JNum_Model.
Local Open Scope Z_scope.

Section Model.
Context {A : Type} (eqA : A -> A -> bool).
(** null, or an object. *)
Definition elem := option A.
(** The fields array (null, or its elements) and size. *)
Record state := { array : option (list elem); size_ : Z }.
Definition capacity (a : list elem) : Z := Z.of_nat (length a).
(** System.arraycopy, with its checks; None is an exception.  Copying within one array is as if by a buffer (see ArrayCopy). *)
Definition arraycopy (src : list elem) (so : Z) (dst : list elem) (do_ n : Z) : option (list elem) :=
  if (so <? 0) || (do_ <? 0) || (n <? 0) || (capacity src <? so + n) || (capacity dst <? do_ + n) then None
  else Some (firstn (Z.to_nat do_) dst ++ firstn (Z.to_nat n) (skipn (Z.to_nat so) src) ++ skipn (Z.to_nat (do_ + n)) dst).
(** resize, 49-62; None is an exception. *)
Definition resize (s : state) (c : Z) : option state :=
  if c =? 0 then Some {| array := None; size_ := size_ s |}
  else match array s with
       | Some a => if capacity a =? c then Some s
                   else if c <? 0 then None
                   else option_map (fun b => {| array := Some b; size_ := size_ s |}) (arraycopy a 0 (repeat None (Z.to_nat c)) 0 (size_ s))
       | None => if c <? 0 then None else Some {| array := Some (repeat None (Z.to_nat c)); size_ := size_ s |}
       end.
(** grow, 36-41; shrink, 43-47, which is called with a size one less than [size_]. *)
Definition grow (s : state) (newSize : Z) : option state :=
  match array s with
  | None => resize s (Z.max newSize 16)
  | Some a => if capacity a <? newSize then resize s (Z.max newSize (wrap32 (capacity a * 2))) else Some s
  end.
Definition shrink (s : state) (newSize : Z) : option state :=
  match array s with
  | None => None
  | Some a => if (16 <=? capacity a / 2) && (newSize <=? capacity a / 3) then resize s (capacity a / 2) else Some s
  end.
Definition equal (a b : elem) : bool := match a, b with None, None => true | Some x, Some y => eqA x y | _, _ => false end.

Inductive answer := Done | Elem (e : elem) | Bool (b : bool) | Int (z : Z) | All (l : list elem) | Throws.
Definition store (a : list elem) (i : nat) (e : elem) : list elem := firstn i a ++ e :: skipn (S i) a.
Definition elements (s : state) : list elem := match array s with None => [] | Some a => firstn (Z.to_nat (size_ s)) a end.
(** add(int, T), 85-91: the size is set before the copy, which may throw. *)
Definition addAt (s : state) (i : Z) (e : elem) : state * answer :=
  let newSize := Z.max (wrap32 (size_ s + 1)) (wrap32 (i + 1)) in
  match grow s newSize with
  | None => (s, Throws)
  | Some s1 =>
      let s2 := {| array := array s1; size_ := newSize |} in
      match array s1 with
      | None => (s2, Throws)
      | Some a => match arraycopy a i a (wrap32 (i + 1)) (wrap32 (wrap32 (newSize - i) - 1)) with
                  | None => (s2, Throws)
                  | Some b => if (i <? 0) || (capacity b <=? i) then (s2, Throws) else ({| array := Some (store b (Z.to_nat i) e); size_ := newSize |}, Done)
                  end
      end
  end.
(** get, 121-127. *)
Definition get (s : state) (i : Z) : option elem := if (0 <=? i) && (i <? size_ s) then nth_error (match array s with Some a => a | None => [] end) (Z.to_nat i) else None.
(** set, 129-137. *)
Definition setAt (s : state) (i : Z) (e : elem) : state * answer :=
  match get s i, array s with
  | Some old, Some a => ({| array := Some (store a (Z.to_nat i) e); size_ := size_ s |}, Elem old)
  | _, _ => (s, Throws)
  end.
(** remove(int), 139-154. *)
Definition removeAt (s : state) (i : Z) : state * answer :=
  match get s i, array s with
  | Some v, Some a =>
      let newSize := size_ s - 1 in
      match (if i =? newSize then Some (store a (Z.to_nat i) None) else arraycopy a (i + 1) a i (newSize - i)) with
      | None => (s, Throws)
      | Some b => match shrink {| array := Some b; size_ := size_ s |} newSize with
                  | None => ({| array := Some b; size_ := size_ s |}, Throws)
                  | Some s1 => ({| array := array s1; size_ := newSize |}, Elem v)
                  end
      end
  | _, _ => (s, Throws)
  end.
(** indexOf, 103-110, and lastIndexOf, 112-119: the loops, from index [i]. *)
Fixpoint firstFrom (e : elem) (l : list elem) (i : Z) : Z := match l with [] => -1 | x :: r => if equal e x then i else firstFrom e r (i + 1) end.
Fixpoint lastFrom (e : elem) (l : list elem) (i : Z) : Z := match l with [] => -1 | x :: r => if equal e x then i else lastFrom e r (i - 1) end.
Definition indexOf (s : state) (e : elem) : Z := firstFrom e (elements s) 0.
Definition lastIndexOf (s : state) (e : elem) : Z := lastFrom e (rev (elements s)) (size_ s - 1).

Inductive op := Add (e : elem) | AddAt (i : Z) (e : elem) | Get (i : Z) | SetAt (i : Z) (e : elem) | RemoveAt (i : Z) | RemoveElem (e : elem)
 | IndexOf (e : elem) | LastIndexOf (e : elem) | Contains (e : elem) | Size | Clear | Ensure (c : Z) | ToArray | Elements.
Definition exec (o : op) (s : state) : state * answer :=
  match o with
  | Add e => let '(s', r) := addAt s (size_ s) e in (s', match r with Throws => Throws | _ => Bool true end)
  | AddAt i e => addAt s i e
  | Get i => (s, match get s i with Some e => Elem e | None => Throws end)
  | SetAt i e => setAt s i e
  | RemoveAt i => removeAt s i
  (* 156-164 *)
  | RemoveElem e => let i := indexOf s e in if i =? -1 then (s, Bool false) else let '(s', r) := removeAt s i in (s', match r with Throws => Throws | _ => Bool true end)
  | IndexOf e => (s, Int (indexOf s e))
  | LastIndexOf e => (s, Int (lastIndexOf s e))
  (* 76-83 *)
  | Contains e => (s, Bool (negb (indexOf s e =? -1)))
  | Size => (s, Int (size_ s))
  (* 170-173 *)
  | Clear => ({| array := None; size_ := 0 |}, Done)
  (* 72-74 *)
  | Ensure c => match grow s c with Some s' => (s', Done) | None => (s, Throws) end
  (* AbstractCollection.java 95-101, avian/Data.java 31-48: isInstance is false for null *)
  | ToArray => (s, if existsb (fun e => match e with None => true | _ => false end) (elements s) then Throws else All (elements s))
  | Elements => (s, All (elements s))
  end.
(** new ArrayList(), 27-29. *)
Definition new : state := {| array := None; size_ := 0 |}.

(** *** The iterator, Collections.java 462-511 *)
Record iter := { list_ : state; index : Z; toRemove : Z }.
Inductive iterOp := HasNext | Next | HasPrevious | Previous | IRemove.
Definition iterator (s : state) : iter := {| list_ := s; index := -1; toRemove := -1 |}.
Definition execIter (o : iterOp) (t : iter) : iter * answer :=
  match o with
  | HasNext => (t, Bool (index t + 1 <? size_ (list_ t)))
  | HasPrevious => (t, Bool (0 <=? index t))
  | Next => if index t + 1 <? size_ (list_ t) then
              ({| list_ := list_ t; index := index t + 1; toRemove := index t + 1 |}, match get (list_ t) (index t + 1) with Some e => Elem e | None => Throws end)
            else (t, Throws)
  | Previous => if 0 <=? index t then
              ({| list_ := list_ t; index := index t - 1; toRemove := index t |}, match get (list_ t) (index t) with Some e => Elem e | None => Throws end)
            else (t, Throws)
  | IRemove => if toRemove t =? -1 then (t, Throws)
               else let '(s', r) := removeAt (list_ t) (toRemove t) in
                    match r with Throws => ({| list_ := s'; index := index t; toRemove := toRemove t |}, Throws)
                            | _ => ({| list_ := s'; index := toRemove t - 1; toRemove := -1 |}, Done) end
  end.
(** addAll, 98-101, of the list itself: None as long as the loop goes on. *)
Fixpoint addAllOfItself (fuel : nat) (t : iter) : option state :=
  match fuel with
  | O => None
  | S f => if index t + 1 <? size_ (list_ t) then
             match get (list_ t) (index t + 1) with
             | None => Some (list_ t)
             | Some e => let '(s', r) := exec (Add e) (list_ t) in
                         match r with Throws => Some s' | _ => addAllOfItself f {| list_ := s'; index := index t + 1; toRemove := index t + 1 |} end
             end
           else Some (list_ t)
  end.
End Model.
Arguments elem : clear implicits. Arguments state : clear implicits. Arguments answer : clear implicits. Arguments op : clear implicits. Arguments iter : clear implicits.
