(** java.util.ArrayDeque of Avian's class library: classpath/java/util/ArrayDeque.java.
    Elements are references, 0 is null.  Lengths are mathematical integers: an array long
    enough for an int to overflow (2^30 references) is beyond the model. *)
From Coq Require Import ZArith Lia Bool List.
Import ListNotations.
Local Open Scope Z_scope.

(** What a method call gives: a value, or an exception. *)
Inductive out (A : Type) := Val (a : A) | Throws.
Arguments Val {A} a.
Arguments Throws {A}.
Definition bindO {A B} (x : out A) (f : A -> out B) : out B := match x with Val a => f a | Throws => Throws end.

(** Array accesses: an index outside the array throws. *)
Definition len (l : list Z) : Z := Z.of_nat (length l).
Definition inRange (l : list Z) (i : Z) : bool := (0 <=? i) && (i <? len l).
Definition aget (l : list Z) (i : Z) : out Z := if inRange l i then Val (nth (Z.to_nat i) l 0) else Throws.
Definition aset (l : list Z) (i v : Z) : out (list Z) :=
  if inRange l i then Val (firstn (Z.to_nat i) l ++ v :: skipn (S (Z.to_nat i)) l) else Throws.

(** System.arraycopy between two different arrays of references (src/avian/classpath-common.h
    68-120; modelled in full in ArrayCopy_Model): a negative length throws, a length of zero
    does nothing, and otherwise a range outside its array throws. *)
Definition arraycopy (src : list Z) (sp : Z) (dst : list Z) (dp n : Z) : out (list Z) :=
  if n =? 0 then Val dst
  else if (n <? 0) || (sp <? 0) || (dp <? 0) || (len src <? sp + n) || (len dst <? dp + n) then Throws
  else Val (firstn (Z.to_nat dp) dst ++ firstn (Z.to_nat n) (skipn (Z.to_nat sp) src)
            ++ skipn (Z.to_nat (dp + n)) dst).

(** The fields, ArrayDeque.java 15-20. *)
Record deque := Deque { dataArray : list Z; startIndex : Z; endIndex : Z; size : Z; modCount : Z }.

(** [new Object\[n\]] *)
Definition newArray (n : Z) : out (list Z) := if n <? 0 then Throws else Val (repeat 0 (Z.to_nat n)).

(** ArrayDeque(int), 26-30. *)
Definition newDeque (capacity : Z) : out deque :=
  bindO (newArray capacity) (fun d => Val (Deque d 0 0 0 1)).

(** copyInto, 38-47. *)
Definition copyInto (d : deque) (array : list Z) : out (list Z) :=
  if startIndex d <=? endIndex d then arraycopy (dataArray d) (startIndex d) array 0 (size d)
  else
    let firstCopyCount := len (dataArray d) - startIndex d in
    bindO (arraycopy (dataArray d) (startIndex d) array 0 firstCopyCount) (fun a1 =>
    arraycopy (dataArray d) 0 a1 firstCopyCount (endIndex d + 1)).

(** ensureCapacity, 49-58. *)
Definition ensureCapacity (d : deque) (newSize : Z) : out deque :=
  if len (dataArray d) <? newSize then
    bindO (newArray (len (dataArray d) * 2)) (fun a =>
    bindO (copyInto d a) (fun a' => Val (Deque a' 0 (size d - 1) (size d) (modCount d))))
  else Val d.

(** offerFirst, 61-76. *)
Definition offerFirst (d0 : deque) (e : Z) : out deque :=
  bindO (ensureCapacity d0 (size d0 + 1)) (fun d =>
  let s := if 0 <? size d
           then let s1 := startIndex d - 1 in if s1 <? 0 then len (dataArray d) - 1 else s1
           else startIndex d in
  bindO (aset (dataArray d) s e) (fun a => Val (Deque a s (endIndex d) (size d + 1) (modCount d + 1)))).

(** offerLast, 79-91. *)
Definition offerLast (d0 : deque) (e : Z) : out deque :=
  bindO (ensureCapacity d0 (size d0 + 1)) (fun d =>
  let n := if 0 <? size d then Z.rem (endIndex d + 1) (len (dataArray d)) else endIndex d in
  bindO (aset (dataArray d) n e) (fun a => Val (Deque a (startIndex d) n (size d + 1) (modCount d + 1)))).

(** pollFirst, 94-112. *)
Definition pollFirst (d : deque) : out (Z * deque) :=
  if size d =? 0 then Val (0, Deque (dataArray d) (startIndex d) (endIndex d) (size d) (modCount d + 1))
  else
    bindO (aget (dataArray d) (startIndex d)) (fun r =>
    if size d - 1 =? 0 then Val (r, Deque (dataArray d) 0 0 0 (modCount d + 1))
    else Val (r, Deque (dataArray d) (Z.rem (startIndex d + 1) (len (dataArray d))) (endIndex d)
                       (size d - 1) (modCount d + 1))).

(** pollLast, 114-134. *)
Definition pollLast (d : deque) : out (Z * deque) :=
  if size d =? 0 then Val (0, Deque (dataArray d) (startIndex d) (endIndex d) (size d) (modCount d + 1))
  else
    bindO (aget (dataArray d) (endIndex d)) (fun r =>
    if size d - 1 =? 0 then Val (r, Deque (dataArray d) 0 0 0 (modCount d + 1))
    else
      let n := endIndex d - 1 in
      Val (r, Deque (dataArray d) (startIndex d) (if n <? 0 then len (dataArray d) - 1 else n)
                    (size d - 1) (modCount d + 1))).

(** peekFirst and peekLast, 137-156. *)
Definition peekFirst (d : deque) : out Z := if size d =? 0 then Val 0 else aget (dataArray d) (startIndex d).
Definition peekLast (d : deque) : out Z := if size d =? 0 then Val 0 else aget (dataArray d) (endIndex d).

(** clear, 221-225. *)
Definition clear (d : deque) : deque := Deque (dataArray d) 0 0 0 (modCount d + 1).

(** toArray, 262-267. *)
Definition toArray (d : deque) : out (list Z) := bindO (newArray (size d)) (copyInto d).

(** getArrayIndex of the two iterators, 274-292. *)
Definition forwardIndex (d : deque) (currentIndex : Z) : Z := Z.rem (currentIndex + startIndex d) (len (dataArray d)).
Definition backwardIndex (d : deque) (currentIndex : Z) : Z := Z.rem (endIndex d - currentIndex) (len (dataArray d)).

(** next and hasNext, 301-318, until the end: the elements an iterator gives.  The deque
    is not changed meanwhile, so modCount is as expected. *)
Fixpoint iterate (fuel : nat) (index : deque -> Z -> Z) (d : deque) (currentIndex : Z) : out (list Z) :=
  match fuel with
  | O => Throws
  | S f =>
    if currentIndex <? size d then
      bindO (aget (dataArray d) (index d currentIndex)) (fun v =>
      bindO (iterate f index d (currentIndex + 1)) (fun l => Val (v :: l)))
    else Val []
  end.
Definition iterator (d : deque) : out (list Z) := iterate (S (Z.to_nat (size d))) forwardIndex d 0.
Definition descendingIterator (d : deque) : out (list Z) := iterate (S (Z.to_nat (size d))) backwardIndex d 0.

(** contains, 233-247, for elements compared by identity. *)
Definition contains (d : deque) (e : Z) : out bool := bindO (iterator d) (fun l => Val (existsb (Z.eqb e) l)).

(** remove of an iterator, 321-363: [removalIndex] is getArrayIndex after the
    decrement of currentIndex. *)
Definition removeAt (d : deque) (removalIndex : Z) : out deque :=
  if removalIndex =? startIndex d then bindO (pollFirst d) (fun x => Val (snd x))
  else if removalIndex =? endIndex d then bindO (pollLast d) (fun x => Val (snd x))
  else
    bindO (newArray (len (dataArray d))) (fun a0 =>
    let da := dataArray d in
    bindO (if startIndex d <=? endIndex d then
             let firstCopyCount := removalIndex - startIndex d in
             bindO (arraycopy da (startIndex d) a0 0 firstCopyCount) (fun a1 =>
             arraycopy da (removalIndex + 1) a1 firstCopyCount (size d - firstCopyCount))
           else if startIndex d <? removalIndex then
             let firstCopyCount := removalIndex - startIndex d in
             bindO (arraycopy da (startIndex d) a0 0 firstCopyCount) (fun a1 =>
             bindO (arraycopy da (startIndex d + firstCopyCount + 1) a1 firstCopyCount (len da - removalIndex - 1)) (fun a2 =>
             arraycopy da 0 a2 (size d - removalIndex) (endIndex d + 1)))
           else
             let firstCopyCount := len da - startIndex d in
             bindO (arraycopy da (startIndex d) a0 0 firstCopyCount) (fun a1 =>
             bindO (arraycopy da 0 a1 firstCopyCount removalIndex) (fun a2 =>
             arraycopy da (removalIndex + 1) a2 (firstCopyCount + removalIndex) (endIndex d - removalIndex))))
      (fun a => Val (Deque a 0 (size d - 1 - 1) (size d - 1) (modCount d)))).

(** remove(Object, true), 185-213, for elements compared by identity: the first element
    that is equal is removed through the iterator. *)
Fixpoint findFrom (fuel : nat) (d : deque) (e currentIndex : Z) : out (option Z) :=
  match fuel with
  | O => Throws
  | S f =>
    if currentIndex <? size d then
      bindO (aget (dataArray d) (forwardIndex d currentIndex)) (fun v =>
      if v =? e then Val (Some currentIndex) else findFrom f d e (currentIndex + 1))
    else Val None
  end.
Definition removeFirstOccurrence (d0 : deque) (e : Z) : out (bool * deque) :=
  let d := Deque (dataArray d0) (startIndex d0) (endIndex d0) (size d0) (modCount d0 + 1) in
  bindO (findFrom (S (Z.to_nat (size d))) d e 0) (fun r =>
  match r with
  | None => Val (false, d)
  | Some i => bindO (removeAt d (forwardIndex d i)) (fun d' => Val (true, d'))
  end).
