(** Sorting and searching: classpath/java/util/Arrays.java and Collections.java.  The methods of Collections do the same on a List that those of
    Arrays do on an array, get for reading an element and set for writing one; both are modelled as a sequence.  None is an exception (an index out
    of bounds) or, where there is fuel, a loop that has not ended. *)
From Coq Require Import ZArith List Bool Lia.
Import ListNotations.
From Verif Require Import JNum_Model.

Definition bind {A B} (o : option A) (f : A -> option B) : option B := match o with Some x => f x | None => None end.
Notation "'do' x <- e ; f" := (bind e (fun x => f)) (at level 60, x name, right associativity).
Definition get {A} (l : list A) (i : nat) : option A := nth_error l i.
Fixpoint set {A} (l : list A) (i : nat) (v : A) : option (list A) :=
  match l, i with
  | [], _ => None
  | _ :: r, O => Some (v :: r)
  | x :: r, S i' => option_map (cons x) (set r i' v)
  end.

Section Sort.
Context {A : Type} (cmp : A -> A -> Z).
(** introSort, Arrays.java 169-178 and Collections.java 66-75. *)
Definition median (a b c : A) : A :=
  if (cmp a b <? 0)%Z then (if (cmp b c <? 0)%Z then b else if (cmp a c <? 0)%Z then c else a)
  else (if (0 <? cmp b c)%Z then b else if (0 <? cmp a c)%Z then c else a).
(** Arrays.java 183-185: [while (comparator.compare(array[i], median) < 0) ++i]. *)
Fixpoint scanUp (fuel : nat) (l : list A) (m : A) (i : nat) : option nat :=
  match fuel with
  | O => None
  | S f => do x <- get l i; if (cmp x m <? 0)%Z then scanUp f l m (S i) else Some i
  end.
(** Arrays.java 186-189: [--j; while (comparator.compare(median, array[j]) < 0) --j]; an index of -1 is an exception. *)
Fixpoint scanDown (l : list A) (m : A) (j : nat) : option nat :=
  match j with
  | O => None
  | S j' => do x <- get l j'; if (cmp m x <? 0)%Z then scanDown l m j' else Some j'
  end.
(** Arrays.java 180-198, the pivot and the array. *)
Fixpoint partition (fuel : nat) (l : list A) (m : A) (i j : nat) : option (nat * list A) :=
  match fuel with
  | O => None
  | S f =>
      do i' <- scanUp (S (length l)) l m i;
      do j' <- scanDown l m j;
      if j' <=? i' then Some (i', l)
      else do x <- get l i'; do y <- get l j'; do l1 <- set l i' y; do l2 <- set l1 j' x; partition f l2 m (S i') j'
  end.
(** siftDown, Arrays.java 223-241; the children are compared without the offset. *)
Fixpoint sift (fuel : nat) (l : list A) (i count offset : nat) (value : A) : option (list A) :=
  match fuel with
  | O => None
  | S f =>
      if i <? Nat.div2 count then
        let c := 2 * i + 1 in
        do child <- (if c + 1 <? count then do x <- get l c; do y <- get l (c + 1); Some (if (cmp x y <? 0)%Z then c + 1 else c) else Some c);
        do x <- get l child;
        if (0 <=? cmp value x)%Z then set l (offset + i) value
        else do y <- get l (offset + child); do l' <- set l (offset + i) y; sift f l' child count offset value
      else set l (offset + i) value
  end.
Definition siftDown (l : list A) (i count offset : nat) : option (list A) := do value <- get l (offset + i); sift (S count) l i count offset value.
(** heapSort, Arrays.java 206-221; the loops go down, over the indices [is]. *)
Fixpoint heapify (l : list A) (is : list nat) (count begin : nat) : option (list A) :=
  match is with [] => Some l | i :: r => do l' <- siftDown l i count begin; heapify l' r count begin end.
Fixpoint extract (l : list A) (is : list nat) (begin : nat) : option (list A) :=
  match is with
  | [] => Some l
  | i :: r =>
      do x <- get l (begin + i); do y <- get l begin; do l1 <- set l (begin + i) y; do l2 <- set l1 begin x;
      do l3 <- siftDown l2 0 i begin; extract l3 r begin
  end.
Definition heapSort (l : list A) (begin end_ : nat) : option (list A) :=
  let count := end_ - begin in
  do l1 <- heapify l (rev (seq 0 (Nat.div2 count))) count begin; extract l1 (rev (seq 1 (count - 1))) begin.
(** introSort, Arrays.java 157-204: the recursive call, then the loop goes on with the left part. *)
Fixpoint introSort (fuel : nat) (l : list A) (begin end_ limit : nat) : option (list A) :=
  match fuel with
  | O => None
  | S f =>
      if end_ - begin <=? 16 then Some l
      else if limit =? 0 then heapSort l begin end_
      else
        do a <- get l begin; do b <- get l (begin + Nat.div2 (end_ - begin) + 1); do c <- get l (end_ - 1);
        do p <- partition (S end_) l (median a b c) begin end_;
        do l' <- introSort f (snd p) (fst p) end_ (Nat.div2 limit);
        introSort f l' begin (fst p) (Nat.div2 limit)
  end.
(** The inner loop of insertionSort, Arrays.java 248-253, [k] is i + 1. *)
Fixpoint shift (l : list A) (t : A) (k : nat) : option (list A) :=
  match k with
  | O => set l 0 t
  | S i => do x <- get l i; if (0 <? cmp x t)%Z then do l' <- set l (S i) x; shift l' t i else set l (S i) t
  end.
(** insertionSort, Arrays.java 243-255. *)
Fixpoint insertions (l : list A) (js : list nat) : option (list A) :=
  match js with [] => Some l | j :: r => do t <- get l j; do l' <- shift l t j; insertions l' r end.
Definition insertionSort (l : list A) : option (list A) := insertions l (seq 1 (length l - 1)).
(** sort, Arrays.java 152-155, Collections.java 48-52. *)
Definition sort (l : list A) : option (list A) := do l1 <- introSort (S (length l)) l 0 (length l) (length l); insertionSort l1.

(** Collections.binarySearch, Collections.java 153-167; needle.compareTo(x) is [cmp needle x]. *)
Fixpoint searchList (fuel : nat) (l : list A) (needle : A) (left right : Z) : option Z :=
  match fuel with
  | O => None
  | S f =>
      if (wrap32 (left + 1) <? right)%Z then
        let middle := Z.shiftr (wrap32 (left + right)) 1 in
        if (middle <? 0)%Z then None
        else do x <- get l (Z.to_nat middle);
             let r := cmp needle x in
             if (r <? 0)%Z then searchList f l needle left middle
             else if (0 <? r)%Z then searchList f l needle middle right
             else Some middle
      else Some (wrap32 (-1 - right))
  end.
Definition listBinarySearch (l : list A) (needle : A) : option Z := searchList (S (length l)) l needle (-1) (Z.of_nat (length l)).
(** reverse, Collections.java 169-176. *)
Fixpoint swapEnds (fuel : nat) (l : list A) (i j : Z) : option (list A) :=
  match fuel with
  | O => None
  | S f => if (i <? j)%Z then
             do x <- get l (Z.to_nat i); do y <- get l (Z.to_nat j); do l1 <- set l (Z.to_nat i) y; do l2 <- set l1 (Z.to_nat j) x; swapEnds f l2 (i + 1) (j - 1)
           else Some l
  end.
Definition reverse (l : list A) : option (list A) := swapEnds (S (length l)) l 0 (Z.of_nat (length l) - 1).
End Sort.

(** binarySearch of an int[] in a range, Arrays.java 705-724; [checkRange], 481-491, throws. *)
Local Open Scope Z_scope.
Fixpoint searchInts (fuel : nat) (a : list Z) (key left right : Z) : option Z :=
  match fuel with
  | O => None
  | S f =>
      if left <=? right then
        let mid := Z.quot (wrap32 (left + right)) 2 in
        if mid <? 0 then None
        else do x <- get a (Z.to_nat mid);
             if x <? key then searchInts f a key (mid + 1) right
             else if key <? x then searchInts f a key left (mid - 1)
             else Some mid
      else Some (wrap32 (- left - 1))
  end.
Definition binarySearchRange (a : list Z) (fromIndex toIndex key : Z) : option Z :=
  if (fromIndex <? 0) || (Z.of_nat (length a) <? toIndex) || (toIndex <? fromIndex) then None
  else searchInts (S (length a)) a key fromIndex (toIndex - 1).
(** binarySearch of an int[], 701-703. *)
Definition binarySearch (a : list Z) (key : Z) : option Z := binarySearchRange a 0 (Z.of_nat (length a) - 1) key.
