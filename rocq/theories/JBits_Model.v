(** java.util.BitSet of Avian's class library: classpath/java/util/BitSet.java. *)
From Coq Require Import ZArith Lia Bool List.
Import ListNotations.
From Verif Require Import JDeque_Model.
Local Open Scope Z_scope.

(** A long is given by its 64 bits, as a number from 0 to 2^64 - 1. *)
Definition MASK : Z := Z.ones 64.
(** Int arithmetic wraps. *)
Definition w32 (z : Z) : Z := (z + 2147483648) mod 4294967296 - 2147483648.
(** The shifts of a long use the low six bits of the distance. *)
Definition shl (x n : Z) : Z := Z.land (Z.shiftl x (n mod 64)) MASK.
Definition ushr (x n : Z) : Z := Z.shiftr x (n mod 64).

(** The field [bits], 25; always an array after construction. *)
Definition bitset := list Z.

(** longPosition and bitPosition, 27-33; [%] truncates. *)
Definition longPosition (index : Z) : Z := Z.shiftr index 6.
Definition bitPosition (index : Z) : Z := shl 1 (Z.rem index 64).

(** getTrueMask, 35-38. *)
Definition getTrueMask (fromIndex toIndex : Z) : Z :=
  let currentRange := w32 (toIndex - fromIndex) in
  shl (ushr MASK (64 - currentRange)) (Z.rem fromIndex 64).

(** enlarge, 89-97. *)
Definition enlarge (bits : bitset) (newPartition : Z) : out bitset :=
  if len bits <? w32 (newPartition + 1) then
    bindO (newArray (w32 (newPartition + 1))) (fun a => arraycopy bits 0 a 0 (len bits))
  else Val bits.

(** The constructors, 40-50: [bits] is null before. *)
Definition newBitSet (bitLength : Z) : out bitset :=
  let p := if Z.rem bitLength 64 =? 0 then longPosition bitLength else longPosition bitLength + 1 in
  newArray (w32 (p + 1)).
Definition newBitSetDefault : out bitset := newArray 2.

(** get, 99-105. *)
Definition get (bits : bitset) (index : Z) : out bool :=
  let pos := longPosition index in
  if pos <? len bits then bindO (aget bits pos) (fun w => Val (negb (Z.land w (bitPosition index) =? 0)))
  else Val false.

(** [bits\[i\] = f(bits\[i\])] *)
Definition update (bits : bitset) (i : Z) (f : Z -> Z) : out bitset :=
  bindO (aget bits i) (fun w => aset bits i (f w)).

(** set(int), 124-128, and clear(int), 139-144. *)
Definition set (bits : bitset) (index : Z) : out bitset :=
  let pos := longPosition index in
  bindO (enlarge bits pos) (fun b => update b pos (fun w => Z.lor w (bitPosition index))).
Definition clear (bits : bitset) (index : Z) : out bitset :=
  let pos := longPosition index in
  if pos <? len bits then update bits pos (fun w => Z.land w (Z.lxor MASK (bitPosition index))) else Val bits.

(** MaskInfoIterator, 221-256, and the loop over it: [n] rounds are left, [p] is
    basePartition + currentPartitionOffset, [first] is currentFirstIndex. *)
Fixpoint traverse (n : nat) (p toIndex first : Z) (f : Z -> Z -> Z) (bits : bitset) : out bitset :=
  match n with
  | O => Val bits
  | S n' =>
    let currentToIndex := Z.min toIndex (w32 ((p + 1) * 64)) in
    let mask := getTrueMask first currentToIndex in
    bindO (update bits p (fun w => f w mask)) (fun b => traverse n' (p + 1) toIndex currentToIndex f b)
  end.
Definition basePartition (fromIndex : Z) : Z := longPosition fromIndex.
Definition numPartitions (fromIndex toIndex : Z) : Z := longPosition (w32 (toIndex - 1)) - basePartition fromIndex + 1.
Definition lastPartition (fromIndex toIndex : Z) : Z := basePartition fromIndex + numPartitions fromIndex toIndex - 1.
Definition overRange (fromIndex toIndex : Z) (f : Z -> Z -> Z) (bits : bitset) : out bitset :=
  traverse (Z.to_nat (numPartitions fromIndex toIndex)) (basePartition fromIndex) toIndex fromIndex f bits.

(** flip(int, int) and flip(int), 107-122. *)
Definition flipRange (bits : bitset) (fromIndex toIndex : Z) : out bitset :=
  if (toIndex <? fromIndex) || (fromIndex <? 0) || (toIndex <? 0) then Throws
  else if fromIndex =? toIndex then Val bits
  else bindO (enlarge bits (lastPartition fromIndex toIndex)) (overRange fromIndex toIndex Z.lxor).
Definition flip (bits : bitset) (index : Z) : out bitset := flipRange bits index (w32 (index + 1)).

(** set(int, int), 130-137, and clear(int, int), 146-152. *)
Definition setRange (bits : bitset) (start end_ : Z) : out bitset :=
  bindO (enlarge bits (lastPartition start end_)) (overRange start end_ Z.lor).
Definition clearRange (bits : bitset) (start end_ : Z) : out bitset :=
  overRange start end_ (fun w mask => Z.land w (Z.lxor MASK mask)) bits.

(** The loops over two arrays up to the smaller length, as recursion over both. *)
Fixpoint zip (f : Z -> Z -> Z) (rest : Z -> Z) (a b : bitset) : bitset :=
  match a, b with
  | [], _ => []
  | x :: a', y :: b' => f x y :: zip f rest a' b'
  | x :: a', [] => rest x :: zip f rest a' []
  end.
(** and, 52-60; andNot, 62-69; or, 71-78; xor, 80-87. *)
Definition and_ (bits other : bitset) : bitset := zip Z.land (fun _ => 0) bits other.
Definition andNot (bits other : bitset) : out bitset :=
  bindO (enlarge bits (Z.max (len bits) (len other))) (fun b => Val (zip (fun x y => Z.land x (Z.lxor MASK y)) (fun x => x) b other)).
Definition or_ (bits other : bitset) : out bitset :=
  bindO (enlarge bits (Z.max (len bits) (len other))) (fun b => Val (zip Z.lor (fun x => x) b other)).
Definition xor_ (bits other : bitset) : out bitset :=
  bindO (enlarge bits (Z.max (len bits) (len other))) (fun b => Val (zip Z.lxor (fun x => x) b other)).

(** isEmpty, 154-161. *)
Definition isEmpty (bits : bitset) : bool := forallb (fun w => w =? 0) bits.

(** intersects, 163-171: the loop goes to the larger length. *)
Fixpoint intersectsFrom (n : nat) (i : Z) (bits other : bitset) : out bool :=
  match n with
  | O => Val false
  | S n' => bindO (aget bits i) (fun x => bindO (aget other i) (fun y =>
            if negb (Z.land x y =? 0) then Val true else intersectsFrom n' (i + 1) bits other))
  end.
Definition intersects (bits other : bitset) : out bool :=
  intersectsFrom (Z.to_nat (Z.max (len bits) (len other))) 0 bits other.

(** length, 173-175. *)
Definition length_ (bits : bitset) : Z := w32 (Z.shiftl (len bits) 6).

(** nextBit, 181-206: the inner loop (at most 64 rounds), then the outer one. *)
Fixpoint scan (n : nat) (word : Z) (bitClear : bool) (current : Z) : option Z * Z :=
  match n with
  | O => (None, current)
  | S n' =>
    if xorb (negb (Z.land word (bitPosition current) =? 0)) bitClear then (Some current, current)
    else let c := current + 1 in if Z.rem c 64 =? 0 then (None, c) else scan n' word bitClear c
  end.
Fixpoint nextLoop (n : nat) (bits : bitset) (bitClear : bool) (pos current : Z) : out Z :=
  match n with
  | O => Throws
  | S n' =>
    bindO (aget bits pos) (fun w =>
    if w =? 0 then
      let pos1 := pos + 1 in
      let pos2 := pos1 + 1 in
      if pos2 <? len bits then nextLoop n' bits bitClear pos2 (Z.shiftl pos1 6) else Val (-1)
    else
      match scan 64 w bitClear current with
      | (Some r, _) => Val r
      | (None, c) => if pos + 1 <? len bits then nextLoop n' bits bitClear (pos + 1) c else Val (-1)
      end)
  end.
Definition nextBit (bits : bitset) (fromIndex : Z) (bitClear : bool) : out Z :=
  let pos := longPosition fromIndex in
  if len bits <=? pos then Val (-1) else nextLoop (S (length bits)) bits bitClear pos fromIndex.
(** nextSetBit, 177-179; nextClearBit, 208-210. *)
Definition nextSetBit (bits : bitset) (fromIndex : Z) : out Z := nextBit bits fromIndex false.
Definition nextClearBit (bits : bitset) (fromIndex : Z) : out Z := nextBit bits fromIndex true.

(** cardinality, 212-219. *)
Fixpoint count (n : nat) (bits : bitset) (i : Z) : out Z :=
  match n with
  | O => Throws
  | S n' => if i <? 0 then Val 0
            else bindO (nextSetBit bits (i + 1)) (fun j => bindO (count n' bits j) (fun c => Val (c + 1)))
  end.
Definition cardinality (bits : bitset) : out Z := bindO (nextSetBit bits 0) (count (S (64 * length bits)) bits).
