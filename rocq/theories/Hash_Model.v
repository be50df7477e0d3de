(** Object headers, identity hash codes and cloning: src/avian/machine.h:138-140 (header marks), 1691-1697 (setObjectClass),
    1971-1999 (objectFixed, objectExtended, hashTaken, baseSize), 2011-2022 (makeNew), 2134-2177 (extendedWord,
    markHashTaken, takeHash, objectHash); src/machine.cpp:3448-3484 (copiedSizeInWords, copy), 5508-5540 (clone).
    Memory is a map from word addresses to words (64 bits, unsigned); addresses are counted in words, so that the address
    of an object divided by BytesPerWord is its word address. References inside objects are plain words: the collector's
    rewriting of reference fields is a Write. heap->pad (padding statistics of the collector) is not modelled. *)
From Coq Require Import List ZArith Bool.
Import ListNotations.
Local Open Scope Z_scope.

(** The part of GcClass used here: fixedSize in words, arrayElementSize in bytes (0: not an array). *)
Record cdesc := Cd { words : Z; elt : Z }.
Definition memory := Z -> Z.
Definition put (m : memory) (a v : Z) : memory := fun x => if x =? a then v else m x.

Section Heap.
Variable cl : Z -> cdesc.

(** PointerMask: all but the low three bits (src/avian/common.h). *)
Definition classOf (m : memory) (p : Z) : Z := m p / 8.
Definition mark (m : memory) (p : Z) : Z := m p mod 8.
Definition HashTakenMark := 1.
Definition ExtendedMark := 2.
Definition FixedMark := 3.
Definition objectFixed m p := mark m p =? FixedMark.
Definition objectExtended m p := mark m p =? ExtendedMark.
Definition hashTaken m p := mark m p =? HashTakenMark.
(** 1986-1999: the length of an array is in the last of the fixed words. *)
Definition baseSize (m : memory) (p : Z) : Z :=
  let c := cl (classOf m p) in
  if 0 <? elt c then words c + (elt c * m (p + words c - 1) + 7) / 8 else words c.
(** 2134-2143 *)
Definition extendedSize m p : Z := baseSize m p + (if objectExtended m p then 1 else 0).
(** 2157-2164 *)
Definition takeHash (p : Z) : Z := Z.land p (2 ^ 31 - 1).
(** 2146-2155, 2166-2177; the result is a uint32_t *)
Definition markHashTaken (m : memory) (p : Z) : memory := put m p (Z.lor (m p) HashTakenMark).
Definition objectHash (m : memory) (p : Z) : memory * Z :=
  if objectExtended m p then (m, m (p + baseSize m p) mod 2 ^ 32)
  else (if objectFixed m p then m else markHashTaken m p, takeHash p).
(** 1691-1697: the marks are kept *)
Definition setObjectClass (m : memory) (p c : Z) : memory := put m p (8 * c + m p mod 8).

(** memcpy of [n] words *)
Definition memcpy (m : memory) (dst src n : Z) : memory := fun x => if (dst <=? x) && (x <? dst + n) then m (src + (x - dst)) else m x.
(** machine.cpp:3448-3462 *)
Definition copiedSize (m : memory) (p : Z) : Z := baseSize m p + (if objectExtended m p || hashTaken m p then 1 else 0).
(** 3464-3484 *)
Definition copy (m : memory) (src dst : Z) : memory :=
  let base := baseSize m src in
  let m1 := memcpy m dst src (extendedSize m src) in
  if hashTaken m src then put (put m1 dst (m1 dst / 8 * 8 + ExtendedMark)) (dst + base) (takeHash src) else m1.

(** Allocation of [n] zeroed words at [a], fixed or movable (allocateSmall; allocate3, machine.cpp:4246-4358). *)
Definition fill (m : memory) (a n v : Z) : memory := fun x => if (a <=? x) && (x <? a + n) then v else m x.
Definition allocate (m : memory) (fixed : bool) (a n : Z) : memory :=
  put (fill m a n 0) a (if fixed then FixedMark else 0).
(** 2011-2022, and for arrays with the length set *)
Definition sizeOf (c len : Z) : Z := if 0 <? elt (cl c) then words (cl c) + (elt (cl c) * len + 7) / 8 else words (cl c).
Definition make (m : memory) (fixed : bool) (a c len : Z) : memory :=
  let m1 := setObjectClass (allocate m fixed a (sizeOf c len)) a c in
  if 0 <? elt (cl c) then put m1 (a + words (cl c) - 1) len else m1.
(** machine.cpp:5508-5540; the clone is allocated at [a]. In the array case the header is copied with its marks; line 5520
    sets the class of the original to what it is. *)
Definition clone (m : memory) (fixed : bool) (p a : Z) : memory :=
  let c := classOf m p in
  let size := baseSize m p in
  if 0 <? elt (cl c) then
    let m1 := memcpy (allocate m fixed a size) a p size in
    setObjectClass m1 p (classOf m1 p)
  else
    let m1 := make m fixed a c 0 in
    memcpy m1 (a + 1) (p + 1) (size - 1).

(** Histories. Objects have numbers; [addr] is where each one is now; [ext] how many words it was given. *)
Record state := St { mem : memory; addr : nat -> option Z; ext : nat -> Z; count : nat }.
Definition upd {A} (f : nat -> A) k v : nat -> A := fun i => if Nat.eqb i k then v else f i.
Inductive op :=
| New (fixed : bool) (a c len : Z)
| Write (id : nat) (i v : Z)
| Hash (id : nat)
| Clone (fixed : bool) (id : nat) (a : Z)
| Collect (dest : nat -> option Z).   (* where each object goes; None: it is freed *)
(** The collector copies the objects one after the other. *)
Fixpoint copyAll (m : memory) (from dest : nat -> option Z) (n : nat) : memory :=
  match n with
  | O => m
  | S n =>
    let m := copyAll m from dest n in
    match from n, dest n with
    | Some p, Some q => if q =? p then m else copy m p q
    | _, _ => m
    end
  end.
Definition apply (s : state) (o : op) : state * option (nat * Z) :=
  match o with
  | New fixed a c len =>
    (St (make (mem s) fixed a c len) (upd (addr s) (count s) (Some a)) (upd (ext s) (count s) (sizeOf c len)) (S (count s)), None)
  | Write id i v =>
    match addr s id with Some p => (St (put (mem s) (p + i) v) (addr s) (ext s) (count s), None) | None => (s, None) end
  | Hash id =>
    match addr s id with
    | Some p => let '(m, h) := objectHash (mem s) p in (St m (addr s) (ext s) (count s), Some (id, h))
    | None => (s, None)
    end
  | Clone fixed id a =>
    match addr s id with
    | Some p => (St (clone (mem s) fixed p a) (upd (addr s) (count s) (Some a)) (upd (ext s) (count s) (baseSize (mem s) p)) (S (count s)), None)
    | None => (s, None)
    end
  | Collect dest =>
    (St (copyAll (mem s) (addr s) dest (count s)) (fun i => match addr s i with Some _ => dest i | None => None end)
       (fun i => match addr s i, dest i with
                 | Some p, Some q => if q =? p then ext s i else copiedSize (mem s) p
                 | _, _ => ext s i end) (count s), None)
  end.
End Heap.
