(** What System.arraycopy of Java promises. *)
From Coq Require Import ZArith Bool List.
Import ListNotations.
From Verif Require Import ArrayCopy_Model.
Local Open Scope Z_scope.

(** The bytes of element [i] of a body whose elements take [es] bytes. *)
Definition element (es : Z) (body : list Z) (i : Z) : list Z :=
  firstn (Z.to_nat es) (skipn (Z.to_nat (i * es)) body).

(** An array as the machine makes it: the body has the bytes of as many elements as
    the length says, and is below 4 GiB. *)
Definition wellFormed (a : array) : Prop :=
  0 < arrayElementSize (aClass a) /\ 0 <= aLength a <= intMax /\
  Z.of_nat (length (aBody a)) = aLength a * arrayElementSize (aClass a) /\
  aLength a * arrayElementSize (aClass a) < 4294967296.

(** Arrays of one class are copied between, and so are arrays of references. *)
Definition alike (s d : class) : Prop := s = d \/
  (objectMask s = true /\ objectMask d = true /\ arrayElementSize s = arrayElementSize d /\
   primitiveFlag s = false /\ primitiveFlag d = false).

(** The destination afterwards: the elements of the range are those the source had before,
    the others are as they were. *)
Definition copied (es : Z) (src : list Z) (so : Z) (dst dst' : list Z) (d0 n : Z) : Prop :=
  length dst' = length dst /\
  forall i, 0 <= i -> element es dst' i =
    if (d0 <=? i) && (i <? d0 + n) then element es src (so + i - d0) else element es dst i.

(** The two ranges lie in their arrays. *)
Definition inside (s d : array) (so d0 n : Z) : Prop :=
  0 <= so /\ so + n <= aLength s /\ 0 <= d0 /\ d0 + n <= aLength d.

(** An element is changed only inside the range of words reported to the collector. *)
Definition reported (es : Z) (dst dst' : list Z) (marked : option (Z * Z)) : Prop :=
  forall i, 0 <= i -> element es dst' i <> element es dst i ->
    exists p, marked = Some p /\ fst p <= i < fst p + snd p.
