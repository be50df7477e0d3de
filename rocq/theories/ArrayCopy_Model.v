(** System.arraycopy: arrayCopy and compatibleArrayTypes, src/avian/classpath-common.h 61-120,
    called by src/classpath-avian.cpp 441-451.  64-bit configuration. *)
From Coq Require Import ZArith Lia Bool List.
Import ListNotations.
Local Open Scope Z_scope.

(** What arrayCopy uses of a class.  [arrayElementSize] is in bytes, 0 when the class has no
    elements; [primitiveFlag] is vmFlags & PrimitiveFlag; [objectMask] says whether the
    class has one, that is, whether the elements are references. *)
Record class := Class { classId : Z; arrayElementSize : Z; primitiveFlag : bool; objectMask : bool }.

(** The classes of Java arrays.  PrimitiveFlag is set on the classes of int, byte, ... only
    (src/machine.cpp 3326-3334); the classes of int[], byte[], ... are made with
    BootstrapFlag alone (bootClass, src/machine.cpp 3138-3215), and those of arrays of
    references with no flag (makeArrayClass, src/machine.cpp 2961-2963). *)
Definition booleanArray := Class 1 1 false false.
Definition byteArray := Class 2 1 false false.
Definition charArray := Class 3 2 false false.
Definition shortArray := Class 4 2 false false.
Definition intArray := Class 5 4 false false.
Definition floatArray := Class 6 4 false false.
Definition longArray := Class 7 8 false false.
Definition doubleArray := Class 8 8 false false.
(** The array class of the reference class [c], with [c] above 0. *)
Definition refArray (c : Z) := Class (8 + c) 8 false true.

(** An array: its class, its length field, and the bytes of its body.  An object that is
    not an array has a class whose element size is 0. *)
Record array := Array { aClass : class; aLength : Z; aBody : list Z }.

Inductive exception := NullPointer | ArrayStore | IndexOutOfBounds.

(** What a call does: it copies, giving the new body of the destination and the range of
    words reported to the collector (Heap::mark), counted from the first element; it
    throws; or its behaviour is undefined by C++. *)
Inductive outcome := Copied (body : list Z) (marked : option (Z * Z)) | Thrown (e : exception) | Undefined.

(** compatibleArrayTypes, 61-66. *)
Definition compatibleArrayTypes (a b : class) : bool :=
  negb (arrayElementSize a =? 0) && negb (arrayElementSize b =? 0)
  && ((classId a =? classId b) || negb (primitiveFlag a || primitiveFlag b)).

Definition intMax : Z := 2147483647.
(** [int32_t * unsigned] is unsigned and wraps. *)
Definition mul32 (a b : Z) : Z := (a * b) mod 4294967296.
Definition len (l : list Z) : Z := Z.of_nat (length l).

(** memcpy and memmove: undefined when a range leaves its array.  Both are given
    the bytes as they were before the call; memcpy is only called for different arrays. *)
Definition copyBytes (dst : list Z) (dp : Z) (src : list Z) (sp n : Z) : option (list Z) :=
  if (sp + n <=? len src) && (dp + n <=? len dst)
  then Some (firstn (Z.to_nat dp) dst ++ firstn (Z.to_nat n) (skipn (Z.to_nat sp) src) ++ skipn (Z.to_nat (dp + n)) dst)
  else None.

(** arrayCopy, 68-120.  [None] is null.  When source and destination are one object they are
    given as the same array.  The sums of two int32_t are undefined when they overflow
    (84-85; the program is not built with -fwrapv); the conjunction is evaluated from left
    to right. *)
Definition arrayCopy (src : option array) (srcOffset : Z) (dst : option array) (dstOffset length : Z) : outcome :=
  match src, dst with
  | Some s, Some d =>
    if negb (compatibleArrayTypes (aClass s) (aClass d)) then Thrown ArrayStore
    else
      let elementSize := arrayElementSize (aClass s) in
      if elementSize =? 0 then Thrown ArrayStore
      else if 0 <? length then
        if negb (0 <=? srcOffset) then Thrown IndexOutOfBounds
        else if intMax <? srcOffset + length then Undefined
        else if negb ((srcOffset <? srcOffset + length) && (srcOffset + length <=? aLength s) && (0 <=? dstOffset))
        then Thrown IndexOutOfBounds
        else if intMax <? dstOffset + length then Undefined
        else if negb ((dstOffset <? dstOffset + length) && (dstOffset + length <=? aLength d))
        then Thrown IndexOutOfBounds
        else
          match copyBytes (aBody d) (mul32 dstOffset elementSize) (aBody s) (mul32 srcOffset elementSize)
                          (mul32 length elementSize) with
          | None => Undefined
          | Some b => Copied b (if objectMask (aClass d) then Some (dstOffset, length) else None)
          end
      else if length <? 0 then Thrown IndexOutOfBounds
      else Copied (aBody d) None
  | _, _ => Thrown NullPointer
  end.
