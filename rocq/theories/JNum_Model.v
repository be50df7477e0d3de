(** Model of numbers as text and of bit counting in the class library
    (classpath/java/lang/Long.java, Integer.java, Character.java). *)
From Coq Require Import List ZArith Bool.
From Verif Require Import Res.
Import ListNotations.
Local Open Scope Z_scope.
Local Open Scope res_scope.

(** A Java long is a Z in [-2^63, 2^63), an int one in [-2^31, 2^31), a char one in [0, 2^16);
    arithmetic wraps (as the interpreter's and the compiler's does).  A String is the list of its
    chars.  A thrown exception is [Abort], a loop that is not finished within the given number of
    rounds is [Fuel]. *)
Definition wrap64 (z : Z) : Z := (z + 2 ^ 63) mod 2 ^ 64 - 2 ^ 63.
Definition wrap32 (z : Z) : Z := (z + 2 ^ 31) mod 2 ^ 32 - 2 ^ 31.
Definition char16 (z : Z) : Z := z mod 2 ^ 16.

Definition c0 : Z := 48. Definition c9 : Z := 57.
Definition cA : Z := 65. Definition cZ : Z := 90.
Definition ca : Z := 97. Definition cz : Z := 122.
Definition minus : Z := 45.

(** classpath/java/lang/Character.java:93-110 [digit] *)
Definition digit (c radix : Z) : Z :=
  let d := if (c0 <=? c) && (c <=? c9) then c - c0
           else if (ca <=? c) && (c <=? cz) then c - ca + 10
           else if (cA <=? c) && (c <=? cZ) then c - cA + 10
           else -1 in
  if d <? 0 then -1 else if d <? radix then d else -1.

(** classpath/java/lang/Long.java:65: the size of the array *)
Fixpoint countDigits (fuel : nat) (n radix : Z) (size : Z) : res Z :=
  match fuel with
  | O => Fuel
  | S k => if n =? 0 then Ok size else countDigits k (wrap64 (Z.quot n radix)) radix (size + 1)
  end.

(** writing an array element; an index out of range is an exception *)
Definition store (a : list Z) (i v : Z) : res (list Z) :=
  if (0 <=? i) && (i <? Z.of_nat (length a))
  then Ok (firstn (Z.to_nat i) a ++ v :: skipn (S (Z.to_nat i)) a) else Abort.

(** classpath/java/lang/Long.java:69-80: the digits, from the last *)
Fixpoint putDigits (fuel : nat) (n radix : Z) (negative : bool) (i : Z) (a : list Z)
    : res (Z * list Z) :=
  match fuel with
  | O => Fuel
  | S k =>
    if n =? 0 then Ok (i, a) else
    let d0 := Z.rem n radix in
    let d := if negative then wrap64 (- d0) else d0 in
    let ch := if (0 <=? d) && (d <=? 9) then char16 (c0 + d) else char16 (ca + (d - 10)) in
    do a1 <- store a i ch;
    putDigits k (wrap64 (Z.quot n radix)) radix negative (i - 1) a1
  end.

(** classpath/java/lang/Long.java:53-87 [toString(long, int)] *)
Definition toStringRadix (fuel : nat) (v radix : Z) : res (list Z) :=
  if (radix <? 1) || (36 <? radix) then Abort
  else if v =? 0 then Ok [c0]
  else
    let negative := v <? 0 in
    do size <- countDigits fuel v radix (if negative then 1 else 0);
    do ia <- putDigits fuel v radix negative (size - 1) (repeat 0 (Z.to_nat size));
    let '(i, a) := ia in
    if negative then store a i minus else Ok a.

(** classpath/java/lang/Long.java:135-139 [pow]; [n] is the number of rounds *)
Fixpoint pow (a : Z) (n : nat) (c : Z) : Z :=
  match n with O => c | S k => pow a k (wrap64 (c * a)) end.

(** classpath/java/lang/Long.java:156-166: the loop of parseLong *)
Fixpoint parseDigits (s : list Z) (radix number factor : Z) : res Z :=
  match s with
  | [] => Ok number
  | c :: rest =>
    let d := digit c radix in
    if 0 <=? d then parseDigits rest radix (wrap64 (number + wrap64 (d * factor)))
                                (wrap64 (Z.quot factor radix))
    else Abort
  end.

(** classpath/java/lang/Long.java:145-173 [parseLong(String, int)]; the radix is not 0 (division
    by zero otherwise) *)
Definition parseLong (s : list Z) (radix : Z) : res Z :=
  let negative := match s with c :: _ => c =? minus | [] => false end in
  let body := if negative then tl s else s in
  let factor := pow radix (Z.to_nat (Z.of_nat (length body) - 1)) 1 in
  do number <- parseDigits body radix 0 factor;
  Ok (if negative then wrap64 (- number) else number).

(** classpath/java/lang/Integer.java:122-124 [parseInt(String, int)] *)
Definition parseInt (s : list Z) (radix : Z) : res Z :=
  do v <- parseLong s radix; Ok (wrap32 v).
(** classpath/java/lang/Integer.java:53-73 [toString], [toHexString] (the radix is 16),
    [toOctalString] (8), [toBinaryString] (2) *)
Definition intToString (fuel : nat) (v radix : Z) : res (list Z) := toStringRadix fuel v radix.
Definition intToUnsigned (fuel : nat) (v radix : Z) : res (list Z) :=
  toStringRadix fuel (Z.land v (2 ^ 32 - 1)) radix.
(** classpath/java/lang/Long.java:93-103 [toHexString] (16), [toOctalString], [toBinaryString] *)
Definition longToUnsigned (fuel : nat) (v radix : Z) : res (list Z) := toStringRadix fuel v radix.

(** classpath/java/lang/Integer.java:45-47 [compareTo] *)
Definition intCompareTo (a b : Z) : Z := wrap32 (a - b).
(** classpath/java/lang/Long.java:37-39 [compareTo] *)
Definition longCompareTo (a b : Z) : Z := if b <? a then 1 else if a <? b then -1 else 0.

(** classpath/java/lang/Integer.java:104-108 [bitCount] *)
Definition bitCount (v0 : Z) : Z :=
  let v1 := wrap32 (v0 - Z.land (Z.shiftr v0 1) 0x55555555) in
  let v2 := wrap32 (Z.land v1 0x33333333 + Z.land (Z.shiftr v1 2) 0x33333333) in
  Z.shiftr (wrap32 (Z.land (wrap32 (v2 + Z.shiftr v2 4)) 0xF0F0F0F * 0x1010101)) 24.

(** classpath/java/lang/Integer.java:110-116 [reverseBytes] *)
Definition ushr32 (v n : Z) : Z := wrap32 (Z.shiftr (v mod 2 ^ 32) n).
Definition reverseBytes (v : Z) : Z :=
  let byte3 := ushr32 v 24 in
  let byte2 := Z.land (ushr32 v 8) 0xFF00 in
  let byte1 := Z.land (wrap32 (Z.shiftl v 8)) 0xFF00 in
  let byte0 := wrap32 (Z.shiftl v 24) in
  Z.lor (Z.lor (Z.lor byte0 byte1) byte2) byte3.

(** classpath/java/lang/Integer.java:143-151 [numberOfLeadingZeros] *)
Definition smear (v n : Z) : Z := Z.lor v (Z.shiftr v n).
Definition numberOfLeadingZeros (v : Z) : Z :=
  bitCount (Z.lnot (smear (smear (smear (smear (smear v 1) 2) 4) 8) 16)).
