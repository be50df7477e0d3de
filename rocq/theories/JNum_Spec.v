(** What numbers written as text mean, and what bit counts are. *)
From Coq Require Import List ZArith Bool.
Import ListNotations.
Local Open Scope Z_scope.

Definition isLong (v : Z) : Prop := - 2 ^ 63 <= v < 2 ^ 63.
Definition isInt (v : Z) : Prop := - 2 ^ 31 <= v < 2 ^ 31.

(** The value of a sequence of digits, most significant first. *)
Definition valueOf (radix : Z) (ds : list Z) : Z := fold_left (fun a d => a * radix + d) ds 0.
Definition isDigits (radix : Z) (ds : list Z) : Prop := Forall (fun d => 0 <= d < radix) ds.

(** The character of a digit: 0..9, a..z; in input also A..Z. *)
Definition digitChar (d : Z) : Z := if d <? 10 then 48 + d else 97 + (d - 10).
Definition readsAs (c d : Z) : Prop := c = digitChar d \/ (10 <= d /\ c = 65 + (d - 10)).

(** [isNumeral s radix neg v]: the text [s] is an optional minus sign (if [neg]) followed by at
    least one digit, and the digits have the value [v]. *)
Definition isNumeral (s : list Z) (radix : Z) (neg : bool) (v : Z) : Prop :=
  exists ds cs, s = (if neg then [45] else []) ++ cs /\ Forall2 readsAs cs ds /\ ds <> [] /\
    isDigits radix ds /\ valueOf radix ds = v.

(** The canonical text of [v]: the sign, no superfluous zeros, small letters. *)
Definition isText (radix v : Z) (s : list Z) : Prop :=
  exists ds, s = (if v <? 0 then [45] else []) ++ map digitChar ds /\ isDigits radix ds /\
    ds <> [] /\ (hd 0 ds = 0 -> ds = [0]) /\ valueOf radix ds = Z.abs v.

(** The number of ones among the low [n] bits (two's complement for negative numbers). *)
Fixpoint ones (n : nat) (v : Z) : Z :=
  match n with O => 0 | S k => ones k v + (if Z.testbit v (Z.of_nat k) then 1 else 0) end.

(** [k] is the number of zeros above the highest one among 32 bits. *)
Definition isLeadingZeros (v k : Z) : Prop :=
  0 <= k <= 32 /\ (forall i, 32 - k <= i < 32 -> Z.testbit v i = false) /\
  (k < 32 -> Z.testbit v (31 - k) = true).

(** Byte [k] of a word, the lowest being 0. *)
Definition byteOf (k v : Z) : Z := (v / 2 ^ (8 * k)) mod 2 ^ 8.

(** What a comparison has to be: its sign is that of the difference of the numbers. *)
Definition isOrder (cmp : Z -> Z -> Z) (dom : Z -> Prop) : Prop :=
  forall a b, dom a -> dom b ->
    (cmp a b < 0 <-> a < b) /\ (cmp a b = 0 <-> a = b) /\ (0 < cmp a b <-> b < a).
