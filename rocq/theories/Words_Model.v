(** Arrays of 64-bit words and the bit operations on them: src/avian/common.h:325-410
    with T = uintptr_t; constant pool / static table masks: src/avian/machine.h:3253-3369.

    A word array is the list of its words (each below 2^64); an access outside it is
    [UB]. *)
From Coq Require Import NArith ZArith List Bool.
From Verif Require Import Res.
Import ListNotations.
Local Open Scope N_scope.
Local Open Scope res_scope.

Definition words := list N.

Fixpoint upd_nth {A} (l : list A) (i : nat) (x : A) : option (list A) :=
  match l, i with
  | [], _ => None
  | _ :: r, O => Some (x :: r)
  | y :: r, S j => match upd_nth r j x with None => None | Some r' => Some (y :: r') end
  end.

(** [map[i]] and [map[i] = v]. *)
Definition rdw (m : words) (i : N) : res N := of_option (nth_error m (N.to_nat i)).
Definition wrw (m : words) (i v : N) : res words := of_option (upd_nth m (N.to_nat i) v).

(** common.h:326-356 *)
Definition wordOf (i : N) : N := i / 64.
Definition bitOf (i : N) : N := i mod 64.
Definition indexOf (word bit : N) : N := word * 64 + bit.

(** common.h:358-362; [1 << bitOf(i)] is below 2^64. *)
Definition markBit (m : words) (i : N) : res words :=
  do w <- rdw m (wordOf i);
  wrw m (wordOf i) (N.lor w (N.shiftl 1 (bitOf i))).
(** common.h:364-368; [w & ~x]. *)
Definition clearBit (m : words) (i : N) : res words :=
  do w <- rdw m (wordOf i);
  wrw m (wordOf i) (N.ldiff w (N.shiftl 1 (bitOf i))).
(** common.h:370-375 *)
Definition getBit (m : words) (i : N) : res N :=
  do w <- rdw m (wordOf i);
  Ok (N.shiftr (N.land w (N.shiftl 1 (bitOf i))) (bitOf i)).

(** common.h:381-387; [n] = bitsPerRecord, the loop from [index] upwards. *)
Fixpoint clearBits (m : words) (n : nat) (index : N) : res words :=
  match n with
  | O => Ok m
  | S n => do m <- clearBit m index; clearBits m n (index + 1)
  end.

(** common.h:389-399: from the last bit down to [index], consuming [v] from its low end.
    [n] bits remain. Indices are non-negative and below 2^31. *)
Fixpoint setBits (m : words) (n : nat) (index v : N) : res words :=
  match n with
  | O => Ok m
  | S n' =>
      do m <- (if N.odd v then markBit m (index + N.of_nat n') else clearBit m (index + N.of_nat n'));
      setBits m n' index (N.shiftr v 1)
  end.

(** common.h:401-410: [v] is a 32-bit [unsigned]. *)
Fixpoint getBitsLoop (m : words) (n : nat) (index v : N) : res N :=
  match n with
  | O => Ok v
  | S n' =>
      do b <- getBit m index;
      getBitsLoop m n' (index + 1) (N.lor (N.shiftl v 1 mod 2 ^ 32) b)
  end.
Definition getBits (m : words) (n : nat) (index : N) : res N := getBitsLoop m n index 0.

(** * Singletons: a word array whose last words are the object mask *)

(** math.h:35-38 with the [unsigned] wrap-around. *)
Definition ceilDiv (n d : N) : N := (n + d - 1) mod 2 ^ 32 / d.

(** machine.h:3253-3264, from the element count (BitsPerWord = 64). *)
Definition singletonMaskSizeOfCount (count : N) : N :=
  if count =? 0 then 0 else ceilDiv (count + 2) 64.
(** machine.h:3266-3273, from the array length. *)
Definition singletonMaskSize (body : words) : N :=
  let length := N.of_nat (length body) in
  if length =? 0 then 0 else ceilDiv (length + 2) 65.
(** machine.h:3275-3278 *)
Definition singletonCount (body : words) : N := N.of_nat (length body) - singletonMaskSize body.

(** machine.h:3280-3285: the mask is an array of uint32_t starting at word
    [singletonCount]; element [k] is the low (even k) or high (odd k) half of a word
    (little endian). *)
Definition rdMask (body : words) (k : N) : res N :=
  do w <- rdw body (singletonCount body + k / 2);
  Ok (N.shiftr w (32 * (k mod 2)) mod 2 ^ 32).
Definition wrMask (body : words) (k v : N) : res words :=
  do w <- rdw body (singletonCount body + k / 2);
  wrw body (singletonCount body + k / 2)
    (N.lor (N.ldiff w (N.shiftl (N.ones 32) (32 * (k mod 2)))) (N.shiftl v (32 * (k mod 2)))).

(** machine.h:3287-3297 *)
Definition singletonMarkObject (body : words) (index : N) : res words :=
  do x <- rdMask body ((index + 2) / 32);
  wrMask body ((index + 2) / 32) (N.lor x (N.shiftl 1 ((index + 2) mod 32))).
(** machine.h:3299-3305 *)
Definition singletonIsObject (body : words) (index : N) : res bool :=
  do x <- rdMask body ((index + 2) / 32);
  Ok (negb (N.land x (N.shiftl 1 ((index + 2) mod 32)) =? 0)).
(** machine.h:3323-3331: the array is zero-initialised by makeSingleton. *)
Definition makeSingletonOfSize (count : N) : res words :=
  let o := repeat 0 (N.to_nat (count + singletonMaskSizeOfCount count)) in
  if count =? 0 then Ok o else wrMask o 0 1.
(** machine.h:3333-3349 *)
Definition singletonSetBit (body : words) (start index : N) : res words :=
  do w <- rdw body (start + index / 64);
  wrw body (start + index / 64) (N.lor w (N.shiftl 1 (index mod 64))).
Definition singletonBit (body : words) (start index : N) : res bool :=
  do w <- rdw body (start + index / 64);
  Ok (negb (N.land w (N.shiftl 1 (index mod 64)) =? 0)).
(** machine.h:3351-3369 *)
Definition poolMaskSizeOfCount (count : N) : N := ceilDiv count 64.
Definition poolMaskSize (pool : words) : N := ceilDiv (singletonCount pool) 65.
Definition poolSize (pool : words) : N := singletonCount pool - poolMaskSize pool.
(** machine.cpp:1110: the constant pool of [count] entries. *)
Definition makePool (count : N) : res words := makeSingletonOfSize (count + poolMaskSizeOfCount count).

(** machine.cpp:1119-1189: the writes that fill a pool. [singletonValue] and
    [singletonObject] (machine.h:3307-3321) are references to body()[index]. *)
Definition singletonStore (body : words) (index v : N) : res words := wrw body index v.
Definition singletonLoad (body : words) (index : N) : res N := rdw body index.
