(** java.util.zip.CRC32: classpath/java/util/zip/CRC32.java:13-69. An int is the 32-bit word
    with the same bits. *)
From Coq Require Import NArith List Bool.
Import ListNotations.
Local Open Scope N_scope.

(** The 32 bits an int keeps: CRC32.java:24, 27-28, 42. *)
Definition word (x : N) : N := x mod 2 ^ 32.
(** CRC32.java:14-18 *)
Definition Polynomial : N := 0x04C11DB7.
Definition InitialRemainder : N := 0xFFFFFFFF.
Definition ResultXor : N := 0xFFFFFFFF.
(** CRC32.java:26-28 *)
Definition shift1 (remainder : N) : N :=
  if N.testbit remainder 31 then N.lxor (word (N.shiftl remainder 1)) Polynomial else word (N.shiftl remainder 1).
(** CRC32.java:25-29 *)
Fixpoint shiftBits (bit : nat) (remainder : N) : N := match bit with O => remainder | S b => shiftBits b (shift1 remainder) end.
(** CRC32.java:20-32 *)
Definition table : list N := map (fun dividend => shiftBits 8 (word (N.shiftl (N.of_nat dividend) 24))) (seq 0 256).
(** CRC32.java:61-67, with [n] rounds to go: (n - 1) - i is the number of rounds after this *)
Fixpoint reflectLoop (n : nat) (x reflection : N) : N :=
  match n with
  | O => reflection
  | S m => reflectLoop m (N.shiftr x 1) (if N.testbit x 0 then N.lor reflection (N.shiftl 1 (N.of_nat m)) else reflection)
  end.
(** CRC32.java:59-68 *)
Definition reflect (x : N) (n : nat) : N := reflectLoop n x 0.
(** CRC32.java:40-43; [None] is ArrayIndexOutOfBoundsException *)
Definition update (b remainder : N) : option N :=
  match nth_error table (N.to_nat (N.lxor (reflect b 8) (N.shiftr remainder 24))) with
  | Some t => Some (N.lxor t (word (N.shiftl remainder 8)))
  | None => None
  end.
(** CRC32.java:45-53; simplified: [bytes] are those from offset to offset + length, and a
    range outside the array is left out *)
Fixpoint updates (bytes : list N) (remainder : N) : option N :=
  match bytes with
  | [] => Some remainder
  | b :: r => match update (N.land b 0xFF) remainder with Some m => updates r m | None => None end
  end.
(** CRC32.java:55-57 *)
Definition getValue (remainder : N) : N := N.land (N.lxor (reflect remainder 32) ResultXor) 0xFFFFFFFF.

(** The calls: CRC32.java:34-57, [remainder] being the one field. *)
Inductive call := UpdateByte (b : N) | UpdateArray (l : list N) | Reset | GetValue.
(** CRC32.java:34-57, one call after another *)
Fixpoint run (cs : list call) (remainder : N) : option (list N) :=
  match cs with
  | [] => Some []
  | UpdateByte b :: r => match update b remainder with Some m => run r m | None => None end
  | UpdateArray l :: r => match updates l remainder with Some m => run r m | None => None end
  | Reset :: r => run r InitialRemainder                       (* CRC32.java:36-38 *)
  | GetValue :: r => option_map (cons (getValue remainder)) (run r remainder)
  end.
