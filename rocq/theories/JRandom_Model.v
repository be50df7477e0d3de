(** java.util.Random: classpath/java/util/Random.java:13-87. The constructor without a seed
    (which takes the time) is not modelled; the synchronisation with other threads neither,
    the code has none. *)
From Coq Require Import ZArith List Bool.
From Verif Require Import JNum_Model.
Import ListNotations.
Local Open Scope Z_scope.

(** Random.java:14 *)
Definition Mask : Z := 0x5DEECE66D.
(** Random.java:36-38 *)
Definition setSeed (seed : Z) : Z := Z.land (Z.lxor seed Mask) (2 ^ 48 - 1).
(** Random.java:41 *)
Definition advance (seed : Z) : Z := Z.land (wrap64 (wrap64 (seed * Mask) + 0xB)) (2 ^ 48 - 1).
(** Random.java:40-43: the new seed and the number *)
Definition draw (bits seed : Z) : Z * Z := let s := advance seed in (s, wrap32 (Z.shiftr s (48 - bits))).
(** Random.java:50: limit is a power of two *)
Definition single (limit : Z) : bool := Z.land limit (wrap32 (- limit)) =? limit.
(** Random.java:60: the loop goes on *)
Definition again (limit bits : Z) : bool := wrap32 (wrap32 (bits - Z.rem bits limit) + (limit - 1)) <? 0.
(** Random.java:55-62; [None]: more than [fuel] rounds *)
Fixpoint search (fuel : nat) (limit seed : Z) : option (Z * Z) :=
  match fuel with
  | O => None
  | S f => let '(s, bits) := draw 31 seed in
           if again limit bits then search f limit s else Some (s, Z.rem bits limit)
  end.
Inductive answer := Drawn (seed value : Z) | IllegalArgument | StillLooking.
(** Random.java:45-63 *)
Definition nextIntBelow (fuel : nat) (limit seed : Z) : answer :=
  if limit <=? 0 then IllegalArgument
  else if single limit then let '(s, b) := draw 31 seed in Drawn s (wrap32 (Z.shiftr (limit * b) 31))
  else match search fuel limit seed with Some (s, v) => Drawn s v | None => StillLooking end.
(** Random.java:65-67 *)
Definition nextInt (seed : Z) : Z * Z := draw 32 seed.
(** Random.java:71-75: bytes [n] of [r], kept unsigned *)
Fixpoint lowBytes (n : nat) (r : Z) : list Z := match n with O => [] | S m => r mod 256 :: lowBytes m (Z.shiftr r 8) end.
(** Random.java:69-78: [rounds] is at least the length *)
Fixpoint nextBytes (rounds length : nat) (seed : Z) : list Z :=
  match rounds with
  | O => []
  | S f => if (length =? 0)%nat then []
           else let '(s, r) := nextInt seed in lowBytes (Nat.min length 4) r ++ nextBytes f (length - Nat.min length 4) s
  end.
(** Random.java:80-82 *)
Definition nextLong (seed : Z) : Z * Z :=
  let '(s1, a) := draw 32 seed in let '(s2, b) := draw 32 s1 in (s2, wrap64 (wrap64 (Z.shiftl a 32) + b)).
(** Random.java:84-86: the dividend; it is divided by 2^53, exactly (fewer than 2^53) *)
Definition nextDouble53 (seed : Z) : Z * Z :=
  let '(s1, a) := draw 26 seed in let '(s2, b) := draw 27 s1 in (s2, wrap64 (wrap64 (Z.shiftl a 27) + b)).
