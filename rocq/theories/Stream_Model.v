(** The class-file input stream: include/avian/util/stream.h. *)
From Coq Require Import NArith List Bool.
From Verif Require Import Res.
Import ListNotations.
Local Open Scope N_scope.
Local Open Scope res_scope.

(** stream.h:102-105, 121. [size] and [position_] are 32-bit unsigned; [data] is the buffer
    behind the pointer (touching a byte outside it is [UB]); [errors] counts the calls of
    client->handleError(). The client of parseClass throws or aborts there, the one of
    parseUtf8 ignores it; the model carries on, which covers both. *)
Record stream := { data : list N; ssize : N; position : N; errors : N }.

(** stream.h:25-28, 110-113 *)
Definition newStream (d : list N) (size : N) : stream :=
  {| data := d; ssize := size; position := 0; errors := 0 |}.

Definition sub32 (a b : N) : N := (a + 2 ^ 32 - b) mod 2 ^ 32.
Definition add32 (a b : N) : N := (a + b) mod 2 ^ 32.

Definition withPos (s : stream) (p : N) : stream :=
  {| data := data s; ssize := ssize s; position := p; errors := errors s |}.
Definition handleError (s : stream) : stream :=
  {| data := data s; ssize := ssize s; position := position s; errors := errors s + 1 |}.

(** stream.h:35-38 *)
Definition setPosition (s : stream) (p : N) : stream := withPos s p.

(** stream.h:40-47 *)
Definition skip (s : stream) (size : N) : stream :=
  if sub32 (ssize s) (position s) <? size then handleError s
  else withPos s (add32 (position s) size).

(** stream.h:116-119: memcpy(dst, data + offset, size). *)
Definition copy (s : stream) (offset size : N) : res (list N) :=
  if offset + size <=? N.of_nat (length (data s))
  then Ok (firstn (N.to_nat size) (skipn (N.to_nat offset) (data s)))
  else UB.

(** stream.h:49-59 *)
Definition read (s : stream) (size : N) : res (list N * stream) :=
  if sub32 (ssize s) (position s) <? size then Ok (repeat 0 (N.to_nat size), handleError s)
  else do d <- copy s (position s) size; Ok (d, withPos s (add32 (position s) size)).

(** stream.h:61-66; [v] is the single byte read. *)
Definition read1 (s : stream) : res (N * stream) :=
  do r <- read s 1; Ok (hd 0 (fst r), snd r).
(** stream.h:68-73; the operands are promoted to int, the result is uint16_t. *)
Definition read2 (s : stream) : res (N * stream) :=
  do a <- read1 s; do b <- read1 (snd a);
  Ok (N.lor (N.shiftl (fst a) 8) (fst b) mod 2 ^ 16, snd b).
(** stream.h:75-80 *)
Definition read4 (s : stream) : res (N * stream) :=
  do a <- read2 s; do b <- read2 (snd a);
  Ok (N.lor (N.shiftl (fst a) 16) (fst b) mod 2 ^ 32, snd b).
(** stream.h:82-87 *)
Definition read8 (s : stream) : res (N * stream) :=
  do a <- read4 s; do b <- read4 (snd a);
  Ok (N.lor (N.shiftl (fst a) 32) (fst b) mod 2 ^ 64, snd b).
