(** Packed exception and line number table entries and the line number lookup:
    src/avian/machine.h:3794-3835, src/process.cpp:271-309. *)
From Coq Require Import NArith ZArith List Bool.
From Verif Require Import Res.
Import ListNotations.
Local Open Scope N_scope.
Local Open Scope res_scope.

Definition W64 : N := 2 ^ 64.

(** [uint64_t x << n]: bits shifted out of the word are lost. *)
Definition shl64 (x n : N) : N := N.shiftl x n mod W64.
(** Conversion of a uint64_t to [unsigned]. *)
Definition trunc32 (x : N) : N := x mod 2 ^ 32.

(** machine.h:3794-3800 *)
Definition exceptionHandler (start end_ ip catchType : N) : N :=
  N.lor (N.lor (N.lor (shl64 start 48) (shl64 end_ 32)) (shl64 ip 16)) catchType.
(** machine.h:3802-3805 *)
Definition exceptionHandlerStart (eh : N) : N := trunc32 (N.shiftr eh 48).
(** machine.h:3807-3810 *)
Definition exceptionHandlerEnd (eh : N) : N := trunc32 (N.land (N.shiftr eh 32) 0xFFFF).
(** machine.h:3812-3815 *)
Definition exceptionHandlerIp (eh : N) : N := trunc32 (N.land (N.shiftr eh 16) 0xFFFF).
(** machine.h:3817-3820 *)
Definition exceptionHandlerCatchType (eh : N) : N := trunc32 (N.land eh 0xFFFF).
(** machine.h:3822-3825 *)
Definition lineNumber (ip line : N) : N := N.lor (shl64 ip 32) line.
(** machine.h:3827-3830 *)
Definition lineNumberIp (ln : N) : N := trunc32 (N.shiftr ln 32).
(** machine.h:3832-3835 *)
Definition lineNumberLine (ln : N) : N := trunc32 (N.land ln 0xFFFFFFFF).

(** machine.h:176-177 *)
Definition NativeLine : Z := (-2)%Z.
Definition UnknownLine : Z := (-1)%Z.

(** process.cpp:283-301: the binary search and the final answer.  [lnt] is the table
    body; indexing outside it is [UB]; [Fuel]: the loop has not ended after [fuel]
    iterations.  The returned line is converted from [unsigned] to [int]; line numbers
    are 16-bit values in the class file, so the conversion is the identity. *)
Fixpoint searchLine (fuel : nat) (lnt : list N) (ip : N) (bottom top : N) : res Z :=
  let span := top - bottom in
  if span =? 0 then
    if top <? N.of_nat (length lnt) then
      do ln <- of_option (nth_error lnt (N.to_nat top));
      Ok (Z.of_N (lineNumberLine ln))
    else Ok UnknownLine
  else
    match fuel with
    | O => Fuel
    | S f =>
        let middle := bottom + span / 2 in
        do ln <- of_option (nth_error lnt (N.to_nat middle));
        do hit <- (if lineNumberIp ln <=? ip then
                     if middle + 1 =? N.of_nat (length lnt) then Ok true
                     else do ln' <- of_option (nth_error lnt (N.to_nat (middle + 1)));
                          Ok (ip <? lineNumberIp ln')
                   else Ok false);
        if (hit : bool) then Ok (Z.of_N (lineNumberLine ln))
        else if ip <? lineNumberIp ln then searchLine f lnt ip bottom middle
        else if lineNumberIp ln <? ip then searchLine f lnt ip (middle + 1) top
        else searchLine f lnt ip bottom top
    end.

(** process.cpp:271-309 [findLineNumber]; [lnt = None]: no table; [--ip] wraps. *)
Definition findLineNumber (fuel : nat) (native : bool) (lnt : option (list N)) (ip : N) : res Z :=
  if native then Ok NativeLine
  else
    let ip := (ip + (2 ^ 32 - 1)) mod 2 ^ 32 in
    match lnt with
    | None => Ok UnknownLine
    | Some body => searchLine fuel body ip 0 (N.of_nat (length body))
    end.

(** src/machine.cpp:2334-2342 (parseCode): the table is filled in file order, without
    sorting; an entry is (start pc, line), both 16-bit. *)
Definition packTable (entries : list (N * N)) : list N :=
  map (fun e => lineNumber (fst e) (snd e)) entries.
