(** Method descriptors: src/avian/machine.h:2261-2370, src/machine.cpp:4658-4693 and
    5405-5426.

    A [const char*] is the list of the bytes from the pointer to the end of the
    allocated array (whose last byte is the terminating NUL); dereferencing past the end
    is [UB].  Counts are unbounded naturals: a descriptor has at most 65535 bytes, so
    the [unsigned] counters cannot wrap. *)
From Coq Require Import NArith List Bool.
From Verif Require Import Res Chars.
Import ListNotations.
Local Open Scope N_scope.
Local Open Scope res_scope.

(** [*s] *)
Definition deref (s : list N) : res N := match s with [] => UB | c :: _ => Ok c end.
(** [s + 1] (forming a pointer further than one past the end would already be
    undefined; the model only reports it when it is dereferenced). *)
Definition inc (s : list N) : list N := tl s.

(** machine.h:2275-2276 and 2285-2286: [while ( *s and *s != ';') ++s]. *)
Fixpoint skipToSemi (s : list N) : res (list N) :=
  match s with
  | [] => UB
  | c :: r => if (c =? 0) || (c =? ch ";") then Ok s else skipToSemi r
  end.

(** machine.h:2281-2282: [while ( *s == '[') ++s]. *)
Fixpoint skipBrackets (s : list N) : res (list N) :=
  match s with
  | [] => UB
  | c :: r => if c =? ch "[" then skipBrackets r else Ok s
  end.

(** machine.h:2267-2302 [MethodSpecIterator::next]: the new position.  The returned
    pointer is the old position.  *)
Definition next (s : list N) : res (list N) :=
  do c <- deref s;
  if c =? ch ")" then Abort       (* assertT *)
  else if c =? ch "L" then do s <- skipToSemi s; Ok (inc s)
  else if c =? ch "[" then
    do s <- skipBrackets s;
    do c <- deref s;
    if c =? ch "L" then do s <- skipToSemi s; Ok (inc s) else Ok (inc s)
  else Ok (inc s).

(** machine.h:158-169 enum FieldCode *)
Inductive code := VoidField | ByteField | CharField | DoubleField | FloatField | IntField
  | LongField | ShortField | BooleanField | ObjectField.

(** machine.cpp:4658-4687 [fieldCode] *)
Definition fieldCode (c : N) : res code :=
  if c =? ch "B" then Ok ByteField
  else if c =? ch "C" then Ok CharField
  else if c =? ch "D" then Ok DoubleField
  else if c =? ch "F" then Ok FloatField
  else if c =? ch "I" then Ok IntField
  else if c =? ch "J" then Ok LongField
  else if c =? ch "S" then Ok ShortField
  else if c =? ch "V" then Ok VoidField
  else if c =? ch "Z" then Ok BooleanField
  else if (c =? ch "L") || (c =? ch "[") then Ok ObjectField
  else Abort.

(** machine.h:2348-2361: the loop over the parameters.  [Fuel]: not ended after [fuel]
    parameters.  Result: count, footprint, position of ')'. *)
Fixpoint scanLoop (fuel : nat) (s : list N) (count footprint : N) : res (N * N * list N) :=
  do c <- deref s;
  if c =? ch ")" then Ok (count, footprint, s)
  else
    match fuel with
    | O => Fuel
    | S f =>
        do s' <- next s;
        scanLoop f s' (count + 1)
          (if (c =? ch "J") || (c =? ch "D") then footprint + 2 else footprint + 1)
    end.

(** machine.h:2338-2370 [scanMethodSpec]: (parameterCount, parameterFootprint, returnCode). *)
Definition scanMethodSpec (fuel : nat) (spec : list N) (static_ : bool) : res (N * N * code) :=
  do (count, footprint, s) <- scanLoop fuel (inc spec) 0 0;
  do c <- deref (inc s);
  do rc <- fieldCode c;
  Ok (count, if static_ then footprint else footprint + 1, rc).

(** machine.cpp:5405-5426 [parameterFootprint] *)
Definition parameterFootprint (fuel : nat) (spec : list N) (static_ : bool) : res N :=
  do (_, footprint, _) <- scanLoop fuel (inc spec) 0 0;
  Ok (if static_ then footprint else footprint + 1).
