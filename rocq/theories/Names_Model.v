(** JNI symbol names: src/process.cpp:19-131.

    Names and descriptors are byte lists without the terminating NUL that the byte
    arrays carry (the loops run to [length() - 1]).  Lengths are natural numbers: class
    file strings have at most 65535 bytes, so the [unsigned] sums cannot wrap. *)
From Coq Require Import NArith List Bool.
From Verif Require Import Chars.
Import ListNotations.
Local Open Scope N_scope.

(** process.cpp:19-33 *)
Definition mangledSize (c : N) : nat :=
  if (c =? ch "_") || (c =? ch ";") || (c =? ch "[") then 2%nat
  else if c =? ch "$" then 6%nat
  else 1%nat.

(** process.cpp:35-65: the bytes written for one character. *)
Definition mangle (c : N) : list N :=
  if c =? ch "/" then [ch "_"]
  else if c =? ch "_" then [ch "_"; ch "1"]
  else if c =? ch ";" then [ch "_"; ch "2"]
  else if c =? ch "[" then [ch "_"; ch "3"]
  else if c =? ch "$" then bytes "_00024"
  else [c].

(** process.cpp:86-90 / 121-125: the parameter part of the descriptor, from index 1 up
    to (not including) the first ')' or the end. *)
Fixpoint upToParen (s : list N) : list N :=
  match s with
  | [] => []
  | c :: r => if c =? ch ")" then [] else c :: upToParen r
  end.
Definition params (spec : list N) : list N := upToParen (tl spec).

Definition sizeAll (s : list N) : nat := fold_right (fun c n => (mangledSize c + n)%nat) 0%nat s.

(** process.cpp:67-94 *)
Definition jniNameLength (className methodName spec : list N) (decorate : bool) : nat :=
  (sizeAll className + 1 + sizeAll methodName
   + (if decorate then 2 + sizeAll (params spec) else 0))%nat.

(** process.cpp:96-131: all bytes written, including the final NUL. *)
Definition makeJNIName (prefix className methodName spec : list N) (decorate : bool) : list N :=
  prefix ++ flat_map mangle className ++ [ch "_"] ++ flat_map mangle methodName
  ++ (if decorate then [ch "_"; ch "_"] ++ flat_map mangle (params spec) else [])
  ++ [0].
