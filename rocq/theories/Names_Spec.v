(** Well-formed class, method and parameter names for C45. *)
From Coq Require Import NArith Bool.
From Verif Require Import Chars.
Import ListNotations.
Local Open Scope N_scope.

(** The digits that JNI escapes ("_0xxxx", "_1", "_2", "_3") start with. *)
Definition escDigit (c : N) : bool := (c =? ch "0") || (c =? ch "1") || (c =? ch "2") || (c =? ch "3").

(** Slash-separated non-empty segments, none starting with a digit 0-3. [start]: at the
    beginning of a segment. *)
Fixpoint segments (start : bool) (s : list N) : Prop :=
  match s with
  | [] => start = false
  | c :: r => if c =? ch "/" then start = false /\ segments true r
              else (start = true -> escDigit c = false) /\ segments false r
  end.
(** Parameter descriptors: no slash (and not the beginning) is followed by 0-3. *)
Fixpoint sigOk (start : bool) (s : list N) : Prop :=
  match s with
  | [] => True
  | c :: r => (start = true -> escDigit c = false) /\ sigOk (c =? ch "/") r
  end.

(** A class name: segments separated by slashes.  A method name: one segment. *)
Definition className (s : list N) : Prop := segments true s.
Definition methodName (s : list N) : Prop := segments true s /\ ~ In (ch "/") s.

(** * The JNI naming rule (JNI specification, "Resolving Native Method Names") on Unicode
    code units: letters and digits stand for themselves, '/' becomes '_', and
    '_', ';', '[' and every other unit are escaped. *)
Definition hexDigit (n : N) : N := if n <? 10 then ch "0" + n else ch "a" + (n - 10).
Definition alnum (c : N) : bool :=
  ((ch "0" <=? c) && (c <=? ch "9")) || ((ch "A" <=? c) && (c <=? ch "Z")) || ((ch "a" <=? c) && (c <=? ch "z")).
Definition jniEscape (c : N) : list N :=
  if alnum c then [c]
  else if c =? ch "/" then [ch "_"]
  else if c =? ch "_" then [ch "_"; ch "1"]
  else if c =? ch ";" then [ch "_"; ch "2"]
  else if c =? ch "[" then [ch "_"; ch "3"]
  else [ch "_"; ch "0"; hexDigit (c / 4096 mod 16); hexDigit (c / 256 mod 16); hexDigit (c / 16 mod 16); hexDigit (c mod 16)].

(** Characters of ordinary Java names and descriptors. *)
Definition plainChar (c : N) : Prop := alnum c = true \/ In c (bytes "/_;[$").

Definition jniSymbol (prefix c m ps : list N) (decorate : bool) : list N :=
  prefix ++ flat_map jniEscape c ++ [ch "_"] ++ flat_map jniEscape m
  ++ (if decorate then bytes "__" ++ flat_map jniEscape ps else []).
