(** Model of the methods of java.lang.String that read, compare, search, cut and replace: classpath/java/lang/String.java.
    A string is a window on an array of bytes or of chars that substrings share (lines 41-43).

    Simplifications.
    - Integers have no bound: lengths and indices given are taken to stay below 2^30, so that sums do not overflow.
    - The array is only given by its contents: nothing here writes an array that a string holds.
    - null arguments are left out, and so is the test of two references for identity, which only saves time. *)
From Coq Require Import List ZArith Bool.
Import ListNotations.
Local Open Scope Z_scope.

(** bytes are -128..127, chars 0..65535 *)
Inductive sdata := Bytes (b : list Z) | Chars (c : list Z).
Record str := mkS { data : sdata; offset : Z; len : Z }.

Definition arrayLength (d : sdata) : Z := Z.of_nat (match d with Bytes b => length b | Chars c => length c end).
(** reading the array, with Java's conversion of a byte to char; [None]: ArrayIndexOutOfBoundsException *)
Definition element (d : sdata) (i : Z) : option Z :=
  if i <? 0 then None else
  match d with
  | Bytes b => match nth_error b (Z.to_nat i) with Some x => Some (x mod 65536) | None => None end
  | Chars c => nth_error c (Z.to_nat i)
  end.

(** charAt, lines 503-513; [None]: an exception, here and below *)
Definition charAt (s : str) (i : Z) : option Z :=
  if (i <? 0) || (len s <? i) then None else element (data s) (i + offset s).

(** new String(data, offset, length, false), lines 112-150, of an array without bytes above 127 *)
Definition construct (d : sdata) (o n : Z) : option str :=
  if o <? 0 then None else if arrayLength d <? o + n then None else if n <? 0 then None else Some (mkS d o n).

(** the literal "" *)
Definition emptyString : str := mkS (Bytes []) 0 0.

(** substring, lines 378-393 *)
Definition substring (s : str) (start end_ : Z) : option str :=
  if start <? 0 then None
  else if len s <? end_ then None
  else if end_ - start <? 0 then None
  else if (start =? 0) && (end_ =? len s) then Some s
  else if end_ - start =? 0 then Some emptyString
  else construct (data s) (offset s + start) (end_ - start).
Definition substringFrom (s : str) (start : Z) : option str := substring s start (len s).

(** the loop of compareTo, lines 202-207: [n] more turns *)
Fixpoint compareLoop (n : nat) (s p : str) (idx : Z) : option Z :=
  match n with
  | O => Some (len s - len p)
  | S m =>
      match charAt s idx, charAt p idx with
      | Some a, Some b => if a - b =? 0 then compareLoop m s p (idx + 1) else Some (a - b)
      | _, _ => None
      end
  end.
(** compareTo, lines 193-209 *)
Definition compareTo (s p : str) : option Z :=
  compareLoop (Z.to_nat (if len s <? len p then len s else len p)) s p 0.
(** equals, lines 173-182 *)
Definition equals (s p : str) : option bool :=
  if len p =? len s then
    match compareTo s p with Some r => Some (r =? 0) | None => None end
  else Some false.

(** indexOf(int, int), lines 287-295 *)
Fixpoint indexOfCharLoop (n : nat) (s : str) (c i : Z) : option Z :=
  match n with
  | O => Some (-1)
  | S m => match charAt s i with
           | None => None
           | Some x => if x =? c then Some i else indexOfCharLoop m s c (i + 1)
           end
  end.
Definition indexOfChar (s : str) (c start : Z) : option Z := indexOfCharLoop (Z.to_nat (len s - start)) s c start.

(** lastIndexOf(int, int), lines 628-639 *)
Fixpoint lastIndexOfCharLoop (n : nat) (s : str) (c i : Z) : option Z :=
  match n with
  | O => Some (-1)
  | S m => match charAt s i with
           | None => None
           | Some x => if x =? c then Some i else lastIndexOfCharLoop m s c (i - 1)
           end
  end.
Definition lastIndexOfChar (s : str) (c lastIndex : Z) : option Z :=
  let l := if len s <=? lastIndex then len s - 1 else lastIndex in
  lastIndexOfCharLoop (Z.to_nat (l + 1)) s c l.

(** the inner loops of indexOf and lastIndexOf, lines 309-317 and 333-341: whether j reaches the length of p. The further
    condition i + j < length of the second is met throughout, as i starts at most at length - s.length *)
Fixpoint matchLoop (n : nat) (s p : str) (i j : Z) : option bool :=
  match n with
  | O => Some true
  | S m =>
      match charAt s (i + j), charAt p j with
      | Some a, Some b => if a =? b then matchLoop m s p i (j + 1) else Some false
      | _, _ => None
      end
  end.
Definition matchAt (s p : str) (i : Z) : option bool := matchLoop (Z.to_nat (len p)) s p i 0.

(** indexOf(String, int), lines 305-321 *)
Fixpoint indexOfLoop (n : nat) (s p : str) (i : Z) : option Z :=
  match n with
  | O => Some (-1)
  | S m => match matchAt s p i with
           | None => None
           | Some true => Some i
           | Some false => indexOfLoop m s p (i + 1)
           end
  end.
Definition indexOf (s p : str) (start : Z) : option Z :=
  if len p =? 0 then Some start else indexOfLoop (Z.to_nat (len s - len p + 1 - start)) s p start.

(** lastIndexOf(String, int), lines 327-345 *)
Fixpoint lastIndexOfLoop (n : nat) (s p : str) (i : Z) : option Z :=
  match n with
  | O => Some (-1)
  | S m => match matchAt s p i with
           | None => None
           | Some true => Some i
           | Some false => lastIndexOfLoop m s p (i - 1)
           end
  end.
Definition lastIndexOf (s p : str) (lastIndex : Z) : option Z :=
  if len p =? 0 then Some lastIndex
  else let i := Z.min (len s - len p) lastIndex in lastIndexOfLoop (Z.to_nat (i + 1)) s p i.

(** contains, lines 666-668 *)
Definition contains (s p : str) : option bool :=
  match indexOf s p 0 with Some r => Some (negb (r =? -1)) | None => None end.

Definition isZero (o : option Z) : option bool := match o with Some r => Some (r =? 0) | None => None end.

(** startsWith and endsWith, lines 395-417 *)
Definition startsWith (s p : str) : option bool :=
  if len p <=? len s then
    match substring s 0 (len p) with Some a => isZero (compareTo a p) | None => None end
  else Some false.
Definition startsWithAt (s p : str) (start : Z) : option bool :=
  if len p + start <=? len s then
    match substring s start (len p) with Some a => isZero (compareTo a p) | None => None end
  else Some false.
Definition endsWith (s p : str) : option bool :=
  if len p <=? len s then
    match substringFrom s (len s - len p) with Some a => isZero (compareTo a p) | None => None end
  else Some false.

(** regionMatches, lines 641-660, without ignoreCase *)
Definition regionMatches (s : str) (thisOffset : Z) (p : str) (matchOffset n : Z) : option bool :=
  match substring s thisOffset (thisOffset + n), substring p matchOffset (matchOffset + n) with
  | Some a, Some b => equals a b
  | _, _ => None
  end.

(** Character.isWhitespace, classpath/java/lang/Character.java 157-159 *)
Definition isWhitespace (c : Z) : bool := (c =? 32) || (c =? 9) || (c =? 10) || (c =? 13).

(** trim, lines 230-255 *)
Fixpoint trimStart (n : nat) (s : str) (i : Z) : option Z :=
  match n with
  | O => Some (-1)
  | S m => match charAt s i with
           | None => None
           | Some c => if isWhitespace c then trimStart m s (i + 1) else Some i
           end
  end.
Fixpoint trimEnd (n : nat) (s : str) (i : Z) : option Z :=
  match n with
  | O => Some (-1)
  | S m => match charAt s i with
           | None => None
           | Some c => if isWhitespace c then trimEnd m s (i - 1) else Some (i + 1)
           end
  end.
Definition trim (s : str) : option str :=
  match trimStart (Z.to_nat (len s)) s 0, trimEnd (Z.to_nat (len s)) s (len s - 1) with
  | Some start, Some end_ => if end_ <=? start then Some emptyString else substring s start end_
  | _, _ => None
  end.

(** (byte) of a char *)
Definition toByte (c : Z) : Z := let b := c mod 256 in if 128 <=? b then b - 256 else b.

(** replace(char, char), lines 347-372: the new array of the result, of the string's length. If the array has bytes above
    127 the constructor decodes it as UTF-8 instead of keeping it (lines 129-141) *)
Definition window (l : list Z) (s : str) : list Z := firstn (Z.to_nat (len s)) (skipn (Z.to_nat (offset s)) l).
Definition replaceChar (s : str) (old new : Z) : sdata :=
  match data s with
  | Chars c => Chars (map (fun x => if x =? old then new else x) (window c s))
  | Bytes b => Bytes (map (fun x => if x =? toByte old then toByte new else x) (window b s))
  end.

(** The characters a StringBuilder is given: appending and reading it are C151, and toCharArray (497-501) copies the window *)
Definition chars (s : str) : list Z :=
  match data s with Bytes b => map (fun x => x mod 65536) (window b s) | Chars c => window c s end.

(** replace(CharSequence, CharSequence), lines 540-574: the characters of the result. The loop ends, as what is unhandled
    gets shorter: [n] bounds its turns, and [None] also stands for its end *)
Fixpoint replaceLoop (n : nat) (unhandled target : str) (by_ : list Z) : option (list Z) :=
  match n with
  | O => None
  | S m =>
      match indexOf unhandled target 0 with
      | None => None
      | Some index =>
          if index =? -1 then Some (chars unhandled)
          else
            match substring unhandled 0 index, substring unhandled (index + len target) (len unhandled) with
            | Some a, Some rest =>
                match replaceLoop m rest target by_ with
                | Some out => Some (chars a ++ by_ ++ out)
                | None => None
                end
            | _, _ => None
            end
      end
  end.
Fixpoint infuseLoop (n : nat) (s : str) (by_ : list Z) (i : Z) : option (list Z) :=
  match n with
  | O => Some by_
  | S m =>
      match substring s i (i + 1), infuseLoop m s by_ (i + 1) with
      | Some a, Some out => Some (by_ ++ chars a ++ out)
      | _, _ => None
      end
  end.
Definition replace (s target by_ : str) : option (list Z) :=
  if len target =? 0 then infuseLoop (Z.to_nat (len s)) s (chars by_) 0
  else replaceLoop (S (Z.to_nat (len s))) s target (chars by_).
