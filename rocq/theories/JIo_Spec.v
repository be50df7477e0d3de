(** What is expected of streams: histories of calls, and lines of text. *)
From Coq Require Import NArith ZArith List Bool.
Import ListNotations.
Local Open Scope N_scope.

(** Calls on an output stream. A byte written is the low byte of the number given. *)
Inductive wcall := W1 (c : N) | Wn (bs : list N) | Flush.
Definition bytesOf (c : wcall) : list N := match c with W1 c => [c mod 256] | Wn bs => bs | Flush => [] end.
Definition written (l : list wcall) : list N := concat (map bytesOf l).

(** Calls on a ByteArrayOutputStream, and what is seen. *)
Inductive bcall := B1 (c : N) | Bn (bs : list N) | Reset | Take | GetSize.
Inductive seen := SawBytes (l : list N) | SawSize (n : nat).
Fixpoint expected (w : list N) (l : list bcall) : list seen :=
  match l with
  | [] => []
  | B1 c :: l' => expected (w ++ [c mod 256]) l'
  | Bn bs :: l' => expected (w ++ bs) l'
  | Reset :: l' => expected [] l'
  | Take :: l' => SawBytes w :: expected w l'
  | GetSize :: l' => SawSize (length w) :: expected w l'
  end.

(** The first line of a text and what follows it: a line ends with \n (10), \r (13), \r\n, or
    the text. *)
Fixpoint firstLine (l : list N) : option (list N * list N) :=
  match l with
  | [] => None
  | c :: r =>
      if c =? 10 then Some ([], r)
      else if c =? 13 then Some ([], match r with d :: r' => if d =? 10 then r' else r | [] => [] end)
      else match firstLine r with Some (a, b) => Some (c :: a, b) | None => Some ([c], []) end
  end.
(** No \r is followed by \n. *)
Fixpoint noCRLF (l : list N) : bool :=
  match l with
  | c :: ((d :: _) as r) => negb ((c =? 13) && (d =? 10)) && noCRLF r
  | _ => true
  end.

(** Values of DataOutput, with the kinds they are written and read as. *)
Inductive datum := DBoolean (b : bool) | DByte (z : Z) | DShort (z : Z) | DChar (z : Z) | DInt (z : Z) | DLong (z : Z)
| DUByte (z : Z) | DUShort (z : Z).
Definition inRange (d : datum) : Prop :=
  match d with
  | DBoolean _ => True
  | DByte z => (- 2 ^ 7 <= z < 2 ^ 7)%Z
  | DShort z => (- 2 ^ 15 <= z < 2 ^ 15)%Z
  | DChar z => (0 <= z < 2 ^ 16)%Z
  | DInt z => (- 2 ^ 31 <= z < 2 ^ 31)%Z
  | DLong z => (- 2 ^ 63 <= z < 2 ^ 63)%Z
  | DUByte z => (0 <= z < 2 ^ 8)%Z
  | DUShort z => (0 <= z < 2 ^ 16)%Z
  end.
