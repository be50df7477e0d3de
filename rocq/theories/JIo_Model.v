(** Byte and character streams of the class library: classpath/java/io. Bytes and characters
    are numbers; [None] as a result of an operation means that it throws. *)
From Coq Require Import NArith ZArith List Bool Arith.
From Coq Require Import Floats.SpecFloat.
Import ListNotations.

(** System.arraycopy of [src] to [dst] at [i] (C115); throws when it does not fit. *)
Definition blit {A} (dst : list A) (i : nat) (src : list A) : option (list A) :=
  if i + length src <=? length dst then Some (firstn i dst ++ src ++ skipn (i + length src) dst) else None.
(** [a[i]] and [a[i] = x] with the check of the index. *)
Definition store {A} (a : list A) (i : nat) (x : A) : option (list A) := blit a i [x].
Definition toByte (c : N) : N := (c mod 256)%N.
Definition slice {A} (l : list A) (i n : nat) : list A := firstn n (skipn i l).

(** * BufferedOutputStream.java:13-61 *)
(** [sink]: the bytes the stream underneath was given; that one takes what it is given. *)
Record bos := { obuf : list N; opos : nat; sink : list N }.
(** 18-25 *)
Definition newBos (size : nat) : bos := {| obuf := repeat 0%N size; opos := 0; sink := [] |}.
(** 27-32 *)
Definition drain (s : bos) : bos :=
  if 0 <? opos s then {| obuf := obuf s; opos := 0; sink := sink s ++ slice (obuf s) 0 (opos s) |} else s.
(** 34-40 *)
Definition bosWrite1 (c : N) (s : bos) : option bos :=
  let s1 := if length (obuf s) <=? opos s then drain s else s in
  match store (obuf s1) (opos s1) (toByte c) with
  | Some b => Some {| obuf := b; opos := S (opos s1); sink := sink s1 |}
  | None => None
  end.
(** 42-50; [bs] are the bytes of the range given, which lies inside its array. *)
Definition bosWrite (bs : list N) (s : bos) : option bos :=
  if length (obuf s) - opos s <? length bs
  then let s1 := drain s in Some {| obuf := obuf s1; opos := opos s1; sink := sink s1 ++ bs |}
  else match blit (obuf s) (opos s) bs with
       | Some b => Some {| obuf := b; opos := opos s + length bs; sink := sink s |}
       | None => None
       end.
(** 52-60: flush, close *)
Definition bosFlush (s : bos) : option bos := Some (drain s).

(** * ByteArrayOutputStream.java:13-148 *)
(** A cell's array and length (its offset is always 0). *)
Record baos := { cells : list (list N * nat); blength : nat; bbuf : option (list N); bpos : nat }.
(** 22-34: also reset *)
Definition newBaos : baos := {| cells := []; blength := 0; bbuf := None; bpos := 0 |}.
Definition BufferSize := 32.
(** 90-99 with 80-88 *)
Definition flushBuffer (s : baos) : baos :=
  if 0 <? bpos s
  then {| cells := cells s ++ [(match bbuf s with Some b => b | None => [] end, bpos s)];
          blength := blength s; bbuf := None; bpos := 0 |}
  else s.
(** 40-50 *)
Definition baosWrite1 (c : N) (s : baos) : option baos :=
  let fresh := repeat 0%N BufferSize in
  let s1 := match bbuf s with
            | None => {| cells := cells s; blength := blength s; bbuf := Some fresh; bpos := bpos s |}
            | Some b => if length b <=? bpos s
                        then let f := flushBuffer s in {| cells := cells f; blength := blength f; bbuf := Some fresh; bpos := bpos f |}
                        else s
            end in
  match bbuf s1 with
  | Some b => match store b (bpos s1) (toByte c) with
              | Some b' => Some {| cells := cells s1; blength := S (blength s1); bbuf := Some b'; bpos := S (bpos s1) |}
              | None => None
              end
  | None => None
  end.
(** 58-78; [bs] are the bytes of the range given, which lies inside its array. *)
Definition baosWrite (bs : list N) (s : baos) : option baos :=
  if length bs =? 0 then Some s
  else
    let chained := let f := flushBuffer s in
      Some {| cells := cells f ++ [(bs, length bs)]; blength := blength s + length bs; bbuf := bbuf f; bpos := bpos f |} in
    match bbuf s with
    | Some b => if length bs <=? length b - bpos s
                then match blit b (bpos s) bs with
                     | Some b' => Some {| cells := cells s; blength := blength s + length bs; bbuf := Some b'; bpos := bpos s + length bs |}
                     | None => None
                     end
                else chained
    | None => chained
    end.
(** 106-109: the loop over the cells *)
Fixpoint collect (l : list (list N * nat)) (array : list N) (pos : nat) : option (list N) :=
  match l with
  | [] => Some array
  | (a, n) :: l' =>
      if n <=? length a
      then match blit array pos (slice a 0 n) with Some b => collect l' b (pos + n) | None => None end
      else None
  end.
(** 101-111 *)
Definition toByteArray (s : baos) : option (list N) * baos :=
  let f := flushBuffer s in (collect (cells f) (repeat 0%N (blength f)) 0, f).

(** * Streams and readers to read from *)
(** What is still to come, and the number of calls so far. How much a call of read gives, up
    to what is asked for and at least one element, is decided by [chunk], and what available
    says by [avail], which depend on the number of the call in any way. *)
Record source := { coming : list N; calls : nat }.
Section Input.
Variable chunk avail : nat -> nat.
(** InputStream.read(buffer, offset, length) as its specification has it: [None] is -1. *)
Definition srcRead (n : nat) (s : source) : option (list N) * source :=
  let s' r := {| coming := r; calls := S (calls s) |} in
  match n, coming s with
  | O, _ => (Some [], s' (coming s))
  | _, [] => (None, s' [])
  | S _, l => let k := Nat.max 1 (Nat.min (chunk (calls s)) n) in (Some (firstn k l), s' (skipn k l))
  end.
Definition srcAvailable (s : source) : nat * source :=
  (avail (calls s), {| coming := coming s; calls := S (calls s) |}).

(** BufferedInputStream.java:15-28 and BufferedReader.java:13-26, which have the same fields;
    [limit] -1 is [None]. *)
Record buffered := { ibuf : list N; ipos : nat; limit : option nat; src : source }.
Definition newBuffered (size : nat) (l : list N) : buffered :=
  {| ibuf := repeat 0%N size; ipos := 0; limit := Some 0; src := {| coming := l; calls := 0 |} |}.
(** position >= limit *)
Definition empty (b : buffered) : bool := match limit b with None => true | Some n => n <=? ipos b end.
(** BufferedInputStream.java:30-35, BufferedReader.java:28-31: the bytes read replace the
    beginning of the buffer. *)
Definition fill (b : buffered) : buffered :=
  let '(r, s') := srcRead (length (ibuf b)) (src b) in
  match r with
  | None => {| ibuf := ibuf b; ipos := 0; limit := None; src := s' |}
  | Some l => {| ibuf := l ++ skipn (length l) (ibuf b); ipos := 0; limit := Some (length l); src := s' |}
  end.
(** BufferedInputStream.java:37-43. The outer [None] is an exception, the inner one is -1. *)
Definition bisRead1 (b : buffered) : option (option N * buffered) :=
  let b1 := if empty b then fill b else b in
  if empty b && match limit b1 with None => true | Some _ => false end then Some (None, b1)
  else match nth_error (ibuf b1) (ipos b1) with
       | Some c => Some (Some c, {| ibuf := ibuf b1; ipos := S (ipos b1); limit := limit b1; src := src b1 |})
       | None => None
       end.
(** BufferedInputStream.java:63-76: the loop; [fuel] turns. *)
Fixpoint more (fuel n : nat) (got : list N) (s : source) : option (list N) * source :=
  match fuel with
  | O => (Some got, s)
  | S f =>
      if n =? 0 then (Some got, s)
      else let '(a, s1) := srcAvailable s in
           if a =? 0 then (Some got, s1)
           else match srcRead n s1 with
                | (None, s2) => (if length got =? 0 then None else Some got, s2)
                | (Some l, s2) => more f (n - length l) (got ++ l) s2
                end
  end.
(** BufferedInputStream.java:45-78; the bytes written to the range, or -1. *)
Definition bisRead (n : nat) (b : buffered) : option (list N) * buffered :=
  let b1 := if empty b then fill b else b in
  if empty b && match limit b1 with None => true | Some _ => false end then (None, b1)
  else
    let taken := match limit b1 with
                 | Some m => if ipos b1 <? m then slice (ibuf b1) (ipos b1) (Nat.min (m - ipos b1) n) else []
                 | None => [] end in
    let b2 := {| ibuf := ibuf b1; ipos := ipos b1 + length taken; limit := limit b1; src := src b1 |} in
    let '(r, s') := more (S n) (n - length taken) taken (src b2) in
    (r, {| ibuf := ibuf b2; ipos := ipos b2; limit := limit b2; src := s' |}).
(** BufferedInputStream.java:80-82: available; an int. *)
Definition bisAvailable (b : buffered) : Z * buffered :=
  let '(a, s') := srcAvailable (src b) in
  (Z.of_nat a + (match limit b with Some n => Z.of_nat n | None => -1 end - Z.of_nat (ipos b)),
   {| ibuf := ibuf b; ipos := ipos b; limit := limit b; src := s' |})%Z.

(** BufferedReader.java:63-96: read(b, offset, length); the characters written, or -1. *)
Definition brdRead (n : nat) (b : buffered) : option (list N) * buffered :=
  let b1 := if empty b && (n <? length (ibuf b)) then fill b else b in
  let taken := match limit b1 with
               | Some m => if ipos b1 <? m then slice (ibuf b1) (ipos b1) (Nat.min (m - ipos b1) n) else []
               | None => [] end in
  let b2 s := {| ibuf := ibuf b1; ipos := ipos b1 + length taken; limit := limit b1; src := s |} in
  if 0 <? n - length taken
  then match srcRead (n - length taken) (src b1) with
       | (None, s') => (if length taken =? 0 then None else Some taken, b2 s')
       | (Some l, s') => (Some (taken ++ l), b2 s')
       end
  else (Some taken, b2 (src b1)).
(** BufferedReader.java:44-57: the loop over the buffer from [i] on: the index of the first
    end of line and the position behind it. *)
Fixpoint lineEnd (l : list N) (i : nat) : option (nat * nat) :=
  match l with
  | [] => None
  | c :: r =>
      if (c =? 13)%N then Some (i, match r with d :: _ => if (d =? 10)%N then i + 2 else i + 1 | [] => i + 1 end)
      else if (c =? 10)%N then Some (i, i + 1)
      else lineEnd r (S i)
  end.
(** BufferedReader.java:33-61; [sb] is the text of the StringBuilder (C151), [None] is null.
    [fuel] turns of the outer loop; the outer [None] means that they do not suffice. *)
Fixpoint readLineLoop (fuel : nat) (sb : list N) (b : buffered) : option (option (list N) * buffered) :=
  match fuel with
  | O => None
  | S f =>
      let b1 := if empty b then fill b else b in
      if empty b1 then Some (if length sb =? 0 then None else Some sb, b1)
      else
        let m := match limit b1 with Some m => m | None => 0 end in
        let part := slice (ibuf b1) (ipos b1) (m - ipos b1) in
        match lineEnd part (ipos b1) with
        | Some (i, p) => Some (Some (sb ++ slice (ibuf b1) (ipos b1) (i - ipos b1)),
                               {| ibuf := ibuf b1; ipos := p; limit := limit b1; src := src b1 |})
        | None => readLineLoop f (sb ++ part) {| ibuf := ibuf b1; ipos := m; limit := limit b1; src := src b1 |}
        end
  end.
Definition readLine (fuel : nat) (b : buffered) : option (option (list N) * buffered) := readLineLoop fuel [] b.
End Input.

(** * DataOutputStream.java, DataInputStream.java over a stream of bytes *)
Open Scope Z_scope.
(** (byte) x, and the byte as the stream underneath keeps it (x & 0xFF) *)
Definition low (x : Z) : Z := x mod 256.
(** DataOutputStream.java:40-82; the bytes written. Shifts are arithmetic. *)
Definition writeByte (b : Z) : list Z := [low b].
Definition writeBoolean (b : bool) : list Z := writeByte (if b then 1 else 0).
Definition writeShort (s : Z) : list Z := [low (Z.shiftr s 8); low s].
Definition writeChar (c : Z) : list Z := [low (Z.shiftr c 8); low c].
Definition writeInt (i : Z) : list Z := [low (Z.shiftr i 24); low (Z.shiftr i 16); low (Z.shiftr i 8); low i].
Definition writeLong (l : Z) : list Z :=
  [low (Z.shiftr l 56); low (Z.shiftr l 48); low (Z.shiftr l 40); low (Z.shiftr l 32);
   low (Z.shiftr l 24); low (Z.shiftr l 16); low (Z.shiftr l 8); low l].
(** The conversions to signed 8-, 16-, 32- and 64-bit numbers. *)
Definition signed (bits : Z) (x : Z) : Z := (x + 2 ^ (bits - 1)) mod 2 ^ bits - 2 ^ (bits - 1).
(** DataInputStream.java:47-97: the value and the bytes left; [None] is EOFException. *)
Definition reader A := list Z -> option (A * list Z).
Definition bindR {A B} (r : reader A) (k : A -> reader B) : reader B :=
  fun l => match r l with Some (a, l') => k a l' | None => None end.
Definition retR {A} (a : A) : reader A := fun l => Some (a, l).
Definition read0 : reader Z := fun l => match l with [] => None | b :: l' => Some (b, l') end.
Definition readBoolean : reader bool := bindR read0 (fun b => retR (negb (b =? 0))).
Definition readByte : reader Z := bindR read0 (fun b => retR (signed 8 b)).
Definition readShort : reader Z :=
  bindR read0 (fun a => bindR read0 (fun b => retR (signed 16 (Z.lor (Z.shiftl a 8) b)))).
Definition readInt : reader Z :=
  bindR read0 (fun a => bindR read0 (fun b => bindR read0 (fun c => bindR read0 (fun d =>
    retR (signed 32 (Z.lor (Z.lor (Z.lor (Z.shiftl a 24) (Z.shiftl b 16)) (Z.shiftl c 8)) d)))))).
Definition readLong : reader Z :=
  bindR readInt (fun a => bindR readInt (fun b =>
    retR (signed 64 (Z.lor (Z.shiftl (Z.land a 4294967295) 32) (Z.land b 4294967295))))).
Definition readChar : reader Z := bindR readShort (fun s => retR (s mod 2 ^ 16)).
Definition readUnsignedByte : reader Z := bindR readByte (fun b => retR (Z.land b 255)).
Definition readUnsignedShort : reader Z := bindR readShort (fun s => retR (Z.land s 65535)).

(** Single floating-point numbers: the numbers of Coq's library, int-to-float conversion
    (round to nearest even), and Float.floatToIntBits. *)
Definition intToFloat (i : Z) : spec_float := binary_normalize 24 128 i 0 false.
Definition floatToIntBits (f : spec_float) : Z :=
  let sign (s : bool) (x : Z) := if s then signed 32 (x + 2 ^ 31) else x in
  match f with
  | S754_zero s => sign s 0
  | S754_infinity s => sign s 2139095040
  | S754_nan => 2143289344
  | S754_finite s m e =>
      sign s (if Z.pos m <? 2 ^ 23 then Z.pos m else (e + 150) * 2 ^ 23 + (Z.pos m - 2 ^ 23))
  end.
(** DataOutputStream.java:60-62 *)
Definition writeFloat (f : spec_float) : list Z := writeInt (floatToIntBits f).
(** DataInputStream.java:75-77: return Float.floatToIntBits(readInt()): the int is converted
    to a float by value, its bits are taken as an int, and that is converted again. *)
Definition readFloat : reader spec_float :=
  bindR readInt (fun i => retR (intToFloat (floatToIntBits (intToFloat i)))).
