(** The work bitset of the collector and its use by collect(): src/heap/heap.cpp:1266-1364
    and 1397-1479, 1503-1550.

    [p] is the part of the dead original object starting at its word 2 (heap.cpp
    bitset(), word 0 being the forwarding pointer and word 1 the parent link); accesses
    outside it are [UB]. Offsets are words and below 2^31, so 32-bit additions of small
    constants do not wrap. *)
From Coq Require Import NArith List Bool.
From Verif Require Import Res Words_Model.
Import ListNotations.
Local Open Scope N_scope.
Local Open Scope res_scope.

(** heap.cpp:1266-1267 *)
Definition BitsetExtensionBit : N := 2 ^ 63.

(** memset(p + start, 0, n * BytesPerWord) *)
Fixpoint zeroWords (p : words) (start : N) (n : nat) : res words :=
  match n with
  | O => Ok p
  | S n => do p <- wrw p start 0; zeroWords p (start + 1) n
  end.

(** heap.cpp:1269-1272 *)
Definition bitsetInit (p : words) : res words := zeroWords p 0 1.

(** heap.cpp:1274-1287 *)
Definition bitsetClear (p : words) (start end_ : N) : res words :=
  if end_ <? 63 then Ok p
  else if start <? 63 then zeroWords p 1 (N.to_nat (wordOf (end_ + 129)))
  else
    let startWord := wordOf (start + 129) in
    let endWord := wordOf (end_ + 129) in
    if startWord <? endWord then zeroWords p (startWord + 1) (N.to_nat (endWord - startWord))
    else Ok p.

(** heap.cpp:1289-1305 *)
Definition bitsetSet (p : words) (i : N) (v : bool) : res words :=
  do pi <- (if 63 <=? i then
              let i := i + 129 in
              if v then
                do p0 <- rdw p 0;
                do p <- wrw p 0 (N.lor p0 BitsetExtensionBit);
                do p2 <- rdw p 2;
                do p <- (if p2 <=? wordOf i - 3 then wrw p 2 (wordOf i - 2) else Ok p);
                Ok (p, i)
              else Ok (p, i)
            else Ok (p, i));
  if v then markBit (fst pi) (snd pi) else clearBit (fst pi) (snd pi).

(** heap.cpp:1315-1323: the loop of bitsetHasMore, [fuel] iterations at most. *)
Fixpoint scanWords (fuel : nat) (p : words) (word len : N) : res (bool * N) :=
  match fuel with
  | O => Fuel
  | S fuel =>
      if word <? len then
        do w <- rdw p (word + 3);
        if negb (w =? 0) then Ok (true, word) else scanWords fuel p (word + 1) len
      else Ok (false, word)
  end.
(** heap.cpp:1307-1329 *)
Definition bitsetHasMore (p : words) : res (bool * words) :=
  do p0 <- rdw p 0;
  if p0 =? 0 then Ok (false, p)
  else if p0 =? BitsetExtensionBit then
    do len <- rdw p 2;
    do c <- rdw p 1;
    do r <- scanWords (S (N.to_nat (len - wordOf c))) p (wordOf c) len;
    do p <- wrw p 1 (indexOf (snd r) 0);
    Ok (fst r, p)
  else Ok (true, p).

(** heap.cpp:1344, 1353: the lowest set bit at or above [bit], looking at [n] bits. *)
Fixpoint lowBit (n : nat) (w bit : N) : option N :=
  match n with
  | O => None
  | S n => if negb (N.land w (N.shiftl 1 bit) =? 0) then Some bit else lowBit n w (bit + 1)
  end.

(** heap.cpp:1331-1364 *)
Definition bitsetNext (p : words) : res (N * words) :=
  do m <- bitsetHasMore p;
  if negb (fst m) then Abort else
  let p := snd m in
  do p0 <- rdw p 0;
  if p0 =? 0 then Abort
  else if p0 =? BitsetExtensionBit then
    do i <- rdw p 1;
    let word := wordOf i in
    do w <- rdw p (word + 3);
    match lowBit (N.to_nat (64 - bitOf i)) w (bitOf i) with
    | None => Abort
    | Some bit =>
        do p <- wrw p 1 (indexOf word bit + 1);
        do p <- bitsetSet p (indexOf word bit + 1 + 62) false;
        Ok (indexOf word bit + 1 + 62, p)
    end
  else
    match lowBit 63 p0 0 with
    | None => Abort
    | Some i => do p <- bitsetSet p i false; Ok (i, p)
    end.

(** * The two walkers of collect() *)

(** heap.cpp:1471-1478 *)
Record walker := { bits : words; first : N; second : N; last : N; visits : N; total : N }.
(** heap.cpp:1399-1409 *)
Definition newWalker (p : words) : walker :=
  {| bits := p; first := 0; second := 0; last := 0; visits := 0; total := 0 |}.

(** heap.cpp:1411-1469: visit(offset), given whether the pointed-to object was newly
    copied. *)
Definition visit (k : walker) (offset : N) (needsVisit : bool) : res walker :=
  let total := total k + 1 in
  do p <- (if total =? 3 then bitsetInit (bits k) else Ok (bits k));
  let visits := if needsVisit then visits k + 1 else visits k in
  let first := if needsVisit && (visits =? 1) then offset else first k in
  let second := if needsVisit && negb (visits =? 1) && (visits =? 2) then offset else second k in
  if (1 <? visits) && (2 <? total) && (negb (second =? 0) || needsVisit) then
    do p <- bitsetClear p (last k) offset;
    do p <- (if negb (second =? 0) then bitsetSet p second true else Ok p);
    do p <- (if needsVisit then bitsetSet p offset true else Ok p);
    Ok {| bits := p; first := first; second := 0; last := offset; visits := visits; total := total |}
  else
    Ok {| bits := p; first := first; second := second; last := last k; visits := visits; total := total |}.

Fixpoint walkAll (k : walker) (ptrs : list (N * bool)) : res walker :=
  match ptrs with
  | [] => Ok k
  | (o, n) :: r => do k <- visit k o n; walkAll k r
  end.

(** heap.cpp:1506-1550: one ascent to an object with pointer fields [ptrs]: the field to
    go on with, the bitset, and whether the object stays the current parent. *)
Definition ascend (p : words) (ptrs : list N) : res (N * words * bool) :=
  match ptrs with
  | [] | [_] => Abort
  | [_; o2] => Ok (o2, p, false)
  | _ :: _ :: _ :: _ =>
      do r <- bitsetNext p;
      do m <- bitsetHasMore (snd r);
      Ok (fst r, snd m, fst m)
  end.
