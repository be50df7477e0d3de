(** Strings and modified UTF-8: src/machine.cpp:752-847 (decoding), 4469-4587 (encoding),
    5801-5884, src/jnienv.cpp:203-221, 270-294. *)
From Coq Require Import NArith List Bool.
Import ListNotations.
Local Open Scope N_scope.

(** A java.lang.String is a window (offset, length) on a byte array or a char array
    (src/machine.cpp:4476-4480); the model keeps the window's contents only.  Units of a
    byte array are given as unsigned bytes. *)
Inductive jstring := BytesS (b : list N) | CharsS (c : list N).

(** machine.cpp:4486-4496: bytes needed for one unit of a char array. *)
Definition unitLength (c : N) : N :=
  if c =? 0 then 1 else if c <? 0x80 then 1 else if c <? 0x800 then 2 else 3.

(** machine.cpp:4469-4502 [stringUTFLength] of the whole string. *)
Definition stringUTFLength (s : jstring) : N :=
  match s with
  | BytesS b => N.of_nat (length b)
  | CharsS c => fold_left (fun r u => r + unitLength u) c 0
  end.

(** machine.cpp:4565-4582: the bytes written for one unit. *)
Definition encodeUnit (c : N) : list N :=
  if c =? 0 then [0]
  else if c <? 0x80 then [c]
  else if c <? 0x800 then [N.lor 0xc0 (N.shiftr c 6); N.lor 0x80 (N.land c 0x3f)]
  else [N.lor 0xe0 (N.land (N.shiftr c 12) 0x0f);
        N.lor 0x80 (N.land (N.shiftr c 6) 0x3f);
        N.lor 0x80 (N.land c 0x3f)].

(** machine.cpp:4543-4587 [stringUTFChars]: everything stored to [chars], with the final
    NUL. *)
Definition stringUTFChars (s : jstring) : list N :=
  match s with
  | BytesS b => b ++ [0]
  | CharsS c => flat_map encodeUnit c ++ [0]
  end.

(** machine.cpp:752-807 [parseUtf8NonAscii], the loop from 773.  The stream's bytes are
    consumed in step with [si], so the loop runs over the remaining bytes.  Bytes missing
    at the end read as 0 (stream.h:47-50, the client's handleError at 5810 does nothing,
    and assertT is compiled out of release builds). *)
Definition pair2 (a b : N) : N :=
  if (a =? 0xC0) && (b =? 0x80) then 0
  else N.lor (N.shiftl (N.land a 0x1f) 6) (N.land b 0x3f).
Definition triple (a b c : N) : N :=
  N.lor (N.lor (N.shiftl (N.land a 0xf) 12) (N.shiftl (N.land b 0x3f) 6)) (N.land c 0x3f).
Fixpoint nonAscii (l : list N) : list N :=
  match l with
  | [] => []
  | a :: r =>
      if negb (N.land a 0x80 =? 0) then
        if negb (N.land a 0x20 =? 0) then
          match r with
          | b :: c :: r => triple a b c :: nonAscii r
          | [b] => [triple a b 0]
          | [] => [triple a 0 0]
          end
        else
          match r with
          | b :: r => pair2 a b :: nonAscii r
          | [] => [pair2 a 0]
          end
      else a :: nonAscii r
  end.

(** machine.cpp:809-847 [parseUtf8]: bytes while only ASCII and C0 80 are seen; at the
    first other byte everything decoded so far is widened and [nonAscii] takes over from
    that byte (the bytes already read are handed over in byteA, byteB).  [acc]: the
    bytes stored so far. *)
Fixpoint asciiPart (acc l : list N) : jstring :=
  match l with
  | [] => BytesS acc
  | a :: r =>
      if negb (N.land a 0x80 =? 0) then
        if negb (N.land a 0x20 =? 0) then CharsS (acc ++ nonAscii l)
        else
          match r with
          | b :: r' => if (a =? 0xC0) && (b =? 0x80) then asciiPart (acc ++ [0]) r'
                       else CharsS (acc ++ nonAscii l)
          | [] => CharsS (acc ++ nonAscii l)
          end
      else asciiPart (acc ++ [a]) r
  end.
Definition parseUtf8 (l : list N) : jstring := asciiPart [] l.

(** machine.cpp:5824-5832: a byte array without a high bit is used as it is. *)
Definition parseUtf8Array (l : list N) : jstring :=
  if forallb (fun b => N.land b 0x80 =? 0) l then BytesS l else parseUtf8 l.

(** strlen / the C string starting a buffer. *)
Fixpoint cstring (l : list N) : list N :=
  match l with [] => [] | c :: r => if c =? 0 then [] else c :: cstring r end.
(** src/jnienv.cpp:270-294 [NewStringUTF]. *)
Definition newStringUTF (chars : list N) : jstring := parseUtf8 (cstring chars).
