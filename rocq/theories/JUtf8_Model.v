(** Text and bytes in the class library: classpath/avian/Utf8.java, classpath/avian/Iso88591.java,
    classpath/java/io/InputStreamReader.java, OutputStreamWriter.java, and the constructor of
    java.lang.String from bytes, classpath/java/lang/String.java:106-152, with getBytes, 456-473.
    Ranges of arrays are taken by their contents; bytes are unsigned. *)
From Coq Require Import NArith List Bool Arith.
From Verif Require Import JIo_Model.
Import ListNotations.
Local Open Scope N_scope.

(** Utf8.java:16-23 *)
Definition test (b : list N) : bool := existsb (fun x => negb (N.land x 0x80 =? 0)) b.

(** Utf8.java:28-41; the ByteArrayOutputStream is C158. *)
Definition encodeChar (c : N) : list N :=
  if c =? 0 then [0; 0]
  else if c <? 0x80 then [toByte c]
  else if c <? 0x800 then [toByte (N.lor 0xc0 (N.shiftr c 6)); toByte (N.lor 0x80 (N.land c 0x3f))]
  else [toByte (N.lor 0xe0 (N.land (N.shiftr c 12) 0x0f));
        toByte (N.lor 0x80 (N.land (N.shiftr c 6) 0x3f));
        toByte (N.lor 0x80 (N.land c 0x3f))].
(** Utf8.java:25-44 *)
Definition encode (s16 : list N) : list N := flat_map encodeChar s16.
(** Iso88591.java:18-25 *)
Definition encodeLatin1 (s16 : list N) : list N := map toByte s16.

(** byte[] or char[] *)
Inductive array := Bytes (l : list N) | Chars (l : list N).
(** Utf8.java:99-102; [None] is ArrayIndexOutOfBoundsException. *)
Definition cram (a : array) (i : nat) (v : N) : option array :=
  match a with
  | Bytes l => option_map Bytes (store l i (v mod 256))
  | Chars l => option_map Chars (store l i (v mod 65536))
  end.
(** Utf8.java:104-109; a char[] given for the byte[] is ClassCastException. *)
Definition widen (a : array) (len capacity : nat) : option array :=
  match a with
  | Bytes l => if (len <=? length l)%nat && (len <=? capacity)%nat
               then Some (Chars (firstn len l ++ repeat 0 (capacity - len))) else None
  | Chars _ => None
  end.
(** Utf8.java:111-117 *)
Definition trim (a : array) (n : nat) : option array :=
  match a with
  | Bytes _ => Some a
  | Chars l => if (length l =? n)%nat then Some a
               else if (n <=? length l)%nat then Some (Chars (firstn n l)) else None
  end.

Inductive result := Null | Array (a : array) | Throws.
Definition ofOption (o : option array) (k : array -> result) : result :=
  match o with Some a => k a | None => Throws end.

(** Utf8.java:50-85, from index i on; the bytes before offset+length that are left. *)
Fixpoint decodeLoop (rest : list N) (len : nat) (multi : bool) (buf : array) (j : nat) : result :=
  match rest with
  | [] => ofOption (trim buf j) Array
  | x :: r =>
      if N.land x 0x80 =? 0 then
        if x =? 0 then
          match r with
          | [] => Null
          | _ :: r' => ofOption (cram buf j x) (fun b => decodeLoop r' len multi b (S j))
          end
        else ofOption (cram buf j x) (fun b => decodeLoop r len multi b (S j))
      else if N.land x 0xe0 =? 0xc0 then
        match r with
        | [] => Null
        | y :: r' =>
            ofOption (if multi then Some buf else widen buf j (len - 1)) (fun b =>
            ofOption (cram b j (N.lor (N.shiftl (N.land x 0x1f) 6) (N.land y 0x3f))) (fun b' =>
            decodeLoop r' len true b' (S j)))
        end
      else if N.land x 0xf0 =? 0xe0 then
        match r with
        | y :: z :: r' =>
            ofOption (if multi then Some buf else widen buf j (len - 2)) (fun b =>
            ofOption (cram b j (N.lor (N.lor (N.shiftl (N.land x 0xf) 12) (N.shiftl (N.land y 0x3f) 6)) (N.land z 0x3f))) (fun b' =>
            decodeLoop r' len true b' (S j)))
        | _ => Null
        end
      else decodeLoop r len multi buf j
  end.
(** Utf8.java:46-86 *)
Definition decode (s8 : list N) : result := decodeLoop s8 (length s8) false (Bytes (repeat 0 (length s8))) 0.
(** Utf8.java:88-97 *)
Definition decode16 (s8 : list N) : result :=
  match decode s8 with
  | Array (Bytes l) => ofOption (widen (Bytes l) (length s8) (length s8)) Array
  | r => r
  end.

(** String.java:106-152 on a byte[]: the characters, RuntimeException, or a call deeper than
    [fuel]: the message of the exception is made by new String(data, offset, length, false),
    which copies, and so decodes again, if there is a byte above 127 in [data]; the range is
    the whole array. *)
Inductive made := Made (s : list N) | Raises | Deeper.
Fixpoint newString (fuel : nat) (copy : bool) (data : list N) : made :=
  match fuel with
  | O => Deeper
  | S f =>
      if copy || test data then
        match decode data with
        | Array (Chars l) => Made l
        | Array (Bytes l) => Made (firstn (length data) l)
        | Throws => Raises
        | Null => match newString f false data with Deeper => Deeper | _ => Raises end
        end
      else Made data
  end.
(** String.java:61-69: the charset is only checked. *)
Definition newStringLatin1 (fuel : nat) (data : list N) : made := newString fuel true data.

(** InputStreamReader.java:52-66: the loop when the stream has ended; what is written to b. *)
Fixpoint salvage (bufferOffset : nat) (buffer : list N) : option (list N) :=
  match bufferOffset with
  | O => Some [0xfffd]
  | S o =>
      match decode16 (firstn bufferOffset buffer) with
      | Array (Chars l) => Some (l ++ [0xfffd])
      | Null => salvage o buffer
      | _ => None
      end
  end.
(** InputStreamReader.java:34-87: read(b, offset, length) with length [n]. The answer: the
    characters written, or -1; [None] is an exception, among them ArrayIndexOutOfBounds for
    the buffer of n + 4 bytes and for the [n] characters of b. [fuel] turns. *)
Section Read.
Variable chunk : nat -> nat.
Definition deliver (n : nat) (o : option (list N)) : option (option (list N)) :=
  match o with Some l => if (length l <=? n)%nat then Some (Some l) else None | None => None end.
Fixpoint isrLoop (fuel n bufferLength : nat) (buffer : list N) (s : source) : option (option (list N)) * source :=
  match fuel with
  | O => (None, s)
  | S f =>
      if (length buffer + bufferLength <=? n + 4)%nat then
        match srcRead chunk bufferLength s with
        | (None, s') => ((if length buffer =? 0 then Some None else deliver n (salvage (length buffer) buffer))%nat, s')
        | (Some l, s') =>
            match decode16 (buffer ++ l) with
            | Array (Chars c) => (deliver n (Some c), s')
            | Null => isrLoop f n 1 (buffer ++ l) s'
            | _ => (None, s')
            end
        end
      else (None, s)
  end.
Definition isrRead (n : nat) (s : source) : option (option (list N)) * source :=
  match n with O => (Some (Some []), s) | _ => isrLoop (n + 6) n n [] s end.
End Read.
