(** java.nio.ByteBuffer over an array (ArrayByteBuffer) and over memory (DirectByteBuffer):
    classpath/java/nio/Buffer.java:13-69, ByteBuffer.java:13-337, ArrayByteBuffer.java:13-99,
    DirectByteBuffer.java:15-112. *)
From Coq Require Import ZArith List Bool.
From Verif Require Import JNum_Model.
Import ListNotations.
Local Open Scope Z_scope.

(** [mem]: the array, or the memory around a direct buffer; [base]: arrayOffset, or the address.
    Bytes are kept unsigned. *)
Record buffer := { direct : bool; mem : list Z; base : Z; capacity : Z; position : Z; limit : Z; readonly : bool }.
Definition setPos (b : buffer) (p : Z) : buffer :=
  {| direct := direct b; mem := mem b; base := base b; capacity := capacity b; position := p; limit := limit b; readonly := readonly b |}.
Definition setLim (b : buffer) (l : Z) : buffer :=
  {| direct := direct b; mem := mem b; base := base b; capacity := capacity b; position := position b; limit := l; readonly := readonly b |}.
Definition setMem (b : buffer) (m : list Z) : buffer :=
  {| direct := direct b; mem := m; base := base b; capacity := capacity b; position := position b; limit := limit b; readonly := readonly b |}.

(** What a call ends with: it returns, a number or bytes; BufferOverflowException,
    BufferUnderflowException, IndexOutOfBoundsException of a check, ReadOnlyBufferException,
    an exception of the array underneath; [Wild]: memory outside [mem] is read or written, or
    memcpy is given ranges that overlap. *)
Inductive answer := Done | Got (z : Z) | GotBytes (l : list Z) | Overflow | Underflow | OutOfBounds | ReadOnly | ArrayBounds | Wild.

(** ByteBuffer.java:309-319 *)
Definition checkPut (b : buffer) (p amount : Z) (absolute : bool) : option answer :=
  if readonly b then Some ReadOnly
  else if (p <? 0) || (limit b <? wrap32 (p + amount)) then Some (if absolute then OutOfBounds else Overflow)
  else None.
(** ByteBuffer.java:321-327 *)
Definition checkGet (b : buffer) (p amount : Z) (absolute : bool) : option answer :=
  if wrap32 (limit b - p) <? amount then Some (if absolute then OutOfBounds else Underflow) else None.

(** The index in [mem], if inside. *)
Definition place (b : buffer) (p : Z) : option nat :=
  let i := if direct b then base b + p else wrap32 (base b + p) in
  if (0 <=? i) && (i <? Z.of_nat (length (mem b))) then Some (Z.to_nat i) else None.
Definition outside (b : buffer) : answer := if direct b then Wild else ArrayBounds.
(** ArrayByteBuffer.java:51-53, DirectByteBuffer.java:45-47 *)
Definition doPut (b : buffer) (p v : Z) : buffer + answer :=
  match place b p with
  | Some i => inl (setMem b (firstn i (mem b) ++ [v mod 256] ++ skipn (S i) (mem b)))
  | None => inr (outside b)
  end.
(** ArrayByteBuffer.java:81-83, DirectByteBuffer.java:95-97 *)
Definition doGet (b : buffer) (p : Z) : Z + answer :=
  match place b p with Some i => inl (nth i (mem b) 0) | None => inr (outside b) end.

(** ByteBuffer.java:127-148: rawPutLong, rawPutInt, rawPutShort and put of one byte, for [n] = 8, 4, 2, 1 *)
Fixpoint rawPut (n : nat) (b : buffer) (p v : Z) : buffer * option answer :=
  match n with
  | O => (b, None)
  | S m => match doPut b p (Z.shiftr v (8 * Z.of_nat m)) with
           | inl b' => rawPut m b' (wrap32 (p + 1)) v
           | inr a => (b, Some a)
           end
  end.
(** ByteBuffer.java:254-275: the bytes shifted to their places and or-ed (here from the right) *)
Fixpoint rawGet (n : nat) (b : buffer) (p : Z) : Z + answer :=
  match n with
  | O => inl 0
  | S m => match doGet b p with
           | inl x => match rawGet m b (wrap32 (p + 1)) with
                      | inl y => inl (Z.lor (Z.shiftl x (8 * Z.of_nat m)) y)
                      | inr a => inr a
                      end
           | inr a => inr a
           end
  end.
(** The value as byte, short, int or long. *)
Definition signed (n : nat) (x : Z) : Z :=
  let k := 2 ^ (8 * Z.of_nat n - 1) in (x + k) mod (2 * k) - k.

(** arraycopy (C48) or memcpy of a range inside [mem] *)
Definition range (b : buffer) (p n : Z) : option nat :=
  let i := if direct b then base b + p else wrap32 (base b + p) in
  if (0 <=? i) && (i + n <=? Z.of_nat (length (mem b))) then Some (Z.to_nat i) else None.

(** Calls; [n]: the size of the value. *)
Inductive call :=
| Put (n : nat) (v : Z) | PutAt (p : Z) (n : nat) (v : Z) | Get (n : nat) | GetAt (p : Z) (n : nat)
| PutBytes (l : list Z) | GetBytes (n : nat)
| Flip | Clear | Rewind | Compact | SetPosition (p : Z) | SetLimit (l : Z).

Definition exec (c : call) (b : buffer) : buffer * answer :=
  match c with
  | Put n v =>                                            (* ByteBuffer.java:116-121, 190-212 *)
      match checkPut b (position b) (Z.of_nat n) false with
      | Some a => (b, a)
      | None => match rawPut n b (position b) v with
                | (b', None) => (setPos b' (wrap32 (position b + Z.of_nat n)), Done)
                | (b', Some a) => (b', a)
                end
      end
  | PutAt p n v =>                                        (* 110-114, 158-180 *)
      match checkPut b p (Z.of_nat n) true with
      | Some a => (b, a)
      | None => match rawPut n b p v with (b', None) => (b', Done) | (b', Some a) => (b', a) end
      end
  | Get n =>                                              (* 214-217, 285-307 *)
      match checkGet b (position b) (Z.of_nat n) false with
      | Some a => (b, a)
      | None => match rawGet n b (position b) with
                | inl x => (setPos b (wrap32 (position b + Z.of_nat n)), Got (signed n x))
                | inr a => (b, a)
                end
      end
  | GetAt p n =>                                          (* 219-222, 236-252 *)
      match checkGet b p (Z.of_nat n) true with
      | Some a => (b, a)
      | None => match rawGet n b p with inl x => (b, Got (signed n x)) | inr a => (b, a) end
      end
  | PutBytes l =>                                         (* ArrayByteBuffer.java:63-70, DirectByteBuffer.java:67-80, on a whole array *)
      let n := Z.of_nat (length l) in
      match checkPut b (position b) n false with
      | Some a => (b, a)
      | None => match range b (position b) n with
                | Some i => (setPos (setMem b (firstn i (mem b) ++ l ++ skipn (i + length l) (mem b))) (wrap32 (position b + n)), Done)
                | None => (b, outside b)
                end
      end
  | GetBytes n =>                                         (* ArrayByteBuffer.java:72-79, DirectByteBuffer.java:82-93 *)
      match checkGet b (position b) (Z.of_nat n) false with
      | Some a => (b, a)
      | None => match range b (position b) (Z.of_nat n) with
                | Some i => ((if direct b then b else setPos b (wrap32 (position b + Z.of_nat n))), GotBytes (firstn n (skipn i (mem b))))
                | None => (b, outside b)
                end
      end
  | Flip => (setPos (setLim b (position b)) 0, Done)      (* Buffer.java:55-59 *)
  | Clear => (setPos (setLim b (capacity b)) 0, Done)     (* 49-53 *)
  | Rewind => (setPos b 0, Done)                          (* 61-64 *)
  | SetPosition p => (setPos b p, Done)                   (* 40-43 *)
  | SetLimit l => (setLim b l, Done)                      (* 35-38 *)
  | Compact =>                                            (* ByteBuffer.java:56-69, with slice and put(ByteBuffer): ArrayByteBuffer.java:42-61, DirectByteBuffer.java:41-65; copyMemory is memcpy, src/builtin.cpp:780-803 *)
      let r := limit b - position b in
      if position b =? 0 then (setLim (setPos b r) (capacity b), Done)
      else
        match checkPut (setPos b 0) 0 r false with
        | Some a => (setPos b 0, a)
        | None =>
            match range b (position b) r, range b 0 r with
            | Some i, Some j =>
                if direct b && (position b <? r) then (b, Wild)
                else (setLim (setPos (setMem b (firstn j (mem b) ++ firstn (Z.to_nat r) (skipn i (mem b)) ++ skipn (j + Z.to_nat r) (mem b))) r) (capacity b), Done)
            | _, _ => (b, outside b)
            end
        end
  end.

(** ByteBuffer.java:22-36: a buffer on the bytes of [m] from [off] on, of [n] bytes *)
Definition wrapOf (d : bool) (m : list Z) (off n : Z) : buffer :=
  {| direct := d; mem := m; base := off; capacity := n; position := 0; limit := n; readonly := false |}.
(** ArrayByteBuffer.java:42-45, DirectByteBuffer.java:41-43 *)
Definition slice (b : buffer) : buffer :=
  {| direct := direct b; mem := mem b; base := base b + position b; capacity := limit b - position b; position := 0;
     limit := limit b - position b; readonly := true |}.
