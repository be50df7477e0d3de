(** src/avian/alloc-vector.h: Vector, the growing byte buffer. Bytes are Z; a word is stored as the host does
    (little-endian). *)
From Coq Require Import List ZArith Bool.
From Verif Require Import Zone_Model.
Import ListNotations.
Local Open Scope Z_scope.

(** alloc-vector.h:193-197; [data] is the whole capacity, None before the first allocation. *)
Record vector := V { data : option (list Z); position : nat; minimumCapacity : Z }.
(** alloc-vector.h:28-37 *)
Definition create (mc : Z) : vector := V None 0 mc.
Inductive result (A : Type) := Ok (a : A) | Abort | UB.
Arguments Ok {A} a. Arguments Abort {A}. Arguments UB {A}.
Definition count (v : vector) : nat := match data v with Some d => length d | None => 0 end.

(** What fresh memory holds: arbitrary bytes. *)
Section Junk.
Variable junk : nat -> Z.
Definition raw (n : nat) : list Z := map junk (seq 0 n).
(** include/avian/util/slice.h:77-82, 93-98: clone and resize; memcpy of min(count, newCount), min on unsigned. *)
Definition resize (d : list Z) (n : nat) : list Z :=
  let k := Z.to_nat (Z.min (u32 (Z.of_nat (length d))) (u32 (Z.of_nat n))) in firstn k d ++ skipn k (raw n).
(** alloc-vector.h:53-66; max works on unsigned. *)
Definition ensure (space : nat) (v : vector) : result vector :=
  if (count v <? position v + space)%nat then
    if 0 <? minimumCapacity v then
      let n := Z.to_nat (umax (Z.of_nat (position v + space)) (umax (minimumCapacity v) (Z.of_nat (count v * 2)))) in
      Ok (V (Some (match data v with Some d => resize d n | None => raw n end)) (position v) (minimumCapacity v))
    else Abort
  else Ok v.
(** memcpy into the buffer: writing outside it is UB. *)
Definition write (off : nat) (bs : list Z) (v : vector) : result vector :=
  match data v with
  | Some d => if (off + length bs <=? length d)%nat then Ok (V (Some (firstn off d ++ bs ++ skipn (off + length bs) d)) (position v) (minimumCapacity v)) else UB
  | None => if (length bs =? 0)%nat then Ok v else UB
  end.
Definition bind {A B} (r : result A) (f : A -> result B) : result B := match r with Ok a => f a | Abort => Abort | UB => UB end.
(** alloc-vector.h:86-99 allocate, append: returns the offset. *)
Definition append (bs : list Z) (v : vector) : result (nat * vector) :=
  bind (ensure (length bs) v) (fun v1 =>
  let v2 := V (data v1) (position v1 + length bs) (minimumCapacity v1) in
  bind (write (position v1) bs v2) (fun v3 => Ok (position v1, v3))).
End Junk.
(** alloc-vector.h:68-72 *)
Definition get (off n : nat) (v : vector) : result (list Z) :=
  if (off + n <=? position v)%nat then
    match data v with
    | Some d => if (off + n <=? length d)%nat then Ok (firstn n (skipn off d)) else UB
    | None => if (n =? 0)%nat then Ok [] else UB end
  else Abort.
(** alloc-vector.h:74-78 *)
Definition set (off : nat) (bs : list Z) (v : vector) : result vector :=
  if (off + length bs <=? position v)%nat then write off bs v else Abort.
(** alloc-vector.h:80-84: [position - size] wraps for a larger size, and get's assertion fails. *)
Definition pop (n : nat) (v : vector) : result (list Z * vector) :=
  if (n <=? position v)%nat then bind (get (position v - n) n v) (fun bs => Ok (bs, V (data v) (position v - n) (minimumCapacity v))) else Abort.
(** The bytes of an [n]-byte integer, and back (append2, append4, appendAddress, get2, get4, getAddress:
    alloc-vector.h:101-173). *)
Fixpoint bytes (n : nat) (x : Z) : list Z := match n with O => [] | S n => x mod 256 :: bytes n (x / 256) end.
Fixpoint value (bs : list Z) : Z := match bs with [] => 0 | b :: bs => b + 256 * value bs end.
Definition appendInt (junk : nat -> Z) (n : nat) (x : Z) (v : vector) : result (nat * vector) := append junk (bytes n (x mod 256 ^ Z.of_nat n)) v.
Definition getInt (n : nat) (off : nat) (v : vector) : result Z := bind (get off n v) (fun bs => Ok (value bs)).
(** alloc-vector.h:132-136: [position - 2] wraps below two bytes, so the assertion passes and memcpy is unchecked. *)
Definition set2 (off : nat) (x : Z) (v : vector) : result vector :=
  if (position v <? 2)%nat || (off <=? position v - 2)%nat then write off (bytes 2 (x mod 256 ^ 2)) v else Abort.

(** A sequence of operations; reads are collected. *)
Inductive op := Append (bs : list Z) | Set_ (off : nat) (bs : list Z) | Get (off n : nat) | Pop (n : nat).
Inductive out := OutOff (n : nat) | OutBytes (bs : list Z) | OutNone.
Definition step (junk : nat -> Z) (o : op) (v : vector) : result (out * vector) :=
  match o with
  | Append bs => bind (append junk bs v) (fun r => Ok (OutOff (fst r), snd r))
  | Set_ off bs => bind (set off bs v) (fun v' => Ok (OutNone, v'))
  | Get off n => bind (get off n v) (fun bs => Ok (OutBytes bs, v))
  | Pop n => bind (pop n v) (fun r => Ok (OutBytes (fst r), snd r))
  end.
Fixpoint run (junk : nat -> nat -> Z) (k : nat) (os : list op) (v : vector) : result (list out * vector) :=
  match os with
  | [] => Ok ([], v)
  | o :: os => bind (step (junk k) o v) (fun r => bind (run junk (S k) os (snd r)) (fun q => Ok (fst r :: fst q, snd q)))
  end.
