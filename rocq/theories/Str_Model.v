(** Java strings inside the VM: src/avian/machine.h:2205-2244 (stringHash, stringCharAt, stringEqual), include/avian/util/hash.h,
    src/machine.cpp:4520-4541 (stringChars, 16 bit), 5490-5506 (intern).
    A string object is a window on a byte array (int8_t elements) or a char array (uint16_t) and a cached hash code
    (src/types.def: string; classpath/java/lang/String.java). *)
From Coq Require Import List ZArith NArith Bool.
From Verif Require Import HashMap_Model.
Import ListNotations.
Local Open Scope Z_scope.

Inductive sdata := Bytes (b : list Z) | Chars (c : list Z).
Record str := Str { data : sdata; offset : Z; len : Z; hashCode : Z }.

(** hash.h:33-56: uint32_t arithmetic; bytes are read as uint8_t *)
Fixpoint hashLoop (l : list Z) (h : Z) : Z :=
  match l with [] => h | c :: l => hashLoop l ((h * 31 + c) mod 2 ^ 32) end.
Definition subslice (l : list Z) (o n : Z) : list Z := firstn (Z.to_nat n) (skipn (Z.to_nat o) l).
Definition computeHash (s : str) : Z :=
  match data s with
  | Bytes b => hashLoop (map (fun x => x mod 256) (subslice b (offset s) (len s))) 0
  | Chars c => hashLoop (subslice c (offset s) (len s)) 0
  end.
(** machine.h:2205-2218; the string with its hashCode field afterwards, and the result *)
Definition stringHash (s : str) : str * Z :=
  if (hashCode s =? 0) && negb (len s =? 0)
  then let h := computeHash s in (Str (data s) (offset s) (len s) h, h)
  else (s, hashCode s).
(** 2220-2227: the conversion of an int8_t to uint16_t extends the sign *)
Definition stringCharAt (s : str) (i : Z) : Z :=
  match data s with
  | Bytes b => nth (Z.to_nat (offset s + i)) b 0 mod 2 ^ 16
  | Chars c => nth (Z.to_nat (offset s + i)) c 0
  end.
(** 2229-2244, for two different objects *)
Fixpoint charsEqual (a b : str) (i : Z) (fuel : nat) : bool :=
  match fuel with
  | O => true
  | S fuel => if stringCharAt a i =? stringCharAt b i then charsEqual a b (i + 1) fuel else false
  end.
Definition stringEqual (a b : str) : bool :=
  if len a =? len b then charsEqual a b 0 (Z.to_nat (len a)) else false.
(** machine.cpp:4520-4541: the characters stored to the buffer, with the final 0 *)
Definition stringChars (s : str) (start n : Z) : list Z :=
  match data s with
  | Bytes b => map (fun x => x mod 2 ^ 16) (subslice b (offset s + start) n) ++ [0]
  | Chars c => subslice c (offset s + start) n ++ [0]
  end.

(** Interning: string objects are numbers, [obj] their contents (strings do not change). The string map is a weak hash map;
    its values are not used (0 in the code, the key itself here, which is what intern returns).
    [mid]: what dies while the node is allocated. Line 5503 (a finalizer that removes the entry after the string died) is
    not modelled: entries of dead strings are skipped. *)
Section Intern.
Variable obj : nat -> str.
Definition hashN (k : nat) : N := Z.to_N (snd (stringHash (obj k))).
Definition equalN (a b : nat) : bool := Nat.eqb a b || stringEqual (obj a) (obj b).
Definition imap := hmap nat nat.
Definition intern (dead mid : nat -> bool) (m : imap) (k : nat) : option (imap * nat) :=
  match findNode hashN equalN true dead m k with
  | None => None
  | Some (Some (first, _)) => Some (m, first)
  | Some None =>
    match insert hashN true dead (orb_dead dead mid) m k k with None => None | Some m => Some (m, k) end
  end.
Inductive iop := Intern (k : nat) (mid : nat -> bool) | Die (ks : nat -> bool).
Fixpoint interns (s : imap * (nat -> bool)) (ops : list iop) : option ((imap * (nat -> bool)) * list (option nat)) :=
  match ops with
  | [] => Some (s, [])
  | Intern k mid :: ops =>
    match intern (snd s) mid (fst s) k with
    | None => None
    | Some (m, r) =>
      match interns (m, orb_dead (snd s) mid) ops with None => None | Some (s, rs) => Some (s, Some r :: rs) end
    end
  | Die ks :: ops =>
    match interns (fst s, orb_dead (snd s) ks) ops with None => None | Some (s, rs) => Some (s, None :: rs) end
  end.
End Intern.
