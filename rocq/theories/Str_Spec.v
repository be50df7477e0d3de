(** What strings mean. *)
From Coq Require Import List ZArith Bool.
From Verif Require Import Str_Model.
Import ListNotations.
Local Open Scope Z_scope.

(** The characters of a string: bytes stand for the characters 0..127. *)
Definition chars (s : str) : list Z :=
  match data s with Bytes b => subslice b (offset s) (len s) | Chars c => subslice c (offset s) (len s) end.
Definition arrayLength (d : sdata) : Z := match d with Bytes b => Z.of_nat (length b) | Chars c => Z.of_nat (length c) end.
Definition ascii (s : str) : Prop := match data s with Bytes b => Forall (fun x => 0 <= x < 128) b | Chars _ => True end.
(** The hash code of java.lang.String: s[0]*31^(n-1) + s[1]*31^(n-2) + ... + s[n-1], in 32 bits *)
Fixpoint javaHash (l : list Z) : Z :=
  match l with [] => 0 | c :: l => c * 31 ^ Z.of_nat (length l) + javaHash l end.
(** A string object: the window lies in the array, elements have their range, and the hash code, if cached, is right. *)
Definition valid (s : str) : Prop :=
  0 <= offset s /\ 0 <= len s /\ offset s + len s <= arrayLength (data s) /\
  match data s with Bytes b => Forall (fun x => -128 <= x < 128) b | Chars c => Forall (fun x => 0 <= x < 2 ^ 16) c end /\
  (hashCode s = 0 \/ hashCode s = javaHash (chars s) mod 2 ^ 32).

(** Which strings a history of interning may use: those still alive. *)
Fixpoint usable (dead : nat -> bool) (ops : list iop) : Prop :=
  match ops with
  | [] => True
  | Intern k mid :: ops => dead k || mid k = false /\ usable (fun x => dead x || mid x) ops
  | Die ks :: ops => usable (fun x => dead x || ks x) ops
  end.
Definition died (ops : list iop) (k : nat) : Prop :=
  exists o, In o ops /\ match o with Intern _ mid => mid k = true | Die ks => ks k = true end.
