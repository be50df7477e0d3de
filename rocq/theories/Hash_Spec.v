(** What a program and a collector may do, and what hash codes must satisfy. *)
From Coq Require Import List ZArith Bool.
From Verif Require Import Hash_Model.
Import ListNotations.
Local Open Scope Z_scope.

(** Class descriptors: a header word at least; arrays have room for their length. *)
Definition classes (cl : Z -> cdesc) : Prop := forall c, 1 <= words (cl c) /\ (0 < elt (cl c) -> 2 <= words (cl c)).
Definition apart (a n b k : Z) : Prop := a + n <= b \/ b + k <= a.
(** [n] words at [a] belong to no object. *)
Definition free (s : state) (a n : Z) : Prop := forall i p, addr s i = Some p -> apart a n p (ext s i).

Section Spec.
Variable cl : Z -> cdesc.
(** Memory is given out once: new objects, clones and the copies the collector makes get words no object has, each copy as
    many as copiedSizeInWords says; fixed objects do not move. Programs write to the fields and elements of objects, not to
    their headers and lengths. *)
Definition allowed (s : state) (o : op) : Prop :=
  match o with
  | New _ a c len => 0 <= c /\ 0 <= len /\ free s a (sizeOf cl c len)
  | Write id i v => forall p, addr s id = Some p -> 0 < i < baseSize cl (mem s) p /\
      (0 < elt (cl (classOf (mem s) p)) -> i <> words (cl (classOf (mem s) p)) - 1)
  | Hash _ => True
  | Clone _ id a => forall p, addr s id = Some p -> free s a (baseSize cl (mem s) p)
  | Collect dest =>
    (forall i p q, addr s i = Some p -> dest i = Some q -> q <> p -> objectFixed (mem s) p = false /\ free s q (copiedSize cl (mem s) p)) /\
    (forall i j p p' q q', i <> j -> addr s i = Some p -> addr s j = Some p' -> dest i = Some q -> dest j = Some q' -> q <> p -> q' <> p' ->
       apart q (copiedSize cl (mem s) p) q' (copiedSize cl (mem s) p'))
  end.
(** No movable array is cloned whose header carries marks (see C21); the clone of a fixed array is fixed. *)
Definition noMarkedArrayClone (s : state) (o : op) : Prop :=
  match o with
  | Clone fixed id a => forall p, addr s id = Some p -> 0 < elt (cl (classOf (mem s) p)) -> mark (mem s) p = if fixed then FixedMark else 0
  | _ => True
  end.
Definition start (m : memory) : state := St m (fun _ => None) (fun _ => 0) 0.
(** A history with the hash codes it was told. *)
Inductive history (extra : state -> op -> Prop) (m : memory) : state -> list (nat * Z) -> Prop :=
| h_start : history extra m (start m) []
| h_step : forall s outs o, history extra m s outs -> allowed s o -> extra s o ->
    history extra m (fst (apply cl s o)) (outs ++ match snd (apply cl s o) with Some r => [r] | None => [] end).
End Spec.
