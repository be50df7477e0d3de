(** What a field layout has to satisfy. A placed field is a field with the offset it was given. *)
From Coq Require Import List ZArith Bool.
From Verif Require Import Layout_Model.
Import ListNotations.
Local Open Scope Z_scope.

(** Size in bytes of a Java value of each type. *)
Definition sizeOf (c : fcode) : Z :=
  match c with
  | FVoid => 0 | FByte | FBoolean => 1 | FChar | FShort => 2 | FInt | FFloat => 4 | FLong | FDouble | FObject => 8
  end.
(** A field may have any type except void. *)
Definition valid (fs : list field) : Prop := forall f, In f fs -> code f <> FVoid.

Definition instances (fs : list field) : list field := filter (fun f => negb (static f)) fs.
Definition statics (fs : list field) : list field := filter static fs.
(** The instance (static) fields of one class, with the offsets in [os]. *)
Definition placedInstances (fs : list field) (os : list Z) : list (field * Z) :=
  filter (fun x => negb (static (fst x))) (combine fs os).
Definition placedStatics (fs : list field) (os : list Z) : list (field * Z) := filter (fun x => static (fst x)) (combine fs os).
(** All instance fields of a chain of classes. *)
Fixpoint placedChain (chain : list (list field)) (offs : list (list Z)) : list (field * Z) :=
  match chain, offs with
  | fs :: chain, os :: offs => placedInstances fs os ++ placedChain chain offs
  | _, _ => []
  end.
Definition instanceCount (chain : list (list field)) : Z := Z.of_nat (length (instances (concat chain))).

(** Every field lies between [lo] and [hi] at a multiple of its size, and no two overlap. *)
Definition goodLayout (lo hi : Z) (l : list (field * Z)) : Prop :=
  (forall f o, In (f, o) l -> lo <= o /\ o + sizeOf (code f) <= hi /\ (sizeOf (code f) | o)) /\
  (forall i j f o f' o', i <> j -> nth_error l i = Some (f, o) -> nth_error l j = Some (f', o') ->
     o + sizeOf (code f) <= o' \/ o' + sizeOf (code f') <= o).
(** The word at [8 * i] holds a reference field. *)
Definition holdsReference (l : list (field * Z)) (i : Z) : Prop := exists f, In (f, 8 * i) l /\ code f = FObject.
(** Each index once, in ascending order. *)
Definition ascending (l : list Z) : Prop := forall i j a b, (i < j)%nat -> nth_error l i = Some a -> nth_error l j = Some b -> a < b.
