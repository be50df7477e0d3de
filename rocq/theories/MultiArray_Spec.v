(** What a new multi-dimensional array is (JVMS multianewarray), apart from how it is made. *)
From Coq Require Import List ZArith Arith.
From Verif Require Import ClassLoad_Spec MultiArray_Model.
Import ListNotations.
Local Open Scope Z_scope.

(** The number of dimensions of a type, and the type of the arrays [k] levels down *)
Fixpoint rank (t : type) : nat :=
  match t with TClass _ => 0 | TPrims _ => 1 | TArrayOf t' => S (rank t') end.
Fixpoint below (k : nat) (t : type) : type :=
  match k, t with S k', TArrayOf t' => below k' t' | _, _ => t end.

(** [a[i1][i2]...]: the array reached by a sequence of indices *)
Fixpoint reach (h : heapOf) (a : nat) (path : list nat) : option nat :=
  match path with
  | [] => Some a
  | i :: p => match nth_error h a with
              | Some r => match a_refs r i with Some b => reach h b p | None => None end
              | None => None
              end
  end.

(** The sequences of indices that lead to an array: shorter than the counts given and each index below its count *)
Inductive leads : list Z -> list nat -> Prop :=
| leads_here : forall c cs, leads (c :: cs) []
| leads_on : forall c cs i p, Z.of_nat i < c -> leads cs p -> leads (c :: cs) (i :: p).
