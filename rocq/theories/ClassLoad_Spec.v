(** What loading a class means, apart from the model: JVMS 5.3, 5.3.2, 5.3.3 and 4.3.2. *)
From Coq Require Import List NArith Arith Bool.
Import ListNotations.

(** Types with a class: a class or interface with its name, an array of a primitive type or of such a type *)
Inductive type := TClass (n : list N) | TPrims (c : N) | TArrayOf (t : type).

(** Names of classes: not empty and without '[', ';' and the zero character. The eight letters of the primitive types *)
Definition plainName (n : list N) : Prop := n <> [] /\ (forall c, In c n -> c <> 91%N /\ c <> 59%N /\ c <> 0%N).
Definition letters : list N := [66; 67; 68; 70; 73; 74; 83; 90]%N.

Fixpoint proper (t : type) : Prop :=
  match t with
  | TClass n => plainName n
  | TPrims c => In c letters
  | TArrayOf t' => proper t'
  end.

(** The descriptor of a type (JVMS 4.3.2) and the name its class is asked for by (JVMS 4.4.1) *)
Fixpoint descriptor (t : type) : list N :=
  match t with
  | TClass n => 76%N :: n ++ [59%N]
  | TPrims c => [91%N; c]
  | TArrayOf t' => 91%N :: descriptor t'
  end.
Definition typeName (t : type) : list N :=
  match t with TClass n => n | _ => descriptor t end.

(** The class a type is made of, if any *)
Fixpoint baseClass (t : type) : option (list N) :=
  match t with
  | TClass n => Some n
  | TPrims _ => None
  | TArrayOf t' => baseClass t'
  end.

(** Delegation (JVMS 5.3.2): the loader that defines a class asked of [l]. [line] is [l] followed by its ancestors up to
    the root; the one nearest to the root that has the class defines it *)
Fixpoint definedBy (has : nat -> list N -> bool) (line : list nat) (n : list N) : option nat :=
  match line with
  | [] => None
  | l :: above =>
      match definedBy has above n with
      | Some d => Some d
      | None => if has l n then Some l else None
      end
  end.

(** The loader that defines the class of a type: arrays of primitives belong to the root *)
Definition definerOf (has : nat -> list N -> bool) (root : nat) (line : list nat) (t : type) : option nat :=
  match baseClass t with
  | None => Some root
  | Some n => definedBy has line n
  end.
