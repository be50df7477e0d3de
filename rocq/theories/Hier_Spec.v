(** Java's subtype relation and method selection over a list of class files (class [i] is the [i]-th file). *)
From Coq Require Import List Arith.
From Verif Require Import Hier_Model.
Import ListNotations.

(** A hierarchy: class 0 (Object) is a class without superclass and interfaces; every other file names an earlier class
    as superclass, which is Object for interfaces, and earlier interfaces; no file declares a method twice. *)
Definition wellFormed (ds : list cdef) : Prop :=
  forall i d, nth_error ds i = Some d ->
    NoDup (map dsig (filter virtual (decls d))) /\
    (i = 0 -> isInterface d = false /\ super d = None /\ ifaces d = []) /\
    (i <> 0 -> exists s c, super d = Some s /\ s < i /\ nth_error ds s = Some c /\ isInterface c = false) /\
    (isInterface d = true -> super d = Some 0) /\
    (forall k, In k (ifaces d) -> k < i /\ exists c, nth_error ds k = Some c /\ isInterface c = true).

(** Class [i] directly extends or implements class [j]. *)
Definition direct (ds : list cdef) (i j : nat) : Prop :=
  exists d, nth_error ds i = Some d /\ (super d = Some j \/ In j (ifaces d)).
(** Class [i] is class [j] or a descendant of it. *)
Inductive below (ds : list cdef) : nat -> nat -> Prop :=
| below_refl : forall i, below ds i i
| below_step : forall i j k, direct ds i j -> below ds j k -> below ds i k.

(** The subtype relation of the Java language on class, primitive and array types (JLS 4.10). *)
Inductive subtype (ds : list cdef) (serializable cloneable : nat) : ty -> ty -> Prop :=
| sub_refl : forall t, subtype ds serializable cloneable t t
| sub_trans : forall a b c, subtype ds serializable cloneable a b -> subtype ds serializable cloneable b c -> subtype ds serializable cloneable a c
| sub_direct : forall i j, direct ds i j -> subtype ds serializable cloneable (TClass i) (TClass j)
| sub_covariant : forall a b, subtype ds serializable cloneable a b -> subtype ds serializable cloneable (TArray a) (TArray b)
| sub_array_object : forall a, subtype ds serializable cloneable (TArray a) (TClass 0)
| sub_array_serializable : forall a, subtype ds serializable cloneable (TArray a) (TClass serializable)
| sub_array_cloneable : forall a, subtype ds serializable cloneable (TArray a) (TClass cloneable).
(** A type whose classes all exist. *)
Fixpoint known (ds : list cdef) (t : ty) : Prop :=
  match t with TClass i => i < length ds | TPrim _ => True | TArray e => known ds e end.

(** Class [i] declares a virtual method [s]. *)
Definition declares (ds : list cdef) (i s : nat) : Prop :=
  exists d, nth_error ds i = Some d /\ In (Dec s true) (decls d).
(** [e] is the class nearest to [i] on its superclass chain that declares [s]. *)
Inductive selects (ds : list cdef) : nat -> nat -> nat -> Prop :=
| selects_here : forall i s, declares ds i s -> selects ds i s i
| selects_super : forall i d p s e, ~ declares ds i s -> nth_error ds i = Some d -> super d = Some p ->
    selects ds p s e -> selects ds i s e.
(** [d] is [i] or one of its superclasses. *)
Inductive superclass (ds : list cdef) : nat -> nat -> Prop :=
| superclass_refl : forall i, superclass ds i i
| superclass_step : forall i d p j, nth_error ds i = Some d -> super d = Some p -> superclass ds p j -> superclass ds i j.
Definition interfaceClass (ds : list cdef) (i : nat) : Prop := exists d, nth_error ds i = Some d /\ isInterface d = true.
(** Maximally specific interface declaration of [s] (JVMS 5.4.3.3), when no superclass declares it. *)
Definition mostSpecific (ds : list cdef) (i s k : nat) : Prop :=
  interfaceClass ds k /\ below ds i k /\ declares ds k s /\
  forall k', interfaceClass ds k' -> below ds i k' -> declares ds k' s -> below ds k k'.
