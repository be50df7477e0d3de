(** Field and method resolution as the Java virtual machine specification has it, over class files. *)
From Coq Require Import List Arith Bool.
From Verif Require Import Hier_Model Hier_Spec.
Import ListNotations.

Section Spec.
Variable ds : list cdef.
Variable fields : nat -> list nat.
Fixpoint firstOf {A B} (g : A -> option B) (l : list A) : option B :=
  match l with [] => None | x :: l' => match g x with Some r => Some r | None => firstOf g l' end end.
(** JVMS 5.4.3.2: the field of the class itself, then of its direct superinterfaces, recursively, then of its superclass,
    recursively. The answer is the class that declares the field. [n] is more than the number of any class involved, as files name earlier ones. *)
Fixpoint fieldOf (n i f : nat) : option nat :=
  match n with
  | O => None
  | S n =>
    match nth_error ds i with
    | None => None
    | Some d =>
      if existsb (Nat.eqb f) (fields i) then Some i else
      match firstOf (fun k => fieldOf n k f) (ifaces d) with
      | Some e => Some e
      | None => match super d with Some p => fieldOf n p f | None => None end
      end
    end
  end.
Definition declaresField (i f : nat) : Prop := i < length ds /\ In f (fields i).
(** The interfaces of [i] that declare the field. *)
Definition interfaceField (i f k : nat) : Prop := interfaceClass ds k /\ below ds i k /\ declaresField k f.
(** No superclass declares the field, and one interface at most does. *)
Definition constantOnly (i f : nat) : Prop :=
  (forall j, superclass ds i j -> ~ declaresField j f) /\ (forall k k', interfaceField i f k -> interfaceField i f k' -> k = k').
(** No class on the way up declares a static or private method or constructor with the name and descriptor. *)
Definition onlyVirtual (i s : nat) : Prop := forall j d, superclass ds i j -> nth_error ds j = Some d -> ~ In (Dec s false) (decls d).
(** The class has such a method: it or a superclass declares it, or an interface does. *)
Definition hasMethod (i s : nat) : Prop := (exists e, selects ds i s e) \/ exists k, interfaceClass ds k /\ below ds i k /\ declares ds k s.
(** What is run for an instance of [r]: the method of the nearest superclass that declares it, or else one that an interface of [r] declares. *)
Definition rightCode (r s e : nat) : Prop :=
  selects ds r s e \/ ((forall e', ~ selects ds r s e') /\ interfaceClass ds e /\ below ds r e /\ declares ds e s).
End Spec.
