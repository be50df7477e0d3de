(** What is expected of references and finalizers. *)
From Coq Require Import List Bool Arith.
From Verif Require Import Weak_Model.
Import ListNotations.

(** The heap as one collection sees it: see the variables in Weak_Model.v. *)
Record heap := Heap {
  hReaches : nat -> nat -> bool;
  hHasFinalizer : nat -> bool;
  hTenured : nat -> bool;
  hFinTarget : nat -> nat;
  hFinFunction : nat -> bool;
  hIsCleaner : nat -> bool }.

Definition collect (h : heap) (major : bool) (s : state) : state :=
  postVisit (hReaches h) (hHasFinalizer h) (hTenured h) (hFinTarget h) (hFinFunction h)
            (hIsCleaner h) major s.

(** The references and finalizers the machine knows. *)
Definition registeredRefs (s : state) : list nat := weakRefs s ++ tenuredRefs s.
Definition registeredFins (s : state) : list nat := finalizers s ++ tenuredFinalizers s.

(** Strong reachability is reflexive and transitive, and the objects found before the references
    are looked at are closed under it; a registered finalizer is a record of the machine, not the
    object: it leads to nothing new and is nobody's target. *)
Definition heapOk (h : heap) (s : state) : Prop :=
  (forall x, hReaches h x x = true) /\
  (forall x y z, hReaches h x y = true -> hReaches h y z = true -> hReaches h x z = true) /\
  (forall x y, live s x = true -> hReaches h x y = true -> live s y = true) /\
  (forall f y, In f (registeredFins s) -> hReaches h f y = true -> y = f \/ live s y = true) /\
  (forall f g, In f (registeredFins s) -> hFinTarget h g <> f).

(** A collection of the young generation keeps whatever a tenured object points to. *)
Definition remembered (h : heap) (s : state) : Prop :=
  (forall f, In f (tenuredFinalizers s) -> live s (hFinTarget h f) = true) /\
  (forall r o, In r (tenuredRefs s) -> target s r = Some o -> live s o = true) /\
  (forall r q, In r (tenuredRefs s) -> queue s r = Some q -> live s q = true).

(** Histories: [history s rs fs] — the machine is in state [s] after references [rs] and
    finalizers [fs] have been created, targets cleared and references enqueued by the program, and
    any number of collections, each with a heap of its own. *)
Definition initial : state :=
  State (fun _ => false) (fun _ => None) (fun _ => None) [] [] [] [] [] [] [] [] [].
Inductive history : state -> list nat -> list nat -> Prop :=
| h_init : history initial [] []
| h_ref : forall s rs fs r t q, history s rs fs -> ~ In r rs ->
    history (newReference s r t q) (r :: rs) fs
| h_fin : forall s rs fs f, history s rs fs -> ~ In f fs ->
    history (newFinalizer s f) rs (f :: fs)
| h_clear : forall s rs fs r, history s rs fs -> In r rs -> history (javaClear s r) rs fs
| h_enqueue : forall s rs fs r, history s rs fs -> In r rs -> history (javaEnqueue s r) rs fs
| h_jni : forall s rs fs j, history s rs fs -> history (setJni s j) rs fs
| h_collect : forall s rs fs h major l, history s rs fs -> heapOk h (setLive s l) ->
    (major = false -> remembered h (setLive s l)) ->
    history (collect h major (setLive s l)) rs fs.

(** [collection h major s s']: in [s] the objects that are strongly reachable have been found, and
    [s'] is the state at the end of the collection ([live s'] are the objects that survive). *)
Definition collection (h : heap) (major : bool) (s s' : state) : Prop :=
  (exists s0 rs fs l, history s0 rs fs /\ s = setLive s0 l) /\
  heapOk h s /\ (major = false -> remembered h s) /\ s' = collect h major s.

(** The references (finalizers) a collection decides about. *)
Definition examined (major : bool) (s : state) (r : nat) : Prop :=
  In r (weakRefs s) \/ (major = true /\ In r (tenuredRefs s)).
Definition examinedFin (major : bool) (s : state) (f : nat) : Prop :=
  In f (finalizers s) \/ (major = true /\ In f (tenuredFinalizers s)).

(** What a collection has added to a log that grows at the front. *)
Definition added {A} (before after new : list A) : Prop := after = new ++ before.
