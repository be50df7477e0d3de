(** Model of what a collection does to Java references and finalizers
    (src/machine.cpp, [postVisit]). *)
From Coq Require Import List Bool Arith.
Import ListNotations.

(** Objects are numbered; that they move is not modelled here (see Gc_Model.v). *)

Section PostVisit.

(** [reaches x y]: y is x or can be reached from x over fields the collector walks
    (src/heap/heap.cpp, Visitor::visit copies x and everything it reaches).  The fields target,
    queue and vmNext of a reference and target, next of a finalizer are not walked
    (src/types.def:100-105, 292-301). *)
Variable reaches : nat -> nat -> bool.
(** the class of the object has HasFinalizerFlag *)
Variable hasFinalizer : nat -> bool.
(** the object, if it survives, is tenured after this collection *)
Variable tenured : nat -> bool.
(** a finalizer's target, and whether it has a native function *)
Variable finTarget : nat -> nat.
Variable finFunction : nat -> bool.
(** the class of the reference is sun/misc/Cleaner *)
Variable isCleaner : nat -> bool.

(** The state: objects found so far ([Heap::status] differs from Unreachable), the fields of the
    references, Machine::finalizers, tenuredFinalizers, weakReferences, tenuredWeakReferences,
    finalizeQueue, the roots objectsToFinalize and objectsToClean, the reference queues (pairs of
    queue and reference, latest first) and the targets of JNI weak references. *)
Record state := State {
  live : nat -> bool;
  target : nat -> option nat;
  queue : nat -> option nat;
  finalizers : list nat; tenuredFinalizers : list nat;
  weakRefs : list nat; tenuredRefs : list nat;
  finalizeQueue : list nat; toFinalize : list nat; toClean : list nat;
  enqueued : list (nat * nat);
  jniWeak : list (option nat) }.

Definition setLive (s : state) l := State l (target s) (queue s) (finalizers s)
  (tenuredFinalizers s) (weakRefs s) (tenuredRefs s) (finalizeQueue s) (toFinalize s) (toClean s)
  (enqueued s) (jniWeak s).
Definition setTarget (s : state) (r : nat) (v : option nat) := State (live s)
  (fun x => if x =? r then v else target s x) (queue s) (finalizers s)
  (tenuredFinalizers s) (weakRefs s) (tenuredRefs s) (finalizeQueue s) (toFinalize s) (toClean s)
  (enqueued s) (jniWeak s).
Definition setQueue (s : state) (r : nat) (v : option nat) := State (live s)
  (target s) (fun x => if x =? r then v else queue s x) (finalizers s)
  (tenuredFinalizers s) (weakRefs s) (tenuredRefs s) (finalizeQueue s) (toFinalize s) (toClean s)
  (enqueued s) (jniWeak s).
Definition setFins (s : state) f tf := State (live s) (target s) (queue s) f tf
  (weakRefs s) (tenuredRefs s) (finalizeQueue s) (toFinalize s) (toClean s) (enqueued s) (jniWeak s).
Definition setRefs (s : state) w tw := State (live s) (target s) (queue s) (finalizers s)
  (tenuredFinalizers s) w tw (finalizeQueue s) (toFinalize s) (toClean s) (enqueued s) (jniWeak s).
Definition setToFinalize (s : state) fq tf := State (live s) (target s) (queue s) (finalizers s)
  (tenuredFinalizers s) (weakRefs s) (tenuredRefs s) fq tf (toClean s) (enqueued s) (jniWeak s).
Definition setToClean (s : state) c := State (live s) (target s) (queue s) (finalizers s)
  (tenuredFinalizers s) (weakRefs s) (tenuredRefs s) (finalizeQueue s) (toFinalize s) c
  (enqueued s) (jniWeak s).
Definition setEnqueued (s : state) e := State (live s) (target s) (queue s) (finalizers s)
  (tenuredFinalizers s) (weakRefs s) (tenuredRefs s) (finalizeQueue s) (toFinalize s) (toClean s)
  e (jniWeak s).
Definition setJni (s : state) j := State (live s) (target s) (queue s) (finalizers s)
  (tenuredFinalizers s) (weakRefs s) (tenuredRefs s) (finalizeQueue s) (toFinalize s) (toClean s)
  (enqueued s) j.

(** [v->visit(&x)] *)
Definition visit (s : state) (x : nat) : state := setLive s (fun y => live s y || reaches x y).
(** [status(x) == Heap::Unreachable] for a field that may be null *)
Definition unreachable (s : state) (x : option nat) : bool :=
  match x with Some o => negb (live s o) | None => false end.

(** src/machine.cpp:475-487 [isFinalizable], [clearTargetIfFinalizable] *)
Definition isFinalizable (s : state) (o : nat) : bool := negb (live s o) && hasFinalizer o.
Definition clearTargetIfFinalizable (s : state) (r : nat) : state :=
  match target s r with
  | Some o => if isFinalizable s o then setTarget s r None else s
  | None => s
  end.

(** src/machine.cpp:380-399 [finalizerTargetUnreachable] *)
Definition finalizerTargetUnreachable (s : state) (f : nat) : state :=
  let s1 := visit s (finTarget f) in
  if finFunction f then setToFinalize s1 (f :: finalizeQueue s1) (toFinalize s1)
  else setToFinalize s1 (finalizeQueue s1) (f :: toFinalize s1).

(** src/machine.cpp:524-536 (and 602-614): finalizers with reachable targets, in order, and
    those with unreachable targets, in reverse order *)
Fixpoint splitFinalizers (s : state) (fs unr : list nat) : state * list nat * list nat :=
  match fs with
  | [] => (s, [], unr)
  | f :: r =>
    let s1 := visit s f in
    if live s1 (finTarget f)
    then let '(s2, keep, u) := splitFinalizers s1 r unr in (s2, f :: keep, u)
    else splitFinalizers s1 r (f :: unr)
  end.

(** src/machine.cpp:538-558: targets are visited; the finalizers that are tenured are moved to a
    list of their own, in reverse order *)
Fixpoint keepFinalizers (s : state) (fs : list nat) (new : list nat) : state * list nat * list nat :=
  match fs with
  | [] => (s, [], new)
  | f :: r =>
    let s1 := visit s (finTarget f) in
    if live s1 f && tenured f then keepFinalizers s1 r (f :: new)
    else let '(s2, stay, n) := keepFinalizers s1 r new in (s2, f :: stay, n)
  end.

(** src/machine.cpp:401-439 [referenceTargetUnreachable]: the reference leaves the list *)
Definition referenceTargetUnreachable (s : state) (r : nat) : state :=
  let s1 := setTarget (visit s r) r None in
  if isCleaner r then setToClean s1 (r :: toClean s1)
  else
    match queue s1 r with
    | Some q => if live s1 q
                then setQueue (setEnqueued (visit s1 q) ((q, r) :: enqueued s1)) r None
                else s1
    | None => s1
    end.

(** src/machine.cpp:441-456 [referenceUnreachable] *)
Definition referenceUnreachable (s : state) (r : nat) : state :=
  match queue s r with
  | Some q => if live s q then referenceTargetUnreachable s r else s
  | None => s
  end.

(** src/machine.cpp:458-473 [referenceTargetReachable] *)
Definition referenceTargetReachable (s : state) (r : nat) : state :=
  let s1 := visit s r in
  let s2 := match target s1 r with Some o => visit s1 o | None => s1 end in
  match queue s2 r with
  | Some q => if live s2 q then visit s2 q else setQueue s2 r None
  | None => s2
  end.

(** src/machine.cpp:569-598 (and 631-643, where [move] is false): the state, the references
    that stay in the list, and those that move to the tenured list (in reverse order) *)
Fixpoint scanRefs (move : bool) (s : state) (rs new : list nat) : state * list nat * list nat :=
  match rs with
  | [] => (s, [], new)
  | r :: rest =>
    if negb (live s r) then scanRefs move (referenceUnreachable s r) rest new
    else if unreachable s (target s r) then scanRefs move (referenceTargetUnreachable s r) rest new
    else
      let s1 := referenceTargetReachable s r in
      if move && tenured r then scanRefs move s1 rest (r :: new)
      else let '(s2, stay, n) := scanRefs move s1 rest new in (s2, r :: stay, n)
  end.

(** src/machine.cpp:655-663: JNI weak references (only the weak ones are in the list) *)
Fixpoint jniScan (s : state) (l : list (option nat)) : state * list (option nat) :=
  match l with
  | [] => (s, [])
  | Some o :: r =>
    if live s o then let '(s1, l1) := jniScan (visit s o) r in (s1, Some o :: l1)
    else let '(s1, l1) := jniScan s r in (s1, None :: l1)
  | None :: r => let '(s1, l1) := jniScan s r in (s1, None :: l1)
  end.

(** src/machine.cpp:489-664 [postVisit], after the roots have been visited; [major]: the type of
    the collection *)
Definition postVisit (major : bool) (s0 : state) : state :=
  (* 498-518 *)
  let s1 := fold_left clearTargetIfFinalizable (weakRefs s0) s0 in
  let s2 := if major then fold_left clearTargetIfFinalizable (tenuredRefs s1) s1 else s1 in
  let s3 := setJni s2 (map (fun x => match x with
                                     | Some o => if isFinalizable s2 o then None else Some o
                                     | None => None end) (jniWeak s2)) in
  (* 520-564 *)
  let '(s4, keep, unr) := splitFinalizers s3 (finalizers s3) [] in
  let '(s5, stay, newT) := keepFinalizers s4 keep [] in
  let s6 := fold_left finalizerTargetUnreachable unr s5 in
  let s7 := setFins s6 stay (tenuredFinalizers s6) in
  (* 566-598 *)
  let '(s8, stayR, newR) := scanRefs true s7 (weakRefs s7) [] in
  let s9 := setRefs s8 stayR (tenuredRefs s8) in
  (* 600-644 *)
  let s10 :=
    if major then
      let '(t1, keepT, unrT) := splitFinalizers s9 (tenuredFinalizers s9) [] in
      let t2 := fold_left (fun s f => visit s (finTarget f)) keepT t1 in
      let t3 := fold_left finalizerTargetUnreachable unrT t2 in
      let t4 := setFins t3 (finalizers t3) keepT in
      let '(t5, stayT, _) := scanRefs false t4 (tenuredRefs t4) [] in
      setRefs t5 (weakRefs t5) stayT
    else s9 in
  (* 646-653: the newly tenured ones go in front of the tenured ones *)
  let s11 := setRefs (setFins s10 (finalizers s10) (newT ++ tenuredFinalizers s10))
                     (weakRefs s10) (newR ++ tenuredRefs s10) in
  (* 655-663 *)
  let '(s12, j) := jniScan s11 (jniWeak s11) in
  setJni s12 j.

End PostVisit.

(** src/machine.cpp:4388-4408 [makeNewGeneral], src/util.cpp:425-433: a new reference is registered;
    classpath/java/lang/ref/Reference.java:20-23, the constructor sets its fields *)
Definition newReference (s : state) (r : nat) (t q : option nat) : state :=
  setQueue (setTarget (setRefs s (r :: weakRefs s) (tenuredRefs s)) r t) r q.
(** src/machine.cpp:5427-5440 [addFinalizer] *)
Definition newFinalizer (s : state) (f : nat) : state :=
  setFins s (f :: finalizers s) (tenuredFinalizers s).
(** classpath/java/lang/ref/Reference.java:33-35 [clear] *)
Definition javaClear (s : state) (r : nat) : state := setTarget s r None.
(** classpath/java/lang/ref/Reference.java:41-49 [enqueue] *)
Definition javaEnqueue (s : state) (r : nat) : state :=
  match queue s r with
  | Some q => setQueue (setEnqueued s ((q, r) :: enqueued s)) r None
  | None => s
  end.
