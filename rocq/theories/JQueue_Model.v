(** java.util.concurrent.ConcurrentLinkedQueue of Avian's class library:
    classpath/java/util/concurrent/ConcurrentLinkedQueue.java.  Any number of threads, each
    making any calls; every access to shared memory is a step of its own.  head, tail and
    next are volatile and written by compare-and-swap only, so accesses are sequentially
    consistent. *)
From Coq Require Import ZArith Lia Bool List.
Import ListNotations.

(** A node, 109-117.  Values are references, 0 is null.  A node made by add is not seen by
    other threads until it is linked; it gets its name, its place in the list of all nodes, at
    that moment.  Nodes are never reused (the collector keeps those in use). *)
Record node := { value : Z; next : option nat }.

Inductive operation := Add (v : Z) | Poll (remove : bool).

(** Where a call stands.  [t], [x], [h] are local copies of references; a constructor is named
    after the access that comes next. *)
Inductive place :=
| AReadTail                                       (* 59: t = tail *)
| AReadTail2 (t : nat)                            (* 60: tail *)
| AReadNext (t x : nat)                           (* 60: .next *)
| ACheck (t x : nat) (nx : option nat)            (* 61: t == tail *)
| AHelp (t nx : nat)                              (* 63 *)
| AReadTail3 (t : nat)                            (* 64: tail *)
| ALink (t x : nat)                               (* 64: compare and swap of tail.next *)
| ASwing (t n : nat)                              (* 65 *)
| PReadHead                                       (* 86 *)
| PReadTail (h : nat)                             (* 87 *)
| PReadHead2 (h t : nat)                          (* 88: head *)
| PReadNext (h t x : nat)                         (* 88: .next *)
| PCheck (h t x : nat) (nx : option nat)          (* 90: h == head *)
| PHelp (t nx : nat)                              (* 93 *)
| PReadValue (h : nat) (nx : option nat)          (* 98 *)
| PSwing (h nx : nat) (v : Z)                     (* 100 *)
| Returned (v : Z)
| Crashed.                                        (* a null reference was used *)

(** The shared fields. *)
Record shared := { nodes : list node; head : nat; tail : nat }.

(** The nodes from [p] on, and the elements of the queue: those after the head. *)
Fixpoint walk (fuel : nat) (ns : list node) (p : option nat) : list Z :=
  match fuel, p with
  | S f, Some i => match nth_error ns i with Some n => value n :: walk f ns (next n) | None => [] end
  | _, _ => []
  end.
Definition contents (s : shared) : list Z :=
  match nth_error (nodes s) (head s) with Some n => walk (length (nodes s)) (nodes s) (next n) | None => [] end.

(** The initial queue, 39-40. *)
Definition initial : shared := {| nodes := [{| value := 0; next := None |}]; head := 0; tail := 0 |}.

Definition setNext (ns : list node) (i : nat) (n : nat) : list node :=
  firstn i ns ++ match nth_error ns i with Some d => [{| value := value d; next := Some n |}] | None => [] end ++ skipn (S i) ns.

(** Atomic.compareAndSwapObject on tail and head. *)
Definition casTail (s : shared) (old new : nat) : shared :=
  if Nat.eqb (tail s) old then {| nodes := nodes s; head := head s; tail := new |} else s.

(** One step of a call: add, 56-72, poll, 84-107. *)
Definition step (o : operation) (p : place) (s : shared) : shared * place :=
  match o, p with
  | Add _, AReadTail => (s, AReadTail2 (tail s))
  | Add _, AReadTail2 t => (s, AReadNext t (tail s))
  | Add _, AReadNext t x =>
      match nth_error (nodes s) x with Some n => (s, ACheck t x (next n)) | None => (s, Crashed) end
  | Add _, ACheck t x nx =>
      if Nat.eqb t (tail s) then (s, match nx with Some n => AHelp t n | None => AReadTail3 t end) else (s, AReadTail)
  | Add _, AHelp t nx => (casTail s t nx, AReadTail)
  | Add _, AReadTail3 t => (s, ALink t (tail s))
  | Add v, ALink t x =>
      match nth_error (nodes s) x with
      | Some n =>
          match next n with
          | None => let i := length (nodes s) in
                    ({| nodes := setNext (nodes s) x i ++ [{| value := v; next := None |}]; head := head s; tail := tail s |},
                     ASwing t i)
          | Some _ => (s, AReadTail)
          end
      | None => (s, Crashed)
      end
  | Add _, ASwing t n => (casTail s t n, Returned 1)
  | Poll _, PReadHead => (s, PReadTail (head s))
  | Poll _, PReadTail h => (s, PReadHead2 h (tail s))
  | Poll _, PReadHead2 h t => (s, PReadNext h t (head s))
  | Poll _, PReadNext h t x =>
      match nth_error (nodes s) x with Some n => (s, PCheck h t x (next n)) | None => (s, Crashed) end
  | Poll _, PCheck h t x nx =>
      if Nat.eqb h (head s) then
        if Nat.eqb h t then (s, match nx with Some n => PHelp t n | None => Returned 0 end)
        else (s, PReadValue h nx)
      else (s, PReadHead)
  | Poll _, PHelp t nx => (casTail s t nx, PReadHead)
  | Poll remove, PReadValue h nx =>
      match nx with
      | Some i =>
          match nth_error (nodes s) i with
          | Some n => (s, if remove then PSwing h i (value n) else Returned (value n))
          | None => (s, Crashed)
          end
      | None => (s, Crashed)
      end
  | Poll _, PSwing h nx v =>
      if Nat.eqb (head s) h then ({| nodes := nodes s; head := nx; tail := tail s |}, Returned v) else (s, PReadHead)
  | _, _ => (s, p)
  end.

(** A call, with what an observer of the queue sees of it: the elements at every moment
    from its start up to its return or now, latest first, and each change of the
    elements made by a step of this call, as the elements before and after. *)
Record call := { op : operation; at_ : place; during : list (list Z); changes : list (list Z * list Z) }.
Record system := { sh : shared; calls : list call }.

Definition running (c : call) : bool := match at_ c with Returned _ | Crashed => false | _ => true end.
Definition observe (l : list Z) (c : call) : call :=
  if running c then {| op := op c; at_ := at_ c; during := l :: during c; changes := changes c |} else c.

Definition sameList (a b : list Z) : bool := if list_eq_dec Z.eq_dec a b then true else false.

(** Either a new call is started, by whatever thread, or a call makes its next step. *)
Inductive event := Start (o : operation) | Go (c : nat).
Definition start (o : operation) : place := match o with Add _ => AReadTail | Poll _ => PReadHead end.
Definition next_ (e : event) (y : system) : system :=
  match e with
  | Start o => {| sh := sh y; calls := calls y ++ [{| op := o; at_ := start o; during := [contents (sh y)]; changes := [] |}] |}
  | Go i =>
      match nth_error (calls y) i with
      | Some c =>
          if running c then
            let (s', p') := step (op c) (at_ c) (sh y) in
            let old := contents (sh y) in
            let new := contents s' in
            let c' := {| op := op c; at_ := p'; during := new :: during c;
                         changes := if sameList old new then changes c else (old, new) :: changes c |} in
            {| sh := s'; calls := map (observe new) (firstn i (calls y)) ++ c' :: map (observe new) (skipn (S i) (calls y)) |}
          else y
      | None => y
      end
  end.
Definition run (es : list event) : system := fold_left (fun y e => next_ e y) es {| sh := initial; calls := [] |}.
