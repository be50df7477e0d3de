(** java.util.concurrent.LinkedBlockingQueue of Avian's class library:
    classpath/java/util/concurrent/LinkedBlockingQueue.java.  Any number of threads, each making one
    call.  All calls hold the monitor of collectionLock except while they wait on it, so what a call
    does from getting the monitor to leaving it or waiting is one step (the monitor's exclusion is
    C36 and the like).  The storage is a LinkedList, C129, taken as the sequence it is; numbers of elements are unbounded.
    removeAll, containsAll and iterator are left out. *)
From Coq Require Import ZArith Lia Bool List.
Import ListNotations.

Section BQueue.
Context {A : Type} (eqA : A -> A -> bool).
(** 28-32; at least 2^31 - 1 for the queue of 24-26. *)
Context (capacity : Z).
(** None is null. *)
Definition elem := option A.
Definition equal (a b : elem) : bool := match a, b with Some x, Some y => eqA x y | None, None => true | _, _ => false end.

(** The calls; [add] of AbstractQueue 20-26 is [Offer] with an exception for false, its [element] and [remove] are [Peek] and
    [Poll] with one for null.  Time limits are in milliseconds; None is Long.MAX_VALUE. *)
Inductive operation :=
| Offer (e : elem) | OfferFor (e : elem) (limit : option Z) | Put (e : elem) | AddAll (es : list elem)
| Peek | Poll | PollFor (limit : option Z) | Take | DrainTo (max : Z)
| RemainingCapacity | Size | Contains (e : elem) | Remove (e : elem) | Clear | ToArray.
Inductive answer :=
| Void | Is (b : bool) | Elem (e : elem) | Int (n : Z) | Drained (l : list elem) (n : Z) | All (l : list elem) | Throws | WasInterrupted.

(** storage.removeFirst(), LinkedList.java 261-269: throws for a null element, after removing it; 164-169 otherwise notifies. *)
Definition removeFirst (q : list elem) : list elem * bool * answer :=
  match q with
  | [] => (q, false, Throws)
  | Some v :: q' => (q', true, Elem (Some v))
  | None :: q' => (q', false, Throws)
  end.
(** The loop of drainTo, 212-215: what it has moved, what is left, remainingElements, whether removeFirst threw. *)
Fixpoint drain (r : Z) (q : list elem) : list elem * list elem * Z * bool :=
  match q with
  | [] => ([], [], r, false)
  | x :: q' =>
      if (0 <? r)%Z then
        match x with
        | Some v => let '(t, q1, r1, th) := drain (r - 1) q' in (Some v :: t, q1, r1, th)
        | None => ([], q', r, true)
        end
      else ([], q, r, false)
  end.
(** storage.remove(element), LinkedList.java 304-312. *)
Fixpoint removeOne (e : elem) (q : list elem) : option (list elem) :=
  match q with
  | [] => None
  | x :: q' => if equal x e then Some q' else option_map (cons x) (removeOne e q')
  end.
Definition hasRoom (q : list elem) : bool := (Z.of_nat (length q) <? capacity)%Z.

(** What a call does while it holds the monitor, once it does not wait (any more): the storage, whether it notifies, the answer. *)
Definition act (c : operation) (q : list elem) : list elem * bool * answer :=
  match c with
  | Offer e | OfferFor e _ => if hasRoom q then (q ++ [e], true, Is true) else (q, false, Is false)  (* 99-111, 120 *)
  | Put e => (q ++ [e], true, Void)                                                              (* 130-131 *)
  | AddAll es =>                                                                                 (* 136-150 *)
      if (capacity <? Z.of_nat (length q) + Z.of_nat (length es))%Z then (q, false, Throws)
      else match es with [] => (q, false, Is false) | _ => (q ++ es, false, Is true) end
  | Peek => (q, false, Elem (hd None q))                                                         (* 153-161 *)
  | Poll | PollFor _ => match q with [] => (q, false, Elem None) | _ => removeFirst q end        (* 172-180, 189 *)
  | Take => removeFirst q                                                                        (* 199 *)
  | DrainTo m =>                                                                                 (* 209-223 *)
      let '(t, q', r, th) := drain m q in
      if th then (q', false, Throws) else (q', negb (r =? m)%Z, Drained t (m - r))
  | RemainingCapacity => (q, false, Int (capacity - Z.of_nat (length q)))                        (* 226-230 *)
  | Size => (q, false, Int (Z.of_nat (length q)))                                                (* 233-237 *)
  | Contains e => (q, false, Is (existsb (fun x => equal x e) q))                                (* 240-244 *)
  | Remove e => match removeOne e q with Some q' => (q', true, Is true) | None => (q, false, Is false) end  (* 254-263 *)
  | Clear => ([], false, Void)                                                                   (* 278-282 *)
  | ToArray => (q, false, All q)                                                                 (* 285-289 *)
  end.

(** The tests of blockTillNotFull and blockTillNotEmpty, 51, 63, 78, 90. *)
Definition blocked (c : operation) (q : list elem) : bool :=
  match c with
  | OfferFor _ _ | Put _ => negb (hasRoom q)
  | PollFor _ | Take => match q with [] => true | _ => false end
  | _ => false
  end.
Definition limitOf (c : operation) : option Z := match c with OfferFor _ l | PollFor l => l | _ => None end.
(** remainingWait > 0, 60, 87. *)
Definition left_ (r : option Z) : bool := match r with Some x => (0 <? x)%Z | None => true end.

(** The fields; which calls wait on the lock and which have been interrupted; the time.  [log] only records which calls acted, in their
    order, with what answer and when. *)
Record shared := { queue : list elem; waiting : list nat; interrupted : list nat; now : Z; log : list (nat * operation * answer * Z) }.
Definition initial : shared := {| queue := []; waiting := []; interrupted := []; now := 0; log := [] |}.
(** Where a call stands: before it has the monitor; waiting since [s], until [u]; woken and wanting the monitor; so, but interrupted. *)
Inductive place := Start | Sleep (s : Z) (u : option Z) | Back (s : Z) | BackInt | Ended (a : answer).

Definition mem (i : nat) (l : list nat) : bool := existsb (Nat.eqb i) l.
Definition del (i : nat) (l : list nat) : list nat := filter (fun j => negb (Nat.eqb i j)) l.
(** notifyAll, 36, 41. *)
Definition finish (i : nat) (c : operation) (s : shared) : shared * place :=
  let '(q, notify, a) := act c (queue s) in
  ({| queue := q; waiting := if notify then [] else waiting s; interrupted := interrupted s; now := now s; log := log s ++ [(i, c, a, now s)] |}, Ended a).
(** wait(remainingWait), 61, 88. *)
Definition goSleep (i : nat) (b : Z) (r : option Z) (s : shared) : shared * place :=
  if mem i (interrupted s) then
    ({| queue := queue s; waiting := waiting s; interrupted := del i (interrupted s); now := now s; log := log s |}, Ended WasInterrupted)
  else
    ({| queue := queue s; waiting := i :: waiting s; interrupted := interrupted s; now := now s; log := log s |},
     Sleep b (match r with Some x => Some (now s + x)%Z | None => None end)).
(** 50-69, 77-96; [r] is remainingWait. *)
Definition attempt (i : nat) (c : operation) (b : Z) (r : option Z) (s : shared) : shared * place :=
  if blocked c (queue s) && left_ r then goSleep i b r s else finish i c s.
Definition step (i : nat) (c : operation) (p : place) (s : shared) : option (shared * place) :=
  match p with
  | Start => Some (attempt i c (now s) (limitOf c) s)
  | Sleep b u =>
      if mem i (interrupted s) then
        Some ({| queue := queue s; waiting := del i (waiting s); interrupted := del i (interrupted s); now := now s; log := log s |}, BackInt)
      else if negb (mem i (waiting s)) then Some (s, Back b)
      else match u with
           | Some t =>
               if (t <=? now s)%Z then
                 Some ({| queue := queue s; waiting := del i (waiting s); interrupted := interrupted s; now := now s; log := log s |}, Back b)
               else None
           | None => None
           end
  | Back b => Some (attempt i c b (match limitOf c with Some d => Some (d - (now s - b))%Z | None => None end) s)
  | BackInt => Some (s, Ended WasInterrupted)
  | Ended _ => None
  end.

(** A call is started by a new thread, a call makes its next step, a thread is interrupted, a waiting thread wakes up for no reason, time
    passes. *)
Inductive event := Begin (c : operation) | Go (i : nat) | Interrupt (i : nat) | Spurious (i : nat) | Tick (d : nat).
(** [born] is when a call was made. *)
Record call := { op : operation; born : Z; at_ : place }.
Record system := { sh : shared; calls : list call }.
Definition next_ (y : system) (e : event) : system :=
  match e with
  | Begin c => {| sh := sh y; calls := calls y ++ [{| op := c; born := now (sh y); at_ := Start |}] |}
  | Go i =>
      match nth_error (calls y) i with
      | Some k =>
          match step i (op k) (at_ k) (sh y) with
          | Some (s', p') => {| sh := s'; calls := firstn i (calls y) ++ {| op := op k; born := born k; at_ := p' |} :: skipn (S i) (calls y) |}
          | None => y
          end
      | None => y
      end
  | Interrupt i => {| sh := {| queue := queue (sh y); waiting := waiting (sh y); interrupted := i :: interrupted (sh y); now := now (sh y); log := log (sh y) |}; calls := calls y |}
  | Spurious i => {| sh := {| queue := queue (sh y); waiting := del i (waiting (sh y)); interrupted := interrupted (sh y); now := now (sh y); log := log (sh y) |}; calls := calls y |}
  | Tick d => {| sh := {| queue := queue (sh y); waiting := waiting (sh y); interrupted := interrupted (sh y); now := (now (sh y) + Z.of_nat d)%Z; log := log (sh y) |}; calls := calls y |}
  end.
Definition run (es : list event) : system := fold_left next_ es {| sh := initial; calls := [] |}.
End BQueue.
Arguments operation : clear implicits.
Arguments answer : clear implicits.
Arguments place : clear implicits.
Arguments event : clear implicits.
Arguments system : clear implicits.
Arguments shared : clear implicits.
Arguments call : clear implicits.
Arguments elem : clear implicits.
