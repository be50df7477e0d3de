(** The native monitor: src/system/posix.cpp:142-166 (Thread::interrupt), 217-452 (Monitor), as a
    transition system for one monitor and any number of threads.

    Simplifications: pthread mutexes and condition variables behave as POSIX says, a condition wait
    may also return by itself (timeout, signal handler, spurious wake-up); memory is sequentially
    consistent; a critical section on a thread's own mutex that touches only that thread's flags is
    one step (the mutex itself stays in the model: it is held from line 342 to the condition wait);
    a thread uses one monitor at a time, as Thread::next and Thread::flags require; calling release,
    wait, notify or notifyAll without owning the monitor aborts the process, so it has no step. A
    failed expect (or a null dereference at 297) is the place [Bad]. *)
From Coq Require Import List Bool Arith.
From Verif Require Import Chain.
Import ListNotations.

Inductive pc :=
| Out
| A1 | A2 | A3                     (* acquire, 252, 253, 255 *)
| R1 | R2                          (* release, 264, 265 *)
| W1 (c : bool)                    (* wait, 342; c = clearInterrupted *)
| W2 (c : bool)                    (* 344-349, holding t->mutex from here to W7 *)
| W3 (c i : bool)                  (* 351 append; i = interrupted *)
| W4 (c i : bool)                  (* 353-354 *)
| W5 (c i : bool) (d : nat)        (* 355 *)
| W6 (c i : bool) (d : nat)        (* 356 *)
| W7 (c : bool) (d : nat) (sig : bool)   (* asleep in 366/369; sig: the condition was signalled *)
| W8 (c : bool) (d : nat)          (* awake, 373-379 *)
| W8' (i : bool) (d : nat)         (* interrupted beforehand, still holding t->mutex: 379 *)
| W9 (i n : bool) (d : nat)        (* 382; n = notified *)
| W10 (i n : bool) (d : nat)       (* 384-387 *)
| RM (i : bool) (d : nat) (previous current : option nat)   (* 390: remove, at the loop test 292 *)
| W14 (i : bool) (d : nat)         (* 399-402 *)
| N1 (u : nat)                     (* notify, 432: doNotify(u) *)
| NA (u : option nat)              (* notifyAll, loop test 444 *)
| Bad.                             (* an expect failed *)

Record glob := G {
  at_ : nat -> pc;
  mx : option nat;            (* who holds Monitor::mutex *)
  owner : option nat;         (* Monitor::owner_ *)
  depth : nat;
  first : option nat;
  last : option nat;
  next : nat -> option nat;   (* Thread::next *)
  flag : nat -> bool;         (* Thread::flags & Notified *)
  intr : nat -> bool;         (* Runnable::interrupted *)
  (* for the specification only: *)
  held : nat -> nat;          (* how often each thread has acquired and not yet released the monitor *)
  ret : nat -> option bool;   (* what the last wait returned *)
  q : list nat                (* the threads in the wait list, oldest first *)
}.

Definition go g t p := G (upd (at_ g) t p) (mx g) (owner g) (depth g) (first g) (last g) (next g) (flag g) (intr g) (held g) (ret g) (q g).
Definition setMx g m := G (at_ g) m (owner g) (depth g) (first g) (last g) (next g) (flag g) (intr g) (held g) (ret g) (q g).
Definition setOwner g o := G (at_ g) (mx g) o (depth g) (first g) (last g) (next g) (flag g) (intr g) (held g) (ret g) (q g).
Definition setDepth g d := G (at_ g) (mx g) (owner g) d (first g) (last g) (next g) (flag g) (intr g) (held g) (ret g) (q g).
Definition setList g f l n := G (at_ g) (mx g) (owner g) (depth g) f l n (flag g) (intr g) (held g) (ret g) (q g).
Definition setFlag g t b := G (at_ g) (mx g) (owner g) (depth g) (first g) (last g) (next g) (upd (flag g) t b) (intr g) (held g) (ret g) (q g).
Definition setIntr g t b := G (at_ g) (mx g) (owner g) (depth g) (first g) (last g) (next g) (flag g) (upd (intr g) t b) (held g) (ret g) (q g).
Definition setHeld g t n := G (at_ g) (mx g) (owner g) (depth g) (first g) (last g) (next g) (flag g) (intr g) (upd (held g) t n) (ret g) (q g).
Definition setRet g t r := G (at_ g) (mx g) (owner g) (depth g) (first g) (last g) (next g) (flag g) (intr g) (held g) (upd (ret g) t (Some r)) (q g).
Definition setQ g l := G (at_ g) (mx g) (owner g) (depth g) (first g) (last g) (next g) (flag g) (intr g) (held g) (ret g) l.

Definition wakeUp (p : pc) : pc := match p with W7 c d _ => W7 c d true | p => p end.
(** pthread_cond_signal on u's condition, on which only u ever waits *)
Definition signal g u := go g u (wakeUp (at_ g u)).
(** u->mutex is held by u itself: 342-366 *)
Definition ownMutex (p : pc) : bool := match p with W2 _ | W3 _ _ | W4 _ _ | W5 _ _ _ | W6 _ _ _ | W8' _ _ => true | _ => false end.
(** 410-417 *)
Definition doNotify g u := signal (setFlag g u true) u.
(** 272-287 *)
Definition append g t :=
  setList g (match last g with Some _ => first g | None => Some t end) (Some t)
    (match last g with Some l => upd (next g) l (Some t) | None => next g end).
(** 293-305, when current = t *)
Definition unlink g t (previous : option nat) :=
  let n := next g t in
  setList g (if eqo (first g) (Some t) then n else first g)
    (if eqo (last g) (Some t) then previous else last g)
    (upd (if eqo (first g) (Some t) then next g
          else match previous with Some p => upd (next g) p n | None => next g end) t None).

Inductive step (g : glob) (t : nat) : glob -> Prop :=
(* acquire 247-256 *)
| s_acq : at_ g t = Out -> owner g <> Some t -> step g t (go g t A1)
| s_acq' : at_ g t = Out -> owner g = Some t -> step g t (go g t A3)
| s_A1 : at_ g t = A1 -> mx g = None -> step g t (setMx (go g t A2) (Some t))
| s_A2 : at_ g t = A2 -> step g t (setOwner (go g t A3) (Some t))
| s_A3 : at_ g t = A3 -> step g t (setHeld (setDepth (go g t Out) (S (depth g))) t (S (held g t)))
(* tryAcquire 224-245; failing has no effect *)
| s_try : at_ g t = Out -> owner g <> Some t -> mx g = None -> step g t (setMx (go g t A2) (Some t))
(* release 258-270 *)
| s_rel : at_ g t = Out -> owner g = Some t -> depth g <> 1 -> step g t (setHeld (setDepth g (pred (depth g))) t (pred (held g t)))
| s_rel' : at_ g t = Out -> owner g = Some t -> depth g = 1 -> step g t (setHeld (setDepth (go g t R1) 0) t (pred (held g t)))
| s_R1 : at_ g t = R1 -> step g t (setOwner (go g t R2) None)
| s_R2 : at_ g t = R2 -> step g t (setMx (go g t Out) None)
(* wait 331-408 *)
| s_wait : forall c, at_ g t = Out -> owner g = Some t -> step g t (go g t (W1 c))
| s_W1 : forall c, at_ g t = W1 c -> step g t (go g t (W2 c))
| s_W2bad : forall c, at_ g t = W2 c -> flag g t = true -> step g t (go g t Bad)
| s_W2 : forall c, at_ g t = W2 c -> flag g t = false ->
    step g t (setIntr (go g t (W3 c (intr g t))) t (intr g t && negb c))
| s_W3bad : forall c i, at_ g t = W3 c i -> last g = Some t -> step g t (go g t Bad)
| s_W3 : forall c i, at_ g t = W3 c i -> last g <> Some t -> step g t (setQ (append (go g t (W4 c i)) t) (q g ++ [t]))
| s_W4 : forall c i, at_ g t = W4 c i -> step g t (setDepth (go g t (W5 c i (depth g))) 0)
| s_W5 : forall c i d, at_ g t = W5 c i d -> step g t (setOwner (go g t (W6 c i d)) None)
| s_W6 : forall c d, at_ g t = W6 c false d -> step g t (setMx (go g t (W7 c d false)) None)
| s_W6i : forall c d, at_ g t = W6 c true d -> step g t (setMx (go g t (W8' true d)) None)
| s_W7 : forall c d b, at_ g t = W7 c d b -> step g t (go g t (W8 c d))
| s_W8 : forall c d, at_ g t = W8 c d -> step g t (setIntr (go g t (W9 (intr g t) (flag g t) d)) t (intr g t && negb c))
| s_W8' : forall i d, at_ g t = W8' i d -> step g t (go g t (W9 i (flag g t) d))
| s_W9 : forall i n d, at_ g t = W9 i n d -> mx g = None -> step g t (setMx (go g t (W10 i n d)) (Some t))
| s_W10 : forall i d, at_ g t = W10 i false d -> step g t (setFlag (go g t (RM i d None (first g))) t false)
| s_W10n : forall i d, at_ g t = W10 i true d -> step g t (setFlag (go g t (W14 i d)) t false)
| s_RMend : forall i d p, at_ g t = RM i d p None -> step g t (go g t (W14 i d))
| s_RMnext : forall i d p c, at_ g t = RM i d p (Some c) -> c <> t -> step g t (go g t (RM i d (Some c) (next g c)))
| s_RMbad : forall i d p, at_ g t = RM i d p (Some t) -> first g <> Some t -> p = next g t \/ p = None -> step g t (go g t Bad)
| s_RM : forall i d p, at_ g t = RM i d p (Some t) -> first g = Some t \/ (p <> next g t /\ p <> None) ->
    step g t (setQ (unlink (go g t (W14 i d)) t p) (remove Nat.eq_dec t (q g)))
| s_W14 : forall i d, at_ g t = W14 i d ->
    step g t (setRet (setDepth (setOwner (setList (go g t Out) (first g) (last g) (upd (next g) t None)) (Some t)) d) t i)
(* notify 419-437 *)
| s_notify0 : at_ g t = Out -> owner g = Some t -> first g = None -> step g t g
| s_notifyBad : forall u, at_ g t = Out -> owner g = Some t -> first g = Some u -> last g = Some u -> next g u <> None -> step g t (go g t Bad)
| s_notify : forall u, at_ g t = Out -> owner g = Some t -> first g = Some u -> last g <> Some u \/ next g u = None ->
    step g t (setQ (setList (go g t (N1 u)) (next g u) (if eqo (last g) (Some u) then None else last g) (next g)) (tl (q g)))
| s_N1 : forall u, at_ g t = N1 u -> ownMutex (at_ g u) = false -> step g t (go (doNotify g u) t Out)
(* notifyAll 439-451 *)
| s_notifyAll : at_ g t = Out -> owner g = Some t -> step g t (go g t (NA (first g)))
| s_NA : forall u, at_ g t = NA (Some u) -> ownMutex (at_ g u) = false -> step g t (go (doNotify g u) t (NA (next g u)))
| s_NAend : at_ g t = NA None -> step g t (setQ (setList (go g t Out) None None (next g)) [])
(* Thread::interrupt 142-155 and getAndClearInterrupted 157-166, by any thread on any thread *)
| s_interrupt : forall u, at_ g t = Out -> ownMutex (at_ g u) = false -> step g t (signal (setIntr g u true) u)
| s_clear : at_ g t = Out -> step g t (setIntr g t false).

Definition start : glob := G (fun _ => Out) None None 0 None None (fun _ => None) (fun _ => false) (fun _ => false) (fun _ => 0) (fun _ => None) [].
Inductive reachable : glob -> Prop :=
| r_start : reachable start
| r_step : forall g t g', reachable g -> step g t g' -> reachable g'.
