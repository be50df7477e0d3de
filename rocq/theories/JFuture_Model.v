(** java.util.concurrent.FutureTask of Avian's class library:
    classpath/java/util/concurrent/FutureTask.java.  Any number of threads, each making one
    call of run, cancel or get; every access to shared memory is a step of its own.  All
    shared fields are volatile, so accesses are sequentially consistent. *)
From Coq Require Import ZArith Lia Bool List.
Import ListNotations.

(** 16 *)
Inductive state := New | Canceling | Canceled | Running | Done.
Definition eqState (a b : state) : bool :=
  match a, b with
  | New, New | Canceling, Canceling | Canceled, Canceled | Running, Running | Done, Done => true
  | _, _ => false
  end.

(** How the callable ends: it returns a value, or throws. *)
Inductive outcome := Gives (v : Z) | Fails (f : positive).

(** The fields, 18-23, and the monitor of notifyLock: who holds it and who waits on it; which
    calls' threads have been interrupted; the time in milliseconds.  [owner] and [runs] and
    [results] only record what happened, no step depends on them: which call got
    the task to run, which calls called the callable, and how the callable ended each time. *)
Record shared := {
  st : state; thread : option nat; result : Z; failure : option positive;
  lock : option nat; waiting : list nat; interrupted : list nat; now : Z;
  owner : option nat; runs : list nat; results : list outcome }.

(** The constructor, 36-43. *)
Definition initial : shared :=
  {| st := New; thread := None; result := 0; failure := None; lock := None; waiting := []; interrupted := []; now := 0;
     owner := None; runs := []; results := [] |}.

(** Calls; the time limit of get is in milliseconds, None for get() without limit, 128-136. *)
Inductive operation := Run | Cancel (mayInterrupt : bool) | Get (limit : option Z).

(** What a call ends with: return, boolean, value, ExecutionException, CancellationException,
    TimeoutException (with the startTime), InterruptedException. *)
Inductive answer := Void | Is (b : bool) | Value (v : Z) | Failure (f : positive) | WasCanceled | TimedOut (since : Z) | WasInterrupted.

(** Where a call stands; [r] is remainingTime, [s] startTime. *)
Inductive place :=
| RStart                          (* 47: New -> Running *)
| RThread                         (* 48 *)
| RCall                           (* 50: calls the callable *)
| RCalling                        (* 50: waits for the callable to end *)
| RStore (o : outcome)            (* 50, 52 *)
| RDone                           (* 54: Running -> Done *)
| RTest                           (* 55 *)
| RSleep                          (* 68 *)
| RClear                          (* 74 *)
| RNotify                         (* 75, 81-87 *)
| RNull                           (* 76 *)
| CNew                            (* 95: New -> Canceled *)
| CNotify                         (* 96, 81-87 *)
| CRunning                        (* 100: Running -> Canceling *)
| CThread                         (* 103 *)
| CInterrupt (t : nat)            (* 105 *)
| CSet (r : bool)                 (* 111 *)
| GStart                          (* 142-146 *)
| GEnter (s : Z)                  (* 148-149 *)
| GDone (s : Z) (r : option Z)    (* 150, 125: is it Done *)
| GCanc (s : Z) (r : option Z)    (* 150, 120: is it Canceled *)
| GWait (s : Z) (r : option Z)    (* 151: starts to wait *)
| GSleep (s : Z) (r : option Z) (u : option Z) (* waits, until [u] *)
| GBack (s : Z)                   (* has been woken, wants the monitor, then 153-155 *)
| GBackInt                        (* has been interrupted, wants the monitor *)
| GState                          (* 161 *)
| GFailure                        (* 163 *)
| GResult                         (* 166 *)
| Ended (a : answer).

Definition setSt (v : state) (s : shared) : shared :=
  {| st := v; thread := thread s; result := result s; failure := failure s; lock := lock s; waiting := waiting s;
     interrupted := interrupted s; now := now s; owner := owner s; runs := runs s; results := results s |}.
Definition setThread (v : option nat) (s : shared) : shared :=
  {| st := st s; thread := v; result := result s; failure := failure s; lock := lock s; waiting := waiting s;
     interrupted := interrupted s; now := now s; owner := owner s; runs := runs s; results := results s |}.
Definition store (o : outcome) (s : shared) : shared :=
  {| st := st s; thread := thread s; result := match o with Gives v => v | Fails _ => result s end;
     failure := match o with Gives _ => failure s | Fails f => Some f end; lock := lock s; waiting := waiting s;
     interrupted := interrupted s; now := now s; owner := owner s; runs := runs s; results := results s |}.
Definition setLock (v : option nat) (w : list nat) (s : shared) : shared :=
  {| st := st s; thread := thread s; result := result s; failure := failure s; lock := v; waiting := w;
     interrupted := interrupted s; now := now s; owner := owner s; runs := runs s; results := results s |}.
Definition setInterrupted (v : list nat) (s : shared) : shared :=
  {| st := st s; thread := thread s; result := result s; failure := failure s; lock := lock s; waiting := waiting s;
     interrupted := v; now := now s; owner := owner s; runs := runs s; results := results s |}.
Definition setNow (v : Z) (s : shared) : shared :=
  {| st := st s; thread := thread s; result := result s; failure := failure s; lock := lock s; waiting := waiting s;
     interrupted := interrupted s; now := v; owner := owner s; runs := runs s; results := results s |}.
Definition record (o : option nat) (r : list nat) (l : list outcome) (s : shared) : shared :=
  {| st := st s; thread := thread s; result := result s; failure := failure s; lock := lock s; waiting := waiting s;
     interrupted := interrupted s; now := now s; owner := o; runs := r; results := l |}.

Definition mem (i : nat) (l : list nat) : bool := existsb (Nat.eqb i) l.
Definition del (i : nat) (l : list nat) : list nat := filter (fun j => negb (Nat.eqb i j)) l.
(** remainingTime > 0; None is Long.MAX_VALUE, which the system takes as no limit. *)
Definition left_ (r : option Z) : bool := match r with Some x => (0 <? x)%Z | None => true end.
(** The test of 159 after the loop. *)
Definition afterLoop (b : Z) (r : option Z) : place := if left_ r then GState else Ended (TimedOut b).

(** The next step of call [i]; None if it has to wait.  [o] is how the callable ends, if that
    is the step.  A critical section of notifyLock that only notifies is one step. *)
Definition step (i : nat) (c : operation) (o : outcome) (p : place) (s : shared) : option (shared * place) :=
  match p with
  | RStart => Some (match st s with New => (setSt Running (record (Some i) (runs s) (results s) s), RThread) | _ => (s, Ended Void) end)
  | RThread => Some (setThread (Some i) s, RCall)
  | RCall => Some (record (owner s) (i :: runs s) (results s) s, RCalling)
  | RCalling => Some (record (owner s) (runs s) (o :: results s) s, RStore o)
  | RStore x => Some (store x s, RDone)
  | RDone => Some (match st s with Running => (setSt Done s, RClear) | _ => (s, RTest) end)
  | RTest => Some (s, match st s with Canceled => RClear | _ => RSleep end)
  | RSleep => if mem i (interrupted s) then Some (setInterrupted (del i (interrupted s)) s, RClear) else None
  | RClear => Some (setInterrupted (del i (interrupted s)) s, RNotify)
  | RNotify => match lock s with None => Some (setLock None [] s, RNull) | Some _ => None end
  | RNull => Some (setThread None s, Ended Void)
  | CNew =>
      Some (match st s with
            | New => (setSt Canceled s, CNotify)
            | _ => (s, match c with Cancel true => CRunning | _ => Ended (Is false) end)
            end)
  | CNotify => match lock s with None => Some (setLock None [] s, Ended (Is true)) | Some _ => None end
  | CRunning => Some (match st s with Running => (setSt Canceling s, CThread) | _ => (s, Ended (Is false)) end)
  | CThread => Some (s, match thread s with Some t => CInterrupt t | None => CSet false end)
  | CInterrupt t => Some (setInterrupted (t :: interrupted s) s, CSet true)
  | CSet r => Some (setSt Canceled s, Ended (Is r))
  | GStart => Some (s, GEnter (now s))
  | GEnter b =>
      match lock s with
      | None => Some (setLock (Some i) (waiting s) s, GDone b (match c with Get l => l | _ => None end))
      | Some _ => None
      end
  | GDone b r => Some (match st s with Done => (setLock None (waiting s) s, afterLoop b r) | _ => (s, GCanc b r) end)
  | GCanc b r =>
      Some (match st s with
            | Canceled => (setLock None (waiting s) s, afterLoop b r)
            | _ => if left_ r then (s, GWait b r) else (setLock None (waiting s) s, afterLoop b r)
            end)
  | GWait b r =>
      Some (if mem i (interrupted s) then (setLock None (waiting s) (setInterrupted (del i (interrupted s)) s), Ended WasInterrupted)
            else (setLock None (i :: waiting s) s, GSleep b r (match r with Some x => Some (now s + x)%Z | None => None end)))
  | GSleep b r u =>
      if mem i (interrupted s) then
        Some (setLock (lock s) (del i (waiting s)) (setInterrupted (del i (interrupted s)) s), GBackInt)
      else if negb (mem i (waiting s)) then Some (s, GBack b)
      else match u with
           | Some t => if (t <=? now s)%Z then Some (setLock (lock s) (del i (waiting s)) s, GBack b) else None
           | None => None
           end
  | GBack b =>
      match lock s with
      | None => Some (setLock (Some i) (waiting s) s,
                      GDone b (match c with Get (Some t) => Some (t - (now s - b))%Z | _ => None end))
      | Some _ => None
      end
  | GBackInt => match lock s with None => Some (s, Ended WasInterrupted) | Some _ => None end
  | GState => Some (s, match st s with Canceled => Ended WasCanceled | _ => GFailure end)
  | GFailure => Some (s, match failure s with Some f => Ended (Failure f) | None => GResult end)
  | GResult => Some (s, Ended (Value (result s)))
  | Ended _ => None
  end.

(** A call is started by a new thread, a call makes its next step, a thread is interrupted by
    another, the callable clears the interrupted status of its thread, time passes. *)
Inductive event := Start (c : operation) | Go (i : nat) (o : outcome) | Interrupt (i : nat) | Clear (i : nat) | Tick (d : nat).
Record system := { sh : shared; calls : list (operation * place) }.

Definition start (c : operation) : place := match c with Run => RStart | Cancel _ => CNew | Get _ => GStart end.
Definition next_ (e : event) (y : system) : system :=
  match e with
  | Start c => {| sh := sh y; calls := calls y ++ [(c, start c)] |}
  | Go i o =>
      match nth_error (calls y) i with
      | Some (c, p) =>
          match step i c o p (sh y) with
          | Some (s', p') => {| sh := s'; calls := firstn i (calls y) ++ (c, p') :: skipn (S i) (calls y) |}
          | None => y
          end
      | None => y
      end
  | Interrupt i => {| sh := setInterrupted (i :: interrupted (sh y)) (sh y); calls := calls y |}
  | Clear i =>
      match nth_error (calls y) i with
      | Some (_, RCalling) => {| sh := setInterrupted (del i (interrupted (sh y))) (sh y); calls := calls y |}
      | _ => y
      end
  | Tick d => {| sh := setNow (now (sh y) + Z.of_nat d) (sh y); calls := calls y |}
  end.
Definition run (es : list event) : system := fold_left (fun y e => next_ e y) es {| sh := initial; calls := [] |}.
