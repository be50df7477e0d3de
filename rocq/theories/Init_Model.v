(** Class initialisation: src/machine.cpp:3579-3587 (isInitializing), 5188-5270 (preInitClass,
    postInitClass, initClass), as a transition system of threads over shared class flags. Every
    access to the flags of a class and every operation on classLock is a separate step.

    Simplifications: memory is sequentially consistent; classLock is a recursive monitor whose wait
    may also return without a notification (C27 is about its implementation); leaving classLock and
    returning from initClass is one step; a running static initialiser (and the code outside every
    initialiser) is free to ask for the initialisation of any class at any time, to take and leave
    classLock (nobody else waits on it or notifies it: lines 5210 and 5247 are the only uses), and,
    if it is an initialiser, to finish at any time, normally or with any throwable;
    which superclass a class has, which classes have a static initialiser and which have
    NeedInitFlag when loaded are parameters of the execution. *)
From Coq Require Import List Bool Arith.
Import ListNotations.

(** What a static initialiser ends with: an instance of java.lang.Exception, or any other
    throwable, that is an Error. machine.cpp:5229-5230 *)
Inductive outcome := Normal | Exn | Err.

(** Where an activation of initClass is *)
Inductive ipc :=
| P0                  (* about to look at the superclass, 5254 *)
| PS                  (* inside initClass(t, super), 5256 *)
| PX                  (* that call threw *)
| P1                  (* 5190: about to read the flags without the lock *)
| P2                  (* 5196: about to take classLock *)
| P3                  (* 5198, locked *)
| P3s                 (* 5217: InitFlag set, about to leave the lock *)
| P4                  (* 5208, locked: loop test *)
| PW (d : nat) (notified : bool)   (* in classLock->wait, having given up depth d *)
| PR (d : nat)                     (* woken, taking the lock again *)
| P5                  (* 5260: preInitClass returned true *)
| Run                 (* 5267, in the static initialiser *)
| P6 (e : outcome)    (* 5227: about to take classLock *)
| P7 (e : outcome)    (* 5229, locked *)
| P7b                 (* 5232, locked *)
| P8 (e : outcome)    (* 5247, locked: about to notify *)
| P9 (e : outcome).   (* about to leave the lock and return (or throw) *)

(** One activation of initClass, with the length of the event log at its start (for the
    specification only) *)
Record act := A { cls : nat; pc : ipc; born : nat }.
Record flags := F { needInit : bool; init : bool; initError : bool }.  (* machine.h:182-184 *)

Inductive event :=
| EStart (t c : nat)                     (* the static initialiser of c is invoked by t *)
| EDone (t c : nat) (e : outcome)        (* postInitClass has recorded the end of c's initialisation *)
| ERet (t c n : nat)                     (* initClass(c), called when the log had length n, returns *)
| EThrow (t c n : nat).                  (* ... throws *)

Record glob := G {
  stk : nat -> list act;      (* each thread's activations, innermost first *)
  fl : nat -> flags;
  own : option nat;           (* classLock *)
  dep : nat;
  log : list event            (* newest first *)
}.

Definition upd {X} (f : nat -> X) (t : nat) (x : X) : nat -> X := fun u => if Nat.eqb u t then x else f u.
Definition setS (g : glob) (t : nat) (k : list act) : glob := G (upd (stk g) t k) (fl g) (own g) (dep g) (log g).
Definition setF (g : glob) (c : nat) (f : flags) : glob := G (stk g) (upd (fl g) c f) (own g) (dep g) (log g).
Definition setOwn (g : glob) (o : option nat) (d : nat) : glob := G (stk g) (fl g) o d (log g).
Definition emit (g : glob) (e : event) : glob := G (stk g) (fl g) (own g) (dep g) (e :: log g).
Definition free (g : glob) (t : nat) : Prop := own g = None \/ own g = Some t.
Definition lock (g : glob) (t : nat) : glob := setOwn g (Some t) (S (dep g)).
Definition unlock (g : glob) : glob :=
  match dep g with S (S d) => setOwn g (own g) (S d) | _ => setOwn g None 0 end.
Definition wakeA (a : act) : act := match pc a with PW d _ => A (cls a) (PW d true) (born a) | _ => a end.
(** notifyAll *)
Definition wakeAll (g : glob) : glob := G (fun u => map wakeA (stk g u)) (fl g) (own g) (dep g) (log g).

(** machine.cpp:3579-3587; Thread::ClassInitStack (machine.h:1206-1232) is on the stack exactly
    while the initialiser runs *)
Definition isRun (c : nat) (a : act) : bool := match pc a with Run => Nat.eqb (cls a) c | _ => false end.
Definition isInitializing (k : list act) (c : nat) : bool := existsb (isRun c) k.

(** Return from the innermost activation: an enclosing initClass that waited for its superclass
    goes on (or fails); an enclosing initialiser goes on. *)
Definition resume (next : ipc) (k : list act) : list act :=
  match k with A c PS b :: r => A c next b :: r | _ => k end.
Definition ret (g : glob) (t : nat) (a : act) (k : list act) : glob := emit (setS g t (resume P1 k)) (ERet t (cls a) (born a)).
Definition throw (g : glob) (t : nat) (a : act) (k : list act) : glob := emit (setS g t (resume PX k)) (EThrow t (cls a) (born a)).

(** Java or VM code runs, outside initClass or in an initialiser *)
Definition running (k : list act) : Prop := match k with [] => True | a :: _ => pc a = Run end.

Section Step.
Variable super : nat -> option nat.
Variable hasInit : nat -> bool.

Inductive step (g : glob) (t : nat) : glob -> Prop :=
| s_lock : running (stk g t) -> free g t -> step g t (lock g t)
| s_unlock : running (stk g t) -> own g = Some t -> step g t (unlock g)
| s_call : forall c, running (stk g t) -> step g t (setS g t (A c P0 (length (log g)) :: stk g t))
(* 5254-5257 *)
| s_P0 : forall c b k s, stk g t = A c P0 b :: k -> super c = Some s ->
    step g t (setS g t (A s P0 (length (log g)) :: A c PS b :: k))
| s_P0' : forall c b k, stk g t = A c P0 b :: k -> super c = None -> step g t (setS g t (A c P1 b :: k))
| s_PX : forall c b k, stk g t = A c PX b :: k -> step g t (throw g t (A c PX b) k)
(* preInitClass *)
| s_P1 : forall c b k, stk g t = A c P1 b :: k -> needInit (fl g c) = true -> step g t (setS g t (A c P2 b :: k))
| s_P1' : forall c b k, stk g t = A c P1 b :: k -> needInit (fl g c) = false -> step g t (ret g t (A c P1 b) k)
| s_P2 : forall c b k, stk g t = A c P2 b :: k -> free g t -> step g t (lock (setS g t (A c P3 b :: k)) t)
| s_P3n : forall c b k, stk g t = A c P3 b :: k -> needInit (fl g c) = false ->
    step g t (unlock (ret g t (A c P3 b) k))
| s_P3i : forall c b k, stk g t = A c P3 b :: k -> needInit (fl g c) = true -> init (fl g c) = true ->
    isInitializing (stk g t) c = true -> step g t (unlock (ret g t (A c P3 b) k))
| s_P3w : forall c b k, stk g t = A c P3 b :: k -> needInit (fl g c) = true -> init (fl g c) = true ->
    isInitializing (stk g t) c = false -> step g t (setS g t (A c P4 b :: k))
| s_P3e : forall c b k, stk g t = A c P3 b :: k -> needInit (fl g c) = true -> init (fl g c) = false ->
    initError (fl g c) = true -> step g t (unlock (throw g t (A c P3 b) k))
| s_P3 : forall c b k, stk g t = A c P3 b :: k -> needInit (fl g c) = true -> init (fl g c) = false ->
    initError (fl g c) = false -> step g t (setF (setS g t (A c P3s b :: k)) c (F true true false))
| s_P3s : forall c b k, stk g t = A c P3s b :: k -> step g t (unlock (setS g t (A c P5 b :: k)))
| s_P4 : forall c b k, stk g t = A c P4 b :: k -> init (fl g c) = true ->
    step g t (setOwn (setS g t (A c (PW (dep g) false) b :: k)) None 0)
| s_P4' : forall c b k, stk g t = A c P4 b :: k -> init (fl g c) = false -> step g t (unlock (ret g t (A c P4 b) k))
| s_PW : forall c d n b k, stk g t = A c (PW d n) b :: k -> step g t (setS g t (A c (PR d) b :: k))
| s_PR : forall c d b k, stk g t = A c (PR d) b :: k -> own g = None ->
    step g t (setOwn (setS g t (A c P4 b :: k)) (Some t) d)
(* 5262-5268 *)
| s_P5 : forall c b k, stk g t = A c P5 b :: k -> hasInit c = true -> step g t (emit (setS g t (A c Run b :: k)) (EStart t c))
| s_P5' : forall c b k, stk g t = A c P5 b :: k -> hasInit c = false -> step g t (setS g t (A c (P6 Normal) b :: k))
| s_Run : forall c b k e, stk g t = A c Run b :: k -> step g t (setS g t (A c (P6 e) b :: k))
(* postInitClass *)
| s_P6 : forall c b k e, stk g t = A c (P6 e) b :: k -> free g t -> step g t (lock (setS g t (A c (P7 e) b :: k)) t)
| s_P7x : forall c b k, stk g t = A c (P7 Exn) b :: k ->
    step g t (setF (setS g t (A c P7b b :: k)) c (F true (init (fl g c)) true))
| s_P7b : forall c b k, stk g t = A c P7b b :: k ->
    step g t (emit (setF (setS g t (A c (P9 Exn) b :: k)) c (F (needInit (fl g c)) false (initError (fl g c)))) (EDone t c Exn))
| s_P7 : forall c b k e, stk g t = A c (P7 e) b :: k -> e <> Exn ->
    step g t (emit (setF (setS g t (A c (P8 e) b :: k)) c (F false false (initError (fl g c)))) (EDone t c e))
| s_P8 : forall c b k e, stk g t = A c (P8 e) b :: k -> step g t (setS (wakeAll g) t (A c (P9 e) b :: k))
| s_P9 : forall c b k, stk g t = A c (P9 Normal) b :: k -> step g t (unlock (ret g t (A c (P9 Normal) b) k))
| s_P9x : forall c b k e, stk g t = A c (P9 e) b :: k -> e <> Normal -> step g t (unlock (throw g t (A c (P9 e) b) k)).

(** Executions of the threads [tids] from a state in which no class has been touched and every
    class with a static initialiser has NeedInitFlag (machine.cpp:2608-2613) *)
Definition start (need : nat -> bool) : glob := G (fun _ => []) (fun c => F (need c) false false) None 0 [].
Inductive reachable (need : nat -> bool) (tids : list nat) : glob -> Prop :=
| r_start : (forall c, hasInit c = true -> need c = true) -> reachable need tids (start need)
| r_step : forall g t g', reachable need tids g -> In t tids -> step g t g' -> reachable need tids g'.
End Step.
