(** Thread states and the stop-the-world protocol: src/machine.cpp:4041-4235 (enter), with its
    atomic operations (makefile:482 defines USE_ATOMIC_OPERATIONS), as a transition system in
    which every access to shared memory is a separate step of one thread.

    Simplifications: memory is sequentially consistent (the barriers of the source are there to
    make it so for these accesses); atomicIncrement (machine.cpp:37-43) is one step, that of its
    successful compare-and-swap; counters are integers, which agree with uint32_t while there are
    fewer than 2^32 threads; stateLock is a recursive monitor whose wait may also return without
    a notification (its own implementation is the subject of C27); stress(t) does nothing
    (STRESS is off); abort(t) ends the process, so a call that would abort has no step. *)
From Coq Require Import ZArith List Bool Arith.
Import ListNotations.

(** machine.h:1123-1133 *)
Inductive tstate := NoState | Active | Idle | Zombie | Joined | Exclusive | Exit.

(** Where an inner call of enter returns to. enter(ActiveState) is called by the client or by the
    destructor of ENTER in the loop of lines 4069-4073; enter(IdleState) by the client, by that
    ENTER, or by line 4166. *)
Inductive ak := AKRet | AKX.
Inductive ik := IKRet | IKX | IKA (k : ak).
(** Which wait *)
Inductive wk := WX (old : bool) | WX5 | WA (k : ak) | WE | WOut.

Inductive pc :=
| Out                               (* outside enter *)
| X0 | X1 | X2 (old : bool) | X3 (old : bool) | X4 | X4b | X5 | X6    (* ExclusiveState, 4066-4095 *)
| I0 (k : ik) | I1 (k : ik) | I2 (k : ik) | I3 (k : ik) | I4 (k : ik) (* IdleState, fast, 4097-4113 *)
| Z0 (s : tstate) | Z1 (s : tstate) | Z2 (s : tstate) | Z3 (s : tstate) | Z4 (s : tstate) (* 4119-4150 *)
| A0 (k : ak) | A1 (k : ak) | A2 (k : ak) | A3 (k : ak) | A4 (k : ak) | A5 (k : ak) | A6 (k : ak) | A7 (k : ak) | A8 (k : ak) | A9 (k : ak) (* 4152-4200 *)
| E0 | E1 | E2 | E3 | E4 | E5       (* ExitState, 4203-4229 *)
| W (k : wk) (d : nat) (notified : bool)   (* in stateLock->wait, having given up depth d *)
| R (k : wk) (d : nat).                    (* woken, taking the lock again *)

Record thr := T { st : tstate; at_ : pc }.
Record glob := G {
  th : nat -> thr;
  excl : option nat;      (* Machine::exclusive *)
  act : Z;                (* Machine::activeCount *)
  live : Z;               (* Machine::liveCount *)
  own : option nat;       (* stateLock: owner and depth *)
  dep : nat
}.

Definition upd {A} (f : nat -> A) (t : nat) (x : A) : nat -> A := fun u => if Nat.eqb u t then x else f u.
Definition go (g : glob) (t : nat) (x : thr) : glob := G (upd (th g) t x) (excl g) (act g) (live g) (own g) (dep g).
Definition setExcl (g : glob) (e : option nat) : glob := G (th g) e (act g) (live g) (own g) (dep g).
Definition addAct (g : glob) (n : Z) : glob := G (th g) (excl g) (act g + n) (live g) (own g) (dep g).
Definition addLive (g : glob) (n : Z) : glob := G (th g) (excl g) (act g) (live g + n) (own g) (dep g).
Definition setOwn (g : glob) (o : option nat) (d : nat) : glob := G (th g) (excl g) (act g) (live g) o d.

(** The monitor: acquire, release, notifyAll. posix.cpp:247-274, 400-413 *)
Definition free (g : glob) (t : nat) : Prop := own g = None \/ own g = Some t.
Definition lock (g : glob) (t : nat) : glob := setOwn g (Some t) (S (dep g)).
Definition unlock (g : glob) : glob :=
  match dep g with S (S d) => setOwn g (own g) (S d) | _ => setOwn g None 0 end.
Definition wakeAll (g : glob) : glob :=
  G (fun u => match th g u with T s (W k d _) => T s (W k d true) | x => x end)
    (excl g) (act g) (live g) (own g) (dep g).

(** Where a wait returns to *)
Definition afterWait (k : wk) : pc :=
  match k with WX old => X3 old | WX5 => X5 | WA k => A5 k | WE => E4 | WOut => Out end.
Definition afterIdle (k : ik) : pc :=
  match k with IKRet => Out | IKX => X2 true | IKA k => A4 k end.
Definition afterActive (k : ak) : pc := match k with AKRet => Out | AKX => X1 end.

Inductive step (tids : list nat) (g : glob) (t : nat) : glob -> Prop :=
(* the client's use of stateLock *)
| s_lock : forall s, th g t = T s Out -> free g t -> step tids g t (lock g t)
| s_unlock : forall s, th g t = T s Out -> own g = Some t -> step tids g t (unlock g)
| s_wait : forall s, th g t = T s Out -> own g = Some t ->
    step tids g t (setOwn (go g t (T s (W WOut (dep g) false))) None 0)
| s_notify : forall s, th g t = T s Out -> own g = Some t -> step tids g t (wakeAll g)
(* addThread, removeThread (machine.h:1832-1872), and t->state = JoinedState by the thread that
   joined it (machine.cpp:74-82, jnienv.cpp:62), all under stateLock *)
| s_add : forall s p, th g t = T s Out -> own g = Some t -> In p tids -> p <> t -> th g p = T NoState Out ->
    step tids g t (addLive (go g p (T Idle Out)) 1)
| s_remove : forall s p, th g t = T s Out -> own g = Some t -> p <> t -> In p tids -> th g p = T Idle Out ->
    step tids g t (addLive (go (wakeAll g) p (T Joined Out)) (-1))
| s_join : forall s p, th g t = T s Out -> own g = Some t -> In p tids -> th g p = T Zombie Out ->
    step tids g t (go g p (T Joined Out))
(* waiting *)
| s_wake : forall s k d b, th g t = T s (W k d b) -> step tids g t (go g t (T s (R k d)))
| s_relock : forall s k d, th g t = T s (R k d) -> own g = None ->
    step tids g t (setOwn (go g t (T s (afterWait k))) (Some t) d)
(* the calls a client may make without aborting; ExitState is requested only by
   turnOffTheLights (machine.cpp:184), from the exclusive state *)
| s_callX : forall s, th g t = T s Out -> s = Active \/ s = Idle -> step tids g t (go g t (T s X0))
| s_callI : th g t = T Active Out -> step tids g t (go g t (T Active (I0 IKRet)))
| s_callI' : th g t = T Exclusive Out -> step tids g t (go g t (T Exclusive (Z0 Idle)))
| s_callZ : forall s, th g t = T s Out -> s = Active \/ s = Exclusive -> step tids g t (go g t (T s (Z0 Zombie)))
| s_callA : forall s, th g t = T s Out -> s = NoState \/ s = Idle \/ s = Exclusive -> step tids g t (go g t (T s (A0 AKRet)))
| s_callE : th g t = T Exclusive Out -> step tids g t (go g t (T Exclusive E0))
(* 4066-4095 *)
| s_X0 : forall s, th g t = T s X0 -> free g t -> step tids g t (lock (go g t (T s X1)) t)
| s_X1 : forall s, th g t = T s X1 -> excl g = None -> step tids g t (go g t (T s X4))
| s_X1a : th g t = T Active X1 -> excl g <> None -> step tids g t (go g t (T Active (I0 IKX)))
| s_X1i : th g t = T Idle X1 -> excl g <> None -> step tids g t (go g t (T Idle (X2 false)))
| s_X2 : forall s old, th g t = T s (X2 old) ->
    step tids g t (setOwn (go g t (T s (W (WX old) (dep g) false))) None 0)
| s_X3i : forall s, th g t = T s (X3 false) -> step tids g t (go g t (T s X1))
| s_X3a : forall s, th g t = T s (X3 true) -> step tids g t (go g t (T s (A0 AKX)))
| s_X4a : th g t = T Active X4 -> step tids g t (go g t (T Active X4b))
| s_X4i : th g t = T Idle X4 -> step tids g t (addAct (go g t (T Idle X4b)) 1)
| s_X4b : forall s, th g t = T s X4b -> step tids g t (setExcl (go g t (T Exclusive X5)) (Some t))
| s_X5w : forall s, th g t = T s X5 -> (1 < act g)%Z ->
    step tids g t (setOwn (go g t (T s (W WX5 (dep g) false))) None 0)
| s_X5 : forall s, th g t = T s X5 -> (act g <= 1)%Z -> step tids g t (go g t (T s X6))
| s_X6 : forall s, th g t = T s X6 -> step tids g t (unlock (go g t (T s Out)))
(* 4097-4113 *)
| s_I0 : forall s k, th g t = T s (I0 k) -> step tids g t (addAct (go g t (T s (I1 k))) (-1))
| s_I1 : forall s k, th g t = T s (I1 k) -> step tids g t (go g t (T Idle (I2 k)))
| s_I2 : forall s k, th g t = T s (I2 k) -> excl g = None -> step tids g t (go g t (T s (afterIdle k)))
| s_I2' : forall s k, th g t = T s (I2 k) -> excl g <> None -> step tids g t (go g t (T s (I3 k)))
| s_I3 : forall s k, th g t = T s (I3 k) -> free g t -> step tids g t (lock (go g t (T s (I4 k))) t)
| s_I4 : forall s k, th g t = T s (I4 k) -> step tids g t (unlock (wakeAll (go g t (T s (afterIdle k)))))
(* 4119-4150 *)
| s_Z0 : forall s x, th g t = T s (Z0 x) -> free g t -> step tids g t (lock (go g t (T s (Z1 x))) t)
| s_Z1x : forall x, th g t = T Exclusive (Z1 x) -> step tids g t (setExcl (go g t (T Exclusive (Z2 x))) None)
| s_Z1a : forall x, th g t = T Active (Z1 x) -> step tids g t (go g t (T Active (Z2 x)))
| s_Z2 : forall s x, th g t = T s (Z2 x) -> step tids g t (addAct (go g t (T s (Z3 x))) (-1))
| s_Z3z : forall s, th g t = T s (Z3 Zombie) -> step tids g t (addLive (go g t (T Zombie (Z4 Zombie))) (-1))
| s_Z3i : forall s, th g t = T s (Z3 Idle) -> step tids g t (go g t (T Idle (Z4 Idle)))
| s_Z4 : forall s x, th g t = T s (Z4 x) -> step tids g t (unlock (wakeAll (go g t (T s Out))))
(* 4152-4200 *)
| s_A0f : forall k, th g t = T Idle (A0 k) -> excl g = None -> step tids g t (go g t (T Idle (A1 k)))
| s_A0s : forall s k, th g t = T s (A0 k) -> s <> Idle \/ excl g <> None -> step tids g t (go g t (T s (A4 k)))
| s_A1 : forall s k, th g t = T s (A1 k) -> step tids g t (addAct (go g t (T s (A2 k))) 1)
| s_A2 : forall s k, th g t = T s (A2 k) -> step tids g t (go g t (T Active (A3 k)))
| s_A3 : forall s k, th g t = T s (A3 k) -> excl g = None -> step tids g t (go g t (T s (afterActive k)))
| s_A3' : forall s k, th g t = T s (A3 k) -> excl g <> None -> step tids g t (go g t (T s (I0 (IKA k))))
| s_A4 : forall s k, th g t = T s (A4 k) -> free g t -> step tids g t (lock (go g t (T s (A5 k))) t)
| s_A5x : forall k, th g t = T Exclusive (A5 k) -> step tids g t (setExcl (go g t (T Active (A8 k))) None)
| s_A5w : forall s k, th g t = T s (A5 k) -> s = NoState \/ s = Idle -> excl g <> None ->
    step tids g t (setOwn (go g t (T s (W (WA k) (dep g) false))) None 0)
| s_A5 : forall s k, th g t = T s (A5 k) -> s = NoState \/ s = Idle -> excl g = None -> step tids g t (go g t (T s (A6 k)))
| s_A6 : forall s k, th g t = T s (A6 k) -> step tids g t (addAct (go g t (T s (A7 k))) 1)
| s_A7n : forall k, th g t = T NoState (A7 k) -> step tids g t (addLive (go g t (T Active (A9 k))) 1)
| s_A7i : forall k, th g t = T Idle (A7 k) -> step tids g t (go g t (T Active (A9 k)))
| s_A8 : forall s k, th g t = T s (A8 k) -> step tids g t (wakeAll (go g t (T s (A9 k))))
| s_A9 : forall s k, th g t = T s (A9 k) -> step tids g t (unlock (go g t (T s (afterActive k))))
(* 4203-4229; the comparison with daemonCount in 4226 is left open *)
| s_E0 : forall s, th g t = T s E0 -> free g t -> step tids g t (lock (go g t (T s E1)) t)
| s_E1 : forall s, th g t = T s E1 -> step tids g t (wakeAll (go g t (T s E2)))
| s_E2 : forall s, th g t = T s E2 -> step tids g t (addAct (go g t (T s E3)) (-1))
| s_E3 : forall s, th g t = T s E3 -> step tids g t (go g t (T Exit E4))
| s_E4w : forall s, th g t = T s E4 -> step tids g t (setOwn (go g t (T s (W WE (dep g) false))) None 0)
| s_E4 : forall s, th g t = T s E4 -> step tids g t (go g t (T s E5))
| s_E5 : forall s, th g t = T s E5 -> step tids g t (unlock (go g t (T s Out))).

(** Executions of the threads [tids] from a fresh machine: machine.cpp:3695-3735 *)
Definition start : glob := G (fun _ => T NoState Out) None 0 0 None 0.
Inductive reachable (tids : list nat) : glob -> Prop :=
| r_start : reachable tids start
| r_step : forall g t g', reachable tids g -> In t tids -> step tids g t g' -> reachable tids g'.
