(** Model of the tree of VM threads: parent, first child and next peer pointers,
    creation, failed start, exit, and disposal of dead threads by the collector. *)
From Coq Require Import ZArith List Bool.
From Verif Require Import Res.
Import ListNotations.
Local Open Scope Z_scope.
Local Open Scope res_scope.

(** src/avian/machine.h:1125-1133 [Thread::State]: the states that matter here.  [Live] stands
    for Active, Idle, Exclusive and Exit. *)
Inductive tstate := Live | Zombie | Joined.

(** src/avian/machine.h [class Thread]: the links, the state, and [SystemFlag].  Addresses are
    nonzero, 0 is null. *)
Record thread := Thread { parent : Z; child : Z; peer : Z; state : tstate; system : bool }.

(** [Machine::rootThread], [threadCount] and [liveCount] (unsigned), and the memory of the
    threads ([None]: not allocated). *)
Record machine := Machine { rootThread : Z; threadCount : Z; liveCount : Z; mem : Z -> option thread }.

Definition memory := Z -> option thread.
Definition put (m : memory) (a : Z) (x : option thread) : memory :=
  fun y => if y =? a then x else m y.
Definition get (m : memory) (a : Z) : res thread := of_option (m a).

Definition setParent (m : memory) (a v : Z) : res memory :=
  do x <- get m a; Ok (put m a (Some (Thread v (child x) (peer x) (state x) (system x)))).
Definition setChild (m : memory) (a v : Z) : res memory :=
  do x <- get m a; Ok (put m a (Some (Thread (parent x) v (peer x) (state x) (system x)))).
Definition setPeer (m : memory) (a v : Z) : res memory :=
  do x <- get m a; Ok (put m a (Some (Thread (parent x) (child x) v (state x) (system x)))).
Definition setState (m : memory) (a : Z) (v : tstate) : res memory :=
  do x <- get m a; Ok (put m a (Some (Thread (parent x) (child x) (peer x) v (system x)))).

(** src/machine.cpp:106-119: the search for [o] among the children of [q] and its removal; the
    loop variables are [previous] and [p] *)
Fixpoint unlink (fuel : nat) (m : memory) (q o previous p : Z) : res memory :=
  match fuel with
  | O => Fuel
  | S f =>
    if p =? 0 then Ok m
    else
      do x <- get m p;
      if p =? o then
        do y <- get m q;
        if p =? child y then setChild m q (peer x) else setPeer m previous (peer x)
      else unlink f m q o p (peer x)
  end.

(** src/machine.cpp:121-127: the children of the dead thread become children of [q] *)
Fixpoint adopt (fuel : nat) (m : memory) (q p : Z) : res memory :=
  match fuel with
  | O => Fuel
  | S f =>
    if p =? 0 then Ok m
    else
      do x <- get m p;
      do y <- get m q;
      do m1 <- setPeer m p (child y);
      do m2 <- setChild m1 q p;
      do m3 <- setParent m2 p q;
      adopt f m3 q (peer x)
  end.

(** src/machine.cpp:131-136: the peers of a dead root *)
Fixpoint raise (fuel : nat) (m : memory) (rt p : Z) : res (Z * memory) :=
  match fuel with
  | O => Fuel
  | S f =>
    if p =? 0 then Ok (rt, m)
    else
      do x <- get m p;
      do m1 <- setPeer m p rt;
      raise f m1 p (peer x)
  end.

(** src/machine.cpp:94-153 [dispose] with [remove] set, in a build with NDEBUG, followed by
    src/machine.cpp:3961-3976 [Thread::dispose]: the count drops and the memory is freed. *)
Definition dispose (fuel : nat) (s : machine) (o : Z) : res machine :=
  do x <- get (mem s) o;
  do rm <-
    (if negb (parent x =? 0) then
       do y <- get (mem s) (parent x);
       do m1 <- unlink fuel (mem s) (parent x) o 0 (child y);
       do m2 <- adopt fuel m1 (parent x) (child x);
       Ok (rootThread s, m2)
     else if negb (child x =? 0) then raise fuel (mem s) (child x) (peer x)
     else if negb (peer x =? 0) then Ok (peer x, mem s)
     else Abort);
  Ok (Machine (fst rm) ((threadCount s - 1) mod 2 ^ 32) (liveCount s) (put (snd rm) o None)).

(** src/machine.cpp:262-276: is the thread disposed of? *)
Definition isDead (x : thread) : bool :=
  negb (system x) && match state x with Live => false | _ => true end.

(** src/machine.cpp:252-277 [killZombies]: [killZombies] on a thread and the loop over its
    children ([join] of a zombie waits for the system thread and sets JoinedState).  [fuel]
    bounds the depth of the calls and the length of this loop, [n] the loops in [dispose]. *)
Fixpoint killZombies (n fuel : nat) (s : machine) (o : Z) : res machine :=
  match fuel with
  | O => Fuel
  | S f =>
    do x <- get (mem s) o;
    do s1 <- killLoop n f s (child x);
    do x1 <- get (mem s1) o;
    if isDead x1 then dispose n s1 o else Ok s1
  end
with killLoop (n fuel : nat) (s : machine) (p : Z) : res machine :=
  match fuel with
  | O => Fuel
  | S f =>
    if p =? 0 then Ok s
    else
      do x <- get (mem s) p;
      do s1 <- killZombies n f s p;
      killLoop n f s1 (peer x)
  end.

(** src/avian/machine.h:1832-1851 [addThread] of the new thread [p], made by [makeThread] with
    the given parent (src/machine.cpp:3822-3847, Thread::Thread: no child, no peer) *)
Definition addThread (s : machine) (p q : Z) : res machine :=
  do y <- get (mem s) q;
  let m1 := put (mem s) p (Some (Thread q 0 (child y) Live false)) in
  do m2 <- setChild m1 q p;
  Ok (Machine (rootThread s) ((threadCount s + 1) mod 2 ^ 32) ((liveCount s + 1) mod 2 ^ 32) m2).

(** src/avian/machine.h:1853-1872 [removeThread] of a thread that could not be started;
    [p->dispose()] is src/machine.cpp:3961-3976 *)
Definition removeThread (s : machine) (p : Z) : res machine :=
  do x <- get (mem s) p;
  do m1 <- setChild (mem s) (parent x) (peer x);
  let n := (threadCount s - 1) mod 2 ^ 32 in
  Ok (Machine (rootThread s) ((n - 1) mod 2 ^ 32) ((liveCount s - 1) mod 2 ^ 32) (put m1 p None)).

(** src/machine.cpp:3946-3958 [Thread::exit] when other threads are alive: enter ZombieState
    (src/machine.cpp:4119-4150: the live count drops); DetachCurrentThread
    (src/jnienv.cpp:42-64) goes on to JoinedState, and ignores the root thread. *)
Definition exitThread (s : machine) (o : Z) (detach : bool) : res machine :=
  if detach && (o =? rootThread s) then Ok s
  else
    do m1 <- setState (mem s) o (if detach then Joined else Zombie);
    Ok (Machine (rootThread s) (threadCount s) ((liveCount s - 1) mod 2 ^ 32) m1).

(** src/machine.cpp:155-164 [visitAll] (also the shape of footprint, 279-289, and postCollect,
    666-702): the threads in the order of the visits *)
Fixpoint visitAll (fuel : nat) (m : memory) (o : Z) : res (list Z) :=
  match fuel with
  | O => Fuel
  | S f =>
    do x <- get m o;
    do l <- visitLoop f m (child x);
    Ok (l ++ [o])
  end
with visitLoop (fuel : nat) (m : memory) (p : Z) : res (list Z) :=
  match fuel with
  | O => Fuel
  | S f =>
    if p =? 0 then Ok []
    else
      do x <- get m p;
      do l <- visitAll f m p;
      do r <- visitLoop f m (peer x);
      Ok (l ++ r)
  end.
