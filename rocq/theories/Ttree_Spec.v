(** Specification of the thread tree. *)
From Coq Require Import ZArith List Bool Permutation.
From Verif Require Import Res Ttree_Model.
Import ListNotations.
Local Open Scope Z_scope.

(** A thread with the threads it started: address, state, protected by SystemFlag. *)
Inductive tree := T (a : Z) (st : tstate) (sys : bool) (kids : list tree).

Definition addr (t : tree) := let '(T a _ _ _) := t in a.
Definition kids (t : tree) := let '(T _ _ _ k) := t in k.
Definition label (t : tree) := let '(T a st sys _) := t in (a, st, sys).

(** all threads of a tree *)
Fixpoint nodes (t : tree) : list (Z * tstate * bool) :=
  match t with T a st sys ks => (a, st, sys) :: flat_map nodes ks end.
Definition nodesL (ts : list tree) := flat_map nodes ts.
Definition addrs (ts : list tree) : list Z := map (fun n => fst (fst n)) (nodesL ts).

(** Memory holds the threads [ts], which are children of [q], linked from [p] on. *)
Inductive rep (m : memory) (q : Z) : Z -> list tree -> Prop :=
| rep_nil : rep m q 0 []
| rep_cons : forall a x ks ts,
    a <> 0 -> m a = Some x -> parent x = q ->
    rep m a (child x) ks -> rep m q (peer x) ts ->
    rep m q a (T a (state x) (system x) ks :: ts).

(** The machine's threads form the tree [t]: the root has no parent, links lead only to threads
    that exist, and every thread that exists is in the tree, once. *)
Record consistent (s : machine) (t : tree) : Prop := {
  c_rep : rep (mem s) 0 (rootThread s) [t];
  c_once : NoDup (addrs [t]);
  c_all : forall a, mem s a <> None <-> In a (addrs [t]) }.

Definition dead (n : Z * tstate * bool) : bool :=
  let '(_, st, sys) := n in negb sys && match st with Live => false | _ => true end.
Definition running (n : Z * tstate * bool) : bool :=
  let '(_, st, _) := n in match st with Live => true | _ => false end.

(** the tree's counters *)
Definition counted (s : machine) (t : tree) : Prop :=
  threadCount s = Z.of_nat (length (nodes t)) /\
  liveCount s = Z.of_nat (length (filter running (nodes t))).

(** What happens to the threads.  [Protect] is acquireSystem/releaseSystem
    (src/avian/machine.h:2739-2758). *)
Inductive event :=
| Start (p q : Z)
| StartFails (p q : Z) (between : list (Z * Z))
| Exit (o : Z) (detach : bool)
| Protect (o : Z) (b : bool)
| CollectThreads.

Definition setSystem (s : machine) (o : Z) (b : bool) : res machine :=
  bind (get (mem s) o) (fun x =>
  Ok (Machine (rootThread s) (threadCount s) (liveCount s)
       (put (mem s) o (Some (Thread (parent x) (child x) (peer x) (state x) b))))).

Fixpoint addAll (s : machine) (l : list (Z * Z)) : res machine :=
  match l with
  | [] => Ok s
  | (p, q) :: r => bind (addThread s p q) (fun s1 => addAll s1 r)
  end.

Definition isLive (s : machine) (a : Z) : Prop := exists x, mem s a = Some x /\ state x = Live.

Inductive step : machine -> event -> machine -> Prop :=
| s_start : forall s p q s', isLive s q -> p <> 0 -> mem s p = None -> threadCount s < 2 ^ 32 - 1 ->
    addThread s p q = Ok s' -> step s (Start p q) s'
(* the new thread is added, other threads may be added, starting it fails, it is removed *)
| s_startFails : forall s p q l s1 s2 s', isLive s q -> p <> 0 -> mem s p = None ->
    addThread s p q = Ok s1 ->
    addAll s1 l = Ok s2 ->
    (forall i x y, nth_error l i = Some (x, y) -> x <> 0 /\ mem s1 x = None /\ isLive s1 y) ->
    NoDup (map fst l) ->
    removeThread s2 p = Ok s' -> step s (StartFails p q l) s'
| s_exit : forall s o d s', isLive s o -> 1 < liveCount s ->
    exitThread s o d = Ok s' -> step s (Exit o d) s'
| s_protect : forall s o b s', setSystem s o b = Ok s' -> step s (Protect o b) s'
| s_collect : forall s n f s', killZombies n f s (rootThread s) = Ok s' -> step s CollectThreads s'.

(** A machine starts with one thread. *)
Definition initial (a : Z) : machine :=
  Machine a 1 1 (fun x => if x =? a then Some (Thread 0 0 0 Live false) else None).

Inductive history (a : Z) : list event -> machine -> Prop :=
| h_start : a <> 0 -> history a [] (initial a)
| h_step : forall es s e s', history a es s -> step s e s' -> history a (es ++ [e]) s'.

(** The first thread does not exit, and no start fails. *)
Definition ordinary (first : Z) (e : event) : Prop :=
  match e with Exit o false => o <> first | StartFails _ _ _ => False | _ => True end.
