(** What class initialisation promises, in terms of the log of events (newest first). *)
From Coq Require Import List Bool Arith.
From Verif Require Import Init_Model.
Import ListNotations.

Definition isStart (c : nat) (e : event) : bool := match e with EStart _ c' => Nat.eqb c' c | _ => false end.
(** How often the static initialiser of c has been invoked *)
Definition starts (c : nat) (l : list event) : nat := length (filter (isStart c) l).

Definition done (c : nat) (l : list event) : Prop := exists u e, In (EDone u c e) l.
(** c has failed with an exception *)
Definition failed (c : nat) (l : list event) : Prop := exists u, In (EDone u c Exn) l.

(** c itself or a class it inherits from *)
Inductive ancestor (super : nat -> option nat) (c : nat) : nat -> Prop :=
| anc_self : ancestor super c c
| anc_super : forall s a, super c = Some s -> ancestor super s a -> ancestor super c a.

(** Thread t may use class c: c and every superclass of it with a static initialiser has been
    initialised, or t itself is the one that has begun to do it *)
Definition ready (super : nat -> option nat) (hasInit : nat -> bool) (t c : nat) (l : list event) : Prop :=
  forall a, ancestor super c a -> hasInit a = true -> done a l \/ In (EStart t a) l.

(** The oldest n events *)
Definition before (n : nat) (l : list event) : list event := skipn (length l - n) l.

(** Asleep in line 5210 waiting for class c, and not notified *)
Definition waitsFor (c : nat) (k : list act) : Prop := exists d b r, k = A c (PW d false) b :: r.
(** In the middle of initialising c: between setting InitFlag and clearing it *)
Definition initialising (c : nat) (k : list act) : Prop :=
  exists a, In a k /\ cls a = c /\ match pc a with P3s | P5 | Run | P6 _ | P7 _ | P7b => True | _ => False end.
(** About to notify the waiters of c *)
Definition aboutToNotify (c : nat) (k : list act) : Prop :=
  exists a, In a k /\ cls a = c /\ match pc a with P8 _ => True | _ => False end.
