(** What a monitor promises: one owner at a time with nested acquisitions, a FIFO wait list, and no
    sleeper that nobody will wake. *)
From Coq Require Import List Arith.
From Verif Require Import PMonitor_Model.
Import ListNotations.

(** t is inside wait() and has given the monitor up *)
Definition waiting (p : pc) : Prop :=
  match p with W7 _ _ _ | W8 _ _ | W8' _ _ | W9 _ _ _ => True | _ => False end.
(** t has the monitor: it has acquired it more often than released it and is not waiting *)
Definition has (g : glob) (t : nat) : Prop := 0 < held g t /\ ~ waiting (at_ g t).
(** t sleeps on its condition variable and nothing has signalled it *)
Definition asleep (g : glob) (t : nat) : Prop := exists c d, at_ g t = W7 c d false.
