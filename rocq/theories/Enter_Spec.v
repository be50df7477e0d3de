(** What the stop-the-world protocol promises. *)
From Coq Require Import ZArith List Bool Arith.
From Verif Require Import Conc Enter_Model.
Import ListNotations.

(** A thread outside enter, be it running or waiting on stateLock by itself *)
Definition outside (x : thr) : Prop :=
  match at_ x with Out | W WOut _ _ | R WOut _ => True | _ => False end.

(** In the exclusive state (a thread that exits keeps it) and back from enter *)
Definition isExclusive (x : thr) : Prop := (st x = Exclusive \/ st x = Exit) /\ outside x.
(** Free to touch the heap *)
Definition isActive (x : thr) : Prop := (st x = Active \/ st x = Exclusive) /\ outside x.

Definition countActive (g : glob) (tids : list nat) : Z :=
  sumZ (fun t => match st (th g t) with Active | Exclusive => 1 | _ => 0 end)%Z tids.
Definition countLive (g : glob) (tids : list nat) : Z :=
  sumZ (fun t => match st (th g t) with NoState | Zombie | Joined => 0 | _ => 1 end)%Z tids.

(** Asleep in the wait of line 4093 for the other threads to stop, and not notified *)
Definition waitsForOthers (x : thr) : Prop := match at_ x with W WX5 _ false => True | _ => False end.
(** Asleep in the wait of line 4072 or 4187 for the exclusive thread to finish, and not notified *)
Definition waitsForExclusive (x : thr) : Prop :=
  match at_ x with W (WX _) _ false | W (WA _) _ false => True | _ => False end.
(** Inside enter, on the way to a notifyAll on stateLock with the exclusive thread waiting: past
    the decrement of activeCount in line 4101 or 4128 and not yet past the notifyAll of 4110 or 4149 *)
Definition retires (x : thr) : Prop :=
  match at_ x with I1 _ | I2 _ | I3 _ | I4 _ | Z3 _ | Z4 _ => True | _ => False end.
(** Having given up the exclusive state in line 4123 or 4178, and not yet past the notifyAll of
    4149 or 4182 *)
Definition handsOver (x : thr) : Prop :=
  match at_ x with Z2 _ | Z3 _ | Z4 _ | A8 _ => True | _ => False end.
