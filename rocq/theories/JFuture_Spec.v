(** What users expect of FutureTask. *)
From Coq Require Import ZArith Bool List.
Import ListNotations.
From Verif Require Import JFuture_Model.

(** What get may answer, given how the callable ended ([results]) and whether the task was
    cancelled: the value it returned, the exception it threw, that it was cancelled; that time
    ran out only if it did; and it may be interrupted. *)
Definition rightAnswer (s : shared) (limit : option Z) (a : answer) : Prop :=
  match a with
  | Value v => results s = [Gives v]
  | Failure f => results s = [Fails f]
  | WasCanceled => st s = Canceled
  | TimedOut since => exists t, limit = Some t /\ (t <= now s - since)%Z
  | WasInterrupted => True
  | Void | Is _ => False
  end.

(** No call can go on, however the callable ends. *)
Definition stuck (y : system) : Prop :=
  forall i c p o, nth_error (calls y) i = Some (c, p) -> step i c o p (sh y) = None.
Definition ended (p : place) : Prop := match p with Ended _ => True | _ => False end.
