(** What a Java monitor promises (JLS 17.1, 17.2). *)
From Coq Require Import List Arith.
From Verif Require Import JMon_Model.
Import ListNotations.

(** t has given the monitor up inside Object.wait and not got it back *)
Definition suspended (p : pc) : Prop :=
  match p with
  | P0 (KRel (RWait _)) | P1 (KRel (RWait _)) _ | P2 (KRel (RWait _)) _ _ | P3 (KRel (RWait _)) _ _ _ | P4 (KRel (RWait _)) _ _ _ | P5 (KRel (RWait _)) _ _
  | N1 (RWait _) _ | WS _ | WL _ _ | WK _ | AQ (AWait _ _)
  | P0 (KTry (AWait _ _)) | P1 (KTry (AWait _ _)) _ | P2 (KTry (AWait _ _)) _ _ | P3 (KTry (AWait _ _)) _ _ _ | P4 (KTry (AWait _ _)) _ _ _ | P5 (KTry (AWait _ _)) _ _
  | T1 (AWait _ _) | L0 (AWait _ _)
  | Q0 (AWait _ _) _ | Q1 (AWait _ _) _ _ | Q2 (AWait _ _) _ _ _ | QH (AWait _ _) _ _ _ | Q3 (AWait _ _) _ _ | Q4 (AWait _ _) _ _
  | P0 (KLoop (AWait _ _)) | P1 (KLoop (AWait _ _)) _ | P2 (KLoop (AWait _ _)) _ _ | P3 (KLoop (AWait _ _)) _ _ _ | P4 (KLoop (AWait _ _)) _ _ _ | P5 (KLoop (AWait _ _)) _ _
  | L1 (AWait _ _) | S0 (AWait _ _) | SL (AWait _ _) _ => True
  | _ => False
  end.
(** t is inside the monitor: it has entered it more often than left it and is not suspended in wait *)
Definition inside (g : glob) (t : nat) : Prop := 0 < held g t /\ ~ suspended (at_ g t).

(** t sleeps, un-notified, until it can take the monitor *)
Definition asleep (g : glob) (t : nat) : Prop := exists a, at_ g t = SL a false.
(** t sleeps, un-notified, in Object.wait *)
Definition dozing (g : glob) (t : nat) : Prop := exists d, at_ g t = WL d false.
(** the thread at the front of the queue for the monitor: the value of the node after the dummy *)
Definition front (g : glob) : option nat :=
  match nxt g (ahead g) with Some n => Some (val g n) | None => None end.
(** the threads queued for the monitor, first to be served first *)
Definition queue (g : glob) : list nat := map (val g) (aq g).
(** t is in the middle of releasing the monitor *)
Definition releasing (p : pc) : Prop :=
  match p with
  | P0 (KRel _) | P1 (KRel _) _ | P2 (KRel _) _ _ | P3 (KRel _) _ _ _ | P4 (KRel _) _ _ _ | N1 _ _ => True
  | _ => False
  end.
(** steps of one thread only *)
Inductive alone (r : nat) : glob -> glob -> Prop :=
| al_refl : forall g, alone r g g
| al_step : forall g g' g'', step g r g' -> alone r g' g'' -> alone r g g''.
