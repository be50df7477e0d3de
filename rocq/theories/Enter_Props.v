(** C30: the stop-the-world protocol *)
From Coq Require Import ZArith List Bool Arith Lia.
From Verif Require Import Conc Enter_Model Enter_Spec Enter_Proofs.
Import ListNotations.

(** Whatever the schedule: while a thread is in the exclusive state, no other thread is active and
    no other thread is exclusive. *)
Theorem C30_exclusion : forall tids g t u, NoDup tids -> reachable tids g ->
  isExclusive (th g t) -> u <> t -> ~ isActive (th g u) /\ ~ isExclusive (th g u).
Proof. exact exclusion. Qed.
Print Assumptions C30_exclusion.

(** Whenever no thread is in the middle of a change of state, the two counters are the number of
    active and of live threads. *)
Theorem C30_counters : forall tids g, NoDup tids -> reachable tids g -> (forall t, In t tids -> outside (th g t)) ->
  act g = countActive g tids /\ live g = countLive g tids.
Proof. exact counts. Qed.
Print Assumptions C30_counters.

(** No wake-up is lost: a thread asleep because others are active either still has others to wait
    for, or a thread that has just stopped is about to notify it; a thread asleep because of an
    exclusive thread either still has one to wait for, or the thread that just gave that up is
    about to notify it. *)
Theorem C30_no_lost_wakeup : forall tids g t, NoDup tids -> reachable tids g ->
  (waitsForOthers (th g t) -> (1 < act g)%Z \/ exists u, retires (th g u)) /\
  (waitsForExclusive (th g t) -> excl g <> None \/ exists u, handsOver (th g u)).
Proof.
  intros tids g t ND R. pose proof (inv_reachable _ _ ND R) as H.
  exact (conj (i_wakeO _ _ H t) (i_wakeE _ _ H t)).
Qed.
Print Assumptions C30_no_lost_wakeup.

(** ** The hypotheses are met *)
Ltac side := first [reflexivity|discriminate|left; reflexivity|left; discriminate|right; reflexivity|right; left; reflexivity|right; discriminate].
Ltac fwd i c := match goal with R : reachable ?l ?g |- _ =>
  let R' := fresh in eassert (R' : reachable l _) by (refine (r_step l g i _ R _ _); [cbn; tauto|eapply c; side]);
  match type of R' with reachable _ ?g' => let h := eval cbv -[upd] in g' in change (reachable l h) in R' end;
  clear R; rename R' into R end.
Ltac init i := fwd i s_callA; fwd i s_A0s; fwd i s_A4; fwd i s_A5; fwd i s_A6; fwd i s_A7n; fwd i s_A9.
(** Both threads start, the second becomes idle, the first takes the exclusive state. *)
Example exclusive_reachable : exists g, reachable [0; 1] g /\ isExclusive (th g 0) /\ st (th g 1) = Idle /\ outside (th g 1).
Proof.
  pose proof (r_start [0; 1]) as R. init 0. init 1.
  fwd 1 s_callI. fwd 1 s_I0. fwd 1 s_I1. fwd 1 s_I2.
  fwd 0 s_callX. fwd 0 s_X0. fwd 0 s_X1. fwd 0 s_X4a. fwd 0 s_X4b. fwd 0 s_X5. fwd 0 s_X6.
  eexists. split; [exact R|]. cbn. unfold isExclusive, outside. cbn. auto.
Qed.
(** The first thread asks for the exclusive state and sleeps because the second is active; a third
    sleeps because the first is exclusive. *)
Example waiting_reachable : exists g, reachable [0; 1; 2] g /\ waitsForOthers (th g 0) /\ act g = 2%Z /\
  isActive (th g 1) /\ waitsForExclusive (th g 2).
Proof.
  pose proof (r_start [0; 1; 2]) as R. init 0. init 1.
  fwd 0 s_callX. fwd 0 s_X0. fwd 0 s_X1. fwd 0 s_X4a. fwd 0 s_X4b. fwd 0 s_X5w.
  fwd 2 s_callA. fwd 2 s_A0s. fwd 2 s_A4. fwd 2 s_A5w.
  eexists. split; [exact R|]. cbn. unfold isActive, outside. cbn. auto 10.
Qed.
