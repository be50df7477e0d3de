(** C27 and C68: the native monitor. *)
From Coq Require Import List Bool Arith.
From Verif Require Import Chain PMonitor_Model PMonitor_Spec PMonitor_Proofs.
Import ListNotations.

(** At most one thread has the monitor, whatever the interleaving. *)
Theorem C27_exclusion : forall g a b, reachable g -> has g a -> has g b -> a = b.
Proof. exact exclusion. Qed.

(** Between calls, a thread owns the monitor exactly while it has acquired it more often than
    released it, and the recorded depth is the difference; waiting changes neither. *)
Theorem C27_recursion : forall g t, reachable g -> at_ g t = Out ->
  (owner g = Some t <-> 0 < held g t) /\ (0 < held g t -> depth g = held g t).
Proof. exact ownership. Qed.
Theorem C27_wait_keeps_depth : forall g t u g', reachable g -> step g t g' ->
  at_ g u <> Out -> at_ g u <> A3 -> held g' u = held g u.
Proof. exact wait_keeps. Qed.

(** The pointers always describe one list without repetition... *)
Theorem C27_list : forall g, reachable g -> chain (next g) (first g) (q g) /\ last g = lastOf (q g) /\ NoDup (q g).
Proof. exact list_ok. Qed.
(** ...which changes only by a waiting thread joining at its end, notify taking the oldest, a thread
    that was not notified removing itself, and notifyAll emptying it once all in it are notified. *)
Theorem C27_fifo : forall g t g', reachable g -> step g t g' ->
  q g' = q g \/
  (q g' = q g ++ [t] /\ owner g = Some t) \/
  (exists u, q g = u :: q g' /\ at_ g' t = N1 u /\ owner g = Some t) \/
  (q g' = remove Nat.eq_dec t (q g) /\ exists i d p c, at_ g t = RM i d p c) \/
  (q g' = [] /\ (forall u, In u (q g) -> flag g' u = true) /\ at_ g t = NA None).
Proof. exact list_evolves. Qed.
(** While nobody has the monitor: a thread is in the list exactly if it waits un-notified. (A thread
    which has found that it was not notified, [W9], still has to take itself out.) *)
Theorem C27_list_exact : forall g t, reachable g -> mx g = None ->
  match at_ g t with W7 _ _ _ | W8 _ _ | W8' _ _ => In t (q g) <-> flag g t = false
  | W9 _ _ _ => True | _ => ~ In t (q g) end.
Proof. exact list_exact. Qed.

(** A thread that sleeps un-signalled can be found by the next notify, or is being notified, and has
    no interrupt pending. *)
Theorem C27_no_lost_wakeup : forall g t, reachable g -> asleep g t ->
  (In t (q g) \/ exists v, at_ g v = N1 t) /\ flag g t = false /\ intr g t = false.
Proof. exact no_lost. Qed.
(** Whoever is taken from the list by notify, or reached by notifyAll, is waiting and is woken. *)
Theorem C27_notified_is_woken : forall g t g' u, reachable g -> step g t g' -> (at_ g t = N1 u \/ at_ g t = NA (Some u)) ->
  waiting (at_ g' u) /\ flag g' u = true /\ ~ asleep g' u.
Proof. exact signals. Qed.

(** No internal check (expect) ever fails for callers that own the monitor where they must. *)
Theorem C27_no_abort : forall g t, reachable g -> at_ g t <> Bad.
Proof. intros g t R E. apply inv_reach in R. pose proof (v_h g R t) as H. rewrite E in H. exact H. Qed.

(** * Executions *)
Ltac side := cbn; try reflexivity; try discriminate; try congruence; try (left; discriminate); auto.
Ltac fwd i c := match goal with R : reachable ?g |- _ =>
  let R' := fresh in eassert (R' : reachable _) by (refine (r_step g i _ R _); eapply c; side);
  match type of R' with reachable ?g' => let h := eval cbv -[upd] in g' in change (reachable h) in R' end;
  clear R; rename R' into R end.
Ltac acq i := fwd i s_acq; fwd i s_A1; fwd i s_A2; fwd i s_A3.
Ltac rel i := fwd i s_rel'; fwd i s_R1; fwd i s_R2.
Ltac slp i := fwd i (fun g t => s_wait g t true); fwd i s_W1; fwd i s_W2; fwd i s_W3; fwd i s_W4; fwd i s_W5; fwd i s_W6.

(** Two threads wait, one of them with two acquisitions; a third holds the monitor. *)
Example waiting_reachable : exists g, reachable g /\ asleep g 1 /\ asleep g 2 /\ held g 2 = 2 /\ q g = [1; 2] /\ has g 3.
Proof.
  pose proof r_start as R. acq 1. slp 1. acq 2. fwd 2 s_acq'. fwd 2 s_A3. slp 2. acq 3.
  eexists. split; [exact R|]. unfold asleep, has. cbn. repeat split; eauto.
Qed.
(** The oldest is being notified, the other stays. *)
Example notify_reachable : exists g, reachable g /\ at_ g 3 = N1 1 /\ asleep g 1 /\ asleep g 2 /\ q g = [2].
Proof.
  pose proof r_start as R. acq 1. slp 1. acq 2. slp 2. acq 3. fwd 3 s_notify.
  eexists. split; [exact R|]. unfold asleep. cbn. repeat split; eauto.
Qed.

(** C68. A notification can go to a thread that has already given up: 1 timed out but has not yet the
    mutex back; 3 notifies while 2 is asleep in the list; when everybody is done, 1 has returned
    without being notified and 2 still sleeps. *)
Theorem C68_notification_lost_to_timeout_refuted : exists g g' ,
  reachable g /\ asleep g 2 /\ at_ g 1 = W9 false false 1 /\ at_ g 3 = Out /\ owner g = Some 3 /\
  step g 3 g' /\ at_ g' 3 = N1 1 /\ asleep g' 2 /\
  exists g'', reachable g'' /\ at_ g'' 1 = Out /\ ret g'' 1 = Some false /\ at_ g'' 3 = Out /\ mx g'' = None /\ asleep g'' 2 /\ flag g'' 1 = false.
Proof.
  pose proof r_start as R. acq 1. slp 1. acq 2. slp 2. fwd 1 s_W7. fwd 1 s_W8. acq 3.
  pose proof R as R0. fwd 3 s_notify. pose proof R0 as R1. fwd 3 s_N1. rel 3.
  fwd 1 s_W9. fwd 1 s_W10. fwd 1 s_RMnext. fwd 1 s_RMend. fwd 1 s_W14. rel 1.
  match type of R with reachable ?g => exists g end.
  match type of R0 with reachable ?g => exists g end.
  split; [exact R|]. unfold asleep. cbn. repeat split; eauto.
  - refine (s_notify _ 3 1 _ _ _ _); cbn; auto; left; discriminate.
  - eexists. split; [exact R1|]. cbn. repeat split; eauto.
Qed.

(** The assumptions of all theorems above, printed once (the proof terms are large). *)
Definition all_theorems := (C27_exclusion, C27_recursion, C27_wait_keeps_depth, C27_list, C27_fifo, C27_list_exact, C27_no_lost_wakeup, C27_notified_is_woken, C27_no_abort, C68_notification_lost_to_timeout_refuted).
Print Assumptions all_theorems.
