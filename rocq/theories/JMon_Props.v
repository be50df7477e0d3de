(** C24, C25, C26, C69, C70: Java monitors. *)
From Coq Require Import List Bool Arith.
From Verif Require Import Chain JMon_Model JMon_Spec JMon_Proofs JMon_Exec.
Import ListNotations.

(** * C24 *)
(** At most one thread is inside the monitor, whatever the interleaving. *)
Theorem C24_exclusion : forall g a b, reachable g -> inside g a -> inside g b -> a = b.
Proof. exact exclusion. Qed.
(** Between calls, a thread owns the monitor exactly while it has entered it more often than left it,
    and the recorded depth is the difference. *)
Theorem C24_recursion : forall g t, reachable g -> at_ g t = Out ->
  (owner g = Some t <-> 0 < held g t) /\ (0 < held g t -> depth g = held g t).
Proof. exact ownership. Qed.
(** The difference changes only by that thread entering (from where it owns the monitor) or leaving. *)
Theorem C24_balance : forall g t g' u, step g t g' -> held g' u <> held g u ->
  u = t /\ (at_ g t = Out /\ owner g = Some t /\ held g' t = pred (held g t) \/
            at_ g' t = Out /\ held g' t = S (held g t) /\ (at_ g t = T9 AEnter \/ at_ g t = L9 AEnter)).
Proof. exact held_changes. Qed.
(** No expect fails, abort is not called and no null pointer is followed, as long as monitorRelease,
    monitorWait and monitorNotify are called by the owner. *)
Theorem C24_no_abort : forall g t, reachable g -> at_ g t <> Bad.
Proof. intros g t R E. apply inv_reach in R. pose proof (v_h g R t) as H. rewrite E in H. exact H. Qed.

(** * C25 *)
(** Whoever sleeps until the monitor is free is queued; the queue is first in, first out, and only
    the thread at its front leaves it, after it has become the owner. *)
Theorem C25_sleepers_are_queued : forall g t, reachable g -> asleep g t -> In t (queue g).
Proof. exact sleepers_queued. Qed.
Theorem C25_fifo : forall g t g', reachable g -> step g t g' ->
  queue g' = queue g \/ (queue g' = queue g ++ [t] /\ ~ In t (queue g)) \/ (queue g = t :: queue g' /\ owner g = Some t).
Proof. exact queue_evolves. Qed.
Theorem C25_front : forall g, reachable g -> front g = hd_error (queue g).
Proof. exact queue_front. Qed.
(** If the thread at the front sleeps un-notified and the monitor is free, some thread is in the middle
    of releasing it and will wake the sleeper, needing nobody else's help. *)
Theorem C25_no_lost_wakeup : forall g u, reachable g -> asleep g u -> front g = Some u -> owner g = None ->
  exists r g', releasing (at_ g r) /\ alone r g g' /\ ~ asleep g' u.
Proof. exact handover. Qed.
(** A notified sleeper at the front of a free monitor gets it by running alone. *)
Theorem C25_front_gets_it : forall g u a, reachable g -> at_ g u = SL a true -> front g = Some u -> owner g = None ->
  exists g', alone u g g' /\ owner g' = Some u.
Proof. intros g u a. apply takes. Qed.

(** * C26 *)
(** The wait list is one list without repetition... *)
Theorem C26_list : forall g, reachable g -> chain (wnext g) (whead g) (wq g) /\ wtail g = lastOf (wq g) /\ NoDup (wq g).
Proof. intros g R. apply inv_reach in R. repeat split; apply R. Qed.
(** ...which only the owner changes: by joining at its end, by leaving it when its own wait is over,
    or by notifying the one that has waited longest. *)
Theorem C26_fifo : forall g t g', reachable g -> step g t g' ->
  wq g' = wq g \/ (owner g = Some t /\
  (wq g' = wq g ++ [t] \/
   (wq g' = remove Nat.eq_dec t (wq g) /\ at_ g' t = Out) \/
   (exists u b, wq g = u :: wq g' /\ at_ g' t = N2 b u))).
Proof. exact wait_evolves. Qed.
(** Whoever sleeps in wait un-notified can be found by notify, or is just being notified. *)
Theorem C26_no_lost_wakeup : forall g t, reachable g -> dozing g t -> In t (wq g) \/ exists v b, at_ g v = N2 b t.
Proof. exact no_lost. Qed.
(** Whoever was taken from the list is woken. *)
Theorem C26_notified_is_woken : forall g t g' u b, reachable g -> step g t g' -> at_ g t = N2 b u ->
  ~ dozing g' u /\ ~ In u (wq g').
Proof. exact notified. Qed.
(** notifyAll returns only when it has emptied the list. *)
Theorem C26_notifyAll : forall g t g', reachable g -> step g t g' -> at_ g t = NL -> at_ g' t = Out -> wq g = [] /\ wq g' = [].
Proof. exact notifyAll_empties. Qed.
(** When wait returns, the thread owns the monitor again as often as before. *)
Theorem C26_depth_restored : forall g t g' i, reachable g -> step g t g' ->
  (exists p c, at_ g t = RW i p c) \/ (exists c, at_ g t = FW i c) -> at_ g' t = Out ->
  owner g' = Some t /\ depth g' = held g t /\ held g' t = held g t /\ ret g' t = Some i.
Proof. exact wait_returns. Qed.

(** * C70 *)
(** wait, notify and notifyAll by a thread that does not own the monitor throw... *)
Theorem C70_wait_notify : forall t m, m <> Some (Some t) ->
  objWait t m = ThrowsIllegalMonitorState /\ objNotify t m = ThrowsIllegalMonitorState /\ objNotifyAll t m = ThrowsIllegalMonitorState.
Proof. exact misuse_throws. Qed.
(** ...but monitorexit never does: it aborts the process, or follows a null pointer. *)
Theorem C70_monitorexit_refuted : forall t m, m <> Some (Some t) ->
  objRelease t m <> ThrowsIllegalMonitorState /\ (objRelease t m = Aborts \/ objRelease t m = NullDereference).
Proof. exact misuse_release. Qed.
Example C70_unlocked_object : objRelease 1 None = NullDereference /\ objRelease 1 (Some None) = Aborts /\ objRelease 1 (Some (Some 2)) = Aborts /\ objRelease 1 (Some (Some 1)) = Proceeds.
Proof. repeat split. Qed.

(** * Executions *)
Ltac ex l := let g := constr:(out l) in exists g; split; [apply out_reach|]; unfold asleep, dozing, inside; vm_compute; repeat split; eauto.

(** 1 is inside twice, 2 and 3 sleep in the queue. *)
Definition contention := [Do 1 0; Fin 1; Do 1 0; Fin 1; Do 2 0; Fin 2; Do 3 0; Fin 3].
Example C24_contended : exists g, reachable g /\ inside g 1 /\ held g 1 = 2 /\ depth g = 2 /\ asleep g 2 /\ asleep g 3 /\ queue g = [2; 3] /\ front g = Some 2.
Proof. ex contention. Qed.
(** 1 is releasing: the monitor is free, and the thread at the front still sleeps un-notified. *)
Example C25_handing_over : exists g, reachable g /\ asleep g 2 /\ front g = Some 2 /\ owner g = None /\ releasing (at_ g 1).
Proof. ex (contention ++ [Do 1 1; Do 1 1; Do 1 0]). Qed.
(** After the release it is awake; then it gets the monitor, and 3 is at the front. *)
Example C25_handed_over : exists g, reachable g /\ (exists a, at_ g 2 = SL a true) /\ front g = Some 2 /\ owner g = None.
Proof. ex (contention ++ [Do 1 1; Do 1 1; Fin 1]). Qed.
Example C25_next : exists g, reachable g /\ inside g 2 /\ asleep g 3 /\ front g = Some 3.
Proof. ex (contention ++ [Do 1 1; Do 1 1; Fin 1; Do 2 0; Fin 2]). Qed.

(** 1 (twice inside) and 2 wait, 3 is inside and notifies. *)
Definition waiters := [Do 1 0; Fin 1; Do 1 0; Fin 1; Do 1 2; Fin 1; Do 2 0; Fin 2; Do 2 2; Fin 2; Do 3 0; Fin 3].
Example C26_waiting : exists g, reachable g /\ dozing g 1 /\ dozing g 2 /\ wq g = [1; 2] /\ inside g 3 /\ held g 1 = 2.
Proof. ex waiters. Qed.
Example C26_notifying : exists g, reachable g /\ dozing g 1 /\ at_ g 3 = N2 false 1 /\ dozing g 2 /\ wq g = [2].
Proof. ex (waiters ++ [Do 3 3]). Qed.
(** 1 returns with its two acquisitions; 2 waits on. *)
Example C26_returned : exists g, reachable g /\ at_ g 1 = Out /\ owner g = Some 1 /\ depth g = 2 /\ ret g 1 = Some false /\ dozing g 2.
Proof. ex (waiters ++ [Do 3 3; Fin 3; Do 3 1; Fin 3; Do 1 0; Fin 1]). Qed.
Example C26_all_notified : exists g, reachable g /\ at_ g 3 = NL /\ wq g = [] /\ (exists d, at_ g 1 = WL d true) /\ (exists d, at_ g 2 = WL d true).
Proof. ex (waiters ++ [Do 3 4; Do 3 0; Do 3 0; Do 3 0; Do 3 0]). Qed.

(** * C69 *)
(** JLS 17.2.4: a notification is not lost to an interrupt. Here 1 and 2 wait, 1 is interrupted and
    has woken up, but is still in the list; 3 notifies and 1 is taken from the list. In the end 1
    has thrown InterruptedException and 2 still sleeps: nobody returned normally. *)
Theorem C69_notification_lost_to_interrupt_refuted : exists g g' g'',
  reachable g /\ wq g = [1; 2] /\ dozing g 2 /\ at_ g 3 = Out /\ owner g = Some 3 /\
  step g 3 g' /\ at_ g' 3 = N2 false 1 /\ steps g' g'' /\
  at_ g'' 1 = Out /\ ret g'' 1 = Some true /\ at_ g'' 3 = Out /\ owner g'' = None /\ dozing g'' 2 /\ wq g'' = [2].
Proof.
  pose (l := waiters ++ [Do 3 6; Do 1 0; Do 1 0]).
  exists (out l), (out (l ++ [Do 3 3])), (out (l ++ [Do 3 3; Fin 3; Do 3 1; Fin 3; Fin 1; Do 1 1; Do 1 1; Fin 1])).
  split; [apply out_reach|]. split; [vm_compute; auto|]. split; [eexists; vm_compute; auto|]. split; [vm_compute; auto|]. split; [vm_compute; auto|].
  split; [apply stepf_sound with 3; vm_compute; reflexivity|]. split; [vm_compute; auto|].
  split; [apply exec_sound with [Fin 3; Do 3 1; Fin 3; Fin 1; Do 1 1; Do 1 1; Fin 1]; vm_compute; reflexivity|].
  repeat split; try (vm_compute; reflexivity). eexists. vm_compute. reflexivity.
Qed.

(** The assumptions of all theorems above, printed once (the proof terms are large). *)
Definition all_theorems := (C24_exclusion, C24_recursion, C24_balance, C24_no_abort, C25_sleepers_are_queued, C25_fifo, C25_front, C25_no_lost_wakeup, C25_front_gets_it, C26_list, C26_fifo, C26_no_lost_wakeup, C26_notified_is_woken, C26_notifyAll, C26_depth_restored, C70_wait_notify, C70_monitorexit_refuted, C69_notification_lost_to_interrupt_refuted).
Print Assumptions all_theorems.
