(** C28, C29, C67: class initialisation *)
From Coq Require Import ZArith List Bool Arith Lia.
From Verif Require Import Conc Init_Model Init_Spec Init_Proofs.
Import ListNotations.

(** The static initialiser of a class is started at most once, whatever the schedule. *)
Theorem C28_at_most_once : forall super hasInit need tids g c, NoDup tids ->
  reachable super hasInit need tids g -> starts c (log g) <= 1.
Proof. exact at_most_once. Qed.
Print Assumptions C28_at_most_once.

(** When a request for class c returns, c and all its superclasses are initialised, or their
    initialisation was begun by the very thread that asked. *)
Theorem C28_initialised_on_return : forall super hasInit need tids g t c n l1 l2, NoDup tids ->
  reachable super hasInit need tids g -> log g = l1 ++ ERet t c n :: l2 -> ready super hasInit t c l2.
Proof. intros. eapply returns_ready; eassumption. Qed.
Print Assumptions C28_initialised_on_return.

(** When the static initialiser of c starts, its superclasses are initialised (same exception). *)
Theorem C28_superclass_first : forall super hasInit need tids g t c s l1 l2, NoDup tids ->
  reachable super hasInit need tids g -> log g = l1 ++ EStart t c :: l2 -> super c = Some s -> ready super hasInit t s l2.
Proof. exact starts_ready. Qed.
Print Assumptions C28_superclass_first.

(** A thread sleeps for class c only while another thread initialises c or is about to notify it —
    so never for a class it is itself initialising — or after c's initialisation failed, which is
    the case C29 is about. *)
Theorem C28_waits_for_another : forall super hasInit need tids g t c, NoDup tids ->
  reachable super hasInit need tids g -> waitsFor c (stk g t) ->
  (exists u, u <> t /\ initialising c (stk g u)) \/ (exists u, aboutToNotify c (stk g u)) \/ failed c (log g).
Proof. exact waits_for_another. Qed.
Print Assumptions C28_waits_for_another.

(** After an initialiser has failed with an exception, every request made later fails. Missing from
    C29: requests that were already waiting. *)
Theorem C29_later_requests_fail_partial : forall super hasInit need tids g t c n l1 l2, NoDup tids ->
  reachable super hasInit need tids g -> log g = l1 ++ ERet t c n :: l2 -> ~ failed c (before n l2).
Proof. intros. eapply returns_ready; eassumption. Qed.
Print Assumptions C29_later_requests_fail_partial.

(** ** Executions *)
Ltac side := first [reflexivity|exact I|discriminate|left; reflexivity|right; reflexivity].
Ltac fwd i c := match goal with R : reachable ?a ?b ?n ?l ?g |- _ =>
  let R' := fresh in eassert (R' : reachable a b n l _) by (refine (r_step a b n l g i _ R _ _); [cbn; tauto|eapply c; side]);
  match type of R' with reachable _ _ _ _ ?g' => let h := eval cbv -[upd] in g' in change (reachable a b n l h) in R' end;
  clear R; rename R' into R end.
Ltac fwdC i x := match goal with R : reachable ?a ?b ?n ?l ?g |- _ =>
  let R' := fresh in assert (R' : reachable a b n l (setS g i (A x P0 (length (log g)) :: stk g i))) by (refine (r_step a b n l g i _ R _ _); [cbn; tauto|eapply s_call; side]);
  match type of R' with reachable _ _ _ _ ?g' => let h := eval cbv -[upd] in g' in change (reachable a b n l h) in R' end;
  clear R; rename R' into R end.
Ltac fwdE i x := match goal with R : reachable ?a ?b ?n ?l ?g |- _ =>
  let R' := fresh in eassert (R' : reachable a b n l _) by (refine (r_step a b n l g i _ R _ _); [cbn; tauto|eapply s_Run with (e := x); side]);
  match type of R' with reachable _ _ _ _ ?g' => let h := eval cbv -[upd] in g' in change (reachable a b n l h) in R' end;
  clear R; rename R' into R end.

Definition noSuper (c : nat) : option nat := None.
Definition all (c : nat) : bool := true.
(** thread 0 runs the initialiser of class 0 while thread 1 has asked for it and sleeps *)
Ltac contend := pose proof (r_start noSuper all all [0; 1] (fun c H => H)) as R;
  fwdC 0 0; fwd 0 s_P0'; fwd 0 s_P1; fwd 0 s_P2; fwd 0 s_P3; fwd 0 s_P3s; fwd 0 s_P5;
  fwdC 1 0; fwd 1 s_P0'; fwd 1 s_P1; fwd 1 s_P2; fwd 1 s_P3w; fwd 1 s_P4.

(** Refutes C29: the initialiser throws, the thread that ran it is gone, the lock is free, no thread is
    left that would notify, and thread 1 is still asleep. *)
Theorem C29_waiters_never_woken_refuted : exists g, reachable noSuper all all [0; 1] g /\
  failed 0 (log g) /\ stk g 0 = [] /\ own g = None /\ waitsFor 0 (stk g 1).
Proof.
  contend. fwdE 0 Exn. fwd 0 s_P6. fwd 0 s_P7x. fwd 0 s_P7b. fwd 0 s_P9x.
  eexists. split; [exact R|]. cbn. split; [exists 0; cbn; auto|]. split; [reflexivity|]. split; [reflexivity|].
  do 3 eexists. reflexivity.
Qed.
Print Assumptions C29_waiters_never_woken_refuted.

(** Refutes C29: should it be woken after all (here without a notification), its request returns
    normally although the class has failed. *)
Theorem C29_waiter_returns_normally_refuted : exists g n l1 l2, reachable noSuper all all [0; 1] g /\
  log g = l1 ++ ERet 1 0 n :: l2 /\ failed 0 l2.
Proof.
  contend. fwdE 0 Exn. fwd 0 s_P6. fwd 0 s_P7x. fwd 0 s_P7b. fwd 0 s_P9x. fwd 1 s_PW. fwd 1 s_PR. fwd 1 s_P4'.
  eexists _, _, [], _. split; [exact R|]. split; [reflexivity|]. exists 0. cbn. auto.
Qed.
Print Assumptions C29_waiter_returns_normally_refuted.

(** Refutes C67: the initialiser ends with an Error, and a request made afterwards returns normally. *)
Theorem C67_error_counts_as_success_refuted : exists g n l1 l2, reachable noSuper all all [0; 1] g /\
  log g = l1 ++ ERet 1 0 n :: l2 /\ In (EDone 0 0 Err) (before n l2).
Proof.
  pose proof (r_start noSuper all all [0; 1] (fun c H => H)) as R.
  fwdC 0 0. fwd 0 s_P0'. fwd 0 s_P1. fwd 0 s_P2. fwd 0 s_P3. fwd 0 s_P3s. fwd 0 s_P5. fwdE 0 Err.
  fwd 0 s_P6. fwd 0 s_P7. fwd 0 s_P8. fwd 0 s_P9x. fwdC 1 0. fwd 1 s_P0'. fwd 1 s_P1'.
  eexists _, _, [], _. split; [exact R|]. split; [reflexivity|]. cbn. auto.
Qed.
Print Assumptions C67_error_counts_as_success_refuted.

(** ** The hypotheses are met *)
(** Class 1 extends class 0. Thread 0 asks for class 1: class 0 is initialised first; its initialiser
    asks for class 0 again, which returns at once; thread 1 asks for class 0 meanwhile and waits until
    thread 0 is done. *)
Definition ext (c : nat) : option nat := match c with 1 => Some 0 | _ => None end.
Example initialisation_reachable : exists g, reachable ext all all [0; 1] g /\
  stk g 0 = [] /\ stk g 1 = [] /\ starts 0 (log g) = 1 /\ starts 1 (log g) = 1 /\ length (log g) = 8.
Proof.
  pose proof (r_start ext all all [0; 1] (fun c H => H)) as R.
  fwdC 0 1. fwd 0 s_P0. fwd 0 s_P0'. fwd 0 s_P1. fwd 0 s_P2. fwd 0 s_P3. fwd 0 s_P3s. fwd 0 s_P5.
  fwdC 0 0. fwd 0 s_P0'. fwd 0 s_P1. fwd 0 s_P2. fwd 0 s_P3i.
  fwdC 1 0. fwd 1 s_P0'. fwd 1 s_P1. fwd 1 s_P2. fwd 1 s_P3w. fwd 1 s_P4.
  fwdE 0 Normal. fwd 0 s_P6. fwd 0 s_P7. fwd 0 s_P8. fwd 0 s_P9.
  fwd 1 s_PW. fwd 1 s_PR. fwd 1 s_P4'.
  fwd 0 s_P1. fwd 0 s_P2. fwd 0 s_P3. fwd 0 s_P3s. fwd 0 s_P5. fwdE 0 Normal. fwd 0 s_P6. fwd 0 s_P7. fwd 0 s_P8. fwd 0 s_P9.
  eexists. split; [exact R|]. vm_compute. auto 10.
Qed.
Example waiting_reachable : exists g, reachable noSuper all all [0; 1] g /\ waitsFor 0 (stk g 1) /\ initialising 0 (stk g 0).
Proof.
  contend. eexists. split; [exact R|]. split; [do 3 eexists; reflexivity|]. eexists. split; [left; reflexivity|]. cbn. auto.
Qed.
