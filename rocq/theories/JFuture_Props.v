(** C121, C122: FutureTask. *)
From Coq Require Import ZArith Lia Bool List.
Import ListNotations.
From Verif Require Import JFuture_Model JFuture_Spec JFuture_Proofs.

(** However many threads call run, cancel and get, the callable is called at most once. *)
Theorem callable_runs_at_most_once : forall es, length (runs (sh (run es))) <= 1 /\ length (results (sh (run es))) <= 1.
Proof. intro es. destruct (inv_run es) as [G _ _ _ _ _]. split; [apply (gRuns _ G)|apply (gResults _ G)]. Qed.

(** Every call of get that ends gives the right answer. *)
Theorem get_answers : forall es l a, In (Get l, Ended a) (calls (run es)) -> rightAnswer (sh (run es)) l a.
Proof.
  intros es l a H. apply In_nth_error in H. destruct H as [i E]. pose proof (vC _ (inv_run es) _ _ _ E) as C. cbn in C.
  destruct a; cbn; tauto.
Qed.

(** Done and cancelled are final: the state, and the answers of get, do not change again. *)
Theorem final_states : forall es es', (st (sh (run es)) = Done \/ st (sh (run es)) = Canceled) ->
  st (sh (run (es ++ es'))) = st (sh (run es)) /\ (st (sh (run es)) = Done -> results (sh (run (es ++ es'))) = results (sh (run es))).
Proof.
  intros es es' H. assert (V := inv_run es). unfold run in *. rewrite fold_left_app.
  set (y := fold_left (fun y e => next_ e y) es {| sh := initial; calls := [] |}) in *. clearbody y.
  revert y H V. induction es' as [|e es' IH]; intros y H V; [split; reflexivity|]. cbn [fold_left].
  assert (E : st (sh (next_ e y)) = st (sh y) /\ (st (sh y) = Done -> results (sh (next_ e y)) = results (sh y))).
  { destruct e as [c|i o|i|i|d]; cbn [next_]; auto.
    - destruct (nth_error (calls y) i) as [[c p]|] eqn:E; [|auto]. destruct (step i c o p (sh y)) as [[s' p']|] eqn:Es; [|auto]. cbn [sh].
      destruct (step_ok _ _ _ _ _ _ _ (vG _ V) (vC _ V _ _ _ E) Es) as [_ [_ K]]. specialize (K (S i) ltac:(lia)). destruct H as [H|H].
      + destruct (kDone _ _ _ K H) as [K1 [K2 _]]. rewrite K1, H, K2. auto.
      + rewrite (kCanceled _ _ _ K H), H. split; [reflexivity|discriminate].
    - destruct (nth_error (calls y) i) as [[c []]|]; auto. }
  destruct E as [E1 E2]. destruct (IH (next_ e y)) as [I1 I2].
  - rewrite E1. exact H.
  - apply inv_next. exact V.
  - rewrite I1, E1. split; [reflexivity|]. intro D. rewrite I2, E2 by congruence. reflexivity.
Qed.

(** A task that cancel(false) said it cancelled never runs. *)
Theorem cancelled_task_never_runs : forall es, In (Cancel false, Ended (Is true)) (calls (run es)) ->
  st (sh (run es)) = Canceled /\ runs (sh (run es)) = [].
Proof.
  intros es H. apply In_nth_error in H. destruct H as [i E]. pose proof (inv_run es) as V. pose proof (vC _ V _ _ _ E) as C. cbn in C.
  destruct C as [_ [_ C]]. destruct (C eq_refl eq_refl) as [C1 C2]. split; [exact C1|]. apply (gNone _ (vG _ V) C2).
Qed.

(** As long as nobody calls cancel(true): once a run or a cancel has been called, the calls
    can always go on until all have ended, also those of get without a limit of time.  No
    call waits forever. *)
Theorem calls_end : forall es,
  (forall p, ~ In (Cancel true, p) (calls (run es))) ->
  (exists c p, In (c, p) (calls (run es)) /\ (c = Run \/ c = Cancel false)) ->
  stuck (run es) ->
  forall c p, In (c, p) (calls (run es)) -> ended p.
Proof.
  intros es SO0 [c1 [p1 [I1 O1]]] ST. pose proof (inv_run es) as V. set (y := run es) in *. clearbody y.
  assert (SO : soft (calls y)). { intros c p I Q. subst c. apply (SO0 p I). }
  destruct (vS _ V SO) as [S1 S2].
  assert (LF : lock (sh y) = None).
  { destruct (lock (sh y)) as [i|] eqn:El; [|reflexivity]. exfalso. destruct (proj1 (vL _ V i) El) as [c [p [E H]]].
    specialize (ST i c p (Gives 0) E). destruct p; try discriminate H; discriminate ST. }
  assert (ALL : forall i c p, nth_error (calls y) i = Some (c, p) -> ended p \/ exists b r u, p = GSleep b r u /\ In i (waiting (sh y))).
  { intros i c p E. pose proof (ST i c p (Gives 0) E) as N. pose proof (vC _ V _ _ _ E) as C.
    destruct p; cbn [step] in N; rewrite ?LF in N; try discriminate N; cbn; auto.
    - exfalso. cbn in C. destruct C as [_ [C1 [_ [_ [[C2 C3] C4]]]]]. destruct (st (sh y)) eqn:Es; try congruence.
      rewrite (S2 eq_refl) in C1. discriminate.
    - right. exists s, r, u. split; [reflexivity|]. destruct (mem i (interrupted (sh y))); [discriminate|].
      destruct (mem i (waiting (sh y))) eqn:Em; [|discriminate]. unfold mem in Em. apply existsb_exists in Em. destruct Em as [x [X1 X2]].
      apply Nat.eqb_eq in X2. subst x. exact X1. }
  assert (NN : st (sh y) <> New).
  { apply In_nth_error in I1. destruct I1 as [i E]. pose proof (vC _ V _ _ _ E) as C. destruct (ALL _ _ _ E) as [A|[b [r [u [-> _]]]]].
    - destruct p1; try contradiction. cbn in C. destruct O1; subst c1; destruct a; try contradiction; tauto.
    - cbn in C. destruct C as [l C]. subst c1. destruct O1; discriminate. }
  assert (NR : st (sh y) <> Running).
  { intro R. destruct (vR _ V R) as [j [c [p [E W]]]]. destruct (ALL _ _ _ E) as [A|[b [r [u [-> _]]]]]; [|discriminate].
    destruct p; try contradiction. discriminate. }
  assert (F : fin (sh y)) by (unfold fin; destruct (st (sh y)); try congruence; auto).
  intros c p I. apply In_nth_error in I. destruct I as [i E]. destruct (ALL _ _ _ E) as [A|[b [r [u [-> W]]]]]; [exact A|].
  exfalso. assert (AW : awaits (sh y) i (GSleep b r u)) by (cbn; auto).
  destruct (vP _ V SO _ _ _ E AW) as [j [cj [pj [Ej Nj]]]]. destruct (ALL _ _ _ Ej) as [A|[b' [r' [u' [-> _]]]]]; [|discriminate].
  destruct pj; try contradiction. discriminate.
Qed.

(** *** With cancel(true) this is false *)

Definition gos (i n : nat) : list event := repeat (Go i (Gives 5)) n.

(** Two threads get the result, one of them before the task runs; both are given it. *)
Definition demo : list event :=
  [Start (Get None)] ++ gos 0 5 ++ [Start Run; Start (Get (Some 10%Z)); Start (Cancel false)] ++ gos 1 6 ++ gos 2 20 ++ gos 1 20 ++ gos 0 20 ++ gos 3 3 ++ gos 2 20.
Example future_witness :
  calls (run demo) = [(Get None, Ended (Value 5)); (Run, Ended Void); (Get (Some 10%Z), Ended (Value 5)); (Cancel false, Ended (Is false))] /\
  (forall p, ~ In (Cancel true, p) (calls (run demo))) /\ results (sh (run demo)) = [Gives 5].
Proof.
  split; [vm_compute; reflexivity|]. split; [|vm_compute; reflexivity].
  intros p H. assert (E : calls (run demo) = [(Get None, Ended (Value 5)); (Run, Ended Void); (Get (Some 10%Z), Ended (Value 5)); (Cancel false, Ended (Is false))]) by (vm_compute; reflexivity).
  rewrite E in H. cbn in H. intuition discriminate.
Qed.
Example cancel_witness :
  let y := run ([Start (Get None)] ++ gos 0 5 ++ [Start (Cancel false); Start Run] ++ gos 1 2 ++ gos 2 1 ++ gos 0 20) in
  calls y = [(Get None, Ended WasCanceled); (Cancel false, Ended (Is true)); (Run, Ended Void)].
Proof. vm_compute. reflexivity. Qed.

Definition stuckb (y : system) : bool :=
  forallb (fun '(i, (c, p)) => match step i c (Gives 0) p (sh y) with None => true | Some _ => false end)
    (combine (seq 0 (length (calls y))) (calls y)).
Lemma stuckb_ok y : stuckb y = true -> stuck y.
Proof.
  intros H i c p o E. unfold stuckb in H. rewrite forallb_forall in H.
  assert (I : In (i, (c, p)) (combine (seq 0 (length (calls y))) (calls y))).
  { assert (L : i < length (calls y)) by (apply nth_error_Some; rewrite E; discriminate).
    assert (G : forall (l : list (operation * place)) a k, nth_error l k = Some (c, p) -> In (a + k, (c, p)) (combine (seq a (length l)) l)).
    { induction l as [|x l IH]; intros a k Ek; [destruct k; discriminate|]. cbn [length seq combine]. destruct k; cbn in Ek.
      - injection Ek as ->. left. rewrite Nat.add_0_r. reflexivity.
      - right. rewrite <- Nat.add_succ_comm. apply IH. exact Ek. }
    apply (G _ 0 i E). }
  specialize (H _ I). cbn beta iota in H. destruct (step i c (Gives 0) p (sh y)) eqn:Q; [discriminate|].
  destruct p; cbn [step] in *; auto; discriminate.
Qed.

(** cancel(true) interrupts the task and its call of notifyAll comes before the state is set to
    cancelled: both run and cancel end, and get waits forever. *)
Definition lostWakeup : list event :=
  [Start (Get None)] ++ gos 0 5 ++ [Start Run] ++ gos 1 5 ++ [Start (Cancel true)] ++ gos 2 4 ++ gos 1 20 ++ gos 0 20 ++ gos 2 1.
Theorem get_hangs_refuted :
  stuck (run lostWakeup) /\ st (sh (run lostWakeup)) = Canceled /\
  exists p, calls (run lostWakeup) = [(Get None, p); (Run, Ended Void); (Cancel true, Ended (Is true))] /\ ~ ended p.
Proof.
  split; [apply stuckb_ok; vm_compute; reflexivity|]. split; [vm_compute; reflexivity|]. eexists. split; [vm_compute; reflexivity|intro H; exact H].
Qed.

(** cancel(true) comes before run has said which thread runs it: nobody is interrupted, and
    run sleeps forever. *)
Definition noThread : list event := [Start Run] ++ gos 0 1 ++ [Start (Cancel true)] ++ gos 1 3 ++ gos 0 20 ++ gos 1 1.
Theorem run_hangs_refuted :
  stuck (run noThread) /\ calls (run noThread) = [(Run, RSleep); (Cancel true, Ended (Is false))].
Proof. split; [apply stuckb_ok; vm_compute; reflexivity|vm_compute; reflexivity]. Qed.

(** cancel(true) answers that it did not cancel the task, but it did, and the task runs to
    its end. *)
Definition deniedCancel : list event := [Start Run] ++ gos 0 1 ++ [Start (Cancel true)] ++ gos 1 4 ++ gos 0 20 ++ [Start (Get None)] ++ gos 2 20.
Theorem cancel_answer_refuted :
  calls (run deniedCancel) = [(Run, Ended Void); (Cancel true, Ended (Is false)); (Get None, Ended WasCanceled)] /\
  results (sh (run deniedCancel)) = [Gives 5].
Proof. vm_compute. auto. Qed.

(** get with a limit of 0 says that time ran out although the task is done. *)
Definition noTime : list event := [Start Run] ++ gos 0 20 ++ [Start (Get (Some 0%Z))] ++ gos 1 20.
Theorem finished_task_times_out_refuted :
  st (sh (run noTime)) = Done /\ calls (run noTime) = [(Run, Ended Void); (Get (Some 0%Z), Ended (TimedOut 0))].
Proof. vm_compute. auto. Qed.

Definition jfuture_theorems := (callable_runs_at_most_once, get_answers, final_states, cancelled_task_never_runs, calls_end,
  future_witness, cancel_witness, get_hangs_refuted, run_hangs_refuted, cancel_answer_refuted, finished_task_times_out_refuted).
Print Assumptions jfuture_theorems.
