(** * Properties of LinkedBlockingQueue. *)
From Coq Require Import ZArith Lia Bool List Arith.
Import ListNotations.
From Verif Require Import BQueue_Model BQueue_Spec BQueue_Proofs.

(** However the calls of any number of threads interleave, with interruptions and spurious wake-ups: the calls that acted, in the order in
    which they did, form a history of a bounded first-in first-out queue that ends in the queue as it is; every call that returned acted
    exactly once, with the answer it returned; a call that was interrupted, or has not returned, has not acted. *)
Theorem blocking_queue_is_linearizable : forall A (eqA : A -> A -> bool) capacity (es : list (event A)), Forall noNull (callsOf es) ->
  let y := run eqA capacity es in
  history eqA capacity [] (log (sh y)) (queue (sh y)) /\
  forall i k, nth_error (calls y) i = Some k ->
    match at_ k with
    | Ended WasInterrupted => entries i (log (sh y)) = []
    | Ended a => exists t, entries i (log (sh y)) = [(i, op k, a, t)]
    | _ => entries i (log (sh y)) = []
    end.
Proof.
  intros A eqA capacity es F y. pose proof (inv_run eqA capacity es F) as I. split; [apply I|]. intros i k K. pose proof (iCalls _ _ _ I i k K) as C. fold y in C.
  destruct (at_ k) as [| | | |a]; try tauto. destruct a; try assumption; destruct C as [t [C _]]; exists t; exact C.
Qed.
(** A call acts after it was made and before it returned: what is logged later is not of calls that have ended. *)
Theorem blocking_queue_order_agrees_with_time : forall A (eqA : A -> A -> bool) capacity (es1 es2 : list (event A)), exists later,
  log (sh (run eqA capacity (es1 ++ es2))) = log (sh (run eqA capacity es1)) ++ later /\
  (forall x, In x later -> forall k a, nth_error (calls (run eqA capacity es1)) (idOf x) = Some k -> at_ k <> Ended a).
Proof. intros A eqA capacity es1 es2. unfold run. rewrite fold_left_app. apply fold_log. Qed.
(** The queue never holds more elements than its capacity. *)
Theorem blocking_queue_is_bounded : forall A (eqA : A -> A -> bool) capacity (es : list (event A)), Forall noNull (callsOf es) -> (0 <= capacity)%Z ->
  (Z.of_nat (length (queue (sh (run eqA capacity es)))) <= capacity)%Z.
Proof. intros A eqA capacity es F C. apply (history_length eqA capacity _ [] _ (iHist _ _ _ (inv_run eqA capacity es F))). exact C. Qed.
(** Without remove and clear, the elements come out in the order they were put in; what has not come out is in the queue. *)
Theorem blocking_queue_is_fifo : forall A (eqA : A -> A -> bool) capacity (es : list (event A)), Forall noNull (callsOf es) -> Forall inOrder (callsOf es) ->
  let y := run eqA capacity es in flat_map putIn (log (sh y)) = flat_map takenOut (log (sh y)) ++ queue (sh y).
Proof.
  intros A eqA capacity es F G y. apply (history_flow eqA capacity (log (sh y)) [] (queue (sh y))); [|intros []|apply (iHist _ _ _ (inv_run eqA capacity es F))].
  intros i c a t I. rewrite Forall_forall in F, G. assert (C : In c (callsOf es)) by (apply (log_calls eqA capacity es i c a t); exact I). split; [apply G|apply F]; exact C.
Qed.
(** offer and poll with a time limit give up only when the limit is over. *)
Theorem gives_up_only_after_the_limit : forall A (eqA : A -> A -> bool) capacity (es : list (event A)) i k a t, Forall noNull (callsOf es) ->
  nth_error (calls (run eqA capacity es)) i = Some k -> In (i, op k, a, t) (log (sh (run eqA capacity es))) -> timely (op k) (born k) a t.
Proof.
  intros A eqA capacity es i k a t F K I. pose proof (inv_run eqA capacity es F) as V. pose proof (iCalls _ _ _ V i k K) as C.
  assert (E : In (i, op k, a, t) (entries i (log (sh (run eqA capacity es))))) by (apply filter_In; split; [exact I|apply Nat.eqb_refl]).
  assert (NO : entries i (log (sh (run eqA capacity es))) = [] -> timely (op k) (born k) a t) by (intro H; rewrite H in E; destruct E).
  destruct (at_ k) as [| | | |b]; try tauto. destruct b; try tauto; destruct C as [t0 [C T]]; rewrite C in E; destruct E as [E|[]]; injection E as <- <-; exact T.
Qed.
(** If nobody calls addAll or clear, a call is asleep only if it has to be: a put or offer if there is no room, a take or poll if there
    is no element; and with a time limit only as long as that allows, from when it began to wait. *)
Theorem asleep_only_if_needed : forall A (eqA : A -> A -> bool) capacity (es : list (event A)) i k, Forall noNull (callsOf es) -> Forall quiet (callsOf es) ->
  let y := run eqA capacity es in nth_error (calls y) i = Some k -> asleep eqA capacity (sh y) i k ->
  (waitsForRoom (op k) /\ (capacity <= Z.of_nat (length (queue (sh y))))%Z \/ waitsForElement (op k) /\ queue (sh y) = []) /\
  (forall d, limitOf (op k) = Some d -> exists since u, at_ k = Sleep since u /\ (now (sh y) < since + d)%Z).
Proof.
  intros A eqA capacity es i k F G y K [E N]. pose proof (inv_run eqA capacity es F) as V. fold y in V. pose proof (iCalls _ _ _ V i k K) as C. pose proof (sleepers_run eqA capacity es F G i k) as S. fold y in S.
  destruct (at_ k) as [|b u|b| |a] eqn:P; cbn [step] in N; try discriminate; [|congruence].
  destruct (mem i (interrupted (sh y))); [discriminate|]. destruct (mem i (waiting (sh y))) eqn:W; [|discriminate]. cbn [negb] in N. apply mem_In in W. specialize (S W K).
  destruct C as [_ [_ U]]. split.
  - destruct (op k); cbn in S |- *; try discriminate.
    + left. split; [exact I|]. apply negb_true_iff in S. unfold hasRoom in S. apply Z.ltb_ge in S. exact S.
    + left. split; [exact I|]. apply negb_true_iff in S. unfold hasRoom in S. apply Z.ltb_ge in S. exact S.
    + right. split; [exact I|]. destruct (queue (sh y)); [reflexivity|discriminate].
    + right. split; [exact I|]. destruct (queue (sh y)); [reflexivity|discriminate].
  - intros d L. rewrite L in U. subst u. cbn [option_map] in *. exists b, (Some (b + d)%Z). split; [reflexivity|]. destruct (b + d <=? now (sh y))%Z eqn:Q; [discriminate|]. apply Z.leb_gt in Q. exact Q.
Qed.

(** A case: a queue of capacity 1; a second put waits and is woken by a take; an offer gives up after its 5 milliseconds. *)
Definition story : list (event nat) :=
  [Begin (Put (Some 1)); Begin (Put (Some 2)); Begin (OfferFor (Some 3) (Some 5%Z)); Begin Take; Go 0; Go 1; Go 2; Tick 5; Go 2; Go 2; Go 3; Go 1; Go 1; Begin Take].
Example story_ok : Forall noNull (callsOf story) /\ Forall quiet (callsOf story) /\ Forall inOrder (callsOf story).
Proof. repeat split; cbn; repeat constructor; discriminate. Qed.
Example story_ends : let y := run Nat.eqb 1 story in
  map at_ (calls y) = [Ended Void; Ended Void; Ended (Is false); Ended (Elem (Some 1)); Start] /\ queue (sh y) = [Some 2] /\ map idOf (log (sh y)) = [0; 2; 3; 1].
Proof. vm_compute. auto. Qed.
(** And one where a taker sleeps for want of an element. *)
Example taker_sleeps : exists k, nth_error (calls (run Nat.eqb 1 [Begin Take; Go 0])) 0 = Some k /\ asleep Nat.eqb 1 (sh (run Nat.eqb 1 [Begin Take; Go 0])) 0 k.
Proof. eexists. split; [vm_compute; reflexivity|]. split; [intros a; discriminate|reflexivity]. Qed.

(** After addAll a taker sleeps on, though the queue has elements. *)
Theorem add_all_wakes_takers_refuted : let es := [Begin Take; Go 0; Begin (AddAll [Some 7; Some 8]); Go 1] in
  Forall noNull (callsOf es) /\ exists k, nth_error (calls (run Nat.eqb 5 es)) 0 = Some k /\ op k = Take /\ asleep Nat.eqb 5 (sh (run Nat.eqb 5 es)) 0 k /\
    queue (sh (run Nat.eqb 5 es)) = [Some 7; Some 8].
Proof.
  split; [repeat constructor; cbn; intros [H|[H|[]]]; discriminate|]. eexists. split; [vm_compute; reflexivity|]. split; [reflexivity|]. split; [split; [intros a; discriminate|reflexivity]|reflexivity].
Qed.
(** After clear a put sleeps on, though there is room. *)
Theorem clear_wakes_putters_refuted : let es := [Begin (Put (Some 1)); Go 0; Begin (Put (Some 2)); Go 1; Begin Clear; Go 2] in
  Forall noNull (callsOf es) /\ exists k, nth_error (calls (run Nat.eqb 1 es)) 1 = Some k /\ op k = Put (Some 2) /\ asleep Nat.eqb 1 (sh (run Nat.eqb 1 es)) 1 k /\
    queue (sh (run Nat.eqb 1 es)) = [].
Proof.
  split; [repeat constructor; cbn; discriminate|]. eexists. split; [vm_compute; reflexivity|]. split; [reflexivity|]. split; [split; [intros a; discriminate|reflexivity]|reflexivity].
Qed.
(** A null element is accepted; taking it removes it and throws, and wakes no put that waits for room. *)
Theorem null_element_refuted : let es := [Begin (Offer None); Go 0; Begin (Put (Some 2)); Go 1; Begin Poll; Go 2] in
  exists k, map at_ (calls (run Nat.eqb 1 es)) = [Ended (Is true); at_ k; Ended Throws] /\ nth_error (calls (run Nat.eqb 1 es)) 1 = Some k /\ asleep Nat.eqb 1 (sh (run Nat.eqb 1 es)) 1 k /\
    queue (sh (run Nat.eqb 1 es)) = [].
Proof. exists {| op := Put (Some 2); born := 0; at_ := Sleep 0 None |}. split; [vm_compute; reflexivity|]. split; [vm_compute; reflexivity|]. split; [split; [intros a; discriminate|reflexivity]|reflexivity]. Qed.

Definition bqueue_theorems := (blocking_queue_is_linearizable, blocking_queue_order_agrees_with_time, blocking_queue_is_bounded, blocking_queue_is_fifo,
  gives_up_only_after_the_limit, asleep_only_if_needed, add_all_wakes_takers_refuted, clear_wakes_putters_refuted, null_element_refuted).
Print Assumptions bqueue_theorems.
