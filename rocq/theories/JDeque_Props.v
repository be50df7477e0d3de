(** Properties of java.util.ArrayDeque.  The meaning of the calls is JDeque_Spec. *)
From Coq Require Import ZArith Lia Bool List.
Import ListNotations.
From Verif Require Import JDeque_Model JDeque_Spec JDeque_Proofs.
Local Open Scope Z_scope.

(** A call of a user, carried out by the code. *)
Definition perform (c : call) (d : deque) : out (answer * deque) :=
  match c with
  | OfferFirst e => bindO (offerFirst d e) (fun d' => Val (Nothing, d'))
  | OfferLast e => bindO (offerLast d e) (fun d' => Val (Nothing, d'))
  | PollFirst => bindO (pollFirst d) (fun x => Val (Ref (fst x), snd x))
  | PollLast => bindO (pollLast d) (fun x => Val (Ref (fst x), snd x))
  | PeekFirst => bindO (peekFirst d) (fun r => Val (Ref r, d))
  | PeekLast => bindO (peekLast d) (fun r => Val (Ref r, d))
  | Clear => Val (Nothing, clear d)
  | Size => Val (Number (size d), d)
  | ToArray => bindO (toArray d) (fun l => Val (Refs l, d))
  | Iterate => bindO (iterator d) (fun l => Val (Refs l, d))
  | Contains e => bindO (contains d e) (fun b => Val (Truth b, d))
  end.
Fixpoint performAll (cs : list call) (d : deque) : out (list answer * deque) :=
  match cs with
  | [] => Val ([], d)
  | c :: r => bindO (perform c d) (fun x =>
              bindO (performAll r (snd x)) (fun y => Val (fst x :: fst y, snd y)))
  end.

Lemma perform_ok c d l : repr d l -> exists d', perform c d = Val (fst (expected c l), d') /\ repr d' (snd (expected c l)).
Proof.
  intro R. destruct c; cbn [perform expected fst snd].
  - destruct (offerFirst_ok d l e R) as [d' [E R']]. rewrite E. cbn [bindO fst snd]. eauto.
  - destruct (offerLast_ok d l e R) as [d' [E R']]. rewrite E. cbn [bindO fst snd]. eauto.
  - destruct (pollFirst_ok d l R) as [d' [E R']]. rewrite E. cbn [bindO fst snd]. eauto.
  - destruct (pollLast_ok d l R) as [d' [E R']]. rewrite E. cbn [bindO fst snd]. eauto.
  - rewrite (peekFirst_ok d l R). cbn [bindO]. eauto.
  - rewrite (peekLast_ok d l R). cbn [bindO]. eauto.
  - eexists. split; [reflexivity|]. apply empty_repr. apply (rCap _ _ R).
  - rewrite (rN _ _ R). cbn [bindO]. eauto.
  - rewrite (toArray_ok d l R). cbn [bindO]. eauto.
  - rewrite (iterator_ok d l R). cbn [bindO]. eauto.
  - rewrite (contains_ok d l e R). cbn [bindO]. eauto.
Qed.

Lemma performAll_ok cs : forall d l, repr d l -> exists d', performAll cs d = Val (expectedAll cs l, d').
Proof.
  induction cs as [|c cs IH]; intros d l R; cbn [performAll expectedAll]; [eauto|].
  destruct (perform_ok c d l R) as [d1 [E R1]]. rewrite E. cbn [bindO snd fst].
  destruct (IH _ _ R1) as [d2 E2]. rewrite E2. cbn [bindO snd fst]. eauto.
Qed.

(** C113: whatever calls are made, in whatever order, a deque created with room for at
    least one element answers each as the list of its elements does, and never throws. *)
Theorem deque_is_a_list : forall capacity cs, 1 <= capacity ->
  exists d d', newDeque capacity = Val d /\ performAll cs d = Val (expectedAll cs [], d').
Proof.
  intros n cs H. unfold newDeque. destruct (newArray_ok n) as [a [E E2]]; [lia|]. rewrite E. cbn [bindO].
  destruct (performAll_ok cs (Deque a 0 0 0 1) []) as [d' Ed]; [apply empty_repr; lia|]. eauto.
Qed.

Example deque_is_a_list_at_work :
  bindO (newDeque 2) (fun d => bindO (performAll
    [OfferLast 1; OfferFirst 2; OfferFirst 3; OfferLast 4; OfferLast 5; PollFirst; PeekLast; ToArray; PollLast; Contains 4;
     Iterate; Size; Clear; PollFirst] d) (fun x => Val (fst x)))
  = Val [Nothing; Nothing; Nothing; Nothing; Nothing; Ref 3; Ref 5; Refs [2; 1; 4; 5]; Ref 5; Truth true;
         Refs [2; 1; 4]; Number 3; Nothing; Ref 0].
Proof. vm_compute. reflexivity. Qed.

(** C114, refuted.  The elements without the first one equal to e. *)
Fixpoint without (e : Z) (l : list Z) : list Z :=
  match l with [] => [] | x :: r => if x =? e then r else x :: without e r end.
(** The state of a deque created with the default capacity of 16 after some calls. *)
Definition after (cs : list call) : out deque := bindO (newDeque 16) (fun d => bindO (performAll cs d) (fun x => Val (snd x))).

(** Removing an element that is present removes it and nothing else. *)
Definition removal_is_right := forall cs d l e, after cs = Val d -> toArray d = Val l -> In e l ->
  exists d', removeFirstOccurrence d e = Val (true, d') /\ toArray d' = Val (without e l).

Definition sixteen : list Z := [1;2;3;4;5;6;7;8;9;10;11;12;13;14;15;16].

(** With sixteen elements, removing the second throws. *)
Theorem removal_throws_refuted : ~ removal_is_right.
Proof.
  intro H.
  destruct (after (map OfferLast sixteen)) as [d|] eqn:E; [|vm_compute in E; discriminate].
  destruct (H (map OfferLast sixteen) d sixteen 2 E) as [d' [E1 _]].
  - vm_compute in E. injection E as <-. vm_compute. reflexivity.
  - unfold sixteen. simpl. tauto.
  - vm_compute in E. injection E as <-. vm_compute in E1. discriminate.
Qed.

(** Elements that start near the end of the array: 14 to 16 stay, 17 to 29 join them. *)
Definition around : list call := map OfferLast sixteen ++ repeat PollFirst 13 ++ map OfferLast [17;18;19;20;21;22;23;24;25;26;27;28;29].
(** Removing 16, the third element, succeeds, but the second is lost as well, and a null
    appears at the end. *)
Theorem removal_loses_another_element_refuted :
  bindO (after around) toArray = Val [14;15;16;17;18;19;20;21;22;23;24;25;26;27;28;29] /\
  bindO (after around) (fun d => bindO (removeFirstOccurrence d 16) (fun x =>
    bindO (toArray (snd x)) (fun l => Val (fst x, l))))
  = Val (true, [14;17;18;19;20;21;22;23;24;25;26;27;28;29;0]).
Proof. split; vm_compute; reflexivity. Qed.

(** Iterating backwards gives the elements in reverse. *)
Definition descending_is_right := forall cs d l, after cs = Val d -> toArray d = Val l -> descendingIterator d = Val (rev l).
Theorem descending_iteration_throws_refuted : ~ descending_is_right.
Proof.
  intro H.
  destruct (after [OfferLast 1; OfferFirst 2]) as [d|] eqn:E; [|vm_compute in E; discriminate].
  specialize (H _ d [2; 1] E). vm_compute in E. injection E as <-.
  specialize (H ltac:(vm_compute; reflexivity)). vm_compute in H. discriminate.
Qed.

(** Every deque accepts elements. *)
Definition every_deque_accepts := forall capacity d e, newDeque capacity = Val d -> exists d', offerLast d e = Val d'.
Theorem empty_capacity_throws_refuted : ~ every_deque_accepts.
Proof.
  intro H. destruct (H 0 (Deque [] 0 0 0 1) 1) as [d' E]; [reflexivity|]. vm_compute in E. discriminate.
Qed.

Definition JDeque_theorems := (deque_is_a_list, removal_throws_refuted, removal_loses_another_element_refuted,
  descending_iteration_throws_refuted, empty_capacity_throws_refuted).
Print Assumptions JDeque_theorems.
