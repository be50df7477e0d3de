(** * Properties of java.util.LinkedList. *)
From Coq Require Import List ZArith Lia Bool Arith.
From Verif Require Import JList_Model JList_Spec JList_Proofs.
Import ListNotations.

(** Whatever is called on a new list, every call answers as it would for a plain sequence of elements — for elements of any type and any
    [equals], for null elements too, apart from the calls [fine] leaves out. *)
Theorem linked_list_is_a_list : forall A (eqA : A -> A -> bool) (os : list (op A)),
  allFine eqA os [] -> answers (exec eqA) os new = answers (spec eqA) os [].
Proof. intros A eqA os F. apply (answers_ok eqA os new [] [] (rep_new) F). Qed.

(** An iterator over any such list is a cursor: it goes over the elements both ways, removes exactly the element it returned last, and the list
    afterwards answers every further call as the sequence without the removed elements. *)
Theorem list_iterator_is_a_cursor : forall A (eqA : A -> A -> bool) (os os2 : list (op A)) (its : list iterOp),
  allFine eqA os [] ->
  let real := runIter execIter its (iterator (final (exec eqA) os new)) in
  let ideal := runIter specIter its {| items := final (spec eqA) os []; pos := 0; lastRet := None |} in
  snd real = snd ideal /\ (allFine eqA os2 (items (fst ideal)) -> answers (exec eqA) os2 (list_ (fst real)) = answers (spec eqA) os2 (items (fst ideal))).
Proof.
  intros A eqA os os2 its F real ideal. destruct (final_ok eqA os new [] [] rep_new F) as [ids R].
  destruct (runIter_ok its (iterator (final (exec eqA) os new)) ids {| items := final (spec eqA) os []; pos := 0; lastRet := None |}) as [[ids' R'] E].
  - split; cbn; auto. lia.
  - split; [exact E|]. intro F2. apply (answers_ok eqA os2 _ ids' _ (irList _ _ _ R') F2).
Qed.

(** The calls meet the hypotheses in a case where elements are added at both ends, replaced, looked up and removed in the middle. *)
Definition story : list (op nat) :=
  [AddLast (Some 1); AddLast None; AddFirst (Some 2); AddLast (Some 1); Elements; Set_ 2 (Some 7); LastIndexOf (Some 1); RemoveElem None; Elements; PollLast; Get 5; RemoveAt 0; Elements].
Example story_fine : allFine Nat.eqb story [].
Proof. cbn. repeat split; discriminate. Qed.
Example story_answers : answers (exec Nat.eqb) story new =
  [Done; Done; Done; Done; All [Some 2; Some 1; None; Some 1]; Elem None; Int 3; Bool false; All [Some 2; Some 1; Some 7; Some 1]; Elem (Some 1); Throws; Elem (Some 2); All [Some 1; Some 7]].
Proof. vm_compute. reflexivity. Qed.
Example iterator_story :
  let r := runIter execIter [Next; Next; IRemove; IRemove; Previous; IRemove; HasPrevious; Next; HasNext] (iterator (final (exec Nat.eqb) [AddLast (Some 1); AddLast (Some 2); AddLast (Some 3)] new)) in
  snd r = [Elem (Some 1); Elem (Some 2); Done; Throws; Elem (Some 1); Done; Bool false; Elem (Some 3); Bool false] /\
  answers (exec Nat.eqb) [Elements; Size] (list_ (fst r)) = [All [Some 3]; Int 1].
Proof. vm_compute. auto. Qed.

(** Without [fine] the theorem is false. Adding at an index above 0 loses the count and the way back. *)
Theorem add_at_index_refuted :
  answers (exec Nat.eqb) [AddLast (Some 1); AddLast (Some 3); AddAt 1 (Some 2); Size; Elements; LastIndexOf (Some 2)] new =
    [Done; Done; Done; Int 2; All [Some 1; Some 2; Some 3]; Int (-1)] /\
  answers (spec Nat.eqb) [AddLast (Some 1); AddLast (Some 3); AddAt 1 (Some 2); Size; Elements; LastIndexOf (Some 2)] [] =
    [Done; Done; Done; Int 3; All [Some 1; Some 2; Some 3]; Int 1] /\
  answers (exec Nat.eqb) [AddLast (Some 1); AddAt 1 (Some 2)] new = [Done; Throws] /\
  answers (spec Nat.eqb) [AddLast (Some 1); AddAt 1 (Some 2)] [] = [Done; Done].
Proof. vm_compute. auto. Qed.
(** [removeFirstOccurrence] and [removeLastOccurrence] do not remove an element that is first in the list. *)
Theorem remove_occurrence_refuted : forall (o : op nat), In o [RemoveFirstOccurrence (Some 1); RemoveLastOccurrence (Some 1)] ->
  answers (exec Nat.eqb) [AddLast (Some 1); AddLast (Some 2); o; Elements] new = [Done; Done; Bool false; All [Some 1; Some 2]] /\
  answers (spec Nat.eqb) [AddLast (Some 1); AddLast (Some 2); o; Elements] [] = [Done; Done; Bool true; All [Some 2]].
Proof. intros o [<-|[<-|[]]]; vm_compute; auto. Qed.
(** [pollLast] throws on an empty list; [pollFirst] answers null, as both should. *)
Theorem poll_last_refuted :
  answers (exec Nat.eqb) [PollFirst; PollLast] new = [Elem None; Throws] /\ answers (spec Nat.eqb) [PollFirst; PollLast] [] = [Elem None; Elem None].
Proof. vm_compute. auto. Qed.
(** [removeFirst] and [removeLast] of a null element remove it and throw all the same; [element] throws. *)
Theorem remove_null_refuted : forall (o : op nat), In o [RemoveFirst; RemoveLast] ->
  answers (exec Nat.eqb) [AddLast None; o; Size] new = [Done; Throws; Int 0] /\ answers (spec Nat.eqb) [AddLast None; o; Size] [] = [Done; Elem None; Int 0] /\
  answers (exec Nat.eqb) [AddLast None; Element] new = [Done; Throws] /\ answers (spec Nat.eqb) [AddLast None; Element] [] = [Done; Elem None].
Proof. intros o [<-|[<-|[]]]; vm_compute; auto. Qed.

(** [removeAll] leaves all but the first occurrence of an element. *)
Theorem remove_all_refuted :
  let r := removeAll Nat.eqb [Some 1] (final (exec Nat.eqb) [AddLast (Some 1); AddLast (Some 2); AddLast (Some 1)] new) in
  snd r = true /\ answers (exec Nat.eqb) [Elements] (fst r) = [All [Some 2; Some 1]].
Proof. vm_compute. auto. Qed.

Definition jlist_theorems := (linked_list_is_a_list, list_iterator_is_a_cursor, add_at_index_refuted, remove_occurrence_refuted, poll_last_refuted, remove_null_refuted, remove_all_refuted).
Print Assumptions jlist_theorems.
