From Coq Require Import List Bool Arith Lia.
From Verif Require Import JLinked_Model JLinked_Spec JLinked_Proofs.
Import ListNotations.

(** * C167: LinkedHashMap keeps the order of insertion

    Along every history of calls in which no key is removed that was removed before and is
    not in the map, every answer is that of a list of entries in the order in which the keys
    were first put; in particular iteration ends, and gives each key once with its value. *)
Theorem C167_linked_map_keeps_the_order : forall {V} (cs : list (call V)), tame cs [] [] -> run cs fresh = expected cs [].
Proof. intros V cs T. exact (run_ok cs fresh [] [] fresh_ok T). Qed.
(** The contents after the calls. *)
Fixpoint contents {V} (cs : list (call V)) (l : list (key * V)) : list (key * V) :=
  match cs with
  | [] => l
  | Put k v :: r => contents r (putIn k v l)
  | Remove k :: r => contents r (removeFrom k l)
  | Clear :: r => contents r []
  | _ :: r => contents r l
  end.
Fixpoint state {V} (cs : list (call V)) (m : lmap V) : lmap V := match cs with [] => m | c :: r => state r (fst (exec c m)) end.
(** remove of an iterator removes the entry that its last next() gave, for every state reached
    by such calls and every place of the iterator. *)
Theorem C167_iterator_removes_what_it_gave : forall {V} (cs : list (call V)) n e, tame cs [] [] ->
  nth_error (contents cs []) n = Some e -> let m := state cs fresh in iteratorRemoves m (after (S n) m (first m)) = Some (fst e).
Proof.
  intros V cs n e T E. assert (X : exists seen, inv (state cs fresh) seen (contents cs [])).
  { clear E. revert T. generalize (@fresh_ok V). generalize (@nil (key * V)), (@nil key), (@fresh V). induction cs as [|c cs IH]; intros l seen m I0 T; [exists seen; exact I0|].
    destruct c as [k v|k| |k| ]; cbn [state contents tame exec fst] in *.
    - destruct (put_ok k v m seen l I0) as (m' & E & I'). rewrite E. eapply IH; eauto.
    - destruct T as [T1 T]. pose proof (remove_ok k m seen l I0 T1) as [_ B]. destruct (remove k m) as [m' o]. eapply IH; eauto.
    - eapply IH; [eapply clear_ok; eauto|exact T].
    - eapply IH; eauto.
    - eapply IH; eauto. }
  destruct X as [seen X]. eapply iterator_remove_ok; eauto.
Qed.
(** A history that meets the hypothesis: a key put again keeps its place, a key removed and put
    again goes to the end. *)
Example linked_somewhere :
  let cs := [Put 3 30; Put 1 10; Put 2 20; Put 3 31; Iterate; Remove 1; Remove 9; Put 1 11; Iterate; Clear; Put 7 70; Iterate] in
  tame cs [] [] /\
  run cs fresh = [Value None; Value None; Value None; Value (Some 30); Entries (Some [(3, Some 31); (1, Some 10); (2, Some 20)]);
                  Value (Some 10); Value None; Value None; Entries (Some [(3, Some 31); (2, Some 20); (1, Some 11)]); Nothing; Value None; Entries (Some [(7, Some 70)])].
Proof. split; [|reflexivity]. vm_compute. intuition congruence. Qed.

(** * C168: removing a key that is not there does nothing

    False: a key removed twice links its old neighbours again. Here 3, removed, comes back
    with a null entry. *)
Theorem C168_remove_twice_refuted : exists cs : list (call nat),
  cs = [Put 1 10; Put 2 20; Put 3 30; Remove 2; Remove 3; Remove 2; Iterate] /\
  nth_error (expected cs []) 6 = Some (Entries (Some [(1, Some 10)])) /\
  nth_error (run cs fresh) 6 = Some (Entries (Some [(1, Some 10); (3, None)])).
Proof. eexists. split; [reflexivity|]. split; reflexivity. Qed.
(** After clear, removing a key of before brings back others and loses those put since. *)
Theorem C168_remove_after_clear_refuted : exists cs : list (call nat),
  cs = [Put 1 10; Put 2 20; Clear; Put 3 30; Remove 1; Iterate] /\
  nth_error (expected cs []) 5 = Some (Entries (Some [(3, Some 30)])) /\
  nth_error (run cs fresh) 5 = Some (Entries (Some [(2, None)])).
Proof. eexists. split; [reflexivity|]. split; reflexivity. Qed.
(** And put fails with a NullPointerException, the list having a beginning and no end. *)
Theorem C168_put_fails_refuted : exists cs : list (call nat),
  cs = [Put 1 10; Put 2 20; Clear; Remove 1; Put 4 40] /\ nth_error (expected cs []) 4 = Some (Value None) /\ nth_error (run cs fresh) 4 = Some NullPointer.
Proof. eexists. split; [reflexivity|]. split; reflexivity. Qed.

Definition JLinked_theorems :=
  (@C167_linked_map_keeps_the_order, @C167_iterator_removes_what_it_gave, C168_remove_twice_refuted, C168_remove_after_clear_refuted, C168_put_fails_refuted).
Print Assumptions JLinked_theorems.
