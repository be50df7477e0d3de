(** ConcurrentHashMap: calls of any number of threads, and keys that get lost. *)
From Coq Require Import ZArith Lia Bool List.
Import ListNotations.
From Verif Require Import JNum_Model PSet_Model CMap_Model CMap_Spec CMap_Proofs.

Section Props.
Context {K V : Type}.
Variable keq : K -> K -> bool.
Variable veq : V -> V -> bool.
Variable hash : K -> Z.
Hypothesis keqOk : forall a b, keq a b = true <-> a = b.

Lemma inv_run os is : spread hash (uses os) -> inv keq veq hash (uses os) (run keq veq hash is (start os)).
Proof. intro SP. apply run_inv; auto. apply start_inv. intros o I k E. exists o. auto. Qed.

(** C127: whatever calls are made and however their steps interleave, there is one order of the calls in which they act at once
    on a map, each answering as it did; a call that has returned is in it once, a call that has not returned is not in it.
    The keys must have different hash codes that are not too far apart. *)
Theorem concurrent_map_is_linearizable : forall os is, spread hash (uses os) ->
  let s := run keq veq hash is (start os) in
  (exists m, legal keq veq (fun _ => None) (log s) m) /\
  forall i o p, nth_error (calls s) i = Some (o, p) -> ofCall i (log s) = match p with Returned a => [(i, o, a)] | _ => [] end.
Proof.
  intros os is SP s. pose proof (inv_run os is SP) as I. fold s in I. split.
  - destruct (iMap _ _ _ _ _ I) as [m [L _]]. eauto.
  - intros i o p H. destruct (iPlaces _ _ _ _ _ I i o p H) as [_ P]. destruct p; cbn [placeInv] in P; tauto.
Qed.
(** The order agrees with time: what is in it stays where it is, and calls that return later come later. *)
Theorem order_agrees_with_time : forall os is more, exists l, log (run keq veq hash (is ++ more) (start os)) = log (run keq veq hash is (start os)) ++ l.
Proof.
  intros os is more. replace (run keq veq hash (is ++ more) (start os)) with (run keq veq hash more (run keq veq hash is (start os))); [apply log_grows|].
  generalize (start os). induction is as [|i is IH]; intro s; [reflexivity|]. apply IH.
Qed.
(** A call tries again only if another call has acted since it read the map. *)
Theorem retry_only_if_another_acted : forall os is i o id seen c' a, spread hash (uses os) ->
  let s := run keq veq hash is (start os) in
  nth_error (calls s) i = Some (o, Swapping id seen c' a) -> seen <= length (log s) /\
  (nth_error (calls (step keq veq hash i s)) i <> Some (o, Returned a) -> seen < length (log s)).
Proof.
  intros os is i o id seen c' a SP s H. pose proof (inv_run os is SP) as I. fold s in I.
  destruct (iPlaces _ _ _ _ _ I i _ _ H) as [_ P]. cbn [placeInv] in P. destruct P as [_ [_ [_ [_ [_ [P6 P7]]]]]]. split; [exact P6|].
  intro N. apply P7. intro Q. apply N. unfold step. rewrite H. rewrite Q, Nat.eqb_refl. cbn [calls]. rewrite (nth_setPlace _ _ _ _ _ _ H), Nat.eqb_refl. reflexivity.
Qed.
(** C128: keySet().contains and keySet().remove of a key that is not there throw. *)
Theorem key_set_of_absent_key_refuted : forall (c : content K V) k, cellOf keq hash c k = None -> keySetContains keq hash c k = None /\ keySetRemove keq hash c k = None.
Proof. intros c k H. unfold keySetContains, keySetRemove, removeWish. rewrite H. auto. Qed.
End Props.

(** *** Examples *)
Definition idhash (z : Z) : Z := z.
Definition someCalls : list (op Z Z) := [Put 5 50; PutIfAbsent 5 51; Put 7 70; Remove 5; Size; Entries; ReplaceIf 7 70 71; Get 7]%Z.
Lemma spread_someCalls : spread idhash (uses someCalls).
Proof.
  assert (U : forall k, uses someCalls k -> (k = 5 \/ k = 7)%Z).
  { intros k [o [I E]]. cbn in I. repeat (destruct I as [<-|I]; [cbn in E; try discriminate; injection E as <-; auto|]). contradiction. }
  intros a b A B. apply U in A. apply U in B. unfold idhash. lia.
Qed.
(** The second call overtakes the first, which then tries again. *)
Example overtaken : map (fun c => snd c) (calls (run Z.eqb Z.eqb idhash [0;0;1;1;1;0;0;0;2;2;2;4;4;5;5;6;6;3;3;3;6;6;6;7;7] (start someCalls))) =
  [Returned (Value (Some 51)); Returned (Value None); Returned (Value None); Returned (Value (Some 50)); Returned (Number 2); Returned (All [(5, 50); (7, 70)]);
   Returned (Yes true); Returned (Value (Some 71))]%Z.
Proof. vm_compute. reflexivity. Qed.

(** C128: a single thread puts keys and asks for them. *)
Fixpoint alone (n i : nat) : list nat := match n with O => [] | S m => i :: i :: i :: alone m (S i) end.
Definition answersAlone (hash : Z -> Z) (os : list (op Z Z)) : list (answer Z Z) := map snd (log (run Z.eqb Z.eqb hash (alone (length os) 0) (start os))).
(** Two keys of the same hash code: the first is lost, though it is counted. *)
Theorem same_hash_code_refuted : answersAlone (fun _ => 0%Z) [Put 1 10; Put 2 20; Get 2; Get 1; Size]%Z = [Value None; Value None; Value (Some 20); Value None; Number 2]%Z.
Proof. vm_compute. reflexivity. Qed.
(** Hash codes whose difference overflows: a key is lost when the tree is rebalanced. *)
Definition farKeys : list Z := ([0; 1500000000; -1500000000; -1500000001; -1500000002; -1500000003; -1500000004; -1500000005])%Z.
Theorem far_hash_codes_refuted :
  answersAlone idhash (map (fun k => Put k 1) (firstn 7 farKeys) ++ [Get 1500000000] ++ [Put (-1500000005) 1; Get 1500000000; Size])%Z =
  (repeat (Value None) 7 ++ [Value (Some 1); Value None; Value None; Number 8])%Z.
Proof. vm_compute. reflexivity. Qed.

Definition CMap_theorems := (@concurrent_map_is_linearizable, @order_agrees_with_time, @retry_only_if_another_acted, @key_set_of_absent_key_refuted,
  same_hash_code_refuted, far_hash_codes_refuted).
Print Assumptions CMap_theorems.
