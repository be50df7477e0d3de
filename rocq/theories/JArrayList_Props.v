(** * Properties of java.util.ArrayList. *)
From Coq Require Import List ZArith Lia Bool Arith.
From Verif Require Import JArrayList_Model JArrayList_Spec JArrayList_Proofs.
Import ListNotations.

(** Whatever is called on a new list, every call answers as it would for a plain sequence of elements — whenever the array behind it is grown,
    halved or thrown away, for elements of any type and any [equals], for null elements too, apart from the calls [fine] leaves out. *)
Theorem array_list_is_a_list : forall A (eqA : A -> A -> bool) (os : list (op A)),
  allFine eqA os [] -> answers (exec eqA) os new = answers (spec eqA) os [].
Proof. intros A eqA os F. apply (answers_ok eqA os new [] rep_new); [cbn; lia|exact F]. Qed.

(** An iterator over any such list is a cursor: it goes over the elements both ways, removes exactly the element it returned last, and the list
    afterwards answers every further call as the sequence without the removed elements. *)
Theorem array_list_iterator_is_a_cursor : forall A (eqA : A -> A -> bool) (os os2 : list (op A)) (its : list iterOp),
  allFine eqA os [] ->
  let real := runIter execIter its (iterator (final (exec eqA) os new)) in
  let ideal := runIter specIter its {| items := final (spec eqA) os []; pos := 0; lastRet := None |} in
  snd real = snd ideal /\ (allFine eqA os2 (items (fst ideal)) -> answers (exec eqA) os2 (list_ (fst real)) = answers (spec eqA) os2 (items (fst ideal))).
Proof.
  intros A eqA os os2 its F real ideal. destruct (final_ok eqA os new [] rep_new ltac:(cbn; lia) F) as [R B].
  destruct (runIter_ok eqA its (iterator (final (exec eqA) os new)) {| items := final (spec eqA) os []; pos := 0; lastRet := None |}) as [R' E].
  - split; cbn; auto. lia.
  - split; [exact E|]. intro F2. apply (answers_ok eqA os2 _ _ (irList _ _ R')); [|exact F2].
    pose proof (runIter_bound its {| items := final (spec eqA) os []; pos := 0; lastRet := None |}) as H. cbn [items] in H. fold ideal in H. fold ideal. lia.
Qed.

(** The calls meet the hypotheses in a case where the array grows to 32 places and is halved again. *)
Definition story : list (op nat) :=
  map (fun n => Add (Some n)) (seq 0 20) ++ [AddAt 3 None; IndexOf None; Get 4] ++ map (fun _ => RemoveAt 1%Z) (seq 0 15) ++ [SetAt 0 (Some 7); RemoveElem (Some 17); LastIndexOf (Some 19); Elements; ToArray; Ensure 100; Get 9; Clear; Size].
Example story_fine : allFine Nat.eqb story [].
Proof. vm_compute. repeat (split; [first [reflexivity | exact I | (split; [reflexivity|split; discriminate]) | (intros H; repeat (destruct H as [H|H]; [discriminate|]); exact H)]|]). exact I. Qed.
Example story_answers : skipn 38 (answers (exec Nat.eqb) story new) =
  [Elem (Some 0); Bool true; Int 4; All [Some 7; Some 15; Some 16; Some 18; Some 19]; All [Some 7; Some 15; Some 16; Some 18; Some 19]; Done; Throws; Done; Int 0].
Proof. vm_compute. reflexivity. Qed.
Example story_capacities : let after n := option_map (@length _) (array (final (exec Nat.eqb) (firstn n story) new)) in
  map after [0; 1; 17; 23; 33; 34; 43; 46] = [None; Some 16; Some 32; Some 32; Some 32; Some 16; Some 16; None].
Proof. vm_compute. reflexivity. Qed.
Example iterator_story :
  let r := runIter execIter [Next; Next; IRemove; IRemove; Previous; IRemove; HasPrevious; Next; HasNext] (iterator (final (exec Nat.eqb) [Add (Some 1); Add (Some 2); Add (Some 3)] new)) in
  snd r = [Elem (Some 1); Elem (Some 2); Done; Throws; Elem (Some 1); Done; Bool false; Elem (Some 3); Bool false] /\
  answers (exec Nat.eqb) [Elements; Size] (list_ (fst r)) = [All [Some 3]; Int 1].
Proof. vm_compute. auto. Qed.

(** Without [fine] the theorem is false. Adding behind the end makes the list longer, and shows elements removed before; adding at -1 throws,
    but the list is longer afterwards. *)
Theorem add_out_of_bounds_refuted :
  let calls := [Add (Some 1); Add (Some 2); Add (Some 3); RemoveAt 0; AddAt 4 (Some 9); Elements] in
  answers (exec Nat.eqb) calls new = [Bool true; Bool true; Bool true; Elem (Some 1); Done; All [Some 2; Some 3; Some 3; None; Some 9]] /\
  answers (spec Nat.eqb) calls [] = [Bool true; Bool true; Bool true; Elem (Some 1); Throws; All [Some 2; Some 3]] /\
  answers (exec Nat.eqb) [AddAt (-1) (Some 9); Elements] new = [Throws; All [None]] /\
  answers (spec Nat.eqb) [AddAt (-1) (Some 9); Elements] [] = [Throws; All []].
Proof. vm_compute. auto. Qed.
(** [toArray] throws for any list with a null element. *)
Theorem to_array_of_null_refuted : forall A (eqA : A -> A -> bool) (os : list (op A)),
  allFine eqA os [] -> In None (final (spec eqA) os []) ->
  answers (exec eqA) [ToArray] (final (exec eqA) os new) = [Throws] /\ answers (spec eqA) [ToArray] (final (spec eqA) os []) = [All (final (spec eqA) os [])].
Proof.
  intros A eqA os F I. destruct (final_ok eqA os new [] rep_new ltac:(cbn; lia) F) as [R _]. split; [|reflexivity]. cbn. rewrite (rep_elements _ _ R).
  replace (existsb _ (final (spec eqA) os [])) with true; [reflexivity|]. symmetry. apply existsb_exists. exists None. auto.
Qed.
Example to_array_of_null_example : allFine Nat.eqb [Add (Some 1); Add None] [] /\ In None (final (spec Nat.eqb) [Add (Some 1); Add None] []).
Proof. cbn. intuition lia. Qed.
(** Adding any list that is not empty to itself goes on as long as there is room for more elements. *)
Theorem add_all_of_itself_refuted : forall A (eqA : A -> A -> bool) (os : list (op A)) steps,
  allFine eqA os [] -> final (spec eqA) os [] <> [] -> (Z.of_nat (length (final (spec eqA) os [])) + Z.of_nat steps < 2 ^ 31 - 1)%Z ->
  addAllOfItself eqA steps (iterator (final (exec eqA) os new)) = None.
Proof.
  intros A eqA os steps F N B. destruct (final_ok eqA os new [] rep_new ltac:(cbn; lia) F) as [R _].
  apply (addAllOfItself_ok eqA steps (iterator (final (exec eqA) os new)) _ 0 R); [reflexivity| |exact B]. destruct (final (spec eqA) os []); [congruence|cbn; lia].
Qed.
Example add_all_of_itself_example : addAllOfItself Nat.eqb 100 (iterator (final (exec Nat.eqb) [Add (Some 1)] new)) = None /\
  addAllOfItself Nat.eqb 1 (iterator (final (exec Nat.eqb) [] new)) = Some new.
Proof. vm_compute. auto. Qed.

Definition jarraylist_theorems := (array_list_is_a_list, array_list_iterator_is_a_cursor, add_out_of_bounds_refuted, @to_array_of_null_refuted, @add_all_of_itself_refuted).
Print Assumptions jarraylist_theorems.
