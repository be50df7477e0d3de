(** Arrays.sort, Collections.sort, binarySearch and reverse. *)
From Coq Require Import ZArith List Bool Lia Permutation.
Import ListNotations.
From Verif Require Import JNum_Model JSort_Model JSort_Spec JSort_Proofs.
Local Open Scope Z_scope.

(** With a comparator that keeps its contract, sort throws nothing and ends; the result has the same elements, in order. *)
Theorem sort_sorts {A} (cmp : A -> A -> Z) (l : list A) : comparator cmp -> exists r, sort cmp l = Some r /\ Permutation r l /\ sorted cmp r.
Proof. intro C. destruct (sort_ok cmp C l) as [r [A1 [A2 [A3 _]]]]. eauto. Qed.
(** Up to sixteen elements, those that compare equal stay in order. *)
Theorem sort_is_stable_partial {A} (cmp : A -> A -> Z) (l r : list A) : comparator cmp -> (length l <= 16)%nat -> sort cmp l = Some r -> sameOrder cmp l r.
Proof. intros C L E. destruct (sort_ok cmp C l) as [r' [A1 [_ [_ A4]]]]. rewrite E in A1. inversion A1; subst. exact (A4 L). Qed.
Lemma minus_comparator : comparator Z.sub.
Proof. constructor; [intros; destruct (Z.sgn_spec (x - y)) as [[? ->]|[[? ->]|[? ->]]], (Z.sgn_spec (y - x)) as [[? ->]|[[? ->]|[? ->]]]; lia|lia]. Qed.
(** A comparator that sees only the tens; nineteen elements, so they are partitioned. *)
Definition tens (x y : Z) : Z := x / 10 - y / 10.
Lemma tens_comparator : comparator tens.
Proof. unfold tens. destruct minus_comparator as [A B]. constructor; intros; [apply A|eapply B; eassumption]. Qed.
Example sort_sorts_case :
  sort Z.sub [5; 19; 3; 3; 18; 7; 1; 0; 2; 11; 17; 6; 4; 16; 8; 15; 9; 13; 14] = Some [0; 1; 2; 3; 3; 4; 5; 6; 7; 8; 9; 11; 13; 14; 15; 16; 17; 18; 19] /\
  sort tens [35; 11; 32; 19; 0; 15] = Some [0; 11; 19; 15; 35; 32].
Proof. split; vm_compute; reflexivity. Qed.

(** Not in general: the contract of both methods is a stable sort. *)
Theorem sort_is_stable_refuted : ~ (forall A (cmp : A -> A -> Z) (l r : list A), comparator cmp -> sort cmp l = Some r -> sameOrder cmp l r).
Proof.
  intro H. specialize (H Z tens [10; 11; 12; 13; 14; 15; 16; 17; 18; 19; 10; 11; 12; 13; 14; 15; 16] _ tens_comparator ltac:(vm_compute; reflexivity) 10). vm_compute in H. discriminate H.
Qed.
(** And the order of Integer.compareTo, which overflows, is no order: 2147483647 is put before -1. *)
Theorem sort_of_integers_refuted : ~ (forall l : list Z, Forall (fun x => - 2 ^ 31 <= x < 2 ^ 31) l -> exists r, sort intCompareTo l = Some r /\ sorted Z.sub r).
Proof.
  intro H. destruct (H [2 ^ 31 - 1; -1] ltac:(repeat (constructor; [lia|]); constructor)) as [r [E S]]. vm_compute in E. inversion E; subst r.
  specialize (S 0%nat 1%nat _ _ ltac:(lia) eq_refl eq_refl). vm_compute in S. apply S. reflexivity.
Qed.

(** Searching a part of a sorted array of int, or a sorted list: the index of an element that is equal, or where it would have to be.  More than 2^30
    elements are left out: the sum of two indices is an int. *)
Theorem binary_search_in_range (a : list Z) (from to key : Z) :
  Z.of_nat (length a) <= 2 ^ 30 -> 0 <= from -> from <= to -> to <= Z.of_nat (length a) ->
  (forall i j x y, from <= Z.of_nat i -> (i <= j)%nat -> Z.of_nat j < to -> nth_error a i = Some x -> nth_error a j = Some y -> x <= y) ->
  exists r, binarySearchRange a from to key = Some r /\ found Z.sub a from to key r.
Proof.
  intros L F FT T ASC. unfold binarySearchRange. destruct (Z.ltb_spec from 0); [lia|]. destruct (Z.ltb_spec (Z.of_nat (length a)) to); [lia|]. destruct (Z.ltb_spec to from); [lia|]. cbn [orb].
  apply (searchInts_ok a key from to L F T ASC); try lia; intros; lia.
Qed.
Theorem list_binary_search {A} (cmp : A -> A -> Z) (l : list A) (needle : A) : comparator cmp -> sorted cmp l -> Z.of_nat (length l) <= 2 ^ 30 ->
  exists r, listBinarySearch cmp l needle = Some r /\ found cmp l 0 (Z.of_nat (length l)) needle r.
Proof.
  intros C S L. apply (searchList_ok cmp l needle C S L); try lia; intros i x I E; assert (nth_error l i <> None) as H by (unfold get in E; congruence); apply nth_error_Some in H; lia.
Qed.
Example binary_search_case : binarySearchRange [9; 1; 3; 5; 7; 0] 1 5 5 = Some 3 /\ binarySearchRange [9; 1; 3; 5; 7; 0] 1 5 6 = Some (-5) /\ binarySearchRange [9; 1; 3; 5; 7; 0] 1 5 8 = Some (-6) /\
  listBinarySearch Z.sub [1; 3; 5; 7] 7 = Some 3 /\ listBinarySearch Z.sub [1; 3; 5; 7] 0 = Some (-1).
Proof. vm_compute. auto. Qed.

(** The whole array is not searched: the last element is not found, and an array without elements is an exception. *)
Theorem binary_search_refuted :
  ~ (forall (a : list Z) (key : Z), (0 < length a)%nat -> sorted Z.sub a -> exists r, binarySearch a key = Some r /\ found Z.sub a 0 (Z.of_nat (length a)) key r) /\
  ~ (forall key, exists r, binarySearch [] key = Some r).
Proof.
  split.
  - intro H. destruct (H [1; 2] 2 ltac:(cbn; lia)) as [r [E [_ F]]].
    + intros i j x y L X Y. destruct i as [|[|i]], j as [|[|j]]; try lia; cbn in X, Y; try discriminate; try (inversion X; inversion Y; lia); try (destruct j; discriminate); destruct i; discriminate.
    + vm_compute in E. inversion E; subst r. specialize (F ltac:(lia)). cbv zeta in F. destruct F as [_ [_ F]]. specialize (F 1%nat 2 ltac:(cbn; lia) eq_refl). lia.
  - intro H. destruct (H 0) as [r E]. vm_compute in E. discriminate.
Qed.

Theorem reverse_reverses {A} (l : list A) : reverse l = Some (rev l).
Proof. unfold reverse. pose proof (swapEnds_ok (S (length l)) [] l [] ltac:(lia) eq_refl) as E. cbn [app length Z.of_nat] in E. rewrite !app_nil_r in E. exact E. Qed.
Example reverse_case : reverse [1; 2; 3; 4; 5] = Some [5; 4; 3; 2; 1].
Proof. vm_compute. reflexivity. Qed.

Definition JSort_theorems := (@sort_sorts, @sort_is_stable_partial, sort_is_stable_refuted, sort_of_integers_refuted, binary_search_in_range, @list_binary_search, binary_search_refuted, @reverse_reverses).
Print Assumptions JSort_theorems.
