(** TreeSet and TreeMap: what holds for every sequence of calls, and what goes wrong. *)
From Coq Require Import ZArith Lia Bool List Sorted.
Import ListNotations.
From Verif Require Import PSet_Model PSet_Spec PSet_Proofs.

(** A set obtained by calls on a new one. *)
Definition reachable {T} (cmp : T -> T -> Z) (s : pset T) : Prop := exists os, s = fst (runWith (exec cmp) os empty).
(** What an iteration over the set yields. *)
Definition contents {T} (cmp : T -> T -> Z) (s : pset T) : list T := match snd (exec cmp Up_ s) with Elements l => l | _ => [] end.

Section Props.
Context {T : Type}.
Variable cmp : T -> T -> Z.
Hypothesis O : ordered cmp.

Lemma reachable_good s : reachable cmp s -> good cmp s.
Proof. intros [os ->]. apply (run_ok cmp O os empty (good_empty cmp)). Qed.
Lemma contents_elements s : good cmp s -> contents cmp s = elements s.
Proof. intro G. unfold contents. destruct (exec_ok cmp O Up_ s G) as [_ E]. cbn [spec] in E. injection E as E. symmetry. exact E. Qed.

(** C123: whatever calls are made, each of them answers what it answers on a sorted list. *)
Theorem tree_set_is_a_sorted_list : forall os, snd (runWith (exec cmp) os empty) = snd (runWith (spec cmp) os []).
Proof. intro os. destruct (run_ok cmp O os empty (good_empty cmp)) as [_ E]. change (elements empty) with (@nil T) in E. rewrite E. reflexivity. Qed.

(** ... whose elements are in order, none of them twice. *)
Theorem tree_set_is_sorted s : reachable cmp s -> sorted cmp (contents cmp s).
Proof. intro R. rewrite contents_elements by (apply reachable_good; exact R). apply (reachable_good s R). Qed.

(** C124: the tree stays balanced: no element is deeper than twice the logarithm of the number of elements. *)
Theorem tree_set_is_balanced s : reachable cmp s -> height (root s) <= 2 * Nat.log2 (S (length (contents cmp s))).
Proof.
  intro R. pose proof (reachable_good s R) as G. rewrite contents_elements by exact G. destruct G as [[[B [n RB]] _] _].
  destruct (balanced _ _ RB) as [H1 H2]. rewrite B in H2. apply Nat.log2_le_mono in H1. rewrite Nat.log2_pow2 in H1 by lia. unfold elements. lia.
Qed.

(** C125: an iteration that removes elements sees all of them and leaves those it did not remove; the first element must be kept. *)
Theorem iterator_removes_partial s keep : reachable cmp s -> (forall v l, contents cmp s = v :: l -> keep v = true) ->
  exists s', sweep cmp (length (contents cmp s)) keep (iterator s) = Some (contents cmp s, s') /\ contents cmp s' = filter keep (contents cmp s).
Proof.
  intros R K. pose proof (reachable_good s R) as G. rewrite contents_elements in * by exact G.
  assert (W : sweeping cmp (iterator s) [] (elements s)).
  { pose proof (first_ok s) as F. unfold iterator. destruct (first s) as [p|] eqn:E.
    - destruct F as [W [v [V EL]]]. eapply sweeping_of; cbn [iset ipath inext icell bindP]; [exact G|reflexivity|reflexivity|exact W|reflexivity|].
      right. exists v. split; [exact V|]. split; [exact V|]. split; [exact EL|congruence].
    - split; cbn; auto; intros; try congruence. }
  destruct (sweep_ok cmp O keep (elements s) (length (elements s)) (iterator s) [] (le_n _) W (fun _ => K)) as [s' [X1 [X2 X3]]].
  exists s'. split; [exact X1|]. rewrite contents_elements by exact X2. exact X3.
Qed.
(** Removing the first element fails always. *)
Theorem iterator_removes_refuted s v l : reachable cmp s -> contents cmp s = v :: l ->
  exists i, next (iterator s) = Some (v, i) /\ iremove cmp i = None.
Proof.
  intros R E. pose proof (reachable_good s R) as G. rewrite contents_elements in E by exact G.
  pose proof (first_ok s) as F. unfold iterator, next. destruct (first s) as [p|] eqn:EF; [|congruence].
  destruct F as [_ [w [V EL]]]. rewrite E in EL. injection EL as -> _. cbn [icell bindP]. rewrite V. eexists. split; [reflexivity|].
  unfold iremove. cbn. assert (fresh p = true) as FP.
  { unfold first in EF. destruct (root s); [discriminate|]. destruct (leftmost _ _). injection EF as <-. reflexivity. }
  unfold remove. rewrite FP. reflexivity.
Qed.
End Props.

(** C123, TreeMap: the calls answer what they answer on a map. *)
Theorem tree_map_is_a_map {K V} (cmpK : K -> K -> Z) : ordered cmpK -> forall os : list (mapOp K V),
  runMap (execMap cmpK) os empty = runMap (specMap cmpK) os (fun _ => None).
Proof. intros O os. apply (map_run cmpK O). split; [apply good_empty|reflexivity]. Qed.

Example order_exists : ordered Z.sub.
Proof.
  split; intros; [|lia]. destruct (Z.lt_total a b) as [H|[->|H]].
  - rewrite (Z.sgn_neg (a - b)), (Z.sgn_pos (b - a)); lia.
  - rewrite Z.sub_diag. reflexivity.
  - rewrite (Z.sgn_pos (a - b)), (Z.sgn_neg (b - a)); lia.
Qed.
Definition sample : list (op Z) := [Add 5; Add 2; Add 9; Add 1; Put 7; Remove 2; Add 5; Put 3; Contains 9; Remove 4; Size; First; Last; Up_; Down]%Z.
Example sample_answers : snd (runWith (exec Z.sub) sample empty) =
  [Is true; Is true; Is true; Is true; Element None; Element (Some 2); Is false; Element None; Is true; Element None;
   Number 5; Element (Some 1); Element (Some 9); Elements [1; 3; 5; 7; 9]; Elements [9; 7; 5; 3; 1]]%Z.
Proof. vm_compute. reflexivity. Qed.
Example sample_sweep : let s := fst (runWith (exec Z.sub) sample empty) in
  option_map (fun r => (fst r, contents Z.sub (snd r))) (sweep Z.sub 5 (fun z => (z mod 3 =? 1)%Z) (iterator s)) = Some ([1; 3; 5; 7; 9], [1; 7])%Z.
Proof. vm_compute. reflexivity. Qed.
Example sample_map : runMap (execMap (V := Z) Z.sub) [MPut 5 (Some 50); MPut 6 None; MPut 5 (Some 51); MGet 5; MContainsKey 6; MGet 6; MRemove 5; MGet 5]%Z empty =
  [Value None; Value None; Value (Some 50); Value (Some 51); Yes true; Value None; Value (Some 51); Value None]%Z.
Proof. vm_compute. reflexivity. Qed.

(** C126: keySet().add of a key the map has: it should answer false and change nothing; it answers true and the value is lost. *)
Theorem key_set_add_refuted : exists (s : pset (@entry Z Z)),
  runMap (execMap Z.sub) [MGet 5%Z] s = [Value (Some 50%Z)] /\
  snd (keySetAdd Z.sub 5%Z s) = true /\ snd (keySetAdd Z.sub 6%Z s) = false /\
  runMap (execMap Z.sub) [MGet 5%Z] (fst (keySetAdd Z.sub 5%Z s)) = [Value None].
Proof. exists (fst (execMap Z.sub (MPut 5%Z (Some 50%Z)) empty)). vm_compute. repeat split; reflexivity. Qed.
(** C126: removing the only element from a PersistentSet by its value fails. *)
Theorem remove_value_refuted : exists s : pset Z, contents Z.sub s = [5%Z] /\ removeValue Z.sub 5%Z s = None.
Proof. exists (fst (exec Z.sub (Add 5%Z) empty)). vm_compute. split; reflexivity. Qed.

(** C126: firstEntry of an empty TreeMap, TreeMap.java 53-61, should answer null, that is no element; it throws. *)
Theorem first_entry_refuted : snd (exec (@cmpEntry Z Z Z.sub) First empty) = Throws /\ snd (exec (@cmpEntry Z Z Z.sub) Last empty) = Throws.
Proof. split; reflexivity. Qed.

Definition PSet_theorems := (@tree_set_is_a_sorted_list, @tree_set_is_sorted, @tree_set_is_balanced, @iterator_removes_partial, @iterator_removes_refuted,
  @tree_map_is_a_map, key_set_add_refuted, remove_value_refuted, first_entry_refuted).
Print Assumptions PSet_theorems.
