From Coq Require Import ZArith List Bool Arith Lia Permutation.
From Verif Require Import JRandom_Model JRandom_Spec JRandom_Proofs JRandom_Props JShuffle_Model.
Import ListNotations.

Lemma split_at : forall {A} (l : list A) i x, nth_error l i = Some x -> l = firstn i l ++ x :: skipn (S i) l /\ length (firstn i l) = i.
Proof. induction l as [|y l IH]; intros [|i] x H; cbn in *; try discriminate; [split; congruence|]. destruct (IH i x H) as [E L]. split; congruence. Qed.
Lemma put_length : forall {A} (l : list A) i x, i < length l -> length (put l i x) = length l.
Proof. intros. unfold put. rewrite app_length, firstn_length. cbn [length]. rewrite skipn_length. lia. Qed.
Lemma put_swap : forall {A} (l : list A) i x y, nth_error l i = Some y -> Permutation (y :: put l i x) (x :: l).
Proof.
  intros A l i x y H. destruct (split_at l i y H) as [E _]. unfold put. rewrite E at 3.
  transitivity (y :: x :: firstn i l ++ skipn (S i) l); [constructor; symmetry; apply Permutation_middle|].
  transitivity (x :: y :: firstn i l ++ skipn (S i) l); [constructor|]. constructor. apply Permutation_middle.
Qed.
Lemma put_at : forall {A} (l : list A) i x j, i < length l -> nth_error (put l i x) j = if j =? i then Some x else nth_error l j.
Proof.
  induction l as [|y l IH]; intros i x j H; [cbn in H; lia|]. destruct i; [destruct j; reflexivity|]. destruct j; [reflexivity|].
  cbn [length] in H. change (put (y :: l) (S i) x) with (y :: put l i x). cbn [nth_error]. rewrite IH by lia. reflexivity.
Qed.
Lemma swap_ok : forall {A} (l : list A) i j, i < length l -> j < length l -> exists l', swap l i j = Some l' /\ Permutation l l' /\ length l' = length l.
Proof.
  intros A l i j I0 J. unfold swap. destruct (nth_error l i) as [a|] eqn:Ea; [|apply nth_error_None in Ea; lia]. destruct (nth_error l j) as [b|] eqn:Eb; [|apply nth_error_None in Eb; lia].
  eexists. split; [reflexivity|]. rewrite put_length by (rewrite put_length; lia). rewrite put_length by lia. split; [|reflexivity].
  pose proof (put_swap l i b a Ea) as P1.
  assert (X : nth_error (put l i b) j = Some b) by (rewrite put_at by lia; destruct (j =? i); auto).
  pose proof (put_swap (put l i b) j a b X) as P2. apply Permutation_cons_inv with (a := b). symmetry. transitivity (a :: put l i b); auto.
Qed.
Lemma swaps_ok : forall {A} js i (l : list A), i + length js <= length l -> Forall (fun j => j < length l) js ->
  exists l', swaps js i l = Some l' /\ Permutation l l'.
Proof.
  induction js as [|j js IH]; intros i l L F; [exists l; split; auto|]. cbn [length] in L. inversion F; subst. cbn [swaps].
  destruct (swap_ok l i j) as (l1 & -> & P & E); [lia|lia|]. destruct (IH (S i) l1) as (l2 & -> & P'); [lia|rewrite E; assumption|].
  exists l2. split; [reflexivity|]. now transitivity l1.
Qed.
Lemma drawn_ok : forall n limit s, (0 < limit < 2 ^ 31)%Z -> isSeed s -> exists f0, forall f, f0 <= f -> exists js, drawn n f limit s = Some js /\ length js = n /\ Forall (fun j => (Z.of_nat j < limit)%Z) js.
Proof.
  induction n; intros limit s L S; [exists 0; intros; exists []; repeat split; constructor|].
  destruct (C169_next_below limit s L S) as (f1 & s' & v & E & V).
  assert (S' : isSeed s').
  { unfold nextIntBelow in E. destruct (limit <=? 0)%Z; [discriminate|]. destruct (single limit).
    - unfold draw in E. assert (s' = advance s) by congruence. subst s'. apply advance_range.
    - destruct (search f1 limit s) as [[a b]|] eqn:Q; [|discriminate]. assert (a = s') by congruence. subst a. clear E V. revert s S Q. induction f1; intros s S Q; [discriminate|].
      rewrite search_S in Q. destruct (again limit (snd (draw 31 s))); [apply (IHf1 (advance s)); [apply advance_range|exact Q]|].
      assert (s' = advance s) by congruence. subst s'. apply advance_range. }
  destruct (IHn limit s' L S') as (f2 & G). exists (f1 + f2). intros f F. cbn [drawn].
  rewrite (C169_next_below_is_one f1 f limit s s' v ltac:(lia) E). destruct (G f ltac:(lia)) as (js & -> & LJ & FJ).
  exists (Z.to_nat v :: js). split; [reflexivity|]. split; [cbn; congruence|]. constructor; [lia|exact FJ].
Qed.

(** * C172: shuffle reorders the list

    For every list and every state of the Random, shuffle ends and leaves the same elements in
    some order. *)
Theorem C172_shuffle_is_a_permutation : forall {A} (l : list A) s, (Z.of_nat (length l) < 2 ^ 31)%Z -> isSeed s ->
  exists f0, forall f, f0 <= f -> exists l', shuffle f l s = Some l' /\ Permutation l l'.
Proof.
  intros A l s L S. destruct l as [|x l]; [exists 0; intros; exists []; split; [reflexivity|constructor]|].
  remember (x :: l) as m. assert (0 < length m) by (subst; cbn; lia).
  destruct (drawn_ok (length m) (Z.of_nat (length m)) s) as (f0 & G); [lia|exact S|]. exists f0. intros f F. unfold shuffle.
  destruct (G f F) as (js & -> & LJ & FJ). apply swaps_ok; [lia|]. eapply Forall_impl; [|exact FJ]. intros j J. cbn in J. lia.
Qed.
(** Every order can come out, if the numbers drawn are right. *)
Theorem C172_every_order_is_possible : forall {A} (l l' : list A), Permutation l l' ->
  exists js, length js = length l /\ Forall (fun j => j < length l) js /\ swaps js 0 l = Some l'.
Proof.
  intros A l l' P.
  enough (G : forall (d t t' : list A), Permutation t t' -> exists js, length js = length t /\ Forall (fun j => j < length (d ++ t)) js /\ swaps js (length d) (d ++ t) = Some (d ++ t')) by (apply (G []); exact P).
  clear l l' P. intros d t t' P. revert d t P. induction t' as [|y t' IH]; intros d t P.
  - apply Permutation_sym, Permutation_nil in P. subst. exists []. repeat split; constructor.
  - destruct t as [|x t]; [apply Permutation_nil in P; discriminate|].
    assert (IN : In y (x :: t)) by (eapply Permutation_in; [symmetry; exact P|now left]).
    apply In_nth_error in IN. destruct IN as [k K].
    assert (LK : k < length (x :: t)) by (apply nth_error_Some; congruence).
    assert (W : exists t1, swap (d ++ x :: t) (length d) (length d + k) = Some (d ++ y :: t1) /\ Permutation (y :: t1) (x :: t)).
    { unfold swap. rewrite nth_error_app2, Nat.sub_diag by lia. cbn [nth_error]. rewrite nth_error_app2 by lia. replace (length d + k - length d) with k by lia. rewrite K.
      assert (PA : forall i z (r : list A), put (d ++ r) (length d + i) z = d ++ put r i z).
      { clear. intros i z r. unfold put. rewrite firstn_app_2, skipn_app, skipn_all2 by lia. replace (S (length d + i) - length d) with (S i) by lia. cbn [app]. now rewrite <- app_assoc. }
      replace (put (d ++ x :: t) (length d) y) with (d ++ put (x :: t) 0 y) by (rewrite <- PA; now rewrite Nat.add_0_r). rewrite PA.
      change (put (x :: t) 0 y) with (y :: t). destruct k as [|k].
      - cbn in K. injection K as ->. exists t. split; [reflexivity|]. reflexivity.
      - exists (put t k x). split; [reflexivity|]. cbn in K. now apply put_swap. }
    destruct W as (t1 & W & P1). assert (P2 : Permutation t1 t') by (apply Permutation_cons_inv with (a := y); now transitivity (x :: t)).
    destruct (IH (d ++ [y]) t1 P2) as (js & LJ & FJ & E).
    assert (L1 : length t1 = length t) by (apply Permutation_length in P1; cbn in P1; congruence).
    exists (length d + k :: js). split; [cbn; congruence|]. split.
    + constructor; [rewrite app_length; lia|]. eapply Forall_impl; [|exact FJ]. intros j J. rewrite !app_length in *. cbn in *. lia.
    + cbn [swaps]. rewrite W. rewrite app_length in E. cbn in E. rewrite Nat.add_1_r in E. rewrite <- !app_assoc in E. exact E.
Qed.
Example shuffle_somewhere : shuffle 3 [1; 2; 3; 4; 5] (setSeed 42) = Some [3; 4; 2; 5; 1].
Proof. vm_compute. reflexivity. Qed.

(** * C173: every order is equally likely

    False: each index is swapped with any other, not with those still left. Of the 27 ways to
    draw three numbers below 3, which are equally likely (C169), four leave a list of three as
    it is and five give the order 1, 3, 2. *)
Definition threes : list (list nat) := flat_map (fun a => flat_map (fun b => map (fun c => [a; b; c]) [0; 1; 2]) [0; 1; 2]) [0; 1; 2].
Definition waysTo (l' : list nat) : nat := length (filter (fun js => match swaps js 0 [1; 2; 3] with Some r => if list_eq_dec Nat.eq_dec r l' then true else false | None => false end) threes).
Theorem C173_shuffle_is_fair_refuted :
  NoDup threes /\ (forall js, In js threes <-> length js = 3 /\ Forall (fun j => j < 3) js) /\ waysTo [1; 2; 3] = 4 /\ waysTo [1; 3; 2] = 5.
Proof.
  split; [|split; [|split; reflexivity]].
  - assert (E : nodup (list_eq_dec Nat.eq_dec) threes = threes) by (vm_compute; reflexivity). rewrite <- E. apply NoDup_nodup.
  - intro js. split.
    + intro H. assert (G : Forall (fun js => length js = 3 /\ Forall (fun j => j < 3) js) threes) by (unfold threes; cbn; repeat constructor).
      rewrite Forall_forall in G. auto.
    + intros [L F]. destruct js as [|a [|b [|c [|]]]]; try discriminate. inversion F as [|? ? Ha F1]; subst. inversion F1 as [|? ? Hb F2]; subst. inversion F2 as [|? ? Hc _]; subst.
      unfold threes. apply in_flat_map. exists a. split; [cbn; lia|]. apply in_flat_map. exists b. split; [cbn; lia|]. apply in_map_iff. exists c. split; [reflexivity|cbn; lia].
Qed.

Definition JShuffle_theorems := (@C172_shuffle_is_a_permutation, @C172_every_order_is_possible, C173_shuffle_is_fair_refuted).
Print Assumptions JShuffle_theorems.
