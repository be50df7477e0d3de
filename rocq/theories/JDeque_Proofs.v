(** Proofs about ArrayDeque. *)
From Coq Require Import ZArith Lia Bool List.
Import ListNotations.
From Verif Require Import JDeque_Model JDeque_Spec.
Local Open Scope Z_scope.

Definition gz (l : list Z) (i : Z) : Z := nth (Z.to_nat i) l 0.

Lemma len_nonneg l : 0 <= len l.
Proof. unfold len. lia. Qed.
Lemma inRange_iff l i : inRange l i = true <-> 0 <= i < len l.
Proof. unfold inRange. rewrite andb_true_iff, Z.leb_le, Z.ltb_lt. tauto. Qed.
Lemma aget_ok l i : 0 <= i < len l -> aget l i = Val (gz l i).
Proof. intro H. unfold aget. rewrite (proj2 (inRange_iff l i) H). reflexivity. Qed.

Lemma nth_app_case (a b : list Z) n : nth n (a ++ b) 0 = if Nat.ltb n (length a) then nth n a 0 else nth (n - length a) b 0.
Proof.
  destruct (Nat.ltb_spec n (length a)).
  - apply app_nth1. lia.
  - apply app_nth2. lia.
Qed.
Lemma nth_firstn_lt (l : list Z) n m : (n < m)%nat -> nth n (firstn m l) 0 = nth n l 0.
Proof.
  revert n m. induction l as [|x l IH]; intros n m H.
  - rewrite firstn_nil. reflexivity.
  - destruct m as [|m]; [lia|]. destruct n; simpl; auto. apply IH. lia.
Qed.
Lemma nth_skipn_add (l : list Z) n m : nth n (skipn m l) 0 = nth (m + n) l 0.
Proof.
  revert l. induction m as [|m IH]; intros l; simpl; auto.
  destruct l as [|x l]; simpl; [destruct n; reflexivity|]. apply IH.
Qed.

Lemma aset_ok l i v : 0 <= i < len l -> exists l', aset l i v = Val l' /\ len l' = len l /\
  forall j, 0 <= j -> gz l' j = if j =? i then v else gz l j.
Proof.
  intro H. unfold aset. rewrite (proj2 (inRange_iff l i) H). eexists. split; [reflexivity|].
  unfold len in *. split.
  - rewrite app_length. cbn [length]. rewrite firstn_length, skipn_length. lia.
  - intros j Hj. unfold gz. rewrite nth_app_case, firstn_length.
    destruct (Nat.ltb_spec (Z.to_nat j) (Nat.min (Z.to_nat i) (length l))).
    + replace (j =? i) with false by (symmetry; apply Z.eqb_neq; lia). apply nth_firstn_lt. lia.
    + replace (Nat.min (Z.to_nat i) (length l)) with (Z.to_nat i) in * by lia.
      destruct (Z.eqb_spec j i).
      * subst. rewrite Nat.sub_diag. reflexivity.
      * destruct (Z.to_nat j - Z.to_nat i)%nat as [|k] eqn:E; [lia|]. simpl nth.
        change (nth k (skipn (S (Z.to_nat i)) l) 0 = nth (Z.to_nat j) l 0).
        rewrite nth_skipn_add. f_equal. lia.
Qed.

Lemma arraycopy_ok src sp dst dp n : 0 <= sp -> 0 <= dp -> 0 <= n -> sp + n <= len src -> dp + n <= len dst ->
  exists l', arraycopy src sp dst dp n = Val l' /\ len l' = len dst /\
  forall j, 0 <= j -> gz l' j = if (dp <=? j) && (j <? dp + n) then gz src (sp + j - dp) else gz dst j.
Proof.
  intros Hs Hd Hn H1 H2. unfold arraycopy.
  destruct (Z.eqb_spec n 0) as [->|Hn0].
  { exists dst. split; [reflexivity|]. split; [reflexivity|]. intros j Hj.
    replace ((dp <=? j) && (j <? dp + 0)) with false; [reflexivity|].
    symmetry. rewrite andb_false_iff, Z.leb_gt, Z.ltb_ge. lia. }
  replace ((n <? 0) || (sp <? 0) || (dp <? 0) || (len src <? sp + n) || (len dst <? dp + n)) with false.
  2:{ symmetry. rewrite !orb_false_iff, !Z.ltb_ge. lia. }
  eexists. split; [reflexivity|]. unfold len in *. split.
  - rewrite !app_length, !firstn_length, !skipn_length. lia.
  - intros j Hj. unfold gz. rewrite nth_app_case, firstn_length.
    replace (Nat.min (Z.to_nat dp) (length dst)) with (Z.to_nat dp) by lia.
    destruct (Nat.ltb_spec (Z.to_nat j) (Z.to_nat dp)).
    + replace (dp <=? j) with false by (symmetry; apply Z.leb_gt; lia). simpl. apply nth_firstn_lt. lia.
    + replace (dp <=? j) with true by (symmetry; apply Z.leb_le; lia). simpl.
      rewrite nth_app_case, firstn_length, skipn_length.
      replace (Nat.min (Z.to_nat n) (length src - Z.to_nat sp)) with (Z.to_nat n) by lia.
      destruct (Z.ltb_spec j (dp + n)).
      * replace (Nat.ltb (Z.to_nat j - Z.to_nat dp) (Z.to_nat n)) with true by (symmetry; apply Nat.ltb_lt; lia).
        rewrite nth_firstn_lt by lia. rewrite nth_skipn_add. f_equal. lia.
      * replace (Nat.ltb (Z.to_nat j - Z.to_nat dp) (Z.to_nat n)) with false by (symmetry; apply Nat.ltb_ge; lia).
        rewrite nth_skipn_add. f_equal. lia.
Qed.

Lemma newArray_ok n : 0 <= n -> exists l, newArray n = Val l /\ len l = n.
Proof.
  intro H. unfold newArray. replace (n <? 0) with false by (symmetry; apply Z.ltb_ge; lia).
  eexists. split; [reflexivity|]. unfold len. rewrite repeat_length. lia.
Qed.

(** The index of the i-th element, without a remainder. *)
Definition wrap (L s i : Z) : Z := if s + i <? L then s + i else s + i - L.
Definition at_ (d : deque) (i : Z) : Z := gz (dataArray d) (wrap (len (dataArray d)) (startIndex d) i).

Record repr (d : deque) (l : list Z) : Prop := {
  rCap : 1 <= len (dataArray d);
  rS : 0 <= startIndex d < len (dataArray d);
  rN : size d = len l;
  rFit : size d <= len (dataArray d);
  rEmpty : size d = 0 -> startIndex d = 0 /\ endIndex d = 0;
  rE : 0 < size d -> endIndex d = wrap (len (dataArray d)) (startIndex d) (size d - 1);
  rAt : forall i, 0 <= i < size d -> at_ d i = gz l i }.

Ltac simpleT a := match a with context[if _ then _ else _] => fail 1 | _ => idtac end.
Ltac bz :=
  repeat match goal with
  | H : context[_ <? _] |- _ => revert H
  | H : context[_ <=? _] |- _ => revert H
  | H : context[_ =? _] |- _ => revert H
  end;
  repeat match goal with
  | |- context[?a <? ?b] => simpleT a; simpleT b; destruct (Z.ltb_spec a b)
  | |- context[?a <=? ?b] => simpleT a; simpleT b; destruct (Z.leb_spec a b)
  | |- context[?a =? ?b] => simpleT a; simpleT b; destruct (Z.eqb_spec a b)
  end; cbn [andb orb]; intros.

Lemma gz_cons e l i : 0 < i -> gz (e :: l) i = gz l (i - 1).
Proof. intro H. unfold gz. destruct (Z.to_nat i) eqn:E; [lia|]. simpl. f_equal. lia. Qed.
Lemma gz_app1 l k i : 0 <= i < len l -> gz (l ++ k) i = gz l i.
Proof. intro H. unfold gz, len in *. apply app_nth1. lia. Qed.
Lemma gz_app2 l k i : len l <= i -> gz (l ++ k) i = gz k (i - len l).
Proof. intro H. unfold gz, len in *. rewrite app_nth2 by lia. f_equal. lia. Qed.

Lemma list_ext (a b : list Z) : len a = len b -> (forall i, 0 <= i < len a -> gz a i = gz b i) -> a = b.
Proof.
  intros Hl H. apply (nth_ext a b 0 0); [unfold len in *; lia|].
  intros n Hn. specialize (H (Z.of_nat n)). unfold gz, len in H. rewrite Nat2Z.id in H. apply H. lia.
Qed.

(** copyInto writes the elements in order at the front. *)
Lemma copyInto_ok d l a : repr d l -> size d <= len a -> exists a', copyInto d a = Val a' /\ len a' = len a /\
  forall i, 0 <= i < size d -> gz a' i = gz l i.
Proof.
  intros [Cap Hs Hn Hf Hem He Hat] Ha. unfold copyInto.
  pose proof (len_nonneg l) as Hl.
  destruct (Z.eq_dec (size d) 0) as [H0|H0].
  { destruct (Hem H0) as [-> ->]. change (0 <=? 0) with true. cbv iota.
    rewrite H0. destruct (arraycopy_ok (dataArray d) 0 a 0 0) as [a' [E [E2 _]]]; try lia.
    exists a'. split; [exact E|]. split; [exact E2|]. lia. }
  assert (He' := He ltac:(lia)). unfold wrap in He'.
  set (L := len (dataArray d)) in *.
  destruct (Z.leb_spec (startIndex d) (endIndex d)).
  - destruct (arraycopy_ok (dataArray d) (startIndex d) a 0 (size d)) as [a' [E [E2 E3]]]; try lia.
    { bz; fold L; lia. }
    exists a'. split; [exact E|]. split; [exact E2|]. intros i Hi. rewrite E3 by lia.
    replace ((0 <=? i) && (i <? 0 + size d)) with true by (symmetry; rewrite andb_true_iff, Z.leb_le, Z.ltb_lt; lia).
    rewrite <- Hat by lia. unfold at_, wrap. fold L. f_equal. bz; lia.
  - destruct (arraycopy_ok (dataArray d) (startIndex d) a 0 (L - startIndex d)) as [a1 [E [E2 E3]]]; try lia.
    all: try (fold L; bz; lia).
    rewrite E. cbn [bindO].
    destruct (arraycopy_ok (dataArray d) 0 a1 (L - startIndex d) (endIndex d + 1)) as [a2 [F [F2 F3]]]; try lia.
    all: try (fold L; bz; lia).
    exists a2. split; [exact F|]. split; [lia|]. intros i Hi. rewrite F3 by lia.
    rewrite <- Hat by lia. unfold at_, wrap. fold L.
    destruct (Z.ltb_spec (startIndex d + i) L).
    + replace (L - startIndex d <=? i) with false by (symmetry; apply Z.leb_gt; lia). cbn [andb].
      rewrite E3 by lia.
      replace ((0 <=? i) && (i <? 0 + (L - startIndex d))) with true by (symmetry; rewrite andb_true_iff, Z.leb_le, Z.ltb_lt; lia).
      f_equal. lia.
    + replace ((L - startIndex d <=? i) && (i <? L - startIndex d + (endIndex d + 1))) with true.
      2:{ symmetry. rewrite andb_true_iff, Z.leb_le, Z.ltb_lt. bz; lia. }
      f_equal. lia.
Qed.

Lemma ensureCapacity_ok d l : repr d l -> exists d', ensureCapacity d (size d + 1) = Val d' /\ repr d' l /\
  size d' = size d /\ size d < len (dataArray d').
Proof.
  intros R. pose proof R as [Cap Hs Hn Hf Hem He Hat]. unfold ensureCapacity.
  destruct (Z.ltb_spec (len (dataArray d)) (size d + 1)) as [Hlt|Hge].
  - destruct (newArray_ok (len (dataArray d) * 2)) as [a [E E2]]; [lia|]. rewrite E. cbn [bindO].
    destruct (copyInto_ok d l a R) as [a' [F [F2 F3]]]; [lia|]. rewrite F. cbn [bindO].
    eexists. split; [reflexivity|]. cbn [size dataArray startIndex endIndex]. split; [|split; [reflexivity|lia]].
    constructor; cbn [size dataArray startIndex endIndex]; try lia.
    + intros _. unfold wrap. bz; lia.
    + intros i Hi. unfold at_, wrap. cbn [dataArray startIndex]. rewrite <- F3 by lia. f_equal. bz; lia.
  - exists d. split; [reflexivity|]. split; [exact R|]. split; [reflexivity|lia].
Qed.

Lemma offerFirst_ok d l e : repr d l -> exists d', offerFirst d e = Val d' /\ repr d' (e :: l).
Proof.
  intros R0. unfold offerFirst. destruct (ensureCapacity_ok d l R0) as [d1 [E [R [Hsz Hroom]]]].
  rewrite E. cbn [bindO]. pose proof R as [Cap Hs Hn Hf Hem He Hat].
  pose proof (rN _ _ R0) as Hn0. rewrite <- Hsz in Hroom. pose proof (len_nonneg l) as Hl0.
  set (L := len (dataArray d1)) in *.
  set (s := if 0 <? size d1 then let s1 := startIndex d1 - 1 in if s1 <? 0 then L - 1 else s1 else startIndex d1).
  assert (Hsr : 0 <= s < L) by (unfold s; cbv zeta; bz; lia).
  destruct (aset_ok (dataArray d1) s e Hsr) as [a [F [F2 F3]]]. rewrite F. cbn [bindO].
  eexists. split; [reflexivity|]. fold L in F2.
  assert (Hlen : len (e :: l) = size d1 + 1) by (unfold len in *; simpl length; lia).
  constructor; cbn [size dataArray startIndex endIndex]; rewrite ?F2; try lia.
  - intros _. pose proof (len_nonneg l).
    destruct (Z.eq_dec (size d1) 0) as [H0|H0].
    + destruct (Hem H0) as [Z1 Z2]. unfold wrap, s. cbv zeta. rewrite Z1, Z2, H0. bz; lia.
    + rewrite (He ltac:(lia)). unfold wrap, s. cbv zeta. bz; lia.
  - intros i Hi. unfold at_. cbn [dataArray startIndex]. rewrite F2. rewrite F3 by (unfold wrap; bz; lia).
    destruct (Z.eq_dec i 0) as [->|Hi0].
    + replace (wrap L s 0 =? s) with true by (symmetry; apply Z.eqb_eq; unfold wrap; bz; lia). reflexivity.
    + replace (wrap L s i =? s) with false by (symmetry; apply Z.eqb_neq; unfold wrap; bz; lia).
      rewrite gz_cons by lia. rewrite <- Hat by lia. unfold at_. fold L. f_equal. unfold wrap, s. cbv zeta. bz; lia.
Qed.

Lemma rem_wrap L s : 0 < L -> 0 <= s < L -> Z.rem (s + 1) L = wrap L s 1.
Proof.
  intros H H1. unfold wrap. rewrite Z.rem_mod_nonneg by lia. bz.
  - apply Z.mod_small. lia.
  - replace (s + 1) with L by lia. rewrite Z.mod_same by lia. lia.
Qed.
Lemma rem_wrap_i L s i : 0 < L -> 0 <= s < L -> 0 <= i <= L -> Z.rem (i + s) L = wrap L s i.
Proof.
  intros H H1 H2. unfold wrap. rewrite Z.rem_mod_nonneg by lia. bz.
  - rewrite Z.mod_small by lia. lia.
  - symmetry. apply Z.mod_unique with 1; lia.
Qed.

Lemma offerLast_ok d l e : repr d l -> exists d', offerLast d e = Val d' /\ repr d' (l ++ [e]).
Proof.
  intros R0. unfold offerLast. destruct (ensureCapacity_ok d l R0) as [d1 [E [R [Hsz Hroom]]]].
  rewrite E. cbn [bindO]. pose proof R as [Cap Hs Hn Hf Hem He Hat].
  pose proof (rN _ _ R0) as Hn0. rewrite <- Hsz in Hroom. pose proof (len_nonneg l) as Hl.
  set (L := len (dataArray d1)) in *.
  assert (Hen : 0 <= endIndex d1 < L).
  { destruct (Z.eq_dec (size d1) 0) as [H0|H0]; [destruct (Hem H0); lia|].
    rewrite (He ltac:(lia)). unfold wrap. bz; lia. }
  assert (En : (if 0 <? size d1 then Z.rem (endIndex d1 + 1) L else endIndex d1) = wrap L (startIndex d1) (size d1)).
  { destruct (Z.ltb_spec 0 (size d1)).
    - rewrite rem_wrap by lia. rewrite (He ltac:(lia)). unfold wrap. bz; lia.
    - destruct (Hem ltac:(lia)) as [Z1 Z2]. rewrite Z1, Z2. unfold wrap. bz; lia. }
  rewrite En. set (n := wrap L (startIndex d1) (size d1)) in *.
  assert (Hnr : 0 <= n < L) by (unfold n, wrap; bz; lia).
  destruct (aset_ok (dataArray d1) n e Hnr) as [a [F [F2 F3]]]. rewrite F. cbn [bindO].
  eexists. split; [reflexivity|]. fold L in F2.
  assert (Hlen : len (l ++ [e]) = size d1 + 1) by (unfold len in *; rewrite app_length; simpl length; lia).
  constructor; cbn [size dataArray startIndex endIndex]; rewrite ?F2; try lia.
  - intros _. unfold n. f_equal. lia.
  - intros i Hi. unfold at_. cbn [dataArray startIndex]. rewrite F2. rewrite F3 by (unfold wrap; bz; lia).
    destruct (Z.eq_dec i (size d1)) as [->|Hi0].
    + replace (wrap L (startIndex d1) (size d1) =? n) with true by (symmetry; apply Z.eqb_eq; reflexivity).
      rewrite gz_app2 by lia. replace (size d1 - len l) with 0 by lia. reflexivity.
    + replace (wrap L (startIndex d1) i =? n) with false by (symmetry; apply Z.eqb_neq; unfold n, wrap; bz; lia).
      rewrite gz_app1 by lia. rewrite <- Hat by lia. reflexivity.
Qed.

Lemma touch_repr d l m : repr d l -> repr (Deque (dataArray d) (startIndex d) (endIndex d) (size d) m) l.
Proof. intros []. constructor; auto. Qed.

Lemma size0_nil d l : repr d l -> size d = 0 -> l = [].
Proof. intros R H. pose proof (rN _ _ R) as E. unfold len in E. destruct l; [reflexivity|simpl in E; lia]. Qed.

Lemma empty_repr a m : 1 <= len a -> repr (Deque a 0 0 0 m) [].
Proof. intro H. constructor; cbn [size dataArray startIndex endIndex]; auto; try lia; intros; lia. Qed.

Lemma gz_tl l i : 0 <= i -> gz (tl l) i = gz l (i + 1).
Proof.
  intro H. unfold gz. replace (Z.to_nat (i + 1)) with (S (Z.to_nat i)) by lia.
  destruct l; simpl; [destruct (Z.to_nat i); reflexivity|reflexivity].
Qed.
Lemma gz_removelast l i : 0 <= i < len l - 1 -> gz (removelast l) i = gz l i.
Proof.
  intro H. destruct (@exists_last _ l) as [k [x E]].
  { intro E. subst. unfold len in H. simpl in H. lia. }
  subst. rewrite removelast_last. rewrite gz_app1; [reflexivity|]. unfold len in *. rewrite app_length in H. simpl in H. lia.
Qed.
Lemma len_tl l : len l <> 0 -> len (tl l) = len l - 1.
Proof. unfold len. destruct l; simpl length; lia. Qed.
Lemma len_removelast l : len l <> 0 -> len (removelast l) = len l - 1.
Proof.
  intro H. destruct (@exists_last _ l) as [k [x E]].
  { intro E. subst. unfold len in H. simpl in H. lia. }
  subst. rewrite removelast_last. unfold len in *. rewrite app_length. simpl. lia.
Qed.
Lemma hd_gz l : hd 0 l = gz l 0.
Proof. destruct l; reflexivity. Qed.
Lemma last_gz l : len l <> 0 -> last l 0 = gz l (len l - 1).
Proof.
  intro H. destruct (@exists_last _ l) as [k [x E]].
  { intro E. subst. unfold len in H. simpl in H. lia. }
  subst. rewrite last_last. assert (len (k ++ [x]) - 1 = len k) as -> by (unfold len; rewrite app_length; simpl; lia).
  rewrite gz_app2 by lia. rewrite Z.sub_diag. reflexivity.
Qed.

Lemma first_at d l : repr d l -> 0 < size d -> aget (dataArray d) (startIndex d) = Val (hd 0 l).
Proof.
  intros R H. pose proof R as [Cap Hs Hn Hf Hem He Hat]. rewrite aget_ok by lia. f_equal.
  rewrite hd_gz, <- Hat by lia. unfold at_, wrap. f_equal. bz; lia.
Qed.
Lemma last_at d l : repr d l -> 0 < size d -> aget (dataArray d) (endIndex d) = Val (last l 0).
Proof.
  intros R H. pose proof R as [Cap Hs Hn Hf Hem He Hat]. rewrite (He H).
  rewrite aget_ok by (unfold wrap; bz; lia). f_equal.
  rewrite last_gz by lia. rewrite <- Hn. rewrite <- Hat by lia. reflexivity.
Qed.

Lemma pollFirst_ok d l : repr d l -> exists d', pollFirst d = Val (hd 0 l, d') /\ repr d' (tl l).
Proof.
  intros R. pose proof R as [Cap Hs Hn Hf Hem He Hat]. pose proof (len_nonneg l) as Hl. unfold pollFirst.
  destruct (Z.eqb_spec (size d) 0) as [H0|H0].
  - pose proof (size0_nil d l R H0) as ->. eexists. split; [reflexivity|]. simpl. apply touch_repr. exact R.
  - rewrite (first_at d l R) by lia. cbn [bindO].
    destruct (Z.eqb_spec (size d - 1) 0) as [H1|H1].
    + eexists. split; [reflexivity|]. assert (tl l = []) as ->.
      { unfold len in *. destruct l as [|x [|y l]]; simpl length in *; try reflexivity; lia. }
      apply empty_repr. exact Cap.
    + eexists. split; [reflexivity|]. rewrite rem_wrap by lia.
      constructor; cbn [size dataArray startIndex endIndex]; try lia.
      * unfold wrap. bz; lia.
      * rewrite len_tl by lia. lia.
      * intros _. rewrite (He ltac:(lia)). unfold wrap. bz; lia.
      * intros i Hi. rewrite gz_tl by lia. rewrite <- Hat by lia. unfold at_. cbn [dataArray startIndex].
        f_equal. unfold wrap. bz; lia.
Qed.

Lemma pollLast_ok d l : repr d l -> exists d', pollLast d = Val (last l 0, d') /\ repr d' (removelast l).
Proof.
  intros R. pose proof R as [Cap Hs Hn Hf Hem He Hat]. pose proof (len_nonneg l) as Hl. unfold pollLast.
  destruct (Z.eqb_spec (size d) 0) as [H0|H0].
  - pose proof (size0_nil d l R H0) as ->. eexists. split; [reflexivity|]. simpl. apply touch_repr. exact R.
  - rewrite (last_at d l R) by lia. cbn [bindO].
    destruct (Z.eqb_spec (size d - 1) 0) as [H1|H1].
    + eexists. split; [reflexivity|]. assert (removelast l = []) as ->.
      { unfold len in *. destruct l as [|x [|y l]]; simpl length in *; try reflexivity; lia. }
      apply empty_repr. exact Cap.
    + eexists. split; [reflexivity|].
      constructor; cbn [size dataArray startIndex endIndex]; try lia.
      * rewrite len_removelast by lia. lia.
      * intros _. rewrite (He ltac:(lia)). unfold wrap. bz; lia.
      * intros i Hi. rewrite gz_removelast by lia. rewrite <- Hat by lia. reflexivity.
Qed.

Lemma peekFirst_ok d l : repr d l -> peekFirst d = Val (hd 0 l).
Proof.
  intro R. unfold peekFirst. destruct (Z.eqb_spec (size d) 0) as [H0|H0].
  - rewrite (size0_nil d l R H0). reflexivity.
  - apply first_at; [exact R|]. pose proof (rN _ _ R). pose proof (len_nonneg l). lia.
Qed.
Lemma peekLast_ok d l : repr d l -> peekLast d = Val (last l 0).
Proof.
  intro R. unfold peekLast. destruct (Z.eqb_spec (size d) 0) as [H0|H0].
  - rewrite (size0_nil d l R H0). reflexivity.
  - apply last_at; [exact R|]. pose proof (rN _ _ R). pose proof (len_nonneg l). lia.
Qed.

Lemma toArray_ok d l : repr d l -> toArray d = Val l.
Proof.
  intro R. pose proof (rN _ _ R) as Hn. pose proof (len_nonneg l). unfold toArray.
  destruct (newArray_ok (size d)) as [a [E E2]]; [lia|]. rewrite E. cbn [bindO].
  destruct (copyInto_ok d l a R) as [a' [F [F2 F3]]]; [lia|]. rewrite F. f_equal.
  apply list_ext; [lia|]. intros i Hi. apply F3. lia.
Qed.

Lemma iterate_ok d l : repr d l -> forall f i, 0 <= i <= size d -> (Z.to_nat (size d - i) < f)%nat ->
  iterate f forwardIndex d i = Val (skipn (Z.to_nat i) l).
Proof.
  intro R. pose proof R as [Cap Hs Hn Hf Hem He Hat]. induction f as [|f IH]; intros i Hi Hfu; [lia|].
  cbn [iterate]. destruct (Z.ltb_spec i (size d)).
  - unfold forwardIndex. rewrite rem_wrap_i by lia. rewrite aget_ok by (unfold wrap; bz; lia). cbn [bindO].
    rewrite IH by lia. cbn [bindO]. f_equal.
    change (gz (dataArray d) (wrap (len (dataArray d)) (startIndex d) i)) with (at_ d i). rewrite Hat by lia.
    unfold gz. replace (Z.to_nat (i + 1)) with (S (Z.to_nat i)) by lia.
    assert (Hx : (Z.to_nat i < length l)%nat) by (unfold len in *; lia). clear -Hx.
    revert Hx. generalize (Z.to_nat i) as n. induction l as [|x l IH]; intros n Hx; [simpl in Hx; lia|].
    destruct n; [reflexivity|]. simpl in Hx |- *. apply IH. lia.
  - f_equal. symmetry. apply skipn_all2. unfold len in *. lia.
Qed.
Lemma iterator_ok d l : repr d l -> iterator d = Val l.
Proof.
  intro R. pose proof (rN _ _ R). pose proof (len_nonneg l).
  unfold iterator. rewrite (iterate_ok d l R) by lia. reflexivity.
Qed.
Lemma contains_ok d l e : repr d l -> contains d e = Val (if in_dec Z.eq_dec e l then true else false).
Proof.
  intro R. unfold contains. rewrite (iterator_ok d l R). cbn [bindO]. f_equal.
  destruct (in_dec Z.eq_dec e l) as [Hin|Hin].
  - apply existsb_exists. exists e. split; [exact Hin|apply Z.eqb_refl].
  - apply not_true_iff_false. intro Hc. apply existsb_exists in Hc. destruct Hc as [x [Hx Ex]].
    apply Z.eqb_eq in Ex. subst. contradiction.
Qed.
