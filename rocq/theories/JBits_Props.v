(** Properties of java.util.BitSet. *)
From Coq Require Import ZArith Lia Bool List.
Import ListNotations.
From Verif Require Import JDeque_Model JDeque_Proofs JBits_Model JBits_Spec JBits_Proofs.
Local Open Scope Z_scope.

Lemma zeros_ok n b : 0 <= n <= 33554432 -> newArray n = Val b -> wf b /\ forall i, mem b i = false.
Proof.
  intros Hn E. split.
  - split.
    + apply Forall_gz. intros p _. rewrite (newArray_zero _ _ E). split; [lia|reflexivity].
    + destruct (newArray_ok n) as [l [E1 E2]]; [lia|]. rewrite E in E1. injection E1 as <-. lia.
  - intro i. unfold mem. rewrite (newArray_zero _ _ E). apply Z.bits_0.
Qed.

Lemma new_ok n b : 0 <= n <= greatest -> newBitSet n = Val b -> wf b /\ forall i, mem b i = false.
Proof.
  intros Hn. unfold newBitSet. rewrite longPosition_div. pose proof (div_below n Hn).
  destruct (Z.rem n 64 =? 0); rewrite w32_id by lia; apply zeros_ok; lia.
Qed.

Lemma flipRange_ok b s e : wf b -> 0 <= s <= e -> e <= greatest -> exists b', flipRange b s e = Val b' /\ wf b' /\
  forall i, 0 <= i -> mem b' i = xorb ((s <=? i) && (i <? e)) (mem b i).
Proof.
  intros W H1 H2. unfold greatest in H2. unfold flipRange.
  replace ((e <? s) || (s <? 0) || (e <? 0)) with false by (symmetry; rewrite !orb_false_iff, !Z.ltb_ge; lia).
  destruct (Z.eqb_spec s e) as [->|Hne].
  - exists b. split; [reflexivity|]. split; [exact W|]. intros i Hi. replace ((e <=? i) && (i <? e)) with false; [destruct (mem b i); reflexivity|].
    symmetry. rewrite andb_false_iff, Z.leb_gt, Z.ltb_ge. lia.
  - destruct (range_ok Z.lxor xorb b s e lxor_bitwise) as [b' [E [W' M]]]; auto; try (unfold maxIndex; lia).
    { intros []; reflexivity. }
    exists b'. split; [exact E|]. split; [exact W'|]. intros i Hi. rewrite M by lia.
    destruct ((s <=? i) && (i <? e)); [apply xorb_comm|]. destruct (mem b i); reflexivity.
Qed.

Lemma setRange_ok b s e : wf b -> 0 <= s < e -> e <= greatest -> exists b', setRange b s e = Val b' /\ wf b' /\
  forall i, 0 <= i -> mem b' i = (s <=? i) && (i <? e) || mem b i.
Proof.
  intros W H1 H2. unfold greatest in H2. unfold setRange.
  destruct (range_ok Z.lor orb b s e lor_bitwise) as [b' [E [W' M]]]; auto; try (unfold maxIndex; lia).
  { intros []; reflexivity. }
  exists b'. split; [exact E|]. split; [exact W'|]. intros i Hi. rewrite M by lia.
  destruct ((s <=? i) && (i <? e)); [apply orb_true_r|reflexivity].
Qed.

Lemma flip_range k : 0 <= k <= greatest -> forall b, flip b k = flipRange b k (k + 1).
Proof. intros H b. unfold flip, greatest in *. rewrite w32_id by lia. reflexivity. Qed.

Lemma one_range i k : ((k <=? i) && (i <? k + 1)) = (i =? k).
Proof.
  destruct (Z.eqb_spec i k).
  - subst. rewrite andb_true_iff, Z.leb_le, Z.ltb_lt. lia.
  - rewrite andb_false_iff, Z.leb_gt, Z.ltb_ge. lia.
Qed.

(** flip of one bit: the range ends at the index after it. *)
Lemma flip_ok b k : wf b -> 0 <= k <= greatest -> exists b', flip b k = Val b' /\ wf b' /\
  forall i, 0 <= i -> mem b' i = xorb (i =? k) (mem b i).
Proof.
  intros W Hk. rewrite flip_range by exact Hk. unfold greatest in Hk. unfold flipRange.
  replace ((k + 1 <? k) || (k <? 0) || (k + 1 <? 0)) with false by (symmetry; rewrite !orb_false_iff, !Z.ltb_ge; lia).
  replace (k =? k + 1) with false by (symmetry; apply Z.eqb_neq; lia).
  destruct (range_ok Z.lxor xorb b k (k + 1) lxor_bitwise) as [b' [E [W' M]]]; auto; try (unfold maxIndex; lia).
  { intros []; reflexivity. }
  exists b'. split; [exact E|]. split; [exact W'|]. intros i Hi. rewrite M by lia. rewrite one_range.
  destruct (i =? k); [apply xorb_comm|]. destruct (mem b i); reflexivity.
Qed.

Lemma and_ok a b : wf a -> wf b -> wf (and_ a b) /\ forall i, 0 <= i -> mem (and_ a b) i = mem a i && mem b i.
Proof.
  intros Wa Wb. destruct (zip_ok Z.land andb (fun _ => 0) a b land_bitwise Wa Wb) as [W M]; auto.
  - intros x _. split; [lia|reflexivity].
  - intros x k _ _. rewrite Z.bits_0. symmetry. apply andb_false_r.
Qed.

Lemma built_ok b S : built b S -> wf b /\ forall i, 0 <= i -> mem b i = S i.
Proof.
  induction 1 as [n b Hn E|b E|b S k b' _ [W M] Hk E|b S k b' _ [W M] Hk E|b S k b' _ [W M] Hk E|b S s e b' _ [W M] H1 H2 E
    |b S s e b' _ [W M] H1 H2 E|a A b B _ [Wa Ma] _ [Wb Mb]|a A b B c _ [Wa Ma] _ [Wb Mb] Sa Sb E
    |a A b B c _ [Wa Ma] _ [Wb Mb] Sa Sb E|a A b B c _ [Wa Ma] _ [Wb Mb] Sa Sb E].
  - destruct (new_ok n b Hn E). auto.
  - destruct (zeros_ok 2 b ltac:(lia) E). auto.
  - destruct (set_ok b k W Hk) as [b1 [E1 [W1 M1]]]. rewrite E in E1. injection E1 as <-. split; [exact W1|].
    intros i Hi. rewrite M1, M by lia. reflexivity.
  - destruct (clear_ok b k W ltac:(lia)) as [b1 [E1 [W1 M1]]]. rewrite E in E1. injection E1 as <-. split; [exact W1|].
    intros i Hi. rewrite M1, M by lia. reflexivity.
  - destruct (flip_ok b k W Hk) as [b1 [E1 [W1 M1]]]. rewrite E in E1. injection E1 as <-. split; [exact W1|].
    intros i Hi. rewrite M1, M by lia. reflexivity.
  - destruct (setRange_ok b s e W H1 H2) as [b1 [E1 [W1 M1]]]. rewrite E in E1. injection E1 as <-. split; [exact W1|].
    intros i Hi. rewrite M1, M by lia. reflexivity.
  - destruct (flipRange_ok b s e W H1 H2) as [b1 [E1 [W1 M1]]]. rewrite E in E1. injection E1 as <-. split; [exact W1|].
    intros i Hi. rewrite M1, M by lia. reflexivity.
  - destruct (and_ok a b Wa Wb) as [W M]. split; [exact W|]. intros i Hi. rewrite M, Ma, Mb by lia. reflexivity.
  - destruct (enlarged_zip Z.lor orb a b lor_bitwise) as [c1 [E1 [W1 M1]]]; auto. { intros []; reflexivity. }
    unfold or_ in E. rewrite E in E1. injection E1 as <-. split; [exact W1|]. intros i Hi. rewrite M1, Ma, Mb by lia. reflexivity.
  - destruct (enlarged_zip Z.lxor xorb a b lxor_bitwise) as [c1 [E1 [W1 M1]]]; auto. { intros []; reflexivity. }
    unfold xor_ in E. rewrite E in E1. injection E1 as <-. split; [exact W1|]. intros i Hi. rewrite M1, Ma, Mb by lia. reflexivity.
  - destruct (enlarged_zip _ _ a b andnot_bitwise) as [c1 [E1 [W1 M1]]]; auto. { intro x. cbv beta. destruct x; reflexivity. }
    unfold andNot in E. rewrite E in E1. injection E1 as <-. split; [exact W1|]. intros i Hi. rewrite M1, Ma, Mb by lia. reflexivity.
Qed.

(** C118: however a BitSet was built, get tells exactly the indexes it should contain, and
    isEmpty whether there is none. *)
Theorem bitset_is_a_set : forall b S, built b S ->
  (forall i, 0 <= i -> get b i = Val (S i)) /\ (isEmpty b = true <-> forall i, 0 <= i -> S i = false).
Proof.
  intros b S H. destruct (built_ok b S H) as [W M]. split.
  - intros i Hi. rewrite get_ok by assumption. rewrite M by exact Hi. reflexivity.
  - rewrite (isEmpty_ok b W). split; intros F i Hi; [rewrite <- M by exact Hi|rewrite M by exact Hi]; auto.
Qed.

(** C118: none of the calls that build a BitSet throws. *)
Theorem bitset_accepts : forall b S, built b S ->
  (forall k, 0 <= k <= greatest -> (exists b', set b k = Val b') /\ (exists b', clear b k = Val b') /\ (exists b', flip b k = Val b')) /\
  (forall s e, 0 <= s < e -> e <= greatest -> (exists b', setRange b s e = Val b') /\ (exists b', flipRange b s e = Val b')) /\
  (forall c C, built c C -> small b -> small c ->
    (exists b', or_ b c = Val b') /\ (exists b', xor_ b c = Val b') /\ (exists b', andNot b c = Val b')).
Proof.
  intros b S H. destruct (built_ok b S H) as [W M]. split; [|split].
  - intros k Hk. destruct (set_ok b k W Hk) as [b1 [E1 _]]. destruct (clear_ok b k W ltac:(lia)) as [b2 [E2 _]].
    destruct (flip_ok b k W Hk) as [b3 [E3 _]]. split; [|split]; eexists; eassumption.
  - intros s e H1 H2. destruct (setRange_ok b s e W H1 H2) as [b1 [E1 _]].
    destruct (flipRange_ok b s e W ltac:(lia) H2) as [b2 [E2 _]]. split; eexists; eassumption.
  - intros c C Hc Sb Sc. destruct (built_ok c C Hc) as [Wc _].
    destruct (enlarged_zip Z.lor orb b c lor_bitwise) as [c1 [E1 _]]; auto. { intros []; reflexivity. }
    destruct (enlarged_zip Z.lxor xorb b c lxor_bitwise) as [c2 [E2 _]]; auto. { intros []; reflexivity. }
    destruct (enlarged_zip _ _ b c andnot_bitwise) as [c3 [E3 _]]; auto. { intro x. cbv beta. destruct x; reflexivity. }
    split; [|split]; eexists; eassumption.
Qed.

(** A set with the indexes 60 to 199, without 100, and 3. *)
Definition some : out bitset :=
  bindO newBitSetDefault (fun a => bindO (setRange a 60 200) (fun b => bindO (clear b 100) (fun c => flip c 3))).
Example some_built : exists b S, some = Val b /\ built b S /\ S 3 = true /\ S 100 = false /\ S 199 = true /\ S 200 = false.
Proof.
  destruct newBitSetDefault as [a|] eqn:E0; [|discriminate].
  destruct (setRange a 60 200) as [b|] eqn:E1; [|vm_compute in E0; injection E0 as <-; vm_compute in E1; discriminate].
  destruct (clear b 100) as [c|] eqn:E2.
  2:{ vm_compute in E0; injection E0 as <-; vm_compute in E1; injection E1 as <-; vm_compute in E2; discriminate. }
  destruct (flip c 3) as [d|] eqn:E3.
  2:{ vm_compute in E0; injection E0 as <-; vm_compute in E1; injection E1 as <-; vm_compute in E2; injection E2 as <-;
      vm_compute in E3; discriminate. }
  exists d. eexists. split; [unfold some; rewrite E0; cbn [bindO]; rewrite E1; cbn [bindO]; rewrite E2; cbn [bindO]; exact E3|].
  split.
  - eapply (BuiltFlip c _ 3 d); [|unfold greatest; lia|exact E3]. eapply (BuiltClear b _ 100 c); [|unfold greatest; lia|exact E2].
    eapply (BuiltSetRange a _ 60 200 b); [|lia|unfold greatest; lia|exact E1]. apply BuiltDefault. exact E0.
  - repeat split; reflexivity.
Qed.
Example some_bits : bindO some (fun b => bindO (get b 3) (fun x => bindO (get b 100) (fun y => bindO (get b 199) (fun z => Val [x; y; z]))))
  = Val [true; false; true].
Proof. vm_compute. reflexivity. Qed.

(** C119, refuted.  nextSetBit gives the first index from the given one that is in the set,
    or -1. *)
Definition next_is_right := forall b S from r, built b S -> 0 <= from <= greatest -> nextSetBit b from = Val r ->
  (r = -1 /\ forall i, from <= i -> S i = false) \/ (from <= r /\ S r = true /\ forall i, from <= i < r -> S i = false).
(** The set {64}: nothing is found, and it has no members. *)
Theorem members_are_missed_refuted : ~ next_is_right.
Proof.
  intro H. assert (B : built [0; 1] (fun i => (i =? 64) || false)).
  { apply (BuiltSet [0; 0] (fun _ => false) 64).
    - apply BuiltDefault. reflexivity.
    - unfold greatest. lia.
    - vm_compute. reflexivity. }
  destruct (H _ _ 0 (-1) B) as [[_ F]|[F _]].
  - unfold greatest. lia.
  - vm_compute. reflexivity.
  - specialize (F 64 ltac:(lia)). discriminate.
  - lia.
Qed.
Theorem cardinality_refuted : bindO (bindO newBitSetDefault (fun b => set b 64)) cardinality = Val 0.
Proof. vm_compute. reflexivity. Qed.

(** nextClearBit gives an index that is not in the set. *)
Theorem next_clear_bit_refuted :
  ~ (forall b S from, built b S -> 0 <= from <= greatest -> exists r, nextClearBit b from = Val r /\ from <= r /\ S r = false).
Proof.
  intro H. destruct (H [0; 0] (fun _ => false) 0) as [r [E [F _]]].
  - apply BuiltDefault. reflexivity.
  - unfold greatest. lia.
  - vm_compute in E. injection E as <-. lia.
Qed.

(** An empty range changes nothing: set(5, 5) sets 59 bits. *)
Theorem empty_range_sets_bits_refuted :
  ~ (forall b S k b' i, built b S -> 0 <= k <= greatest -> setRange b k k = Val b' -> 0 <= i -> get b' i = Val (S i)).
Proof.
  intro H. destruct (setRange [0; 0] 5 5) as [b'|] eqn:E; [|vm_compute in E; discriminate].
  specialize (H [0; 0] (fun _ => false) 5 b' 63 (BuiltDefault [0; 0] ltac:(reflexivity)) ltac:(unfold greatest; lia) E ltac:(lia)).
  vm_compute in E. injection E as <-. vm_compute in H. discriminate.
Qed.

(** Clearing a range succeeds: it throws when the range goes beyond the array. *)
Theorem clearing_a_range_throws_refuted :
  ~ (forall b S s e, built b S -> 0 <= s < e -> e <= greatest -> exists b', clearRange b s e = Val b').
Proof.
  intro H. destruct (H [0; 0] (fun _ => false) 0 200) as [b' E]; try (unfold greatest; lia).
  - apply BuiltDefault. reflexivity.
  - vm_compute in E. discriminate.
Qed.

(** intersects answers: it throws for sets of different sizes. *)
Theorem intersects_throws_refuted :
  ~ (forall a A b B, built a A -> built b B -> exists r, intersects a b = Val r).
Proof.
  intro H. destruct (H [0; 0] (fun _ => false) [0; 0; 0; 0] (fun _ => false)) as [r E].
  - apply BuiltDefault. reflexivity.
  - apply (BuiltNew 129); [unfold greatest; lia|reflexivity].
  - vm_compute in E. discriminate.
Qed.

(** length is one more than the greatest member: it is 128 for the empty set. *)
Theorem length_refuted : bindO newBitSetDefault (fun b => Val (length_ b)) = Val 128.
Proof. vm_compute. reflexivity. Qed.

(** Each or makes the array of the set longer by one word, whatever the members. *)
Theorem or_grows_refuted : forall a, 1 <= len a < 33554431 -> exists c, or_ a a = Val c /\ len c = len a + 1.
Proof.
  intros a H. unfold or_, enlarge. rewrite Z.max_id. rewrite w32_id by lia.
  replace (len a <? len a + 1) with true by (symmetry; apply Z.ltb_lt; lia).
  destruct (newArray_ok (len a + 1)) as [n [E E2]]; [lia|]. rewrite E. cbn [bindO].
  destruct (arraycopy_ok a 0 n 0 (len a)) as [b [F [F2 _]]]; try lia. rewrite F. cbn [bindO].
  eexists. split; [reflexivity|]. rewrite zip_len. lia.
Qed.

Definition JBits_theorems := (bitset_is_a_set, bitset_accepts, members_are_missed_refuted, cardinality_refuted, next_clear_bit_refuted,
  empty_range_sets_bits_refuted, clearing_a_range_throws_refuted, intersects_throws_refuted, length_refuted, or_grows_refuted).
Print Assumptions JBits_theorems.
