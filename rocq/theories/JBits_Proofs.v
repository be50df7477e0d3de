(** Proofs about BitSet. *)
From Coq Require Import ZArith Lia Bool List.
Import ListNotations.
From Verif Require Import JDeque_Model JDeque_Proofs JBits_Model.
Local Open Scope Z_scope.

(** The bit that get reads. *)
Definition mem (b : bitset) (i : Z) : bool := Z.testbit (gz b (i / 64)) (i mod 64).
Definition word (w : Z) : Prop := 0 <= w < 2 ^ 64.
Definition wf (b : bitset) : Prop := Forall word b /\ len b <= 33554432.

Definition maxIndex : Z := 2147483583.

Lemma w32_id z : -2147483648 <= z < 2147483648 -> w32 z = z.
Proof. intro H. unfold w32. rewrite Z.mod_small by lia. lia. Qed.

Lemma longPosition_div i : longPosition i = i / 64.
Proof. unfold longPosition. rewrite Z.shiftr_div_pow2 by lia. reflexivity. Qed.

Lemma div64 i : 0 <= i -> 0 <= i / 64 /\ 64 * (i / 64) <= i < 64 * (i / 64) + 64 /\ i mod 64 = i - 64 * (i / 64).
Proof. intro H. pose proof (Z.div_mod i 64 ltac:(lia)). pose proof (Z.mod_pos_bound i 64 ltac:(lia)). pose proof (Z.div_pos i 64 H ltac:(lia)). lia. Qed.

Lemma word_bound w k : word w -> 64 <= k -> Z.testbit w k = false.
Proof.
  intros H Hk. rewrite Z.testbit_odd, Z.shiftr_div_pow2 by lia. rewrite Z.div_small; [reflexivity|].
  unfold word in H. split; [lia|]. apply Z.lt_le_trans with (2 ^ 64); [lia|]. apply Z.pow_le_mono_r; lia.
Qed.
Lemma word_iff w : 0 <= w -> (forall k, 64 <= k -> Z.testbit w k = false) -> word w.
Proof.
  intros H0 H. unfold word. split; [exact H0|].
  assert (w = w mod 2 ^ 64) as ->.
  { apply Z.bits_inj'. intros n Hn. destruct (Z.ltb_spec n 64).
    - rewrite Z.mod_pow2_bits_low by lia. reflexivity.
    - rewrite Z.mod_pow2_bits_high by lia. apply H. lia. }
  apply Z.mod_pos_bound. lia.
Qed.
Lemma mask_testbit k : 0 <= k -> Z.testbit MASK k = (k <? 64).
Proof.
  intro H. unfold MASK. destruct (Z.ltb_spec k 64).
  - apply Z.ones_spec_low. lia.
  - apply Z.ones_spec_high. lia.
Qed.
Lemma shl_testbit x n k : 0 <= n < 64 -> 0 <= k -> Z.testbit (shl x n) k = (n <=? k) && (k <? 64) && Z.testbit x (k - n).
Proof.
  intros Hn Hk. unfold shl. rewrite (Z.mod_small n) by lia. rewrite Z.land_spec, mask_testbit, Z.shiftl_spec by lia.
  destruct (Z.leb_spec n k); cbn [andb].
  - apply andb_comm.
  - rewrite (Z.testbit_neg_r x) by lia. reflexivity.
Qed.
Lemma shl_word x n : word (shl x n).
Proof.
  unfold shl, MASK. rewrite Z.land_ones by lia. unfold word. apply Z.mod_pos_bound. lia.
Qed.
Lemma ushr_testbit x n k : 0 <= n -> 0 <= k -> Z.testbit (ushr x n) k = Z.testbit x (k + n mod 64).
Proof. intros Hn Hk. unfold ushr. apply Z.shiftr_spec. lia. Qed.

Lemma rem64 i : 0 <= i -> Z.rem i 64 = i mod 64.
Proof. intro H. apply Z.rem_mod_nonneg; lia. Qed.

Lemma bitPosition_testbit i k : 0 <= i -> 0 <= k -> Z.testbit (bitPosition i) k = (k =? i mod 64).
Proof.
  intros Hi Hk. unfold bitPosition. rewrite rem64 by lia. pose proof (Z.mod_pos_bound i 64 ltac:(lia)).
  rewrite shl_testbit by lia. destruct (Z.eqb_spec k (i mod 64)).
  - subst. replace (i mod 64 <=? i mod 64) with true by (symmetry; apply Z.leb_le; lia).
    replace (i mod 64 <? 64) with true by (symmetry; apply Z.ltb_lt; lia). rewrite Z.sub_diag. reflexivity.
  - destruct (Z.leb_spec (i mod 64) k); cbn [andb]; [|reflexivity].
    rewrite (Z.bits_above_log2 1); [apply andb_false_r|lia|]. change (Z.log2 1) with 0. lia.
Qed.
Lemma bitPosition_word i : word (bitPosition i).
Proof. apply shl_word. Qed.

(** The mask of a range within one word. *)
Lemma trueMask_testbit a b k : 0 <= a -> a < b -> b - a <= 64 -> a mod 64 + (b - a) <= 64 -> 0 <= k < 64 ->
  Z.testbit (getTrueMask a b) k = (a mod 64 <=? k) && (k <? a mod 64 + (b - a)).
Proof.
  intros Ha Hab Hr Hfit Hk. unfold getTrueMask. rewrite w32_id by lia. rewrite rem64 by lia.
  pose proof (Z.mod_pos_bound a 64 ltac:(lia)).
  rewrite shl_testbit by lia. destruct (Z.leb_spec (a mod 64) k); cbn [andb]; [|reflexivity].
  replace (k <? 64) with true by (symmetry; apply Z.ltb_lt; lia). cbn [andb].
  rewrite ushr_testbit by lia. rewrite (Z.mod_small (64 - (b - a))) by lia.
  rewrite mask_testbit by lia. destruct (Z.ltb_spec k (a mod 64 + (b - a))).
  - apply Z.ltb_lt. lia.
  - apply Z.ltb_ge. lia.
Qed.
Lemma trueMask_word a b : word (getTrueMask a b).
Proof. apply shl_word. Qed.

Lemma wf_gz b p : Forall word b -> word (gz b p).
Proof.
  intro H. unfold gz. destruct (nth_in_or_default (Z.to_nat p) b 0) as [H1|H1].
  - rewrite Forall_forall in H. apply H. exact H1.
  - rewrite H1. unfold word. split; [lia|reflexivity].
Qed.
Lemma Forall_gz b : (forall p, 0 <= p < len b -> word (gz b p)) -> Forall word b.
Proof.
  intro H. apply Forall_forall. intros x Hx. apply (In_nth _ _ 0) in Hx. destruct Hx as [n [Hn E]].
  specialize (H (Z.of_nat n)). unfold gz, len in H. rewrite Nat2Z.id in H. rewrite <- E. apply H. lia.
Qed.

Lemma land_testbit_zero w i : word w -> 0 <= i -> negb (Z.land w (bitPosition i) =? 0) = Z.testbit w (i mod 64).
Proof.
  intros Hw Hi. pose proof (Z.mod_pos_bound i 64 ltac:(lia)).
  destruct (Z.testbit w (i mod 64)) eqn:E.
  - apply negb_true_iff, Z.eqb_neq. intro H0. assert (T : Z.testbit (Z.land w (bitPosition i)) (i mod 64) = true).
    { rewrite Z.land_spec, E, bitPosition_testbit, Z.eqb_refl by lia. reflexivity. }
    rewrite H0, Z.bits_0 in T. discriminate.
  - apply negb_false_iff, Z.eqb_eq. apply Z.bits_inj'. intros k Hk. rewrite Z.bits_0, Z.land_spec, bitPosition_testbit by lia.
    destruct (Z.eqb_spec k (i mod 64)); [subst; rewrite E; reflexivity|apply andb_false_r].
Qed.

Lemma gz_out b p : len b <= p -> gz b p = 0.
Proof. intro H. unfold gz, len in *. apply nth_overflow. lia. Qed.

Lemma get_ok b i : wf b -> 0 <= i -> get b i = Val (mem b i).
Proof.
  intros [Hw _] Hi. unfold get. rewrite longPosition_div. pose proof (div64 i Hi).
  destruct (Z.ltb_spec (i / 64) (len b)).
  - rewrite aget_ok by lia. cbn [bindO]. f_equal. apply land_testbit_zero; [apply wf_gz; exact Hw|exact Hi].
  - unfold mem. rewrite gz_out by lia. rewrite Z.bits_0. reflexivity.
Qed.

(** All bits of a new array are clear. *)
Lemma newArray_zero n l : newArray n = Val l -> forall p, gz l p = 0.
Proof.
  unfold newArray. destruct (n <? 0); [discriminate|]. intros E p. injection E as <-.
  unfold gz. apply nth_repeat.
Qed.

(** enlarge keeps the bits and makes the word p exist. *)
Lemma enlarge_ok b p : wf b -> -1 <= p < 33554432 -> exists b', enlarge b p = Val b' /\ wf b' /\ p < len b' /\ len b <= len b' /\
  (forall q, 0 <= q -> gz b' q = gz b q).
Proof.
  intros [Hw Hl] Hp. unfold enlarge. rewrite w32_id by lia. pose proof (len_nonneg b).
  destruct (Z.ltb_spec (len b) (p + 1)).
  - destruct (newArray_ok (p + 1)) as [a [E E2]]; [lia|]. rewrite E. cbn [bindO].
    destruct (arraycopy_ok b 0 a 0 (len b)) as [b' [F [F2 F3]]]; try lia.
    assert (G : forall q, 0 <= q -> gz b' q = gz b q).
    { intros q Hq. rewrite F3 by lia. replace (0 <=? q) with true by (symmetry; apply Z.leb_le; lia). cbn [andb].
      destruct (Z.ltb_spec q (0 + len b)); [f_equal; lia|]. rewrite (newArray_zero _ _ E). symmetry. apply gz_out. lia. }
    exists b'. split; [exact F|]. split; [|split; [lia|split; [lia|exact G]]].
    split; [|lia]. apply Forall_gz. intros q Hq. rewrite G by lia. apply wf_gz. exact Hw.
  - exists b. split; [reflexivity|]. split; [split; assumption|]. split; [lia|]. split; [lia|]. reflexivity.
Qed.

Lemma update_ok b p f : wf b -> 0 <= p < len b -> (forall w, word w -> word (f w)) -> exists b', update b p f = Val b' /\ wf b' /\
  len b' = len b /\ forall q, 0 <= q -> gz b' q = if q =? p then f (gz b p) else gz b q.
Proof.
  intros [Hw Hl] Hp Hf. unfold update. rewrite aget_ok by lia. cbn [bindO].
  destruct (aset_ok b p (f (gz b p)) Hp) as [b' [E [E2 E3]]]. exists b'. split; [exact E|].
  split; [|split; [exact E2|exact E3]]. split; [|lia].
  apply Forall_gz. intros q Hq. rewrite E3 by lia. destruct (q =? p); [apply Hf|]; apply wf_gz; exact Hw.
Qed.

(** Word operations act bit by bit. *)
Record bitwise (f : Z -> Z -> Z) (fb : bool -> bool -> bool) : Prop := {
  bwBit : forall x y k, 0 <= k -> word x -> word y -> k < 64 -> Z.testbit (f x y) k = fb (Z.testbit x k) (Z.testbit y k);
  bwWord : forall x y, word x -> word y -> word (f x y) }.

Lemma lor_bitwise : bitwise Z.lor orb.
Proof.
  constructor; intros x y.
  - intros. apply Z.lor_spec.
  - intros Hx Hy. apply word_iff; [apply Z.lor_nonneg; unfold word in *; lia|].
    intros k Hk. rewrite Z.lor_spec, !word_bound by assumption. reflexivity.
Qed.
Lemma lxor_bitwise : bitwise Z.lxor xorb.
Proof.
  constructor; intros x y.
  - intros. apply Z.lxor_spec.
  - intros Hx Hy. apply word_iff; [apply Z.lxor_nonneg; unfold word in *; lia|].
    intros k Hk. rewrite Z.lxor_spec, !word_bound by assumption. reflexivity.
Qed.
Lemma land_bitwise : bitwise Z.land andb.
Proof.
  constructor; intros x y.
  - intros. apply Z.land_spec.
  - intros Hx Hy. apply word_iff; [apply Z.land_nonneg; unfold word in *; lia|].
    intros k Hk. rewrite Z.land_spec, !word_bound by assumption. reflexivity.
Qed.
Lemma mask_word : word MASK.
Proof. split; [vm_compute; discriminate|reflexivity]. Qed.
Lemma andnot_bitwise : bitwise (fun x y => Z.land x (Z.lxor MASK y)) (fun x y => x && negb y).
Proof.
  constructor; intros x y.
  - intros. rewrite Z.land_spec, Z.lxor_spec, mask_testbit by lia.
    replace (k <? 64) with true by (symmetry; apply Z.ltb_lt; lia). destruct (Z.testbit y k); reflexivity.
  - intros Hx Hy. apply (bwWord _ _ land_bitwise); [exact Hx|]. apply (bwWord _ _ lxor_bitwise); [apply mask_word|exact Hy].
Qed.

(** Equal indexes are equal words and equal places. *)
Lemma index_eq i k : 0 <= i -> 0 <= k -> (i =? k) = (i / 64 =? k / 64) && (i mod 64 =? k mod 64).
Proof.
  intros Hi Hk. pose proof (div64 i Hi). pose proof (div64 k Hk).
  destruct (Z.eqb_spec i k).
  - subst. rewrite !Z.eqb_refl. reflexivity.
  - destruct (Z.eqb_spec (i / 64) (k / 64)); cbn [andb]; [|reflexivity]. symmetry. apply Z.eqb_neq. lia.
Qed.

Lemma div_below k : 0 <= k <= maxIndex -> 0 <= k / 64 < 33554431.
Proof. unfold maxIndex. intro H. split; [apply Z.div_pos; lia|]. apply Z.div_lt_upper_bound; lia. Qed.

Lemma one_bit f fb b k : bitwise f fb -> (forall x, fb x false = x) -> wf b -> 0 <= k -> k / 64 < len b ->
  exists b', update b (k / 64) (fun w => f w (bitPosition k)) = Val b' /\ wf b' /\
  forall i, 0 <= i -> mem b' i = if i =? k then fb (mem b i) true else mem b i.
Proof.
  intros Bw Hid Hwf Hk Hlt. pose proof (div64 k Hk).
  destruct (update_ok b (k / 64) (fun w => f w (bitPosition k))) as [b' [E [W [L G]]]]; auto; try lia.
  { intros w Hw. apply (bwWord _ _ Bw); [exact Hw|apply bitPosition_word]. }
  exists b'. split; [exact E|]. split; [exact W|]. intros i Hi. pose proof (div64 i Hi).
  unfold mem. rewrite G by lia. rewrite (index_eq i k) by lia.
  destruct (Z.eqb_spec (i / 64) (k / 64)) as [Eq|]; cbn [andb]; [|reflexivity].
  rewrite Eq. rewrite (bwBit _ _ Bw); try lia; [|apply wf_gz; apply Hwf|apply bitPosition_word].
  rewrite bitPosition_testbit by lia. destruct (Z.eqb_spec (i mod 64) (k mod 64)) as [E2|]; [reflexivity|]. apply Hid.
Qed.

Lemma mem_enlarge b b' : (forall q, 0 <= q -> gz b' q = gz b q) -> forall i, 0 <= i -> mem b' i = mem b i.
Proof. intros G i Hi. unfold mem. rewrite G; [reflexivity|]. apply Z.div_pos; lia. Qed.

Lemma set_ok b k : wf b -> 0 <= k <= maxIndex -> exists b', set b k = Val b' /\ wf b' /\
  forall i, 0 <= i -> mem b' i = (i =? k) || mem b i.
Proof.
  intros W Hk. unfold set. rewrite longPosition_div. pose proof (div_below k Hk).
  destruct (enlarge_ok b (k / 64) W) as [b1 [E [W1 [L1 [_ G1]]]]]; [lia|]. rewrite E. cbn [bindO].
  destruct (one_bit Z.lor orb b1 k lor_bitwise) as [b' [F [W2 M]]]; auto; try lia.
  { intros []; reflexivity. }
  exists b'. split; [exact F|]. split; [exact W2|]. intros i Hi. rewrite M by lia.
  rewrite (mem_enlarge b b1 G1) by lia. destruct (i =? k); [apply orb_true_r|reflexivity].
Qed.

Lemma clear_ok b k : wf b -> 0 <= k -> exists b', clear b k = Val b' /\ wf b' /\
  forall i, 0 <= i -> mem b' i = negb (i =? k) && mem b i.
Proof.
  intros W Hk. unfold clear. rewrite longPosition_div.
  destruct (Z.ltb_spec (k / 64) (len b)).
  - destruct (one_bit _ _ b k andnot_bitwise) as [b' [F [W2 M]]]; auto.
    { intro x. cbv beta. destruct x; reflexivity. }
    exists b'. split; [exact F|]. split; [exact W2|]. intros i Hi. rewrite M by lia.
    destruct (i =? k); cbn [negb]; [apply andb_false_r|reflexivity].
  - exists b. split; [reflexivity|]. split; [exact W|]. intros i Hi. destruct (Z.eqb_spec i k); cbn [negb andb]; [|reflexivity].
    subst. unfold mem. rewrite gz_out by lia. apply Z.bits_0.
Qed.

Lemma traverse_ok f fb : bitwise f fb -> (forall x, fb x false = x) -> forall n p to cur b, wf b ->
  0 <= p -> p * 64 <= cur -> cur < to -> cur < (p + 1) * 64 -> to - 1 <= maxIndex -> (to - 1) / 64 < len b ->
  Z.of_nat n = (to - 1) / 64 - p + 1 ->
  exists b', traverse n p to cur f b = Val b' /\ wf b' /\ len b' = len b /\
  forall i, 0 <= i -> mem b' i = if (cur <=? i) && (i <? to) then fb (mem b i) true else mem b i.
Proof.
  intros Bw Hid. induction n as [|n IH]; intros p to cur b W Hp H1 H2 H3 Hmax Hlen Hn.
  { exfalso. pose proof (div64 (to - 1) ltac:(lia)). lia. }
  pose proof (div64 (to - 1) ltac:(lia)) as Hd. unfold maxIndex in Hmax.
  pose proof (div_below (to - 1) ltac:(unfold maxIndex; lia)) as Hb.
  assert (Hple : p <= (to - 1) / 64) by lia.
  cbn [traverse]. rewrite (w32_id ((p + 1) * 64)) by lia.
  set (c := Z.min to ((p + 1) * 64)).
  assert (Hdc : cur / 64 = p) by (symmetry; apply (Z.div_unique cur 64 p (cur - 64 * p)); lia).
  pose proof (div64 cur ltac:(lia)) as Hc.
  destruct (update_ok b p (fun w => f w (getTrueMask cur c))) as [b1 [E [W1 [L1 G1]]]]; auto; try lia.
  { intros w Hw. apply (bwWord _ _ Bw); [exact Hw|apply trueMask_word]. }
  rewrite E. cbn [bindO].
  assert (M1 : forall i, 0 <= i -> mem b1 i = if (cur <=? i) && (i <? c) then fb (mem b i) true else mem b i).
  { intros i Hi. pose proof (div64 i Hi) as Hdi. unfold mem. rewrite G1 by lia.
    destruct (Z.eqb_spec (i / 64) p) as [Eq|Ne].
    - rewrite (bwBit _ _ Bw); try lia; [|apply wf_gz; apply W|apply trueMask_word].
      rewrite trueMask_testbit by (unfold c; lia). rewrite Eq.
      replace (cur mod 64 <=? i mod 64) with (cur <=? i).
      2:{ destruct (Z.leb_spec cur i); symmetry; [apply Z.leb_le|apply Z.leb_gt]; lia. }
      replace (i mod 64 <? cur mod 64 + (c - cur)) with (i <? c).
      2:{ destruct (Z.ltb_spec i c); symmetry; [apply Z.ltb_lt|apply Z.ltb_ge]; lia. }
      destruct ((cur <=? i) && (i <? c)); [reflexivity|apply Hid].
    - replace ((cur <=? i) && (i <? c)) with false; [reflexivity|].
      symmetry. rewrite andb_false_iff, Z.leb_gt, Z.ltb_ge. unfold c. lia. }
  destruct (Z.leb_spec to ((p + 1) * 64)) as [Hend|Hmore].
  - assert ((to - 1) / 64 = p) by lia. assert (n = 0%nat) as -> by lia.
    exists b1. split; [reflexivity|]. split; [exact W1|]. split; [exact L1|].
    intros i Hi. rewrite M1 by lia. replace c with to by (unfold c; lia). reflexivity.
  - replace c with ((p + 1) * 64) in * by (unfold c; lia). clear c.
    assert (p + 1 <= (to - 1) / 64) by lia.
    destruct (IH (p + 1) to ((p + 1) * 64) b1) as [b2 [E2 [W2 [L2 M2]]]]; auto; try (unfold maxIndex; lia).
    exists b2. split; [exact E2|]. split; [exact W2|]. split; [lia|].
    intros i Hi. rewrite M2, M1 by lia.
    repeat match goal with |- context[?a <=? ?b] => destruct (Z.leb_spec a b) | |- context[?a <? ?b] => destruct (Z.ltb_spec a b) end;
      cbn [andb]; try reflexivity; lia.
Qed.

Lemma overRange_ok f fb b s e : bitwise f fb -> (forall x, fb x false = x) -> wf b -> 0 <= s -> s < e -> e - 1 <= maxIndex ->
  (e - 1) / 64 < len b -> exists b', overRange s e f b = Val b' /\ wf b' /\
  forall i, 0 <= i -> mem b' i = if (s <=? i) && (i <? e) then fb (mem b i) true else mem b i.
Proof.
  intros Bw Hid W Hs He Hm Hl. unfold overRange, numPartitions, basePartition. rewrite !longPosition_div.
  unfold maxIndex in Hm. rewrite w32_id by lia.
  pose proof (div64 s Hs). pose proof (div64 (e - 1) ltac:(lia)).
  assert (s / 64 <= (e - 1) / 64) by (apply Z.div_le_mono; lia).
  destruct (traverse_ok f fb Bw Hid (Z.to_nat ((e - 1) / 64 - s / 64 + 1)) (s / 64) e s b) as [b' [E [W' [_ M]]]];
    auto; try (unfold maxIndex; lia).
  exists b'. auto.
Qed.

Lemma last_eq s e : 0 <= s -> s < e -> e - 1 <= maxIndex -> lastPartition s e = (e - 1) / 64.
Proof. intros. unfold lastPartition, numPartitions, basePartition, maxIndex in *. rewrite !longPosition_div, w32_id by lia. lia. Qed.

Lemma range_ok f fb b s e : bitwise f fb -> (forall x, fb x false = x) -> wf b -> 0 <= s -> s < e -> e - 1 <= maxIndex ->
  exists b', bindO (enlarge b (lastPartition s e)) (overRange s e f) = Val b' /\ wf b' /\
  forall i, 0 <= i -> mem b' i = if (s <=? i) && (i <? e) then fb (mem b i) true else mem b i.
Proof.
  intros Bw Hid W Hs He Hm. rewrite last_eq by lia. pose proof (div_below (e - 1) ltac:(lia)).
  destruct (enlarge_ok b ((e - 1) / 64) W) as [b1 [E [W1 [L1 [_ G1]]]]]; [lia|]. rewrite E. cbn [bindO].
  destruct (overRange_ok f fb b1 s e) as [b' [F [W2 M]]]; auto.
  exists b'. split; [exact F|]. split; [exact W2|]. intros i Hi. rewrite M by lia. rewrite (mem_enlarge b b1 G1) by lia. reflexivity.
Qed.

Lemma zip_len f r a : forall b, len (zip f r a b) = len a.
Proof. unfold len. induction a as [|x a IH]; intros [|y b]; cbn [zip length]; auto; rewrite !Nat2Z.inj_succ, IH; reflexivity. Qed.
Lemma zip_gz f r a : forall b p, 0 <= p < len a -> gz (zip f r a b) p = if p <? len b then f (gz a p) (gz b p) else r (gz a p).
Proof.
  induction a as [|x a IH]; intros b p Hp; [unfold len in Hp; cbn in Hp; lia|].
  destruct (Z.eq_dec p 0) as [->|Hp0].
  - destruct b as [|y b]; cbn [zip]; [reflexivity|]. replace (0 <? len (y :: b)) with true; [reflexivity|].
    symmetry. apply Z.ltb_lt. unfold len. cbn [length]. lia.
  - assert (La : len (x :: a) = len a + 1) by (unfold len; cbn [length]; lia).
    destruct b as [|y b]; cbn [zip]; rewrite !gz_cons by lia.
    + rewrite IH by lia. replace (p <? len []) with false by (symmetry; apply Z.ltb_ge; unfold len; cbn; lia).
      replace (p - 1 <? len []) with false by (symmetry; apply Z.ltb_ge; unfold len; cbn; lia). reflexivity.
    + rewrite IH by lia. assert (Lb : len (y :: b) = len b + 1) by (unfold len; cbn [length]; lia). rewrite Lb.
      replace (p <? len b + 1) with (p - 1 <? len b); [reflexivity|].
      destruct (Z.ltb_spec (p - 1) (len b)); symmetry; [apply Z.ltb_lt|apply Z.ltb_ge]; lia.
Qed.

Lemma zip_ok f fb r a b : bitwise f fb -> wf a -> wf b -> (forall x, word x -> word (r x)) ->
  (forall x k, word x -> 0 <= k < 64 -> Z.testbit (r x) k = fb (Z.testbit x k) false) -> fb false false = false ->
  wf (zip f r a b) /\ forall i, 0 <= i -> i / 64 < len a \/ fb false (mem b i) = false ->
  mem (zip f r a b) i = fb (mem a i) (mem b i).
Proof.
  intros Bw [Wa La] [Wb Lb] Hr Hrb Hff. split.
  - split; [|rewrite zip_len; exact La]. apply Forall_gz. intros p Hp. rewrite zip_len in Hp. rewrite zip_gz by lia.
    destruct (p <? len b); [apply (bwWord _ _ Bw)|apply Hr]; apply wf_gz; assumption.
  - intros i Hi H. pose proof (div64 i Hi). unfold mem. destruct (Z.ltb_spec (i / 64) (len a)) as [Hin|Hout].
    + rewrite zip_gz by lia. destruct (Z.ltb_spec (i / 64) (len b)).
      * apply (bwBit _ _ Bw); try lia; apply wf_gz; assumption.
      * rewrite (gz_out b) by lia. rewrite Z.bits_0. apply Hrb; [apply wf_gz; exact Wa|lia].
    + destruct H as [H|H]; [lia|]. rewrite gz_out by (rewrite zip_len; lia). rewrite (gz_out a) by lia. rewrite Z.bits_0.
      unfold mem in H. rewrite H. reflexivity.
Qed.

Lemma enlarged_zip f fb a b : bitwise f fb -> (forall x, fb x false = x) -> wf a -> wf b -> len a < 33554432 -> len b < 33554432 ->
  exists c, bindO (enlarge a (Z.max (len a) (len b))) (fun x => Val (zip f (fun w => w) x b)) = Val c /\ wf c /\
  forall i, 0 <= i -> mem c i = fb (mem a i) (mem b i).
Proof.
  intros Bw Hid Wa Wb La Lb. pose proof (len_nonneg a).
  destruct (enlarge_ok a (Z.max (len a) (len b)) Wa) as [x [E [Wx [Lx [_ G]]]]]; [lia|]. rewrite E. cbn [bindO].
  destruct (zip_ok f fb (fun w => w) x b Bw Wx Wb) as [W M]; auto.
  exists (zip f (fun w => w) x b). split; [reflexivity|]. split; [exact W|]. intros i Hi.
  rewrite <- (mem_enlarge a x G) by lia. apply M; [exact Hi|].
  destruct (Z.ltb_spec (i / 64) (len x)); [left; lia|]. right.
  unfold mem. rewrite (gz_out b) by lia. rewrite Z.bits_0. apply Hid.
Qed.

Lemma isEmpty_ok b : wf b -> (isEmpty b = true <-> forall i, 0 <= i -> mem b i = false).
Proof.
  intros [W _]. unfold isEmpty. rewrite forallb_forall. split.
  - intros H i Hi. unfold mem. assert (gz b (i / 64) = 0) as ->; [|apply Z.bits_0].
    unfold gz. destruct (nth_in_or_default (Z.to_nat (i / 64)) b 0) as [H1|H1]; [|exact H1]. apply Z.eqb_eq. apply H. exact H1.
  - intros H x Hx. apply Z.eqb_eq. apply Z.bits_inj'. intros k Hk. rewrite Z.bits_0.
    apply (In_nth _ _ 0) in Hx. destruct Hx as [n [Hn E]].
    destruct (Z.ltb_spec k 64) as [Hlt|Hge].
    + specialize (H (64 * Z.of_nat n + k) ltac:(lia)). unfold mem in H.
      replace ((64 * Z.of_nat n + k) / 64) with (Z.of_nat n) in H by (apply (Z.div_unique _ 64 _ k); lia).
      replace ((64 * Z.of_nat n + k) mod 64) with k in H by (apply (Z.mod_unique _ 64 (Z.of_nat n)); lia).
      unfold gz in H. rewrite Nat2Z.id, E in H. exact H.
    + apply word_bound; [|lia]. rewrite <- E. rewrite Forall_forall in W. apply W. apply nth_In. exact Hn.
Qed.
