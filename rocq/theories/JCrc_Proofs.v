From Coq Require Import NArith List Bool Arith Lia.
From Verif Require Import JCrc_Model JCrc_Spec.
Import ListNotations.
Local Open Scope N_scope.

Lemma word_spec : forall x i, N.testbit (word x) i = (i <? 32) && N.testbit x i.
Proof.
  intros x i. unfold word. destruct (N.ltb_spec i 32); [now rewrite N.mod_pow2_bits_low | now rewrite N.mod_pow2_bits_high].
Qed.
Definition isWord (x : N) : Prop := forall i, 32 <= i -> N.testbit x i = false.
Lemma word_is : forall x, isWord (word x).
Proof. intros x i H. rewrite word_spec. destruct (N.ltb_spec i 32); [lia|reflexivity]. Qed.
Lemma lxor_is : forall x y, isWord x -> isWord y -> isWord (N.lxor x y).
Proof. intros x y X Y i H. rewrite N.lxor_spec, X, Y; auto. Qed.
Lemma isWord_lt : forall x, x < 2 ^ 32 -> isWord x.
Proof. intros x H i I0. rewrite <- (N.mod_small x (2 ^ 32)) by lia. apply N.mod_pow2_bits_high. lia. Qed.
Lemma isWord_is : forall x, isWord x -> word x = x.
Proof. intros x H. apply N.bits_inj. intro i. rewrite word_spec. destruct (N.ltb_spec i 32); [reflexivity|]. now rewrite H. Qed.

Lemma reflectLoop_spec : forall n x a i, N.testbit (reflectLoop n x a) i = N.testbit a i || ((i <? N.of_nat n) && N.testbit x (N.of_nat n - 1 - i)).
Proof.
  induction n; intros x a i; cbn [reflectLoop].
  - destruct (N.ltb_spec i (N.of_nat 0)); [lia|]. now rewrite orb_false_r.
  - rewrite IHn. rewrite N.shiftr_spec by lia.
    assert (A : N.testbit (if N.testbit x 0 then N.lor a (N.shiftl 1 (N.of_nat n)) else a) i = N.testbit a i || ((i =? N.of_nat n) && N.testbit x 0)).
    { destruct (N.testbit x 0); [|now rewrite andb_false_r, orb_false_r]. rewrite N.lor_spec, N.shiftl_1_l, N.pow2_bits_eqb, andb_true_r, N.eqb_sym. reflexivity. }
    rewrite A. destruct (N.ltb_spec i (N.of_nat n)), (N.ltb_spec i (N.of_nat (S n))), (N.eqb_spec i (N.of_nat n)); try lia; cbn [andb]; rewrite ?orb_false_r; auto.
    + do 2 f_equal. lia.
    + do 2 f_equal. lia.
Qed.
Lemma reflect_spec : forall x n i, N.testbit (reflect x n) i = (i <? N.of_nat n) && N.testbit x (N.of_nat n - 1 - i).
Proof. intros. unfold reflect. rewrite reflectLoop_spec, N.bits_0. reflexivity. Qed.
Definition rev (x : N) : N := reflect x 32.
Lemma rev_spec : forall x i, N.testbit (rev x) i = (i <? 32) && N.testbit x (31 - i).
Proof. intros. unfold rev. rewrite reflect_spec. reflexivity. Qed.
Lemma rev_is : forall x, isWord (rev x).
Proof. intros x i H. rewrite rev_spec. destruct (N.ltb_spec i 32); [lia|reflexivity]. Qed.
Lemma rev_rev : forall x, isWord x -> rev (rev x) = x.
Proof.
  intros x H. apply N.bits_inj. intro i. rewrite !rev_spec. destruct (N.ltb_spec i 32); [|cbn [andb]; symmetry; now apply H].
  destruct (N.ltb_spec (31 - i) 32); [|lia]. cbn [andb]. f_equal. lia.
Qed.
Lemma rev_lxor : forall x y, rev (N.lxor x y) = N.lxor (rev x) (rev y).
Proof. intros. apply N.bits_inj. intro i. rewrite N.lxor_spec, !rev_spec, N.lxor_spec. destruct (i <? 32); reflexivity. Qed.

(** One shift, bit by bit. *)
Lemma shift1_spec : forall x i, N.testbit (shift1 x) i = xorb ((0 <? i) && (i <? 32) && N.testbit x (i - 1)) (N.testbit x 31 && N.testbit Polynomial i).
Proof.
  intros x i. unfold shift1.
  assert (W : N.testbit (word (N.shiftl x 1)) i = (0 <? i) && (i <? 32) && N.testbit x (i - 1)).
  { rewrite word_spec. destruct (N.ltb_spec 0 i).
    - rewrite N.shiftl_spec_high by lia. destruct (i <? 32); reflexivity.
    - assert (i = 0) by lia. subst. rewrite N.shiftl_spec_low by lia. now rewrite andb_false_r. }
  destruct (N.testbit x 31); [rewrite N.lxor_spec|]; rewrite W; [reflexivity|]. now rewrite xorb_false_r.
Qed.
Lemma shift1_lxor : forall x y, shift1 (N.lxor x y) = N.lxor (shift1 x) (shift1 y).
Proof.
  intros. apply N.bits_inj. intro i. rewrite N.lxor_spec, !shift1_spec, !N.lxor_spec.
  destruct ((0 <? i) && (i <? 32)), (N.testbit x 31), (N.testbit y 31), (N.testbit Polynomial i), (N.testbit x (i - 1)), (N.testbit y (i - 1)); reflexivity.
Qed.
Lemma shiftBits_lxor : forall n x y, shiftBits n (N.lxor x y) = N.lxor (shiftBits n x) (shiftBits n y).
Proof. induction n; intros; cbn [shiftBits]; auto. rewrite shift1_lxor. auto. Qed.
Lemma poly_rev : forall i, i < 32 -> N.testbit Polynomial i = N.testbit 0xEDB88320 (31 - i).
Proof.
  intros i H. replace i with (N.of_nat (N.to_nat i)) by lia. assert (K : (N.to_nat i < 32)%nat) by lia. generalize dependent (N.to_nat i). clear i H. intros n K.
  do 32 (destruct n as [|n]; [reflexivity|]). lia.
Qed.
Lemma crcBit_spec : forall x i, N.testbit (crcBit x) i = xorb (N.testbit x (i + 1)) (N.testbit x 0 && N.testbit 0xEDB88320 i).
Proof.
  intros x i. unfold crcBit. rewrite N.bit0_odd. destruct (N.odd x); [rewrite N.lxor_spec|]; rewrite N.div2_spec, N.shiftr_spec by lia; cbn [andb]; rewrite ?xorb_false_r; reflexivity.
Qed.
Lemma shift1_rev : forall x, isWord x -> shift1 (rev x) = rev (crcBit x).
Proof.
  intros x H. apply N.bits_inj. intro i. rewrite shift1_spec, !rev_spec, crcBit_spec.
  destruct (N.ltb_spec i 32) as [L|L].
  - rewrite poly_rev by lia. change (31 <? 32) with true. change (31 - 31) with 0. cbn [andb]. f_equal.
    destruct (N.ltb_spec 0 i).
    + destruct (N.ltb_spec (i - 1) 32); [|lia]. cbn [andb]. f_equal. lia.
    + assert (i = 0) by lia. subst. cbn [andb]. symmetry. apply H. reflexivity.
  - rewrite andb_false_r. cbn [andb xorb]. change (31 <? 32) with true. cbn [andb].
    assert (P : N.testbit Polynomial i = false) by (apply isWord_lt; [reflexivity|exact L]). now rewrite P, andb_false_r.
Qed.
Lemma crcBit_is : forall x, isWord x -> isWord (crcBit x).
Proof.
  intros x H i I0. rewrite crcBit_spec, H by lia. assert (P : N.testbit 0xEDB88320 i = false) by (apply isWord_lt; [reflexivity|exact I0]). now rewrite P, andb_false_r.
Qed.
Fixpoint crcBits (n : nat) (x : N) : N := match n with O => x | S m => crcBits m (crcBit x) end.
Lemma crcBits_S : forall n x, crcBits (S n) x = crcBits n (crcBit x).
Proof. reflexivity. Qed.
Lemma shiftBits_S : forall n x, shiftBits (S n) x = shiftBits n (shift1 x).
Proof. reflexivity. Qed.
Lemma crcBits_O : forall x, crcBits 0 x = x.
Proof. reflexivity. Qed.
Lemma shiftBits_O : forall x, shiftBits 0 x = x.
Proof. reflexivity. Qed.
Lemma shiftBits_rev : forall n x, isWord x -> shiftBits n (rev x) = rev (crcBits n x) /\ isWord (crcBits n x).
Proof.
  induction n; intros x H; [rewrite shiftBits_O, crcBits_O; exact (conj eq_refl H)|]. rewrite shiftBits_S, crcBits_S, (shift1_rev x H). exact (IHn (crcBit x) (crcBit_is x H)).
Qed.
Lemma crcByte_bits : forall c b, crcByte c b = crcBits 8 (N.lxor c b).
Proof. reflexivity. Qed.

(** The table. *)
Lemma nth_map_seq : forall A (f : nat -> A) n k, (k < n)%nat -> nth_error (map f (seq 0 n)) k = Some (f k).
Proof.
  intros A f n k K. apply map_nth_error. rewrite (nth_error_nth' _ 0%nat) by (rewrite seq_length; exact K). f_equal. now rewrite seq_nth.
Qed.
Lemma table_ok : forall k, k < 256 -> nth_error table (N.to_nat k) = Some (shiftBits 8 (word (N.shiftl k 24))).
Proof.
  intros k K. unfold table. rewrite nth_map_seq by lia. cbv beta. rewrite N2Nat.id. exact eq_refl.
Qed.
#[global] Opaque table.
Lemma low_shift : forall n y, (forall i, 32 - N.of_nat n <= i -> N.testbit y i = false) -> (n <= 32)%nat -> shiftBits n y = N.shiftl y (N.of_nat n).
Proof.
  induction n; intros y H L; cbn [shiftBits]; [now rewrite N.shiftl_0_r|].
  assert (E : shift1 y = N.shiftl y 1).
  { apply N.bits_inj. intro i. rewrite shift1_spec. rewrite (H 31) by lia. cbn [andb]. rewrite xorb_false_r.
    destruct (N.ltb_spec 0 i).
    - rewrite N.shiftl_spec_high by lia. destruct (N.ltb_spec i 32); [reflexivity|]. cbn. symmetry. apply H. lia.
    - assert (i = 0) by lia. subst. now rewrite N.shiftl_spec_low. }
  rewrite E, IHn.
  - rewrite N.shiftl_shiftl. f_equal. lia.
  - intros i Hi. destruct (N.eq_dec i 0) as [->|]; [now rewrite N.shiftl_spec_low|]. rewrite N.shiftl_spec_high by lia. apply H. lia.
  - lia.
Qed.
Lemma small_bits : forall b i, b < 256 -> 8 <= i -> N.testbit b i = false.
Proof. intros b i B I0. rewrite <- (N.mod_small b (2 ^ 8)) by lia. apply N.mod_pow2_bits_high. lia. Qed.
Lemma bits_small : forall x, (forall i, 8 <= i -> N.testbit x i = false) -> x < 256.
Proof.
  intros x H. assert (x mod 2 ^ 8 = x).
  { apply N.bits_inj. intro i. destruct (N.lt_ge_cases i 8); [now apply N.mod_pow2_bits_low|]. rewrite N.mod_pow2_bits_high by lia. symmetry. auto. }
  rewrite <- H0. apply N.mod_lt. discriminate.
Qed.
Lemma low_word : forall r, shiftBits 8 (r mod 2 ^ 24) = word (N.shiftl r 8).
Proof.
  intro r.
  assert (LB : forall i, N.testbit (r mod 2 ^ 24) i = (i <? 24) && N.testbit r i).
  { intro i. destruct (N.ltb_spec i 24); [now rewrite N.mod_pow2_bits_low | now rewrite N.mod_pow2_bits_high]. }
  generalize dependent (r mod 2 ^ 24). intros low LB.
  rewrite (low_shift 8); [|intros i Hi; rewrite LB; destruct (N.ltb_spec i 24); [lia|reflexivity]|lia].
  apply N.bits_inj. intro i. rewrite word_spec. change (N.of_nat 8) with 8. destruct (N.lt_ge_cases i 8).
  - rewrite !N.shiftl_spec_low by lia. now rewrite andb_false_r.
  - rewrite !N.shiftl_spec_high by lia. rewrite LB. destruct (N.ltb_spec i 32), (N.ltb_spec (i - 8) 24); try lia; reflexivity.
Qed.
Lemma index_small : forall r b, isWord r -> N.lxor (reflect b 8) (N.shiftr r 24) < 256.
Proof.
  intros r b R. apply bits_small. intros i I0. rewrite N.lxor_spec, reflect_spec, N.shiftr_spec by lia. rewrite R by lia.
  destruct (N.ltb_spec i (N.of_nat 8)); [lia|reflexivity].
Qed.
Lemma split_word : forall r b, isWord r -> b < 256 ->
  N.lxor r (rev b) = N.lxor (word (N.shiftl (N.lxor (reflect b 8) (N.shiftr r 24)) 24)) (r mod 2 ^ 24).
Proof.
  intros r b R B. apply N.bits_inj. intro i.
  assert (LB : N.testbit (r mod 2 ^ 24) i = (i <? 24) && N.testbit r i).
  { destruct (N.ltb_spec i 24); [now rewrite N.mod_pow2_bits_low | now rewrite N.mod_pow2_bits_high]. }
  rewrite !N.lxor_spec, word_spec, LB, rev_spec. destruct (N.ltb_spec i 32) as [L|L].
  - destruct (N.ltb_spec i 24).
    + rewrite N.shiftl_spec_low by lia. cbn [andb]. rewrite (small_bits b) by lia. now destruct (N.testbit r i).
    + rewrite N.shiftl_spec_high by lia. rewrite N.lxor_spec, reflect_spec, N.shiftr_spec by lia.
      destruct (N.ltb_spec (i - 24) (N.of_nat 8)); [|lia]. cbn [andb]. replace (i - 24 + 24) with i by lia. replace (N.of_nat 8 - 1 - (i - 24)) with (31 - i) by lia.
      now destruct (N.testbit r i), (N.testbit b (31 - i)).
  - rewrite R by lia. destruct (N.ltb_spec i 24); [lia|]. reflexivity.
Qed.
Lemma update_step : forall b r, b < 256 -> isWord r -> update b r = Some (shiftBits 8 (N.lxor r (rev b))).
Proof.
  intros b r B R. unfold update. rewrite (table_ok _ (index_small r b R)), (split_word r b R B), shiftBits_lxor, low_word. exact eq_refl.
Qed.
Lemma update_ok : forall b c, b < 256 -> isWord c -> update b (rev c) = Some (rev (crcByte c b)) /\ isWord (crcByte c b).
Proof.
  intros b c B H. assert (CB : isWord (N.lxor c b)) by (apply lxor_is; [exact H|apply isWord_lt; lia]).
  destruct (shiftBits_rev 8 (N.lxor c b) CB) as [E W].
  rewrite crcByte_bits. split; [|exact W]. rewrite (update_step b (rev c) B (rev_is c)), <- rev_lxor, E. exact eq_refl.
Qed.
Lemma update_low : forall b r, update b r = update (b mod 256) r.
Proof.
  intros b r. unfold update. replace (reflect (b mod 256) 8) with (reflect b 8); [reflexivity|].
  apply N.bits_inj. intro i. rewrite !reflect_spec. destruct (N.ltb_spec i (N.of_nat 8)); [|reflexivity]. cbn [andb].
  change 256 with (2 ^ 8). rewrite N.mod_pow2_bits_low by lia. reflexivity.
Qed.
Lemma mask_low : forall b, N.land b 0xFF = b mod 256.
Proof. intro b. change 0xFF with (N.ones 8). rewrite N.land_ones. reflexivity. Qed.
Lemma mod_lt256 : forall b, b mod 256 < 256.
Proof. intro b. apply N.mod_lt. discriminate. Qed.
Lemma updates_ok : forall l c, isWord c -> updates l (rev c) = Some (rev (fold_left crcByte (map (fun b => b mod 256) l) c)) /\ isWord (fold_left crcByte (map (fun b => b mod 256) l) c).
Proof.
  induction l as [|b l IH]; intros c H; cbn [updates map fold_left]; [auto|]. rewrite mask_low. destruct (update_ok (b mod 256) c (mod_lt256 b) H) as [-> W]. apply IH, W.
Qed.
Lemma rev_init : InitialRemainder = rev 0xFFFFFFFF.
Proof. vm_compute. reflexivity. Qed.
#[global] Opaque reflect.
Lemma land_mask : forall x, isWord x -> N.land x 0xFFFFFFFF = x.
Proof.
  intros x H. assert (E : 0xFFFFFFFF = N.ones 32) by reflexivity. rewrite E, N.land_ones. exact (isWord_is x H).
Qed.
Lemma getValue_rev : forall r, getValue r = N.lxor (rev r) 0xFFFFFFFF.
Proof. intro r. unfold getValue, ResultXor. rewrite land_mask; [exact eq_refl|]. exact (lxor_is _ _ (rev_is r) (isWord_lt 0xFFFFFFFF eq_refl)). Qed.
Lemma getValue_ok : forall c, isWord c -> getValue (rev c) = N.lxor c 0xFFFFFFFF.
Proof. intros c H. rewrite getValue_rev, (rev_rev c H). exact eq_refl. Qed.
Definition remainderOf (l : list N) : N := fold_left crcByte l 0xFFFFFFFF.
Lemma remainderOf_nil : InitialRemainder = rev (remainderOf []) /\ isWord (remainderOf []).
Proof. exact (conj rev_init (isWord_lt 0xFFFFFFFF eq_refl)). Qed.
Lemma remainderOf_app : forall l m, remainderOf (l ++ m) = fold_left crcByte m (remainderOf l).
Proof. intros. unfold remainderOf. apply fold_left_app. Qed.
Lemma remainderOf_one : forall l b, remainderOf (l ++ [b]) = crcByte (remainderOf l) b.
Proof. intros. rewrite remainderOf_app. exact eq_refl. Qed.
Lemma run_ok : forall cs l, isWord (remainderOf l) -> run cs (rev (remainderOf l)) = Some (values cs l).
Proof.
  induction cs as [|c cs IH]; intros l H; [exact eq_refl|]. destruct c as [b|bs| |]; cbn [run values].
  - rewrite update_low. destruct (update_ok (b mod 256) _ (mod_lt256 b) H) as [E W]. rewrite E. rewrite <- remainderOf_one in *. exact (IH _ W).
  - destruct (updates_ok bs _ H) as [E W]. rewrite E. rewrite <- remainderOf_app in *. exact (IH _ W).
  - destruct remainderOf_nil as [E W]. rewrite E. exact (IH _ W).
  - rewrite (IH _ H), (getValue_ok _ H). exact eq_refl.
Qed.
