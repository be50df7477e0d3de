(** Proofs about bit counting. *)
From Coq Require Import List ZArith NArith Bool Lia.
From Verif Require Import Res Bits JNum_Model JNum_Spec.
Import ListNotations.
Local Open Scope Z_scope.
Local Arguments Z.add : simpl never.
Local Arguments Z.mul : simpl never.
Local Arguments Z.pow : simpl never.
Local Arguments Z.sub : simpl never.

(** ** Words in two halves of 16 bits *)
Lemma testbit_halves : forall hi lo i, 0 <= lo < 2 ^ 16 -> 0 <= i ->
  Z.testbit (hi * 2 ^ 16 + lo) i = if i <? 16 then Z.testbit lo i else Z.testbit hi (i - 16).
Proof.
  intros hi lo i Hl Hi. destruct (Z.ltb_spec i 16).
  - rewrite <- (Z.mod_pow2_bits_low (hi * 2 ^ 16 + lo) 16 i) by lia.
    rewrite Z.add_comm, Z.mod_add by lia. rewrite Z.mod_small by lia. reflexivity.
  - replace i with (i - 16 + 16) at 1 by lia. rewrite <- Z.div_pow2_bits by lia.
    f_equal. rewrite Z.add_comm, Z.div_add, Z.div_small by lia. reflexivity.
Qed.

Lemma high_zero : forall m n i, 0 <= m < 2 ^ n -> 0 <= n <= i -> Z.testbit m i = false.
Proof.
  intros m n i Hm Hi. destruct (Z.eq_dec m 0) as [->|]; [apply Z.bits_0|].
  apply Z.bits_above_log2; [lia|]. apply Z.log2_lt_pow2; [lia|].
  apply Z.lt_le_trans with (2 ^ n); [lia|]. apply Z.pow_le_mono_r; lia.
Qed.

Lemma land_bound : forall a m n, 0 <= n -> 0 <= m < 2 ^ n -> 0 <= Z.land a m < 2 ^ n.
Proof.
  intros a m n Hn Hm. assert (0 <= Z.land a m) by (apply Z.land_nonneg; lia). split; [lia|].
  destruct (Z.eq_dec (Z.land a m) 0) as [->|]; [lia|].
  apply Z.log2_lt_pow2; [lia|]. destruct (Z.lt_ge_cases (Z.log2 (Z.land a m)) n); [lia|].
  pose proof (Z.bit_log2 (Z.land a m) ltac:(lia)) as B. rewrite Z.land_spec in B.
  rewrite (high_zero m n (Z.log2 (Z.land a m))) in B by lia. rewrite andb_false_r in B. discriminate.
Qed.

(** a shift and a mask that keeps the bits shifted out of the upper half out of the lower one *)
Lemma land_halves : forall hi lo k mh m, 0 <= lo < 2 ^ 16 -> 0 <= k <= 16 ->
  0 <= m < 2 ^ (16 - k) ->
  Z.land (Z.shiftr (hi * 2 ^ 16 + lo) k) (mh * 2 ^ 16 + m) =
    Z.land (Z.shiftr hi k) mh * 2 ^ 16 + Z.land (Z.shiftr lo k) m.
Proof.
  intros hi lo k mh m Hl Hk Hm.
  assert (Hm16 : 0 <= m < 2 ^ 16).
  { assert (2 ^ (16 - k) <= 2 ^ 16) by (apply Z.pow_le_mono_r; lia). lia. }
  pose proof (land_bound (Z.shiftr lo k) m 16 ltac:(lia) Hm16) as Hr.
  apply Z.bits_inj'. intros i Hi. rewrite Z.land_spec, Z.shiftr_spec by lia.
  rewrite !testbit_halves by lia. destruct (Z.ltb_spec i 16).
  - rewrite Z.land_spec, Z.shiftr_spec by lia. destruct (Z.ltb_spec (i + k) 16); [reflexivity|].
    rewrite (high_zero m (16 - k) i) by lia. rewrite !andb_false_r. reflexivity.
  - rewrite Z.land_spec, Z.shiftr_spec by lia. destruct (Z.ltb_spec (i + k) 16); [lia|].
    f_equal. f_equal. lia.
Qed.

(** masks see only the low 32 bits *)
Lemma land_low : forall v k m, 0 <= k <= 32 -> 0 <= m < 2 ^ (32 - k) ->
  Z.land (Z.shiftr v k) m = Z.land (Z.shiftr (v mod 2 ^ 32) k) m.
Proof.
  intros v k m Hk Hm. apply Z.bits_inj'. intros i Hi. rewrite !Z.land_spec, !Z.shiftr_spec by lia.
  destruct (Z.lt_ge_cases i (32 - k)).
  - rewrite Z.mod_pow2_bits_low by lia. reflexivity.
  - rewrite (high_zero m (32 - k) i) by lia. rewrite !andb_false_r. reflexivity.
Qed.

Lemma land_low0 : forall v m, 0 <= m < 2 ^ 32 -> Z.land v m = Z.land (v mod 2 ^ 32) m.
Proof. intros v m Hm. pose proof (land_low v 0 m). rewrite !Z.shiftr_0_r in H. apply H; lia. Qed.

Lemma wrap32_mod : forall z, (wrap32 z) mod 2 ^ 32 = z mod 2 ^ 32.
Proof. intros z. unfold wrap32. lia. Qed.

(** ** Counting *)
Lemma ones_S : forall k v,
  ones (S k) v = ones k v + (if Z.testbit v (Z.of_nat k) then 1 else 0).
Proof. reflexivity. Qed.
Lemma ones_O : forall v, ones 0 v = 0.
Proof. reflexivity. Qed.

Lemma ones_low : forall n hi lo, 0 <= lo < 2 ^ 16 -> (n <= 16)%nat ->
  ones n (hi * 2 ^ 16 + lo) = ones n lo.
Proof.
  induction n as [|n IH]; intros hi lo Hl Hn; [reflexivity|]. rewrite !ones_S.
  rewrite IH, testbit_halves by lia. destruct (Z.ltb_spec (Z.of_nat n) 16); [reflexivity|lia].
Qed.

Lemma ones_split : forall k n hi lo, Z.of_nat k = 16 -> 0 <= lo < 2 ^ 16 ->
  ones (k + n) (hi * 2 ^ 16 + lo) = ones n hi + ones k lo.
Proof.
  intros k n hi lo Hk Hl. induction n as [|n IH].
  - rewrite Nat.add_0_r, ones_low, ones_O by lia. reflexivity.
  - rewrite Nat.add_succ_r, !ones_S, IH.
    rewrite testbit_halves by lia. destruct (Z.ltb_spec (Z.of_nat (k + n)) 16); [lia|].
    replace (Z.of_nat (k + n) - 16) with (Z.of_nat n) by lia. lia.
Qed.

Lemma ones_mod : forall n v m, (n <= m)%nat -> ones n (v mod 2 ^ Z.of_nat m) = ones n v.
Proof.
  induction n as [|n IH]; intros v m H; [reflexivity|]. rewrite !ones_S, IH by lia.
  rewrite Z.mod_pow2_bits_low by lia. reflexivity.
Qed.

Definition stepA (x : Z) : Z := x - Z.land (Z.shiftr x 1) 0x5555.
Definition stepB (x : Z) : Z := Z.land x 0x3333 + Z.land (Z.shiftr x 2) 0x3333.

Definition half_ok (x : Z) : bool :=
  let x1 := stepA x in let x2 := stepB x1 in
  (0 <=? x1) && (x1 <? 65536) && (0 <=? x2) && (x2 <? 32768) && (Z.land x2 15 <=? 4) &&
  forallb (fun c => let y := x2 + Z.shiftr x2 4 + c * 4096 in
    let p := Z.land y 0x0F0F in
    (0 <=? y) && (y <? 65536) && (p / 256 + p mod 256 =? ones 16 x) && (p / 256 <=? 8) && (p mod 256 <=? 8)
    && (0 <=? p))
    [0; 1; 2; 3; 4].

Lemma allbitsZ : forall f, allbits 16 (fun n => f (Z.of_N n)) = true ->
  forall x, 0 <= x < 2 ^ 16 -> f x = true.
Proof.
  intros f A x Hx. rewrite <- (Z2N.id x) by lia.
  apply (allbits_ok 16 (fun n => f (Z.of_N n)) A (Z.to_N x)).
  change (2 ^ N.of_nat 16)%N with 65536%N. lia.
Qed.

Lemma half_all : forall x, 0 <= x < 2 ^ 16 -> half_ok x = true.
Proof. apply allbitsZ. vm_compute. reflexivity. Qed.

Lemma half_facts : forall x, 0 <= x < 2 ^ 16 ->
  0 <= stepA x < 65536 /\ 0 <= stepB (stepA x) < 32768 /\ Z.land (stepB (stepA x)) 15 <= 4 /\
  forall c, 0 <= c <= 4 -> let y := stepB (stepA x) + Z.shiftr (stepB (stepA x)) 4 + c * 4096 in
    0 <= y < 65536 /\ exists a b, Z.land y 0x0F0F = a + 256 * b /\ 0 <= a <= 8 /\ 0 <= b <= 8 /\
      a + b = ones 16 x.
Proof.
  intros x Hx. pose proof (half_all x Hx) as H. unfold half_ok in H. cbv zeta in H.
  apply andb_true_iff in H. destruct H as [H F].
  rewrite !andb_true_iff, !Z.leb_le, !Z.ltb_lt in H.
  destruct H as [[[[H1 H2] H3] H4] H5].
  split; [lia|]. split; [lia|]. split; [lia|]. intros c Hc. cbv zeta.
  rewrite forallb_forall in F. specialize (F c).
  assert (I : In c [0; 1; 2; 3; 4]) by (simpl; lia). specialize (F I). cbv beta in F.
  rewrite !andb_true_iff, !Z.leb_le, !Z.ltb_lt, Z.eqb_eq in F.
  destruct F as [[[[[F1 F2] F3] F4] F5] F6]. split; [lia|].
  set (p := Z.land _ 0x0F0F) in *. exists (p mod 256), (p / 256).
  pose proof (Z.div_mod p 256). pose proof (Z.mod_pos_bound p 256). pose proof (Z.div_pos p 256). lia.
Qed.

Lemma shiftr4_halves : forall h l, 0 <= l ->
  Z.shiftr (h * 2 ^ 16 + l) 4 = Z.shiftr h 4 * 2 ^ 16 + (Z.land h 15 * 4096 + Z.shiftr l 4).
Proof.
  intros h l Hl. change 15 with (Z.ones 4). rewrite Z.land_ones by lia.
  rewrite !Z.shiftr_div_pow2 by lia. lia.
Qed.

Lemma bitCount_ones : forall v, bitCount v = ones 32 v.
Proof.
  intros v. rewrite <- (ones_mod 32 v 32) by lia. change (Z.of_nat 32) with 32.
  pose proof (Z.mod_pos_bound v (2 ^ 32) ltac:(lia)) as Hu.
  set (H := (v mod 2 ^ 32) / 2 ^ 16). set (L := (v mod 2 ^ 32) mod 2 ^ 16).
  assert (HH : 0 <= H < 2 ^ 16) by (unfold H; lia).
  assert (HL : 0 <= L < 2 ^ 16) by (unfold L; lia).
  assert (EU : v mod 2 ^ 32 = H * 2 ^ 16 + L) by (unfold H, L; lia).
  clearbody H L.
  destruct (half_facts H HH) as [A1 [B1 [N1 F1]]]. destruct (half_facts L HL) as [A2 [B2 [N2 F2]]].
  unfold bitCount. cbv zeta.
  rewrite (land_low v 1) by lia.
  rewrite EU. change 0x55555555 with (0x5555 * 2 ^ 16 + 0x5555).
  rewrite land_halves by lia.
  set (x1 := v - _).
  assert (E1 : x1 mod 2 ^ 32 = stepA H * 2 ^ 16 + stepA L).
  { unfold stepA in *. unfold x1. clear F1 F2 N1 N2 B1 B2.
    assert (exists q, v = q * 2 ^ 32 + (H * 2 ^ 16 + L)) by (exists (v / 2 ^ 32); lia).
    destruct H0 as [q Eq]. rewrite Eq. symmetry. apply Z.mod_unique with (q := q); lia. }
  set (h2 := stepB (stepA H)) in *. set (l2 := stepB (stepA L)) in *.
  assert (W : wrap32 (Z.land (wrap32 x1) 0x33333333 + Z.land (Z.shiftr (wrap32 x1) 2) 0x33333333)
    = h2 * 2 ^ 16 + l2).
  { rewrite (land_low0 (wrap32 x1)), (land_low (wrap32 x1) 2) by lia.
    rewrite wrap32_mod, E1. change 0x33333333 with (0x3333 * 2 ^ 16 + 0x3333).
    rewrite <- (Z.shiftr_0_r (stepA H * 2 ^ 16 + stepA L)) at 1.
    rewrite !land_halves by lia. rewrite !Z.shiftr_0_r.
    replace (Z.land (stepA H) 0x3333 * 2 ^ 16 + Z.land (stepA L) 0x3333 +
       (Z.land (Z.shiftr (stepA H) 2) 0x3333 * 2 ^ 16 + Z.land (Z.shiftr (stepA L) 2) 0x3333))
      with (h2 * 2 ^ 16 + l2) by (unfold h2, l2, stepB; lia).
    unfold wrap32; lia. }
  rewrite W. rewrite shiftr4_halves by lia.
  assert (N0 : 0 <= Z.land h2 15) by (apply Z.land_nonneg; lia).
  destruct (F1 0 ltac:(lia)) as [Y1 [a1 [b1 [P1 [Q1 [R1 S1]]]]]].
  destruct (F2 (Z.land h2 15) ltac:(lia)) as [Y2 [a2 [b2 [P2 [Q2 [R2 S2]]]]]].
  set (y1 := h2 + Z.shiftr h2 4 + 0 * 4096) in *.
  set (y2 := l2 + Z.shiftr l2 4 + Z.land h2 15 * 4096) in *.
  replace (h2 * 2 ^ 16 + l2 + (Z.shiftr h2 4 * 2 ^ 16 + (Z.land h2 15 * 4096 + Z.shiftr l2 4)))
    with (y1 * 2 ^ 16 + y2) by (unfold y1, y2; lia).
  rewrite land_low0 by lia. rewrite wrap32_mod.
  rewrite Z.mod_small by lia.
  rewrite <- (Z.shiftr_0_r (y1 * 2 ^ 16 + y2)). change 0xF0F0F0F with (0xF0F * 2 ^ 16 + 0xF0F).
  rewrite land_halves by lia. rewrite !Z.shiftr_0_r, P1, P2.
  change 32%nat with (16 + 16)%nat. rewrite (ones_split 16 16) by (reflexivity || lia). rewrite <- S1, <- S2.
  rewrite Z.shiftr_div_pow2 by lia. unfold wrap32.
  assert (E : ((a1 + 256 * b1) * 2 ^ 16 + (a2 + 256 * b2)) * 0x1010101 + 2 ^ 31 =
     (b1 * 2 ^ 16 + (a1 + b1) * 2 ^ 8 + (b2 + a1 + b1)) * 2 ^ 32 +
     ((a2 + b2 + a1 + b1) * 2 ^ 24 + (a2 + b2 + a1) * 2 ^ 16 + (a2 + b2) * 2 ^ 8 + a2 + 2 ^ 31)) by lia.
  rewrite E. rewrite Z.add_comm, Z.mod_add, Z.mod_small by lia. lia.
Qed.

(** ** Leading zeros *)
Definition covers (v w n : Z) : Prop :=
  forall i, 0 <= i -> (Z.testbit w i = true <-> exists j, i <= j < i + n /\ Z.testbit v j = true).

Lemma covers_one : forall v, covers v v 1.
Proof.
  intros v i Hi. split; [exists i; split; [lia|auto]|]. intros [j [Hj H]].
  replace i with j by lia. exact H.
Qed.

Lemma covers_smear : forall v w n, 0 <= n -> covers v w n -> covers v (smear w n) (n + n).
Proof.
  intros v w n Hn C i Hi. unfold smear. rewrite Z.lor_spec, orb_true_iff, Z.shiftr_spec by lia.
  rewrite (C i Hi), (C (i + n) ltac:(lia)). split.
  - intros [[j [Hj H]]|[j [Hj H]]]; exists j; (split; [lia|exact H]).
  - intros [j [Hj H]]. destruct (Z.lt_ge_cases j (i + n)); [left|right]; exists j; (split; [lia|exact H]).
Qed.

Lemma smear_all : forall v,
  covers v (smear (smear (smear (smear (smear v 1) 2) 4) 8) 16) 32.
Proof.
  intros v. pose proof (covers_one v) as H.
  apply covers_smear in H; [|lia]. change (1 + 1) with 2 in H.
  apply covers_smear in H; [|lia]. change (2 + 2) with 4 in H.
  apply covers_smear in H; [|lia]. change (4 + 4) with 8 in H.
  apply covers_smear in H; [|lia]. change (8 + 8) with 16 in H.
  apply covers_smear in H; [|lia]. change (16 + 16) with 32 in H. exact H.
Qed.

Lemma ones_lnot : forall n m, 0 <= m ->
  ones n (Z.lnot (Z.ones m)) = Z.max 0 (Z.of_nat n - m).
Proof.
  induction n as [|n IH]; intros m Hm; [rewrite ones_O; lia|]. rewrite ones_S, IH by lia.
  rewrite Z.lnot_spec by lia. rewrite Z.testbit_ones_nonneg by lia.
  destruct (Z.ltb_spec (Z.of_nat n) m); simpl negb; cbv iota; lia.
Qed.

Lemma nlz_pos : forall v, 0 < v < 2 ^ 31 -> numberOfLeadingZeros v = 31 - Z.log2 v.
Proof.
  intros v Hv. unfold numberOfLeadingZeros. rewrite bitCount_ones.
  pose proof (smear_all v) as C. set (w := smear _ 16) in *.
  assert (Hl : 0 <= Z.log2 v < 31) by (split; [apply Z.log2_nonneg|apply Z.log2_lt_pow2; lia]).
  replace w with (Z.ones (Z.log2 v + 1)).
  - rewrite ones_lnot by lia. lia.
  - symmetry. apply Z.bits_inj'. intros i Hi. rewrite Z.testbit_ones_nonneg by lia.
    destruct (Z.ltb_spec i (Z.log2 v + 1)).
    + apply C; [lia|]. exists (Z.log2 v). split; [lia|]. apply Z.bit_log2. lia.
    + destruct (Z.testbit w i) eqn:E; [|reflexivity]. apply C in E; [|lia].
      destruct E as [j [Hj E]]. rewrite Z.bits_above_log2 in E by lia. discriminate.
Qed.

Lemma nlz_neg : forall v, - 2 ^ 31 <= v < 0 -> numberOfLeadingZeros v = 0.
Proof.
  intros v Hv. unfold numberOfLeadingZeros. rewrite bitCount_ones.
  pose proof (smear_all v) as C. set (w := smear _ 16) in *.
  replace w with (-1); [reflexivity|]. symmetry. apply Z.bits_inj'. intros i Hi.
  rewrite Z.bits_m1 by lia. apply C; [lia|]. exists (i + 31). split; [lia|].
  replace v with (- (- v)) by lia. rewrite Z.bits_opp by lia.
  apply negb_true_iff. apply high_zero with 31; lia.
Qed.

Lemma nlz_zero : numberOfLeadingZeros 0 = 32.
Proof. reflexivity. Qed.

(** ** Bytes *)
Lemma testbit_wrap32 : forall z i, 0 <= i < 32 -> Z.testbit (wrap32 z) i = Z.testbit z i.
Proof.
  intros z i Hi. rewrite <- (Z.mod_pow2_bits_low (wrap32 z) 32 i) by lia.
  rewrite wrap32_mod. apply Z.mod_pow2_bits_low. lia.
Qed.

Lemma testbit_FF00 : forall i, 0 <= i -> Z.testbit 0xFF00 i = (8 <=? i) && (i <? 16).
Proof.
  intros i Hi. destruct (Z.leb_spec 8 i); simpl andb.
  - destruct (Z.ltb_spec i 16).
    + assert (i = 8 \/ i = 9 \/ i = 10 \/ i = 11 \/ i = 12 \/ i = 13 \/ i = 14 \/ i = 15) as K by lia.
      repeat (destruct K as [->|K]; [reflexivity|]). subst. reflexivity.
    + apply high_zero with 16; lia.
  - assert (i = 0 \/ i = 1 \/ i = 2 \/ i = 3 \/ i = 4 \/ i = 5 \/ i = 6 \/ i = 7) as K by lia.
    repeat (destruct K as [->|K]; [reflexivity|]). subst. reflexivity.
Qed.

Lemma testbit_ushr : forall v n i, 0 <= n -> 0 <= i < 32 ->
  Z.testbit (ushr32 v n) i = (i + n <? 32) && Z.testbit v (i + n).
Proof.
  intros v n i Hn Hi. unfold ushr32. rewrite testbit_wrap32, Z.shiftr_spec by lia.
  destruct (Z.ltb_spec (i + n) 32); simpl andb.
  - apply Z.mod_pow2_bits_low. lia.
  - apply Z.mod_pow2_bits_high. lia.
Qed.

(** the third byte of the result is always 0: the mask of the second byte is the wrong one *)
Lemma reverse_third : forall v i, 16 <= i < 24 -> Z.testbit (reverseBytes v) i = false.
Proof.
  intros v i Hi. unfold reverseBytes. cbv zeta. rewrite !Z.lor_spec, !Z.land_spec.
  rewrite !testbit_FF00, !testbit_ushr, !testbit_wrap32, !Z.shiftl_spec by lia.
  rewrite (Z.testbit_neg_r v (i - 24)) by lia.
  replace (i <? 16) with false by (symmetry; apply Z.ltb_ge; lia).
  replace (i + 24 <? 32) with false by (symmetry; apply Z.ltb_ge; lia).
  rewrite !andb_false_r. reflexivity.
Qed.

Lemma reverse_byte2 : forall v, (reverseBytes v / 2 ^ 16) mod 2 ^ 8 = 0.
Proof.
  intros v. apply Z.bits_inj'. intros i Hi. rewrite Z.bits_0.
  destruct (Z.lt_ge_cases i 8).
  - rewrite Z.mod_pow2_bits_low, Z.div_pow2_bits by lia. apply reverse_third. lia.
  - apply Z.mod_pow2_bits_high. lia.
Qed.
