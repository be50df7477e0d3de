(** Properties C87 to C92: numbers as text and bit counting. *)
From Coq Require Import List ZArith Bool Lia.
From Verif Require Import Res JNum_Model JNum_Spec JNum_Proofs JNumBits_Proofs.
Import ListNotations.
Local Open Scope Z_scope.

(** ** C87: text and numbers correspond *)
Theorem C87_text : forall fuel v radix, (64 < fuel)%nat -> 2 <= radix <= 36 -> isLong v ->
  exists s, toStringRadix fuel v radix = Ok s /\ isText radix v s.
Proof. exact toString_text. Qed.

Theorem C87_round : forall fuel v radix s, (64 < fuel)%nat -> 2 <= radix <= 36 -> isLong v ->
  toStringRadix fuel v radix = Ok s -> parseLong s radix = Ok v.
Proof. exact toString_round. Qed.

Theorem C87_round_int : forall fuel v radix s, (64 < fuel)%nat -> 2 <= radix <= 36 -> isInt v ->
  intToString fuel v radix = Ok s -> parseInt s radix = Ok v.
Proof.
  intros fuel v r s Hf Hr Hv H. unfold parseInt. unfold intToString in H.
  rewrite (toString_round fuel v r s Hf Hr ltac:(unfold isLong, isInt in *; lia) H).
  cbn [bind]. rewrite wrap32_id by exact Hv. reflexivity.
Qed.

Theorem C87_unsigned_int : forall fuel v radix, (64 < fuel)%nat -> 2 <= radix <= 36 -> isInt v ->
  exists s, intToUnsigned fuel v radix = Ok s /\ isText radix (v mod 2 ^ 32) s.
Proof.
  intros fuel v r Hf Hr Hv. unfold intToUnsigned.
  replace (Z.land v (2 ^ 32 - 1)) with (v mod 2 ^ 32).
  - apply toString_text; auto. unfold isLong. pose proof (Z.mod_pos_bound v (2 ^ 32)). lia.
  - symmetry. change (2 ^ 32 - 1) with (Z.ones 32). apply Z.land_ones. lia.
Qed.

(** any text that denotes a number of the type, written without more than the digits that fit *)
Theorem C87_parse : forall s radix (neg : bool) v ds cs, 2 <= radix <= 36 ->
  s = (if neg then [45] else []) ++ cs -> Forall2 readsAs cs ds -> ds <> [] -> isDigits radix ds ->
  valueOf radix ds = v -> radix ^ (Z.of_nat (length ds) - 1) < 2 ^ 63 ->
  isLong (if neg then - v else v) -> parseLong s radix = Ok (if neg then - v else v).
Proof.
  intros s r neg v ds cs Hr E HF Hne Hd Hv Hb HL.
  rewrite (parse_numeral s r neg ds cs E HF Hne Hd Hr Hb), Hv. rewrite wrap64_id by exact HL.
  reflexivity.
Qed.

Theorem C87_reject : forall s radix c, 2 <= radix <= 36 -> In c (tl s) ->
  (forall d, 0 <= d < radix -> ~ readsAs c d) -> parseLong s radix = Abort.
Proof.
  intros s r c Hr Hi Hn.
  assert (D : digit c r < 0).
  { destruct (Z.lt_ge_cases (digit c r) 0); [lia|].
    destruct (digit_only c r ltac:(lia)) as [d [R [B _]]]. destruct (Hn d B R). }
  destruct s as [|x s]; [destruct Hi|]. simpl tl in Hi. unfold parseLong. cbv zeta.
  destruct (x =? minus).
  - simpl tl. rewrite (parseDigits_reject s r _ _ c Hi D). reflexivity.
  - rewrite (parseDigits_reject (x :: s) r _ _ c (or_intror Hi) D). reflexivity.
Qed.

(** -9223372036854775808 in base 2 and 16, "7F" and "7f" *)
Example C87_ex1 : toStringRadix 65 (- 2 ^ 63) 16 = Ok (45 :: 56 :: repeat 48 15).
Proof. reflexivity. Qed.
Example C87_ex2 : parseLong [55; 70] 16 = Ok 127 /\ parseLong [55; 102] 16 = Ok 127.
Proof. split; reflexivity. Qed.
Example C87_ex3 : parseLong (45 :: 49 :: repeat 48 63) 2 = Ok (- 2 ^ 63).
Proof. vm_compute. reflexivity. Qed.
Example C87_ex4 : parseLong [49; 50; 33] 10 = Abort.
Proof. reflexivity. Qed.

(** ** C88: text that denotes no number of the type is not always refused *)
Theorem C88_accepted_refuted :
  (* no digits at all *)
  parseLong [] 10 = Ok 0 /\ parseLong [45] 10 = Ok 0 /\
  (* 9223372036854775808 and 4294967296 *)
  parseLong [57;50;50;51;51;55;50;48;51;54;56;53;52;55;55;53;56;48;56] 10 = Ok (- 2 ^ 63) /\
  parseInt [52;50;57;52;57;54;55;50;57;54] 10 = Ok 0.
Proof. repeat split; vm_compute; reflexivity. Qed.

(** every int is the result of reading a text that denotes a number outside the type *)
Theorem C88_every_refuted : forall v, isInt v -> exists s w, isText 10 w s /\ ~ isInt w /\
  parseInt s 10 = Ok v.
Proof.
  intros v Hv. assert (L : isLong (v + 2 ^ 32)) by (unfold isLong, isInt in *; lia).
  destruct (toString_text 65 (v + 2 ^ 32) 10 ltac:(lia) ltac:(lia) L) as [s [E T]].
  exists s, (v + 2 ^ 32). split; [exact T|]. split; [unfold isInt in *; lia|].
  unfold parseInt. rewrite (toString_round 65 _ 10 s ltac:(lia) ltac:(lia) L E). cbn [bind].
  f_equal. unfold wrap32, isInt in *.
  replace (v + 2 ^ 32 + 2 ^ 31) with (v + 2 ^ 31 + 1 * 2 ^ 32) by lia.
  rewrite Z.mod_add, Z.mod_small by lia. lia.
Qed.

(** leading zeros, which change no number, change what is read: 00000000000000000001 is 1 *)
Theorem C88_zeros_refuted : exists s, isNumeral s 10 false 1 /\ parseLong s 10 <> Ok 1.
Proof.
  exists (repeat 48 20 ++ [49]). split.
  - exists (repeat 0 20 ++ [1]), (repeat 48 20 ++ [49]). split; [reflexivity|]. split.
    + repeat constructor.
    + split; [discriminate|]. split; [repeat constructor; discriminate|reflexivity].
  - vm_compute. discriminate.
Qed.

(** ** C89: counting bits *)
Theorem C89_bitCount : forall v, isInt v -> bitCount v = ones 32 v.
Proof. intros v _. apply bitCount_ones. Qed.

Theorem C89_leading : forall v, isInt v -> isLeadingZeros v (numberOfLeadingZeros v).
Proof.
  intros v Hv. unfold isInt in Hv. destruct (Z.lt_trichotomy v 0) as [N|[->|P]].
  - rewrite nlz_neg by lia. split; [lia|]. split; [intros; lia|]. intros _.
    change (31 - 0) with 31. replace v with (- (- v)) by lia. rewrite Z.bits_opp by lia.
    apply negb_true_iff. apply high_zero with 31; lia.
  - rewrite nlz_zero. split; [lia|]. split; [intros; apply Z.bits_0|lia].
  - rewrite nlz_pos by lia.
    assert (0 <= Z.log2 v < 31) by (split; [apply Z.log2_nonneg|apply Z.log2_lt_pow2; lia]).
    split; [lia|]. split.
    + intros i Hi. apply Z.bits_above_log2; lia.
    + intros _. replace (31 - (31 - Z.log2 v)) with (Z.log2 v) by lia. apply Z.bit_log2. lia.
Qed.

Example C89_ex : bitCount (-1) = 32 /\ bitCount 0x12345678 = 13 /\
  numberOfLeadingZeros 0x00010000 = 15 /\ numberOfLeadingZeros (- 2 ^ 31) = 0.
Proof. repeat split; reflexivity. Qed.

(** ** C90: comparing boxed numbers *)
Theorem C90_long : isOrder longCompareTo isLong.
Proof.
  intros a b _ _. unfold longCompareTo.
  destruct (Z.ltb_spec b a); [|destruct (Z.ltb_spec a b)]; lia.
Qed.

(** for ints it holds as long as the difference is an int *)
Theorem C90_int_near : forall a b, isInt a -> isInt b -> isInt (a - b) ->
  (intCompareTo a b < 0 <-> a < b) /\ (intCompareTo a b = 0 <-> a = b) /\ (0 < intCompareTo a b <-> b < a).
Proof. intros a b Ha Hb H. unfold intCompareTo. rewrite wrap32_id by exact H. lia. Qed.

Example C90_ex : longCompareTo (- 2 ^ 63) (2 ^ 63 - 1) = -1 /\ intCompareTo 3 5 = -2.
Proof. split; reflexivity. Qed.

(** ** C91: comparing boxed ints far apart *)
Theorem C91_int_refuted : ~ isOrder intCompareTo isInt /\
  forall a b, isInt a -> isInt b -> ~ isInt (a - b) -> (intCompareTo a b < 0 <-> b < a).
Proof.
  split.
  - intros H. destruct (H (2 ^ 31 - 1) (-1)) as [A _]; [unfold isInt; lia|unfold isInt; lia|].
    assert (intCompareTo (2 ^ 31 - 1) (-1) < 0) as B by (vm_compute; reflexivity).
    apply A in B. lia.
  - intros a b Ha Hb H. unfold intCompareTo, wrap32, isInt in *.
    destruct (Z.lt_ge_cases (a - b) 0).
    + replace (a - b + 2 ^ 31) with (a - b + 2 ^ 31 + 2 ^ 32 + (-1) * 2 ^ 32) by lia.
      rewrite Z.mod_add, Z.mod_small by lia. lia.
    + replace (a - b + 2 ^ 31) with (a - b + 2 ^ 31 - 2 ^ 32 + 1 * 2 ^ 32) by lia.
      rewrite Z.mod_add, Z.mod_small by lia. lia.
Qed.

(** not even antisymmetric nor transitive: a cycle of three *)
Theorem C91_cycle_refuted : exists a b c, isInt a /\ isInt b /\ isInt c /\
  intCompareTo a b < 0 /\ intCompareTo b c < 0 /\ intCompareTo c a < 0.
Proof.
  exists 0, (2 ^ 30), (- 2 ^ 31 + 1). unfold isInt. repeat split; try lia; vm_compute; reflexivity.
Qed.

(** ** C92: text in base 1, unsigned text of longs, reversed bytes *)
Theorem C92_base1_refuted : forall fuel v, isLong v -> v <> 0 -> toStringRadix fuel v 1 = Fuel.
Proof.
  intros fuel v Hv Hn. unfold toStringRadix. change ((1 <? 1) || (36 <? 1)) with false. cbv iota.
  apply Z.eqb_neq in Hn as Hn'. rewrite Hn'. cbv zeta.
  assert (A : forall f sz, countDigits f v 1 sz = Fuel).
  { induction f as [|f IH]; intros sz; [reflexivity|]. cbn [countDigits]. rewrite Hn'.
    rewrite Z.quot_1_r, wrap64_id by exact Hv. apply IH. }
  rewrite A. reflexivity.
Qed.

Theorem C92_unsigned_refuted : forall fuel v radix, (64 < fuel)%nat -> 2 <= radix <= 36 ->
  isLong v -> v < 0 -> exists s, longToUnsigned fuel v radix = Ok s /\ isText radix v s /\
    ~ isText radix (v mod 2 ^ 64) s.
Proof.
  intros fuel v r Hf Hr Hv Hn. destruct (toString_text fuel v r Hf Hr Hv) as [s [E T]].
  exists s. split; [exact E|]. split; [exact T|].
  destruct T as [ds [E1 _]]. intros [ds' [E2 [D2 [N2 _]]]].
  replace (v <? 0) with true in E1 by (symmetry; apply Z.ltb_lt; lia).
  assert (M : v mod 2 ^ 64 <? 0 = false) by (apply Z.ltb_ge; apply Z.mod_pos_bound; lia).
  rewrite M in E2. destruct ds' as [|d ds']; [congruence|]. rewrite E1 in E2. simpl in E2.
  inversion E2. inversion D2; subst. unfold digitChar in H0. destruct (d <? 10); lia.
Qed.

Theorem C92_bytes_refuted : forall v, isInt v -> byteOf 1 v <> 0 ->
  byteOf 2 (reverseBytes v) <> byteOf 1 v.
Proof.
  intros v _ H. unfold byteOf in *. change (8 * 2) with 16. rewrite reverse_byte2. lia.
Qed.

Example C92_ex : byteOf 1 0x11223344 = 0x33 /\ reverseBytes 0x11223344 = 0x44006611 /\
  longToUnsigned 65 (-1) 16 = Ok [45; 49].
Proof. repeat split; reflexivity. Qed.

Definition JNum_theorems := (C87_text, C87_round, C87_round_int, C87_unsigned_int, C87_parse,
  C87_reject, C88_accepted_refuted, C88_every_refuted, C88_zeros_refuted, C89_bitCount, C89_leading,
  C90_long, C90_int_near, C91_int_refuted, C91_cycle_refuted, C92_base1_refuted,
  C92_unsigned_refuted, C92_bytes_refuted).
Print Assumptions JNum_theorems.
