From Coq Require Import ZArith Lia Bool List Sorted.
From Verif Require Import FrameTable_Model FrameTable_Spec.
Import ListNotations.
Local Open Scope Z_scope.

Lemma u32_small : forall x, 0 <= x < 2 ^ 32 -> u32 x = x.
Proof. intros. unfold u32. apply Z.mod_small. assumption. Qed.
Lemma s32_small : forall x, - 2 ^ 31 <= x < 2 ^ 31 -> s32 x = x.
Proof. intros. unfold s32. rewrite Z.mod_small; lia. Qed.
Lemma ceil_small : forall n d, 0 <= n -> 0 < d -> n + d <= 2 ^ 32 -> d < 2 ^ 32 ->
  ceilingDivide n d = (n + d - 1) / d.
Proof. intros. unfold ceilingDivide. rewrite (u32_small n), (u32_small d) by lia. rewrite u32_small by lia. reflexivity. Qed.

(** The number of words of maps can be told from the length of the table. *)
Lemma size_recovered : forall n s, 0 <= n -> 0 <= s ->
  let k := (n * s + 31) / 32 in ((n + k) * s + (32 + s) - 1) / (32 + s) = k.
Proof.
  intros n s Hn Hs k.
  assert (K1 : 32 * k <= n * s + 31) by (apply Z.mul_div_le; lia).
  assert (K2 : n * s + 31 < 32 * k + 32).
  { pose proof (Z.mul_succ_div_gt (n * s + 31) 32 ltac:(lia)). fold k in H. lia. }
  symmetry. apply Z.div_unique with (r := (n + k) * s + (32 + s) - 1 - (32 + s) * k); nia.
Qed.

Lemma get_ok : forall l i, 0 <= i < Z.of_nat (length l) -> get l i = Some (nth (Z.to_nat i) l 0).
Proof.
  intros l i [H1 H2]. unfold get. apply Z.leb_le in H1. apply Z.ltb_lt in H2. rewrite H1, H2. reflexivity.
Qed.
Lemma set_ok : forall l i v, 0 <= i < Z.of_nat (length l) ->
  exists l', set l i v = Some l' /\ length l' = length l
    /\ forall p, nth p l' 0 = if Nat.eqb p (Z.to_nat i) then v else nth p l 0.
Proof.
  intros l i v [H1 H2]. unfold set. rewrite (proj2 (Z.leb_le 0 i) H1), (proj2 (Z.ltb_lt _ _) H2). cbn [andb].
  assert (L : (Z.to_nat i < length l)%nat) by lia.
  eexists. split; [reflexivity|]. generalize dependent (Z.to_nat i). clear. intros q L.
  assert (L1 : length (firstn q l) = q) by (rewrite firstn_length; lia).
  split.
  - rewrite app_length. cbn [length]. rewrite L1, skipn_length. lia.
  - intros p. destruct (Nat.eqb_spec p q) as [->|N].
    + rewrite app_nth2; rewrite L1; [|lia]. rewrite Nat.sub_diag. reflexivity.
    + destruct (Nat.lt_ge_cases p q).
      * rewrite app_nth1 by lia. rewrite <- (firstn_skipn q l) at 2. rewrite app_nth1 by lia. reflexivity.
      * rewrite app_nth2 by lia. rewrite L1. destruct (p - q)%nat as [|d] eqn:D; [lia|]. cbn [nth].
        rewrite <- (firstn_skipn (S q) l) at 2.
        rewrite app_nth2; rewrite firstn_length; [|lia]. f_equal. lia.
Qed.

Definition bitAt (l : list Z) (dst index : Z) : bool :=
  Z.testbit (nth (Z.to_nat (dst + index / 32)) l 0) (index mod 32).

Lemma same_bit : forall a b, 0 <= a -> 0 <= b -> a / 32 = b / 32 -> a mod 32 = b mod 32 -> a = b.
Proof. intros a b _ _ H1 H2. rewrite (Z.div_mod a 32), (Z.div_mod b 32) by lia. congruence. Qed.

Lemma changeBit_ok : forall (f : Z -> Z -> Z) (v : bool) l dst index,
  (forall w k j, 0 <= k -> 0 <= j -> Z.testbit (f w (Z.shiftl 1 k)) j = if j =? k then v else Z.testbit w j) ->
  0 <= dst -> 0 <= index -> dst + index / 32 < Z.of_nat (length l) ->
  exists l', match get l (dst + index / 32) with
             | Some w => set l (dst + index / 32) (f w (Z.shiftl 1 (index mod 32))) | None => None end = Some l'
    /\ length l' = length l
    /\ (forall p, (p < Z.to_nat dst)%nat -> nth p l' 0 = nth p l 0)
    /\ (forall i, 0 <= i -> bitAt l' dst i = if i =? index then v else bitAt l dst i).
Proof.
  intros f v l dst index F Hd Hi Hb.
  pose proof (Z.div_pos index 32 Hi ltac:(lia)) as Hq.
  rewrite get_ok by lia. destruct (set_ok l (dst + index / 32) (f (nth (Z.to_nat (dst + index / 32)) l 0) (Z.shiftl 1 (index mod 32)))) as (l' & E & L & N); [lia|].
  exists l'. split; [exact E|]. split; [exact L|]. split.
  - intros p Hp. rewrite N. destruct (Nat.eqb_spec p (Z.to_nat (dst + index / 32))); [lia|reflexivity].
  - intros i Hi'. unfold bitAt. rewrite N.
    pose proof (Z.div_pos i 32 Hi' ltac:(lia)) as Hq'.
    pose proof (Z.mod_pos_bound i 32 ltac:(lia)). pose proof (Z.mod_pos_bound index 32 ltac:(lia)).
    destruct (Nat.eqb_spec (Z.to_nat (dst + i / 32)) (Z.to_nat (dst + index / 32))) as [E1|E1].
    + rewrite F by lia. assert (Q : i / 32 = index / 32) by lia.
      destruct (Z.eqb_spec (i mod 32) (index mod 32)) as [E2|E2]; destruct (Z.eqb_spec i index) as [E3|E3]; auto.
      * exfalso. apply E3. apply same_bit; auto.
      * subst. congruence.
      * rewrite E1. reflexivity.
    + destruct (Z.eqb_spec i index) as [->|]; [congruence|reflexivity].
Qed.

Lemma lor_bit : forall w k j, 0 <= k -> 0 <= j ->
  Z.testbit (Z.lor w (Z.shiftl 1 k)) j = if j =? k then true else Z.testbit w j.
Proof.
  intros w k j Hk Hj. rewrite Z.lor_spec, Z.shiftl_spec by exact Hj.
  destruct (Z.eqb_spec j k) as [->|N].
  - rewrite Z.sub_diag. apply orb_true_r.
  - replace (Z.testbit 1 (j - k)) with false; [apply orb_false_r|].
    destruct (Z.lt_ge_cases (j - k) 0); [symmetry; apply Z.testbit_neg_r; assumption|].
    symmetry. change 1 with (2 ^ 0). apply Z.pow2_bits_false. lia.
Qed.
Lemma land_bit : forall w k j, 0 <= k -> 0 <= j ->
  Z.testbit (Z.land w (Z.lnot (Z.shiftl 1 k))) j = if j =? k then false else Z.testbit w j.
Proof.
  intros w k j Hk Hj. rewrite Z.land_spec, Z.lnot_spec, Z.shiftl_spec by exact Hj.
  destruct (Z.eqb_spec j k) as [->|N].
  - rewrite Z.sub_diag. apply andb_false_r.
  - replace (Z.testbit 1 (j - k)) with false; [apply andb_true_r|].
    destruct (Z.lt_ge_cases (j - k) 0); [symmetry; apply Z.testbit_neg_r; assumption|].
    symmetry. change 1 with (2 ^ 0). apply Z.pow2_bits_false. lia.
Qed.

Lemma copy_ok : forall n l dst src off j,
  0 <= dst -> 0 <= off -> 0 <= j -> off + j + Z.of_nat n <= 32 * (Z.of_nat (length l) - dst) ->
  off + j + Z.of_nat n < 2 ^ 32 ->
  exists l', copyFrameMap n l dst src off j = Some l' /\ length l' = length l
    /\ (forall p, (p < Z.to_nat dst)%nat -> nth p l' 0 = nth p l 0)
    /\ (forall i, 0 <= i -> bitAt l' dst i =
          if (off + j <=? i) && (i <? off + j + Z.of_nat n) then Z.testbit src (i - off) else bitAt l dst i).
Proof.
  induction n as [|n IH]; intros l dst src off j Hd Ho Hj Hl Hw.
  - exists l. cbn [copyFrameMap]. split; [reflexivity|]. split; [reflexivity|]. split; [reflexivity|].
    intros i Hi. destruct (Z.leb_spec (off + j) i), (Z.ltb_spec i (off + j + Z.of_nat 0)); cbn; auto; lia.
  - cbn [copyFrameMap]. rewrite u32_small by lia.
    assert (B : dst + (off + j) / 32 < Z.of_nat (length l)).
    { pose proof (Z.div_lt_upper_bound (off + j) 32 (Z.of_nat (length l) - dst) ltac:(lia) ltac:(lia)). lia. }
    assert (S1 : exists l1, (if Z.testbit src j then setBit l dst (off + j) else clearBit l dst (off + j)) = Some l1
       /\ length l1 = length l /\ (forall p, (p < Z.to_nat dst)%nat -> nth p l1 0 = nth p l 0)
       /\ (forall i, 0 <= i -> bitAt l1 dst i = if i =? off + j then Z.testbit src j else bitAt l dst i)).
    { destruct (Z.testbit src j).
      - apply (changeBit_ok Z.lor true l dst (off + j) lor_bit); lia.
      - apply (changeBit_ok (fun w x => Z.land w (Z.lnot x)) false l dst (off + j) land_bit); lia. }
    destruct S1 as (l1 & -> & L1 & P1 & B1).
    destruct (IH l1 dst src off (j + 1)) as (l2 & E2 & L2 & P2 & B2); try lia.
    exists l2. split; [exact E2|]. split; [congruence|]. split.
    + intros p Hp. rewrite P2, P1 by exact Hp. reflexivity.
    + intros i Hi. rewrite B2, B1 by exact Hi.
      destruct (Z.leb_spec (off + (j + 1)) i), (Z.ltb_spec i (off + (j + 1) + Z.of_nat n)),
        (Z.leb_spec (off + j) i), (Z.ltb_spec i (off + j + Z.of_nat (S n))), (Z.eqb_spec i (off + j));
        cbn [andb]; try lia; auto.
      subst i. f_equal. lia.
Qed.

Lemma fill_ok : forall s count es i l,
  0 <= s -> 0 <= i -> i + Z.of_nat (length es) <= count -> count * s < 2 ^ 32 ->
  count + (count * s + 31) / 32 <= Z.of_nat (length l) ->
  Forall (fun e => 0 <= offset e < 2 ^ 31 /\ 0 <= argumentIndex e <= s) es ->
  (forall x, i * s <= x -> bitAt l count x = false) ->
  exists l', fill s count es i l = Some l' /\ length l' = length l
    /\ (forall p e, nth_error es p = Some e ->
          nth (Z.to_nat i + p) l' 0 = offset e
          /\ forall j, 0 <= j < s -> bitAt l' count ((i + Z.of_nat p) * s + j) = (j <? argumentIndex e) && Z.testbit (bits e) j)
    /\ (forall p, (p < Z.to_nat i)%nat -> nth p l' 0 = nth p l 0)
    /\ (forall x, 0 <= x < i * s -> bitAt l' count x = bitAt l count x).
Proof.
  intros s count. induction es as [|e es IH]; intros i l Hs Hi Hc Hw Hl F Z0.
  - exists l. cbn. split; [reflexivity|]. split; [reflexivity|]. split; [|split; reflexivity].
    intros [|p] e E; discriminate.
  - cbn [fill length] in *. inversion F as [|e0 es0 [F1 F2] F3]; subst e0 es0.
    assert (Hk : 0 <= (count * s + 31) / 32) by (apply Z.div_pos; nia).
    destruct (set_ok l i (s32 (offset e))) as (l1 & -> & L1 & N1); [lia|].
    assert (Hk2 : count * s <= 32 * ((count * s + 31) / 32)).
    { pose proof (Z.mul_succ_div_gt (count * s + 31) 32 ltac:(lia)). lia. }
    assert (B1 : forall x, 0 <= x -> bitAt l1 count x = bitAt l count x).
    { intros x Hx. unfold bitAt. rewrite N1. pose proof (Z.div_pos x 32 Hx ltac:(lia)).
      destruct (Nat.eqb_spec (Z.to_nat (count + x / 32)) (Z.to_nat i)); [lia|reflexivity]. }
    assert (C : exists l2, (if s =? 0 then Some l1 else copyFrameMap (Z.to_nat (argumentIndex e)) l1 count (bits e) (u32 (i * s)) 0) = Some l2
      /\ length l2 = length l1 /\ (forall p, (p < Z.to_nat count)%nat -> nth p l2 0 = nth p l1 0)
      /\ (forall x, 0 <= x -> bitAt l2 count x =
           if (i * s <=? x) && (x <? i * s + argumentIndex e) then Z.testbit (bits e) (x - i * s) else bitAt l1 count x)).
    { destruct (Z.eqb_spec s 0) as [->|Ns].
      - exists l1. split; [reflexivity|]. split; [reflexivity|]. split; [reflexivity|].
        intros x Hx. destruct (Z.leb_spec (i * 0) x), (Z.ltb_spec x (i * 0 + argumentIndex e)); cbn; auto; lia.
      - rewrite u32_small by nia.
        destruct (copy_ok (Z.to_nat (argumentIndex e)) l1 count (bits e) (i * s) 0) as (l2 & E2 & L2 & P2 & B2); try nia.
        exists l2. split; [exact E2|]. split; [exact L2|]. split; [exact P2|].
        intros x Hx. rewrite B2 by exact Hx. rewrite Z.add_0_r, Z2Nat.id by lia. reflexivity. }
    destruct C as (l2 & -> & L2 & P2 & B2).
    destruct (IH (i + 1) l2) as (l3 & E3 & L3 & A3 & P3 & B3); try lia; [exact F3| |].
    { intros x Hx. assert (0 <= x) by nia. rewrite B2 by lia.
      destruct (Z.leb_spec (i * s) x), (Z.ltb_spec x (i * s + argumentIndex e)); cbn; try nia; rewrite B1 by lia; apply Z0; nia. }
    exists l3. split; [exact E3|]. split; [congruence|]. split; [|split].
    + intros [|p] e' E; cbn in E.
      * injection E as <-. rewrite Nat.add_0_r, Z.add_0_r. split.
        -- rewrite P3 by lia. rewrite P2 by lia. rewrite N1, Nat.eqb_refl. apply s32_small. lia.
        -- intros j Hj. rewrite B3 by nia. rewrite B2 by nia. rewrite B1 by nia.
           replace (i * s + j - i * s) with j by lia.
           destruct (Z.leb_spec (i * s) (i * s + j)); [|lia].
           destruct (Z.ltb_spec (i * s + j) (i * s + argumentIndex e)), (Z.ltb_spec j (argumentIndex e)); cbn; try lia; try reflexivity.
           apply Z0. lia.
      * destruct (A3 p e' E) as [X1 X2]. split.
        -- rewrite <- X1. f_equal. lia.
        -- intros j Hj. rewrite <- X2 by exact Hj. f_equal. lia.
    + intros p Hp. rewrite P3 by lia. rewrite P2 by lia. rewrite N1.
      destruct (Nat.eqb_spec p (Z.to_nat i)); [lia|reflexivity].
    + intros x Hx. rewrite B3 by nia. rewrite B2 by lia. rewrite B1 by lia.
      destruct (Z.leb_spec (i * s) x); [lia|reflexivity].
Qed.

Lemma search_ok : forall f l off bottom top p, 0 <= bottom <= top -> top <= Z.of_nat (length l) ->
  top - bottom < Z.of_nat f ->
  (forall a b, bottom <= a < b -> b < top -> nth (Z.to_nat a) l 0 < nth (Z.to_nat b) l 0) ->
  bottom <= p < top -> nth (Z.to_nat p) l 0 = off ->
  search f l off bottom top = Some p.
Proof.
  induction f as [|f IH]; intros l off bottom top p Hb Ht Hf S0 Hp E; [lia|].
  cbn [search]. destruct (Z.eqb_spec (top - bottom) 0); [lia|].
  assert (D : 0 <= (top - bottom) / 2 < top - bottom).
  { split; [apply Z.div_pos; lia|]. apply Z.div_lt; lia. }
  rewrite get_ok by lia. set (mid := bottom + (top - bottom) / 2) in *.
  destruct (Z.eqb_spec off (nth (Z.to_nat mid) l 0)) as [Q|Q].
  - f_equal. destruct (Z.lt_trichotomy mid p) as [X|[X|X]]; [|exact X|].
    + specialize (S0 mid p ltac:(lia) ltac:(lia)). lia.
    + specialize (S0 p mid ltac:(lia) ltac:(lia)). lia.
  - destruct (Z.ltb_spec off (nth (Z.to_nat mid) l 0)) as [Q1|Q1].
    + apply IH; try lia; [intros; apply S0; lia|].
      destruct (Z.lt_ge_cases p mid); [lia|]. exfalso. destruct (Z.eq_dec p mid) as [->|]; [congruence|].
      specialize (S0 mid p ltac:(lia) ltac:(lia)). lia.
    + apply IH; try lia; [intros; apply S0; lia|].
      destruct (Z.lt_ge_cases mid p); [lia|]. exfalso. destruct (Z.eq_dec p mid) as [->|]; [congruence|].
      specialize (S0 p mid ltac:(lia) ltac:(lia)). lia.
Qed.

Lemma visitLoop_ok : forall n l map start i (P : Z -> bool), 0 <= map -> 0 <= start -> 0 <= i ->
  start + i + Z.of_nat n <= 2 ^ 31 -> start + i + Z.of_nat n <= 32 * (Z.of_nat (length l) - map) ->
  (forall j, i <= j < i + Z.of_nat n -> bitAt l map (start + j) = P j) ->
  visitLoop n l map start i = Some (filter P (List.map Z.of_nat (seq (Z.to_nat i) n))).
Proof.
  induction n as [|n IH]; intros l map start i P Hm Hs Hi Hw Hl HP; [reflexivity|].
  cbn [visitLoop seq List.map filter]. rewrite s32_small by lia.
  rewrite Z.quot_div_nonneg, Z.rem_mod_nonneg by lia.
  rewrite get_ok.
  2:{ pose proof (Z.div_pos (start + i) 32 ltac:(lia) ltac:(lia)).
      pose proof (Z.div_lt_upper_bound (start + i) 32 (Z.of_nat (length l) - map) ltac:(lia) ltac:(lia)). lia. }
  rewrite (IH l map start (i + 1) P) by (try lia; intros; apply HP; lia).
  specialize (HP i ltac:(lia)). unfold bitAt in HP. rewrite HP.
  replace (Z.to_nat (i + 1)) with (S (Z.to_nat i)) by lia. rewrite Z2Nat.id by lia. reflexivity.
Qed.

Lemma sorted_nth : forall es p q e e', StronglySorted (fun a b => offset a < offset b) es ->
  (p < q)%nat -> nth_error es p = Some e -> nth_error es q = Some e' -> offset e < offset e'.
Proof.
  induction es as [|x es IH]; intros p q e e' S0 L E E'; [destruct p; discriminate|].
  inversion S0 as [|? ? S1 F]; subst. destruct q as [|q]; [lia|]. destruct p as [|p]; cbn in E, E'.
  - injection E as <-. rewrite Forall_forall in F. apply F. eapply nth_error_In. exact E'.
  - apply (IH p q); auto. lia.
Qed.

Theorem table_ok : forall s es, inOrder s es -> fits s (Z.of_nat (length es)) ->
  exists table, makeTable s es = Some table
    /\ forall p e, nth_error es p = Some e -> visit s table (offset e) = Some (slotsOf s e).
Proof.
  intros s es [So Fo] (F1 & F2 & F3 & F4). set (n := Z.of_nat (length es)) in *.
  set (k := (n * s + 31) / 32) in *.
  assert (Hn : 0 <= n) by lia.
  assert (Hk : 0 <= k) by (apply Z.div_pos; nia).
  assert (K1 : 32 * k <= n * s + 31) by (apply Z.mul_div_le; lia).
  assert (K2 : n * s <= 32 * k).
  { pose proof (Z.mul_succ_div_gt (n * s + 31) 32 ltac:(lia)). fold k in H. lia. }
  unfold makeTable. fold n. rewrite (u32_small (n * s)) by nia. rewrite ceil_small by nia.
  replace (n * s + 32 - 1) with (n * s + 31) by lia. fold k.
  assert (Hsum : n + k < 2 ^ 32) by lia.
  rewrite (u32_small (n + k)) by lia.
  destruct (fill_ok s n es 0 (repeat 0 (Z.to_nat (n + k)))) as (l & E & L & A & _ & _); try lia.
  { rewrite repeat_length. fold k. lia. }
  { exact Fo. }
  { intros x _. unfold bitAt. rewrite nth_repeat. apply Z.testbit_0_l. }
  exists l. split; [exact E|]. rewrite repeat_length in L.
  assert (LL : Z.of_nat (length l) = n + k) by lia.
  intros p e Ep. unfold visit. destruct (Z.eqb_spec s 0) as [->|Ns]; [reflexivity|].
  unfold findFrameMap, tableSize. rewrite LL.
  rewrite ceil_small by nia. pose proof (size_recovered n s Hn F1) as SR. cbv zeta in SR. fold k in SR. rewrite SR. clear SR.
  rewrite (u32_small (n + k - k)) by lia. replace (n + k - k) with n by lia.
  assert (Lp : (p < length es)%nat) by (apply nth_error_Some; congruence).
  rewrite (search_ok _ l (offset e) 0 n (Z.of_nat p)); try lia.
  - assert (HP : s * Z.of_nat p + s <= n * s).
    { replace (s * Z.of_nat p + s) with ((Z.of_nat p + 1) * s) by ring. apply Z.mul_le_mono_nonneg_r; lia. }
    assert (HP0 : 0 <= s * Z.of_nat p) by (apply Z.mul_nonneg_nonneg; lia).
    rewrite u32_small by lia.
    rewrite (visitLoop_ok _ l n (s * Z.of_nat p) 0 (fun j => (j <? argumentIndex e) && Z.testbit (bits e) j)); try lia.
    + reflexivity.
    + intros j Hj. destruct (A p e Ep) as [_ A2]. rewrite <- A2 by lia. f_equal. lia.
  - intros a b Ha Hb.
    destruct (nth_error es (Z.to_nat a)) as [ea|] eqn:Ea; [|apply nth_error_None in Ea; lia].
    destruct (nth_error es (Z.to_nat b)) as [eb|] eqn:Eb; [|apply nth_error_None in Eb; lia].
    pose proof (proj1 (A _ _ Ea)) as Xa. pose proof (proj1 (A _ _ Eb)) as Xb. cbn [Z.to_nat Nat.add] in Xa, Xb.
    rewrite Xa, Xb. eapply sorted_nth; [exact So| |exact Ea|exact Eb]. lia.
  - rewrite Nat2Z.id. exact (proj1 (A p e Ep)).
Qed.
