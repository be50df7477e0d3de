From Verif Require Import Base Res Bits Words_Model Words_Spec.
Local Open Scope N_scope.

(** * Word arrays as bit vectors *)
Definition wordsOk (m : words) : Prop := Forall (fun w => w < 2 ^ 64) m.
Definition bitAt (m : words) (k : N) : bool :=
  match nth_error m (N.to_nat (k / 64)) with Some w => N.testbit w (k mod 64) | None => false end.

Lemma upd_nth_some : forall {A} (l : list A) i x, (i < length l)%nat -> exists l', upd_nth l i x = Some l'.
Proof.
  induction l as [|y l IH]; intros i x H; [cbn in H; lia|]. destruct i; cbn [upd_nth]; [eauto|].
  destruct (IH i x) as [l' ->]; [cbn in H; lia|]. eauto.
Qed.
Lemma upd_nth_inv : forall {A} (l l' : list A) i x, upd_nth l i x = Some l' ->
  length l' = length l /\ (i < length l)%nat
  /\ forall j, nth_error l' j = if Nat.eqb j i then Some x else nth_error l j.
Proof.
  induction l as [|y l IH]; intros l' i x H; [discriminate|]. destruct i; cbn [upd_nth] in H.
  - injection H as <-. cbn. split; [reflexivity|split; [lia|]]. intros [|j]; reflexivity.
  - destruct (upd_nth l i x) as [r|] eqn:E; [|discriminate]. injection H as <-.
    destruct (IH _ _ _ E) as (H1 & H2 & H3). cbn. split; [lia|split; [lia|]]. intros [|j]; [reflexivity|apply H3].
Qed.

Lemma rdw_ok : forall m i, i < N.of_nat (length m) -> exists w, rdw m i = Ok w /\ nth_error m (N.to_nat i) = Some w.
Proof.
  intros m i H. destruct (nth_error_lt_ex m (N.to_nat i)) as [w Hw]; [lia|]. exists w.
  unfold rdw. rewrite Hw. auto.
Qed.
Lemma rdw_inv : forall m i w, rdw m i = Ok w -> nth_error m (N.to_nat i) = Some w.
Proof. intros m i w. unfold rdw. destruct (nth_error m (N.to_nat i)); cbn; [congruence|discriminate]. Qed.
Lemma rdw_bound : forall m i w, wordsOk m -> rdw m i = Ok w -> w < 2 ^ 64.
Proof. intros m i w Hm H. apply rdw_inv, nth_error_In in H. unfold wordsOk in Hm. rewrite Forall_forall in Hm. exact (Hm w H). Qed.

Lemma wrw_ok : forall m i v, wordsOk m -> v < 2 ^ 64 -> i < N.of_nat (length m) ->
  exists m', wrw m i v = Ok m' /\ length m' = length m /\ wordsOk m'
    /\ (forall j, rdw m' j = if j =? i then Ok v else rdw m j)
    /\ (forall k, bitAt m' k = if k / 64 =? i then N.testbit v (k mod 64) else bitAt m k).
Proof.
  intros m i v Hm Hv Hi. unfold wrw. destruct (upd_nth_some m (N.to_nat i) v) as [m' E]; [lia|].
  rewrite E. exists m'. destruct (upd_nth_inv _ _ _ _ E) as (H1 & H2 & H3).
  split; [reflexivity|]. split; [assumption|]. split; [|split].
  - apply Forall_forall. intros w Hw. apply In_nth_error in Hw. destruct Hw as [n Hn]. rewrite H3 in Hn.
    destruct (n =? N.to_nat i)%nat; [congruence|]. apply nth_error_In in Hn. unfold wordsOk in Hm. rewrite Forall_forall in Hm. auto.
  - intros j. unfold rdw. rewrite H3. destruct (j =? i) eqn:Ej.
    + apply N.eqb_eq in Ej. subst. rewrite Nat.eqb_refl. reflexivity.
    + apply N.eqb_neq in Ej. replace (N.to_nat j =? N.to_nat i)%nat with false; [reflexivity|].
      symmetry. apply Nat.eqb_neq. lia.
  - intros k. unfold bitAt. rewrite H3. destruct (k / 64 =? i) eqn:Ej.
    + apply N.eqb_eq in Ej. rewrite Ej, Nat.eqb_refl. reflexivity.
    + apply N.eqb_neq in Ej. replace (N.to_nat (k / 64) =? N.to_nat i)%nat with false; [reflexivity|].
      symmetry. apply Nat.eqb_neq. lia.
Qed.

Lemma bitAt_rdw : forall m i w, rdw m i = Ok w -> forall b, b < 64 -> bitAt m (i * 64 + b) = N.testbit w b.
Proof.
  intros m i w H b Hb. unfold bitAt.
  replace ((i * 64 + b) / 64) with i by lia. replace ((i * 64 + b) mod 64) with b by lia.
  apply rdw_inv in H. rewrite H. reflexivity.
Qed.

Lemma word_zero : forall w, w < 2 ^ 64 -> (forall b, b < 64 -> N.testbit w b = false) -> w = 0.
Proof.
  intros w Hw H. apply N.bits_inj_iff. intros b. rewrite N.bits_0.
  destruct (N.lt_ge_cases b 64); [auto|]. apply (testbit_high w 64); assumption.
Qed.

Lemma shift1_bit : forall i b, N.testbit (N.shiftl 1 i) b = (b =? i).
Proof.
  intros i b. rewrite N.shiftl_mul_pow2, N.mul_1_l.
  destruct (b =? i) eqn:E; [apply N.eqb_eq in E; subst; apply N.pow2_bits_true|].
  apply N.pow2_bits_false. apply N.eqb_neq in E. auto.
Qed.

Lemma lor_bound : forall a b n, a < 2 ^ n -> b < 2 ^ n -> N.lor a b < 2 ^ n.
Proof.
  intros x y n Hx Hy. apply lt_pow2_testbit. intros i Hi.
  rewrite N.lor_spec, (testbit_high x n i), (testbit_high y n i) by assumption. reflexivity.
Qed.
Lemma ldiff_bound : forall a b n, a < 2 ^ n -> N.ldiff a b < 2 ^ n.
Proof.
  intros x y n Hx. apply lt_pow2_testbit. intros i Hi.
  rewrite N.ldiff_spec, (testbit_high x n i) by assumption. reflexivity.
Qed.
Lemma shift1_bound : forall i n, i < n -> N.shiftl 1 i < 2 ^ n.
Proof. intros i n H. rewrite N.shiftl_mul_pow2, N.mul_1_l. apply N.pow_lt_mono_r; lia. Qed.

Lemma same_pos : forall j k, (j / 64 =? k / 64) = true -> (j mod 64 =? k mod 64) = (j =? k).
Proof.
  intros j k H. apply N.eqb_eq in H. destruct (j =? k) eqn:E.
  - apply N.eqb_eq in E. subst. apply N.eqb_refl.
  - apply N.eqb_neq in E. apply N.eqb_neq. intros E2. apply E.
    rewrite (N.div_mod j 64), (N.div_mod k 64), H, E2 by lia. reflexivity.
Qed.

Lemma markBit_ok : forall m i, wordsOk m -> i / 64 < N.of_nat (length m) ->
  exists m', markBit m i = Ok m' /\ length m' = length m /\ wordsOk m'
    /\ (forall k, bitAt m' k = if k =? i then true else bitAt m k)
    /\ (forall j, j <> i / 64 -> rdw m' j = rdw m j).
Proof.
  intros m i Hm Hi. unfold markBit, wordOf, bitOf. destruct (rdw_ok m (i / 64) Hi) as (w & Hw & Hn). rewrite Hw. cbn [bind].
  assert (Hb : i mod 64 < 64) by (apply N.mod_lt; lia).
  destruct (wrw_ok m (i / 64) (N.lor w (N.shiftl 1 (i mod 64)))) as (m' & H1 & H2 & H3 & H4 & H5); auto.
  { apply lor_bound; [eapply rdw_bound; eassumption|apply shift1_bound; assumption]. }
  exists m'. repeat split; auto.
  - intros k. rewrite H5. destruct (k / 64 =? i / 64) eqn:E.
    + rewrite N.lor_spec, shift1_bit, (same_pos k i E).
      destruct (k =? i); [apply orb_true_r|]. rewrite orb_false_r. unfold bitAt. apply N.eqb_eq in E. rewrite E, Hn. reflexivity.
    + destruct (k =? i) eqn:E2; [|reflexivity]. apply N.eqb_eq in E2. subst. rewrite N.eqb_refl in E. discriminate.
  - intros j Hj. rewrite H4. apply N.eqb_neq in Hj. rewrite Hj. reflexivity.
Qed.

Lemma clearBit_ok : forall m i, wordsOk m -> i / 64 < N.of_nat (length m) ->
  exists m', clearBit m i = Ok m' /\ length m' = length m /\ wordsOk m'
    /\ (forall k, bitAt m' k = if k =? i then false else bitAt m k)
    /\ (forall j, j <> i / 64 -> rdw m' j = rdw m j).
Proof.
  intros m i Hm Hi. unfold clearBit, wordOf, bitOf. destruct (rdw_ok m (i / 64) Hi) as (w & Hw & Hn). rewrite Hw. cbn [bind].
  assert (Hb : i mod 64 < 64) by (apply N.mod_lt; lia).
  destruct (wrw_ok m (i / 64) (N.ldiff w (N.shiftl 1 (i mod 64)))) as (m' & H1 & H2 & H3 & H4 & H5); auto.
  { apply ldiff_bound. eapply rdw_bound; eassumption. }
  exists m'. repeat split; auto.
  - intros k. rewrite H5. destruct (k / 64 =? i / 64) eqn:E.
    + rewrite N.ldiff_spec, shift1_bit, (same_pos k i E).
      destruct (k =? i); cbn [negb]; [apply andb_false_r|]. rewrite andb_true_r. unfold bitAt. apply N.eqb_eq in E. rewrite E, Hn. reflexivity.
    + destruct (k =? i) eqn:E2; [|reflexivity]. apply N.eqb_eq in E2. subst. rewrite N.eqb_refl in E. discriminate.
  - intros j Hj. rewrite H4. apply N.eqb_neq in Hj. rewrite Hj. reflexivity.
Qed.

Lemma getBit_ok : forall m i, i / 64 < N.of_nat (length m) -> getBit m i = Ok (N.b2n (bitAt m i)).
Proof.
  intros m i Hi. unfold getBit, wordOf, bitOf. destruct (rdw_ok m (i / 64) Hi) as (w & Hw & Hn). rewrite Hw. cbn [bind].
  f_equal. unfold bitAt. rewrite Hn. apply N.bits_inj_iff. intros b.
  rewrite N.shiftr_spec', N.land_spec, shift1_bit.
  destruct (b + i mod 64 =? i mod 64) eqn:E.
  - apply N.eqb_eq in E. assert (b = 0) by lia. subst. rewrite N.add_0_l, andb_true_r.
    destruct (N.testbit w (i mod 64)); reflexivity.
  - rewrite andb_false_r. apply N.eqb_neq in E. assert (b <> 0) by (intros ->; apply E; reflexivity).
    destruct (N.testbit w (i mod 64)); cbn [N.b2n]; [|rewrite N.bits_0; reflexivity].
    symmetry. apply (testbit_high 1 1); [reflexivity|lia].
Qed.

(** * Bit fields *)
Lemma clearBits_ok : forall n m index, wordsOk m -> index + N.of_nat n <= 64 * N.of_nat (length m) ->
  exists m', clearBits m n index = Ok m' /\ length m' = length m /\ wordsOk m'
    /\ forall k, bitAt m' k = if (index <=? k) && (k <? index + N.of_nat n) then false else bitAt m k.
Proof.
  induction n as [|n IH]; intros m index Hm Hi; cbn [clearBits].
  - exists m. repeat split; auto. intros k. replace ((index <=? k) && (k <? index + N.of_nat 0)) with false; [reflexivity|].
    symmetry. apply andb_false_iff. lia.
  - destruct (clearBit_ok m index) as (m1 & E & Hl & Hw & Hb & _); auto; [lia|]. rewrite E. cbn [bind].
    destruct (IH m1 (index + 1)) as (m2 & E2 & Hl2 & Hw2 & Hb2); auto; [lia|].
    exists m2. split; [assumption|]. split; [congruence|]. split; [assumption|].
    intros k. rewrite Hb2, Hb.
    destruct (k =? index) eqn:Ek.
    + replace ((index <=? k) && (k <? index + N.of_nat (S n))) with true; [|symmetry; apply andb_true_iff; lia].
      destruct (_ && _); reflexivity.
    + replace ((index <=? k) && (k <? index + N.of_nat (S n))) with ((index + 1 <=? k) && (k <? index + 1 + N.of_nat n)); [reflexivity|].
      apply eq_true_iff_eq. rewrite !andb_true_iff. lia.
Qed.

Lemma setBits_ok : forall n m index v, wordsOk m -> index + N.of_nat n <= 64 * N.of_nat (length m) ->
  exists m', setBits m n index v = Ok m' /\ length m' = length m /\ wordsOk m'
    /\ forall k, bitAt m' k = if (index <=? k) && (k <? index + N.of_nat n)
                              then N.testbit v (index + N.of_nat n - 1 - k) else bitAt m k.
Proof.
  induction n as [|n IH]; intros m index v Hm Hi; cbn [setBits].
  - exists m. repeat split; auto. intros k. replace ((index <=? k) && (k <? index + N.of_nat 0)) with false; [reflexivity|].
    symmetry. apply andb_false_iff. lia.
  - assert (exists m1, (if N.odd v then markBit m (index + N.of_nat n) else clearBit m (index + N.of_nat n)) = Ok m1
      /\ length m1 = length m /\ wordsOk m1 /\ forall k, bitAt m1 k = if k =? index + N.of_nat n then N.odd v else bitAt m k) as (m1 & E & Hl & Hw & Hb).
    { destruct (N.odd v).
      - destruct (markBit_ok m (index + N.of_nat n)) as (m1 & ? & ? & ? & ? & _); auto; [lia|]. exists m1. auto.
      - destruct (clearBit_ok m (index + N.of_nat n)) as (m1 & ? & ? & ? & ? & _); auto; [lia|]. exists m1. auto. }
    rewrite E. cbn [bind].
    destruct (IH m1 index (N.shiftr v 1)) as (m2 & E2 & Hl2 & Hw2 & Hb2); auto; [lia|].
    exists m2. split; [assumption|]. split; [congruence|]. split; [assumption|].
    intros k. rewrite Hb2, Hb.
    destruct ((index <=? k) && (k <? index + N.of_nat n)) eqn:E3.
    + apply andb_true_iff in E3.
      replace ((index <=? k) && (k <? index + N.of_nat (S n))) with true; [|symmetry; apply andb_true_iff; lia].
      rewrite N.shiftr_spec'. f_equal. lia.
    + apply andb_false_iff in E3. destruct (k =? index + N.of_nat n) eqn:Ek.
      * replace ((index <=? k) && (k <? index + N.of_nat (S n))) with true; [|symmetry; apply andb_true_iff; lia].
        replace (index + N.of_nat (S n) - 1 - k) with 0 by lia. symmetry. apply N.bit0_odd.
      * replace ((index <=? k) && (k <? index + N.of_nat (S n))) with false; [reflexivity|].
        symmetry. apply andb_false_iff. lia.
Qed.

(** The value of the [n] bits from [index], most significant first. *)
Fixpoint fieldValue (m : words) (n : nat) (index v : N) : N :=
  match n with O => v | S n' => fieldValue m n' (index + 1) (2 * v + N.b2n (bitAt m index)) end.

Lemma getBitsLoop_ok : forall n m index v k, (n + k <= 32)%nat -> v < 2 ^ N.of_nat k ->
  index + N.of_nat n <= 64 * N.of_nat (length m) ->
  getBitsLoop m n index v = Ok (fieldValue m n index v).
Proof.
  induction n as [|n IH]; intros m index v k Hk Hv Hi; [reflexivity|]. cbn [getBitsLoop fieldValue].
  rewrite getBit_ok by lia. cbn [bind].
  assert (Hp : 2 ^ N.of_nat (S k) = 2 * 2 ^ N.of_nat k) by (rewrite Nat2N.inj_succ, N.pow_succ_r'; reflexivity).
  assert (Hle : 2 ^ N.of_nat (S k) <= 2 ^ 32) by (apply N.pow_le_mono_r; lia).
  assert (E : N.lor (N.shiftl v 1 mod 2 ^ 32) (N.b2n (bitAt m index)) = 2 * v + N.b2n (bitAt m index)).
  { rewrite N.shiftl_mul_pow2, N.mod_small by (change (2 ^ 1) with 2; lia).
    rewrite lor_disjoint by (destruct (bitAt m index); reflexivity). change (2 ^ 1) with 2. lia. }
  rewrite E. apply (IH _ _ _ (S k)); [lia| |lia]. rewrite Hp. destruct (bitAt m index); cbn [N.b2n]; lia.
Qed.

Lemma fieldValue_eq : forall n m index v w, 
  (forall k, index <= k < index + N.of_nat n -> bitAt m k = N.testbit w (index + N.of_nat n - 1 - k)) ->
  fieldValue m n index v = v * 2 ^ N.of_nat n + w mod 2 ^ N.of_nat n.
Proof.
  induction n as [|n IH]; intros m index v w H; cbn [fieldValue].
  - change (N.of_nat 0) with 0. rewrite N.pow_0_r, N.mod_1_r. lia.
  - rewrite (IH m (index + 1) _ w).
    + rewrite (H index) by lia. replace (index + N.of_nat (S n) - 1 - index) with (N.of_nat n) by lia.
      rewrite Nat2N.inj_succ, N.pow_succ_r'.
      rewrite (N.mul_comm 2 (2 ^ N.of_nat n)), (N.mod_mul_r w) by (try apply N.pow_nonzero; lia).
      assert (N.b2n (N.testbit w (N.of_nat n)) = (w / 2 ^ N.of_nat n) mod 2) as ->.
      { apply N.testbit_spec'. }
      lia.
    + intros k Hk. rewrite H by lia. f_equal. lia.
Qed.

Lemma field_roundtrip : forall m n index v, (n <= 32)%nat -> wordsOk m ->
  index + N.of_nat n <= 64 * N.of_nat (length m) ->
  exists m', setBits m n index v = Ok m' /\ length m' = length m
    /\ getBits m' n index = Ok (v mod 2 ^ N.of_nat n)
    /\ forall k, k < index \/ index + N.of_nat n <= k -> k < 64 * N.of_nat (length m) -> getBit m' k = getBit m k.
Proof.
  intros m n index v Hn Hm Hi. destruct (setBits_ok n m index v Hm Hi) as (m' & E & Hl & Hw & Hb).
  exists m'. split; [assumption|]. split; [assumption|]. split.
  - unfold getBits. rewrite (getBitsLoop_ok n m' index 0 0) by (try rewrite Hl; try reflexivity; lia).
    rewrite (fieldValue_eq n m' index 0 v); [reflexivity|].
    intros k Hk. rewrite Hb. replace ((index <=? k) && (k <? index + N.of_nat n)) with true; [reflexivity|].
    symmetry. apply andb_true_iff. lia.
  - intros k Hk Hk2. rewrite !getBit_ok by lia. do 2 f_equal. rewrite Hb.
    replace ((index <=? k) && (k <? index + N.of_nat n)) with false; [reflexivity|]. symmetry. apply andb_false_iff. lia.
Qed.

(** * Singletons *)
Lemma ceilDiv_small : forall n d, 0 < d -> n + d - 1 < 2 ^ 32 -> ceilDiv n d = (n + d - 1) / d.
Proof. intros n d Hd H. unfold ceilDiv. rewrite N.mod_small by assumption. reflexivity. Qed.

Lemma size_consistent : forall count (body : words), count < 2 ^ 31 ->
  N.of_nat (length body) = count + singletonMaskSizeOfCount count ->
  singletonMaskSize body = singletonMaskSizeOfCount count /\ singletonCount body = count.
Proof.
  intros count body Hc Hl. unfold singletonCount, singletonMaskSize. rewrite Hl. clear Hl body.
  change (2 ^ 31) with 2147483648 in Hc.
  unfold singletonMaskSizeOfCount. destruct (count =? 0) eqn:E; [apply N.eqb_eq in E; subst; split; reflexivity|].
  rewrite (ceilDiv_small (count + 2)) by (change (2 ^ 32) with 4294967296; lia).
  set (q := (count + 2 + 64 - 1) / 64).
  assert (Hq : 64 * q - 63 <= count + 2 <= 64 * q) by (unfold q; lia).
  replace (count + q =? 0) with false by lia.
  rewrite ceilDiv_small by (change (2 ^ 32) with 4294967296; lia).
  assert ((count + q + 2 + 65 - 1) / 65 = q) as -> by (clearbody q; lia). lia.
Qed.

Section Mask.
Variable body : words.
Variable c : N.
Hypothesis Hok : wordsOk body.
Hypothesis Hcount : singletonCount body = c.

Lemma rdMask_ok : forall j, c + j / 2 < N.of_nat (length body) ->
  exists x, rdMask body j = Ok x /\ x < 2 ^ 32 /\ forall b, b < 32 -> N.testbit x b = bitAt body (64 * c + 32 * j + b).
Proof.
  intros j Hj. unfold rdMask. rewrite Hcount. destruct (rdw_ok body _ Hj) as (w & Hw & Hn). rewrite Hw. cbn [bind].
  eexists. split; [reflexivity|]. split; [apply N.mod_lt, N.pow_nonzero; lia|].
  intros b Hb. rewrite N.mod_pow2_bits_low, N.shiftr_spec' by assumption.
  replace (64 * c + 32 * j + b) with ((c + j / 2) * 64 + (b + 32 * (j mod 2))) by lia.
  symmetry. apply bitAt_rdw; [assumption|]. lia.
Qed.

Lemma wrMask_ok : forall j v, c + j / 2 < N.of_nat (length body) -> v < 2 ^ 32 ->
  exists body', wrMask body j v = Ok body' /\ length body' = length body /\ wordsOk body'
    /\ forall k, bitAt body' k = if (64 * c + 32 * j <=? k) && (k <? 64 * c + 32 * j + 32)
                                 then N.testbit v (k - (64 * c + 32 * j)) else bitAt body k.
Proof.
  intros j v Hj Hv. unfold wrMask. rewrite Hcount. destruct (rdw_ok body _ Hj) as (w & Hw & Hn). rewrite Hw. cbn [bind].
  set (s := 32 * (j mod 2)). assert (Hs : s = 0 \/ s = 32) by (unfold s; lia).
  destruct (wrw_ok body (c + j / 2) (N.lor (N.ldiff w (N.shiftl (N.ones 32) s)) (N.shiftl v s)) Hok) as (m' & H1 & H2 & H3 & _ & H5).
  - apply lor_bound; [apply ldiff_bound; eapply rdw_bound; eassumption|].
    rewrite N.shiftl_mul_pow2. destruct Hs as [-> | ->].
    + rewrite N.mul_1_r. eapply N.lt_le_trans; [exact Hv|]. vm_compute. discriminate.
    + change (2 ^ 64) with (2 ^ 32 * 2 ^ 32). apply N.mul_lt_mono_pos_r; [reflexivity|assumption].
  - assumption.
  - exists m'. split; [assumption|]. split; [assumption|]. split; [assumption|].
    intros k. rewrite H5. destruct (k / 64 =? c + j / 2) eqn:E.
    + apply N.eqb_eq in E. rewrite N.lor_spec, N.ldiff_spec.
      assert (Hkb : bitAt body k = N.testbit w (k mod 64)) by (unfold bitAt; rewrite E, Hn; reflexivity).
      destruct ((64 * c + 32 * j <=? k) && (k <? 64 * c + 32 * j + 32)) eqn:E2.
      * apply andb_true_iff in E2. assert (s <= k mod 64 < s + 32) by (unfold s; lia).
        rewrite !N.shiftl_spec_high' by lia. rewrite N.ones_spec_low by lia. cbn [negb]. rewrite andb_false_r. cbn [orb].
        f_equal. unfold s. lia.
      * apply andb_false_iff in E2. rewrite Hkb.
        assert (Hor : k mod 64 < s \/ s + 32 <= k mod 64) by (unfold s; lia).
        destruct Hor as [Hlt|Hge].
        -- rewrite !N.shiftl_spec_low by assumption. cbn [negb]. rewrite andb_true_r, orb_false_r. reflexivity.
        -- rewrite !N.shiftl_spec_high' by lia. rewrite N.ones_spec_high by lia. cbn [negb].
           rewrite (testbit_high v 32) by (try assumption; lia). rewrite andb_true_r, orb_false_r. reflexivity.
    + apply N.eqb_neq in E. replace ((64 * c + 32 * j <=? k) && (k <? 64 * c + 32 * j + 32)) with false; [reflexivity|].
      symmetry. apply andb_false_iff. lia.
Qed.

Lemma mark_ok : forall i, c + (i + 2) / 64 < N.of_nat (length body) ->
  exists body', singletonMarkObject body i = Ok body' /\ length body' = length body /\ wordsOk body'
    /\ forall k, bitAt body' k = if k =? 64 * c + i + 2 then true else bitAt body k.
Proof.
  intros i Hi. unfold singletonMarkObject. set (j := (i + 2) / 32).
  assert (Hj : c + j / 2 < N.of_nat (length body)) by (unfold j; lia).
  destruct (rdMask_ok j Hj) as (x & Hx & Hxb & Hbits). rewrite Hx. cbn [bind].
  set (b := (i + 2) mod 32). assert (Hb : b < 32) by (unfold b; lia).
  destruct (wrMask_ok j (N.lor x (N.shiftl 1 b)) Hj) as (m' & H1 & H2 & H3 & H4).
  { apply lor_bound; [assumption|apply shift1_bound; assumption]. }
  exists m'. split; [assumption|]. split; [assumption|]. split; [assumption|]. intros k. rewrite H4.
  assert (Hij : 64 * c + i + 2 = 64 * c + 32 * j + b) by (unfold j, b; lia). rewrite Hij.
  destruct ((64 * c + 32 * j <=? k) && (k <? 64 * c + 32 * j + 32)) eqn:E.
  - apply andb_true_iff in E. rewrite N.lor_spec, shift1_bit, Hbits by lia.
    replace (64 * c + 32 * j + (k - (64 * c + 32 * j))) with k by lia.
    destruct (k =? 64 * c + 32 * j + b) eqn:E2.
    + replace (k - (64 * c + 32 * j) =? b) with true by lia. apply orb_true_r.
    + replace (k - (64 * c + 32 * j) =? b) with false by lia. apply orb_false_r.
  - apply andb_false_iff in E. replace (k =? 64 * c + 32 * j + b) with false by lia. reflexivity.
Qed.

Lemma isObject_ok : forall i, c + (i + 2) / 64 < N.of_nat (length body) ->
  singletonIsObject body i = Ok (bitAt body (64 * c + i + 2)).
Proof.
  intros i Hi. unfold singletonIsObject. set (j := (i + 2) / 32).
  assert (Hj : c + j / 2 < N.of_nat (length body)) by (unfold j; lia).
  destruct (rdMask_ok j Hj) as (x & Hx & Hxb & Hbits). rewrite Hx. cbn [bind]. f_equal.
  set (b := (i + 2) mod 32). assert (Hb : b < 32) by (unfold b; lia).
  replace (64 * c + i + 2) with (64 * c + 32 * j + b) by (unfold j, b; lia).
  rewrite <- Hbits by assumption.
  destruct (N.testbit x b) eqn:E.
  - apply negb_true_iff, N.eqb_neq. intros Hz. apply (f_equal (fun z => N.testbit z b)) in Hz.
    rewrite N.land_spec, shift1_bit, N.eqb_refl, E, N.bits_0 in Hz. discriminate.
  - apply negb_false_iff, N.eqb_eq. apply N.bits_inj_iff. intros k. rewrite N.land_spec, shift1_bit, N.bits_0.
    destruct (k =? b) eqn:E2; [|apply andb_false_r]. apply N.eqb_eq in E2. subst. rewrite E. reflexivity.
Qed.
End Mask.

Lemma bitAt_zeros : forall n k, bitAt (repeat 0 n) k = false.
Proof.
  intros n k. unfold bitAt. destruct (nth_error (repeat 0 n) (N.to_nat (k / 64))) as [w|] eqn:E; [|reflexivity].
  apply nth_error_In, repeat_spec in E. subst. apply N.bits_0.
Qed.

Lemma zeros_ok : forall n, wordsOk (repeat 0 n).
Proof. intros n. apply Forall_forall. intros w Hw. apply repeat_spec in Hw. subst. reflexivity. Qed.

Lemma maskSize_room : forall count i, 0 < count < 2 ^ 31 -> i < count ->
  (i + 2) / 64 < singletonMaskSizeOfCount count.
Proof.
  intros count i Hc Hi. change (2 ^ 31) with 2147483648 in Hc. unfold singletonMaskSizeOfCount.
  replace (count =? 0) with false by lia.
  rewrite ceilDiv_small by (change (2 ^ 32) with 4294967296; lia). lia.
Qed.

Lemma make_ok : forall count, count < 2 ^ 31 ->
  exists body, makeSingletonOfSize count = Ok body /\ wordsOk body
    /\ N.of_nat (length body) = count + singletonMaskSizeOfCount count /\ singletonCount body = count
    /\ forall k, bitAt body k = (negb (count =? 0) && (k =? 64 * count)).
Proof.
  intros count Hc. unfold makeSingletonOfSize.
  set (o := repeat 0 (N.to_nat (count + singletonMaskSizeOfCount count))).
  assert (Hl : N.of_nat (length o) = count + singletonMaskSizeOfCount count) by (unfold o; rewrite repeat_length; lia).
  destruct (size_consistent count o Hc Hl) as [_ Hcount].
  destruct (count =? 0) eqn:E.
  - exists o. split; [reflexivity|]. split; [apply zeros_ok|]. split; [assumption|]. split; [assumption|].
    intros k. cbn [negb andb]. apply bitAt_zeros.
  - apply N.eqb_neq in E. pose proof (maskSize_room count 0 ltac:(lia) ltac:(lia)) as Hr.
    destruct (wrMask_ok o count (zeros_ok _) Hcount 0 1) as (b' & H1 & H2 & H3 & H4); [cbn; lia|reflexivity|].
    exists b'. rewrite H2. split; [assumption|]. split; [assumption|]. split; [assumption|]. split.
    + unfold singletonCount, singletonMaskSize in *. rewrite H2. assumption.
    + intros k. rewrite H4. cbn [negb andb]. unfold o at 1. rewrite bitAt_zeros.
      destruct ((64 * count + 32 * 0 <=? k) && (k <? 64 * count + 32 * 0 + 32)) eqn:E2.
      * apply andb_true_iff in E2. change 1 with (N.shiftl 1 0) at 1. rewrite shift1_bit. lia.
      * apply andb_false_iff in E2. lia.
Qed.

Lemma rdw_from_bits : forall m m' i, wordsOk m -> wordsOk m' -> length m = length m' ->
  (forall b, b < 64 -> bitAt m (i * 64 + b) = bitAt m' (i * 64 + b)) -> rdw m i = rdw m' i.
Proof.
  intros m m' i H1 H2 Hl Hb. unfold rdw.
  destruct (nth_error m (N.to_nat i)) as [w|] eqn:E.
  - destruct (nth_error m' (N.to_nat i)) as [w'|] eqn:E'.
    + cbn. f_equal. apply N.bits_inj_iff. intros b. destruct (N.lt_ge_cases b 64).
      * rewrite <- (bitAt_rdw m i w), <- (bitAt_rdw m' i w'); try assumption; [auto|unfold rdw; rewrite E'; reflexivity|unfold rdw; rewrite E; reflexivity].
      * unfold wordsOk in H1, H2. rewrite Forall_forall in H1, H2. apply nth_error_In in E, E'.
        rewrite (testbit_high w 64), (testbit_high w' 64) by auto. reflexivity.
    + exfalso. apply nth_error_None in E'. assert (N.to_nat i < length m)%nat by (apply nth_error_Some; congruence). lia.
  - apply nth_error_None in E. destruct (nth_error m' (N.to_nat i)) as [w'|] eqn:E'; [|reflexivity].
    assert (N.to_nat i < length m')%nat by (apply nth_error_Some; congruence). lia.
Qed.

(** * Histories of writes to a pool *)
Definition step (start : N) (body : words) (o : pool_op) : res words :=
  match o with
  | Store i v => singletonStore body i v
  | MarkObject i => singletonMarkObject body i
  | MarkFloat i => singletonSetBit body start i
  end.
Fixpoint run (start : N) (body : words) (ops : list pool_op) : res words :=
  match ops with [] => Ok body | o :: r => bind (step start body o) (fun b => run start b r) end.

Section History.
Variables V W n : N.
Hypothesis HVn : V <= n.
Hypothesis HWn : 64 * V + W <= 64 * n.
Hypothesis Hn : 0 < n < 2 ^ 31.

Definition op_in (o : pool_op) : Prop :=
  match o with Store i v => i < V /\ v < 2 ^ 64 | MarkObject i => i < n | MarkFloat i => i < W end.

Record inv (val : N -> N) (obj flt : N -> bool) (body : words) : Prop := {
  inv_ok : wordsOk body;
  inv_len : N.of_nat (length body) = n + singletonMaskSizeOfCount n;
  inv_val : forall i, i < V -> rdw body i = Ok (val i);
  inv_flt : forall i, i < W -> bitAt body (64 * V + i) = flt i;
  inv_obj : forall i, i < n -> bitAt body (64 * n + i + 2) = obj i }.

Lemma step_inv : forall val obj flt body o, inv val obj flt body -> op_in o ->
  exists body', step V body o = Ok body'
    /\ inv (fun i => match o with Store j x => if i =? j then x else val i | _ => val i end)
           (fun i => match o with MarkObject j => (i =? j) || obj i | _ => obj i end)
           (fun i => match o with MarkFloat j => (i =? j) || flt i | _ => flt i end) body'.
Proof.
  intros val obj flt body o [Hok Hl Hv Hf Ho] Hop. destruct (size_consistent n body ltac:(lia) Hl) as [_ Hc].
  destruct o as [i v|i|i]; cbn [step op_in] in *.
  - destruct Hop as [Hi Hvb].
    destruct (wrw_ok body i v Hok Hvb) as (b & E & E2 & E3 & E4 & E5); [lia|]. exists b.
    split; [exact E|]. split; [assumption|lia| | |].
    + intros j Hj. rewrite E4. destruct (j =? i) eqn:Ej; [reflexivity|auto].
    + intros j Hj. rewrite E5. replace ((64 * V + j) / 64 =? i) with false by lia. auto.
    + intros j Hj. rewrite E5. replace ((64 * n + j + 2) / 64 =? i) with false by lia. auto.
  - pose proof (maskSize_room n i Hn Hop) as Hr.
    destruct (mark_ok body n Hok Hc i) as (b & E & E2 & E3 & E4); [lia|]. exists b.
    split; [exact E|]. split; [assumption|lia| | |].
    + intros j Hj. rewrite (rdw_from_bits b body j); auto. intros k Hk. rewrite E4.
      replace (j * 64 + k =? 64 * n + i + 2) with false by lia. reflexivity.
    + intros j Hj. rewrite E4. replace (64 * V + j =? 64 * n + i + 2) with false by lia. auto.
    + intros j Hj. rewrite E4. destruct (j =? i) eqn:Ej.
      * replace (64 * n + j + 2 =? 64 * n + i + 2) with true by lia. reflexivity.
      * replace (64 * n + j + 2 =? 64 * n + i + 2) with false by lia. cbn [orb]. auto.
  - unfold singletonSetBit. destruct (rdw_ok body (V + i / 64)) as (w & Hw & Hnth); [lia|]. rewrite Hw. cbn [bind].
    destruct (wrw_ok body (V + i / 64) (N.lor w (N.shiftl 1 (i mod 64))) Hok) as (b & E & E2 & E3 & E4 & E5); [|lia|].
    { apply lor_bound; [eapply rdw_bound; eassumption|apply shift1_bound; lia]. }
    exists b. split; [exact E|]. split; [assumption|lia| | |].
    + intros j Hj. rewrite E4. replace (j =? V + i / 64) with false by lia. auto.
    + intros j Hj. rewrite E5. destruct ((64 * V + j) / 64 =? V + i / 64) eqn:Ej.
      * rewrite N.lor_spec, shift1_bit. rewrite <- Hf by assumption. unfold bitAt.
        apply N.eqb_eq in Ej. rewrite Ej, Hnth, orb_comm. f_equal.
        destruct (j =? i) eqn:Eji; lia.
      * rewrite <- Hf by assumption. replace (j =? i) with false; [reflexivity|].
        destruct (j =? i) eqn:Eji; [|reflexivity]. lia.
    + intros j Hj. rewrite E5. replace ((64 * n + j + 2) / 64 =? V + i / 64) with false by lia. auto.
Qed.

Lemma inv_ext : forall val obj flt val' obj' flt' body, inv val obj flt body ->
  (forall i, val i = val' i) -> (forall i, obj i = obj' i) -> (forall i, flt i = flt' i) -> inv val' obj' flt' body.
Proof.
  intros val obj flt val' obj' flt' body [Hok Hl Hv Hf Ho] E1 E2 E3. split; auto.
  - intros i Hi. rewrite <- E1. auto.
  - intros i Hi. rewrite <- E3. auto.
  - intros i Hi. rewrite <- E2. auto.
Qed.

Lemma run_inv : forall ops val obj flt body, inv val obj flt body -> Forall op_in ops ->
  exists body', run V body ops = Ok body'
    /\ inv (fun i => stored_from (val i) ops i) (fun i => isObjectMarked ops i || obj i)
           (fun i => isFloatMarked ops i || flt i) body'.
Proof.
  induction ops as [|o ops IH]; intros val obj flt body Hi Hall; [exists body; split; [reflexivity|exact Hi]|].
  inversion Hall; subst. cbn [run]. destruct (step_inv _ _ _ _ o Hi) as (b & E & Hb); [assumption|]. rewrite E. cbn [bind].
  destruct (IH _ _ _ _ Hb) as (b' & E' & Hb'); [assumption|]. exists b'. split; [exact E'|].
  eapply inv_ext; [exact Hb'| | |]; intros i; cbn beta.
  - destruct o; reflexivity.
  - unfold isObjectMarked. cbn [existsb]. destruct o; try reflexivity.
    rewrite orb_assoc. f_equal. apply orb_comm.
  - unfold isFloatMarked. cbn [existsb]. destruct o; try reflexivity.
    rewrite orb_assoc. f_equal. apply orb_comm.
Qed.

Lemma make_inv : exists body, makeSingletonOfSize n = Ok body
  /\ inv (fun _ => 0) (fun _ => false) (fun _ => false) body.
Proof.
  destruct (make_ok n) as (body & E & Hok & Hl & Hcount & Hb); [lia|]. exists body. split; [exact E|]. split; auto.
  - intros i Hi. rewrite (rdw_from_bits body (repeat 0 (length body)) i Hok (zeros_ok _)).
    + unfold rdw. rewrite (nth_error_repeat 0) by lia. reflexivity.
    + symmetry. apply repeat_length.
    + intros b Hbb. rewrite Hb, bitAt_zeros. replace (i * 64 + b =? 64 * n) with false by lia. apply andb_false_r.
  - intros i Hi. rewrite Hb. replace (64 * V + i =? 64 * n) with false by lia. apply andb_false_r.
  - intros i Hi. rewrite Hb. replace (64 * n + i + 2 =? 64 * n) with false by lia. apply andb_false_r.
Qed.

Lemma history_ok : forall ops, Forall op_in ops ->
  exists body body', makeSingletonOfSize n = Ok body /\ run V body ops = Ok body' /\ singletonCount body' = n
    /\ (forall i, i < V -> singletonLoad body' i = Ok (stored ops i))
    /\ (forall i, i < n -> singletonIsObject body' i = Ok (isObjectMarked ops i))
    /\ (forall i, i < W -> singletonBit body' V i = Ok (isFloatMarked ops i)).
Proof.
  intros ops Hall. destruct make_inv as (body & E & Hb). destruct (run_inv ops _ _ _ _ Hb Hall) as (b' & E' & Hb').
  exists body, b'. destruct Hb' as [Hok Hl Hv Hf Ho]. destruct (size_consistent n b' ltac:(lia) Hl) as [_ Hc].
  split; [assumption|]. split; [assumption|]. split; [assumption|]. split; [|split].
  - intros i Hi. apply Hv; assumption.
  - intros i Hi. pose proof (maskSize_room n i Hn Hi). rewrite (isObject_ok b' n Hc i) by lia. rewrite Ho, orb_false_r by assumption. reflexivity.
  - intros i Hi. unfold singletonBit. destruct (rdw_ok b' (V + i / 64)) as (w & Hw & Hnth); [lia|]. rewrite Hw. cbn [bind].
    f_equal. specialize (Hf i Hi). rewrite orb_false_r in Hf. rewrite <- Hf. unfold bitAt.
    replace ((64 * V + i) / 64) with (V + i / 64) by lia. replace ((64 * V + i) mod 64) with (i mod 64) by lia.
    rewrite Hnth. destruct (N.testbit w (i mod 64)) eqn:Et.
    + apply negb_true_iff, N.eqb_neq. intros Hz. apply (f_equal (fun z => N.testbit z (i mod 64))) in Hz.
      rewrite N.land_spec, shift1_bit, N.eqb_refl, Et, N.bits_0 in Hz. discriminate.
    + apply negb_false_iff, N.eqb_eq. apply N.bits_inj_iff. intros k. rewrite N.land_spec, shift1_bit, N.bits_0.
      destruct (k =? i mod 64) eqn:E2; [|apply andb_false_r]. apply N.eqb_eq in E2. subst. rewrite Et. reflexivity.
Qed.
End History.

Lemma static_history : forall count ops, 0 < count < 2 ^ 31 ->
  Forall (pool_op_ok count) ops -> Forall no_float ops ->
  exists body body', makeSingletonOfSize count = Ok body /\ run count body ops = Ok body'
    /\ singletonCount body' = count
    /\ forall i, i < count -> singletonLoad body' i = Ok (stored ops i)
                           /\ singletonIsObject body' i = Ok (isObjectMarked ops i).
Proof.
  intros count ops Hc Hall Hnf.
  destruct (history_ok count 0 count (N.le_refl _) ltac:(lia) Hc ops) as (b & b' & E1 & E2 & E3 & E4 & E5 & _).
  - rewrite Forall_forall in *. intros o Ho. specialize (Hall o Ho). specialize (Hnf o Ho).
    destruct o; cbn in *; tauto.
  - exists b, b'. repeat split; auto.
Qed.

Lemma pool_sizes : forall count, 0 < count < 2 ^ 30 ->
  poolMaskSizeOfCount count = (count + 63) / 64 /\ ceilDiv (count + poolMaskSizeOfCount count) 65 = poolMaskSizeOfCount count.
Proof.
  intros count Hc. change (2 ^ 30) with 1073741824 in Hc. unfold poolMaskSizeOfCount.
  rewrite (ceilDiv_small count) by (change (2 ^ 32) with 4294967296; lia).
  replace (count + 64 - 1) with (count + 63) by lia. split; [reflexivity|].
  set (q := (count + 63) / 64). assert (Hq : 64 * q - 63 <= count <= 64 * q) by (unfold q; lia). clearbody q.
  rewrite ceilDiv_small by (change (2 ^ 32) with 4294967296; lia). lia.
Qed.

Lemma pool_history : forall count ops, 0 < count < 2 ^ 30 -> Forall (pool_op_ok count) ops ->
  exists body body', makePool count = Ok body /\ run count body ops = Ok body'
    /\ poolSize body' = count
    /\ forall i, i < count -> singletonLoad body' i = Ok (stored ops i)
                           /\ singletonIsObject body' i = Ok (isObjectMarked ops i)
                           /\ singletonBit body' (poolSize body') i = Ok (isFloatMarked ops i).
Proof.
  intros count ops Hc Hall. destruct (pool_sizes count Hc) as [Hp Hq]. change (2 ^ 30) with 1073741824 in Hc.
  destruct (history_ok count count (count + poolMaskSizeOfCount count)) with (ops := ops)
    as (b & b' & E1 & E2 & E3 & E4 & E5 & E6); [lia|lia|change (2 ^ 31) with 2147483648; lia| |].
  - rewrite Forall_forall in *. intros o Ho. specialize (Hall o Ho). destruct o; cbn in *; try tauto. lia.
  - assert (Hs : poolSize b' = count) by (unfold poolSize, poolMaskSize; rewrite E3, Hq; lia).
    exists b, b'. rewrite Hs. repeat split; auto. apply E5. lia.
Qed.

Lemma clear_roundtrip : forall m n index, (n <= 32)%nat -> wordsOk m ->
  index + N.of_nat n <= 64 * N.of_nat (length m) ->
  exists m', clearBits m n index = Ok m' /\ length m' = length m
    /\ getBits m' n index = Ok 0
    /\ forall k, k < index \/ index + N.of_nat n <= k -> k < 64 * N.of_nat (length m) -> getBit m' k = getBit m k.
Proof.
  intros m n index Hn Hm Hi. destruct (clearBits_ok n m index Hm Hi) as (m' & E & Hl & Hw & Hb).
  exists m'. split; [assumption|]. split; [assumption|]. split.
  - unfold getBits. rewrite (getBitsLoop_ok n m' index 0 0) by (try rewrite Hl; try reflexivity; lia).
    rewrite (fieldValue_eq n m' index 0 0); [rewrite N.mod_0_l by (apply N.pow_nonzero; lia); reflexivity|].
    intros k Hk. rewrite Hb, N.bits_0. replace ((index <=? k) && (k <? index + N.of_nat n)) with true; [reflexivity|].
    symmetry. apply andb_true_iff. lia.
  - intros k Hk Hk2. rewrite !getBit_ok by lia. do 2 f_equal. rewrite Hb.
    replace ((index <=? k) && (k <? index + N.of_nat n)) with false; [reflexivity|]. symmetry. apply andb_false_iff. lia.
Qed.
