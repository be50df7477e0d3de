From Coq Require Import ZArith List Bool Lia ZifyBool.
From Verif Require Import JNum_Model JNum_Spec JNum_Proofs JBuffer_Model JBuffer_Spec.
Import ListNotations.
Local Open Scope Z_scope.

Fixpoint bytesOf (n : nat) (v : Z) : list Z := match n with O => [] | S m => (Z.shiftr v (8 * Z.of_nat m)) mod 256 :: bytesOf m v end.
Lemma bytesOf_length : forall n v, length (bytesOf n v) = n.
Proof. induction n; simpl; intros; auto. Qed.
Lemma pow8S : forall m, 2 ^ (8 * Z.of_nat (S m)) = 2 ^ (8 * Z.of_nat m) * 256.
Proof. intro m. replace (8 * Z.of_nat (S m)) with (8 * Z.of_nat m + 8) by lia. rewrite Z.pow_add_r by lia. reflexivity. Qed.
Lemma bytesOf_ok : forall n v, isBytes n v (bytesOf n v).
Proof.
  induction n; intro v.
  - split; [reflexivity|]. split; [constructor|]. simpl. now rewrite Z.mod_1_r.
  - destruct (IHn v) as (L & F & E). split; [apply bytesOf_length|]. split.
    + simpl. constructor; [apply Z.mod_pos_bound; lia | exact F].
    + cbn [bytesOf number]. rewrite bytesOf_length, E, pow8S, Z.rem_mul_r by (try apply Z.pow_nonzero; lia).
      rewrite Z.shiftr_div_pow2 by lia. lia.
Qed.
Lemma number_range : forall l, Forall (fun b => 0 <= b < 256) l -> 0 <= number l < 2 ^ (8 * Z.of_nat (length l)).
Proof.
  induction l as [|b l IH]; intro F; [simpl; lia|]. inversion F; subst. specialize (IH H2).
  cbn [number length]. rewrite pow8S. nia.
Qed.
Lemma lor_shift : forall x y k, 0 <= k -> 0 <= y < 2 ^ k -> Z.lor (Z.shiftl x k) y = x * 2 ^ k + y.
Proof.
  intros x y k K Y.
  apply Z.bits_inj'. intros i Hi. 
  assert (D : Z.land (Z.shiftl x k) y = 0).
  { apply Z.bits_inj'; intros j Hj; rewrite Z.land_spec, Z.bits_0, Z.shiftl_spec by lia.
    destruct (Z.ltb_spec j k); [rewrite Z.testbit_neg_r by lia; reflexivity|].
    rewrite andb_false_iff; right. destruct (Z.eq_dec y 0) as [->|]; [apply Z.bits_0|].
    apply Z.bits_above_log2; [lia|]. apply Z.log2_lt_pow2; [lia|]. eapply Z.lt_le_trans; [apply Y|]. apply Z.pow_le_mono_r; lia. }
  rewrite <- (Z.shiftl_mul_pow2 x k) by lia. rewrite Z.add_nocarry_lxor by exact D.
  rewrite Z.lor_spec, Z.lxor_spec. assert (E : Z.testbit (Z.land (Z.shiftl x k) y) i = false) by (rewrite D; apply Z.bits_0).
  rewrite Z.land_spec in E. destruct (Z.testbit (Z.shiftl x k) i), (Z.testbit y i); auto; discriminate.
Qed.
Lemma signed_ok : forall l, l <> [] -> Forall (fun b => 0 <= b < 256) l -> isValue l (signed (length l) (number l)).
Proof.
  intros l N0 F. pose proof (number_range l F) as R. unfold isValue, signed.
  set (k := 2 ^ (8 * Z.of_nat (length l) - 1)).
  assert (K : 2 ^ (8 * Z.of_nat (length l)) = 2 * k).
  { unfold k. rewrite <- Z.pow_succ_r by (destruct l; [congruence|cbn [length]; lia]). f_equal; lia. }
  assert (0 < k) by (apply Z.pow_pos_nonneg; destruct l; [congruence|cbn [length]; lia|congruence|cbn [length]; lia]).
  rewrite K in *. clearbody k. pose proof (Z.mod_pos_bound (number l + k) (2 * k)). split; [lia|].
  rewrite Zminus_mod_idemp_l. replace (number l + k - k) with (number l) by lia. apply Z.mod_small; lia.
Qed.

Lemma wrap_small : forall z, 0 <= z < 2 ^ 31 -> wrap32 z = z.
Proof. intros z H. unfold wrap32. rewrite Z.mod_small; lia. Qed.
Lemma place_at : forall b p i, base b + p = Z.of_nat i -> (i < length (mem b))%nat -> Z.of_nat (length (mem b)) < 2 ^ 31 -> place b p = Some i.
Proof.
  intros b p i E L M. unfold place. rewrite E. rewrite wrap_small by lia.
  replace (if direct b then Z.of_nat i else Z.of_nat i) with (Z.of_nat i) by (destruct (direct b); auto).
  cbv zeta. replace ((0 <=? Z.of_nat i) && (Z.of_nat i <? Z.of_nat (length (mem b)))) with true by lia. now rewrite Nat2Z.id.
Qed.
Lemma range_at : forall b p n i, base b + p = Z.of_nat i -> Z.of_nat i + n <= Z.of_nat (length (mem b)) -> 0 <= n -> Z.of_nat (length (mem b)) < 2 ^ 31 ->
  range b p n = Some i.
Proof.
  intros b p n i E L N0 M. unfold range. rewrite E. rewrite wrap_small by lia.
  replace (if direct b then Z.of_nat i else Z.of_nat i) with (Z.of_nat i) by (destruct (direct b); auto).
  cbv zeta. replace ((0 <=? Z.of_nat i) && (Z.of_nat i + n <=? Z.of_nat (length (mem b)))) with true by lia. now rewrite Nat2Z.id.
Qed.
Lemma setMem_twice : forall b m m', setMem (setMem b m) m' = setMem b m'.
Proof. reflexivity. Qed.
Lemma setMem_same : forall b m, mem b = m -> b = setMem b m.
Proof. intros [] m E; simpl in *; subst; reflexivity. Qed.

Lemma rawPut_ok : forall n v b p x old y, mem b = x ++ old ++ y -> length old = n -> base b + p = Z.of_nat (length x) -> 0 <= p -> 0 <= base b ->
  Z.of_nat (length (mem b)) < 2 ^ 31 -> rawPut n b p v = (setMem b (x ++ bytesOf n v ++ y), None).
Proof.
  induction n; intros v b p x old y E L B P B0 M.
  - destruct old; [|discriminate]. simpl. f_equal. now apply setMem_same.
  - destruct old as [|c old]; [discriminate|]. cbn [rawPut]. unfold doPut.
    assert (LM : length (mem b) = (length x + S (length old + length y))%nat) by (rewrite E, !app_length; simpl; lia).
    rewrite (place_at _ _ (length x)) by (try lia).
    rewrite E at 1 2. rewrite firstn_app, firstn_all, Nat.sub_diag, firstn_O, app_nil_r.
    replace (skipn (S (length x)) (x ++ (c :: old) ++ y)) with (old ++ y)
      by (rewrite skipn_app, skipn_all2 by lia; replace (S (length x) - length x)%nat with 1%nat by lia; reflexivity).
    rewrite wrap_small by lia.
    rewrite (IHn v _ (p + 1) (x ++ [Z.shiftr v (8 * Z.of_nat n) mod 256]) old y).
    + rewrite setMem_twice. simpl. now rewrite <- app_assoc.
    + simpl. now rewrite <- app_assoc.
    + simpl in L; lia.
    + simpl. rewrite app_length. simpl. lia.
    + lia.
    + simpl; lia.
    + simpl. rewrite app_length. simpl. rewrite app_length. lia.
Qed.
Lemma rawGet_ok : forall n b p x old y, mem b = x ++ old ++ y -> length old = n -> base b + p = Z.of_nat (length x) -> 0 <= p -> 0 <= base b ->
  Forall (fun c => 0 <= c < 256) old -> Z.of_nat (length (mem b)) < 2 ^ 31 -> rawGet n b p = inl (number old).
Proof.
  induction n; intros b p x old y E L B P B0 F M.
  - destruct old; [|discriminate]. reflexivity.
  - destruct old as [|c old]; [discriminate|]. cbn [rawGet]. unfold doGet.
    assert (LM : length (mem b) = (length x + S (length old + length y))%nat) by (rewrite E, !app_length; simpl; lia).
    rewrite (place_at _ _ (length x)) by (try lia).
    inversion F; subst.
    rewrite wrap_small by lia.
    rewrite (IHn b (p + 1) (x ++ [c]) old y); auto; try lia.
    + f_equal. rewrite E, app_nth2, Nat.sub_diag by lia. cbn [nth app number]. simpl in L. injection L as L. subst n.
      apply lor_shift; [lia|]. now apply number_range.
    + rewrite E. now rewrite <- app_assoc.
    + rewrite app_length. simpl. lia.
Qed.
Lemma cut : forall (w : list Z) i n, (i + n <= length w)%nat -> w = firstn i w ++ part w i n ++ skipn (i + n) w.
Proof.
  intros w i n H. unfold part. rewrite <- (firstn_skipn i w) at 1. f_equal. rewrite <- (firstn_skipn n (skipn i w)) at 1. f_equal.
  rewrite Nat.add_comm. revert w H. induction i; simpl; intros; [now rewrite Nat.add_0_r|]. destruct w; simpl in *; [now rewrite !skipn_nil|].
  replace (n + S i)%nat with (S (n + i)) by lia. apply IHi; lia.
Qed.
Lemma part_length : forall (w : list Z) i n, (i + n <= length w)%nat -> length (part w i n) = n.
Proof. intros. unfold part. rewrite firstn_length, skipn_length. lia. Qed.
Lemma overwrite_length : forall (w : list Z) i l, (i + length l <= length w)%nat -> length (overwrite w i l) = length w.
Proof. intros. unfold overwrite. rewrite !app_length, firstn_length, skipn_length. lia. Qed.
Definition isBytesList (w : list Z) : Prop := Forall (fun c => 0 <= c < 256) w.
Lemma part_bytes : forall w i n, isBytesList w -> isBytesList (part w i n).
Proof. intros w i n F. unfold isBytesList in *. rewrite Forall_forall in *. intros x H. apply F. unfold part in H.
  apply In_nth_error in H. destruct H as [k H]. 
  assert (I1 : In x (firstn n (skipn i w))) by (eapply nth_error_In; eauto).
  rewrite <- (firstn_skipn i w). apply in_or_app. right. rewrite <- (firstn_skipn n (skipn i w)). apply in_or_app. now left. Qed.
Lemma overwrite_bytes : forall w i l, isBytesList w -> isBytesList l -> isBytesList (overwrite w i l).
Proof.
  intros w i l F G. unfold overwrite, isBytesList in *. apply Forall_app.
  split; [|apply Forall_app; split; auto].
  - rewrite <- (firstn_skipn i w) in F. apply Forall_app in F. apply F.
  - rewrite <- (firstn_skipn (i + length l) w) in F. apply Forall_app in F. apply F.
Qed.

Section Step.
Variables (d : bool) (pre post : list Z).
Definition good (b : buffer) (a : abuf) : Prop :=
  shows d pre post b a /\ isBytesList (window a) /\ Z.of_nat (length (pre ++ window a ++ post)) < 2 ^ 31.
Lemma put_in : forall n v b a p, good b a -> (p + n <= length (window a))%nat ->
  rawPut n b (Z.of_nat p) v = (setMem b (pre ++ overwrite (window a) p (bytesOf n v) ++ post), None).
Proof.
  intros n v b a p ((D & E & B & _) & F & M) P.
  rewrite (rawPut_ok n v b (Z.of_nat p) (pre ++ firstn p (window a)) (part (window a) p n) (skipn (p + n) (window a) ++ post)).
  - unfold overwrite. rewrite bytesOf_length. now rewrite <- !app_assoc.
  - rewrite E, (cut (window a) p n P) at 1. now rewrite <- !app_assoc.
  - now apply part_length.
  - rewrite app_length, firstn_length. lia.
  - lia.
  - lia.
  - now rewrite E.
Qed.
Lemma get_in : forall n b a p, good b a -> (p + n <= length (window a))%nat -> rawGet n b (Z.of_nat p) = inl (number (part (window a) p n)).
Proof.
  intros n b a p ((D & E & B & _) & F & M) P.
  rewrite (rawGet_ok n b (Z.of_nat p) (pre ++ firstn p (window a)) (part (window a) p n) (skipn (p + n) (window a) ++ post)); auto; try lia.
  - rewrite E, (cut (window a) p n P) at 1. now rewrite <- !app_assoc.
  - now apply part_length.
  - rewrite app_length, firstn_length. lia.
  - now apply part_bytes.
  - now rewrite E.
Qed.
Lemma value_in : forall w i n, isBytesList w -> (0 < n)%nat -> (i + n <= length w)%nat -> isValue (part w i n) (signed n (number (part w i n))).
Proof.
  intros w i n F N0 P. rewrite <- (part_length w i n P) at 2. apply signed_ok; [|now apply part_bytes].
  intro Z0. apply (f_equal (@length Z)) in Z0. rewrite part_length in Z0 by lia. simpl in Z0. lia.
Qed.
Lemma blit_in : forall (w l : list Z) p, (p + length l <= length w)%nat ->
  firstn (length pre + p) (pre ++ w ++ post) ++ l ++ skipn (length pre + p + length l) (pre ++ w ++ post) = pre ++ overwrite w p l ++ post.
Proof.
  intros w l p P. unfold overwrite. rewrite firstn_app_2, skipn_app, skipn_all2 by lia.
  replace (length pre + p + length l - length pre)%nat with (p + length l)%nat by lia.
  rewrite firstn_app, skipn_app. replace (p - length w)%nat with 0%nat by lia. replace (p + length l - length w)%nat with 0%nat by lia.
  simpl. rewrite app_nil_r, <- !app_assoc. reflexivity.
Qed.
Lemma part_in : forall (w : list Z) p n, (p + n <= length w)%nat -> firstn n (skipn (length pre + p) (pre ++ w ++ post)) = part w p n.
Proof.
  intros w p n P. unfold part. rewrite skipn_app, skipn_all2 by lia. replace (length pre + p - length pre)%nat with p by lia.
  simpl. rewrite skipn_app. replace (p - length w)%nat with 0%nat by lia. simpl. rewrite firstn_app, skipn_length.
  replace (n - (length w - p))%nat with 0%nat by lia. simpl. apply app_nil_r.
Qed.

Lemma step_ok : forall c b a, good b a -> tame d c a -> exists a', acts c a a' (snd (exec c b)) /\ good (fst (exec c b)) a'.
Proof.
  intros c b a G T. assert (G0 := G). destruct G as ((D & E & B & C & P & L & R & O) & F & M).
  assert (M' : Z.of_nat (length (window a)) < 2 ^ 31) by (rewrite !app_length in M; lia).
  destruct c as [n v|p n v|n|p n|l|n| | | | |p|l]; cbn [exec acts tame] in *.
  - (* Put *) unfold checkPut. rewrite R, P, L. rewrite wrap_small by lia.
    destruct (Nat.leb_spec (apos a + n) (alim a)) as [Q|Q].
    + replace ((Z.of_nat (apos a) <? 0) || (Z.of_nat (alim a) <? Z.of_nat (apos a) + Z.of_nat n)) with false by lia.
      rewrite (put_in n v b a (apos a) G0) by lia. cbn [fst snd].
      eexists. split; [split; [reflexivity|exists (bytesOf n v); split; [apply bytesOf_ok|reflexivity]]|].
      pose proof (overwrite_length (window a) (apos a) (bytesOf n v)) as OL. rewrite bytesOf_length in OL.
      repeat split; cbn; auto; try lia.
      * apply overwrite_bytes; auto. apply bytesOf_ok.
      * rewrite !app_length in *. lia.
    + replace ((Z.of_nat (apos a) <? 0) || (Z.of_nat (alim a) <? Z.of_nat (apos a) + Z.of_nat n)) with true by lia.
      exists a. auto.
  - (* PutAt *) unfold checkPut. rewrite R, L. rewrite wrap32_id by (unfold isInt; lia).
    destruct ((0 <=? p) && (p + Z.of_nat n <=? Z.of_nat (alim a))) eqn:Q.
    + replace ((p <? 0) || (Z.of_nat (alim a) <? p + Z.of_nat n)) with false by lia.
      replace (rawPut n b p v) with (rawPut n b (Z.of_nat (Z.to_nat p)) v) by (f_equal; lia). rewrite (put_in n v b a (Z.to_nat p) G0) by lia. cbn [fst snd].
      eexists. split; [split; [reflexivity|exists (bytesOf n v); split; [apply bytesOf_ok|reflexivity]]|].
      pose proof (overwrite_length (window a) (Z.to_nat p) (bytesOf n v)) as OL. rewrite bytesOf_length in OL.
      repeat split; cbn; auto; try lia.
      * apply overwrite_bytes; auto. apply bytesOf_ok.
      * rewrite !app_length in *. lia.
    + replace ((p <? 0) || (Z.of_nat (alim a) <? p + Z.of_nat n)) with true by lia.
      exists a. auto.
  - (* Get *) unfold checkGet. rewrite P, L. rewrite (wrap_small (Z.of_nat (alim a) - _)) by lia.
    destruct (Nat.leb_spec (apos a + n) (alim a)) as [Q|Q].
    + replace (Z.of_nat (alim a) - Z.of_nat (apos a) <? Z.of_nat n) with false by lia.
      rewrite (get_in n b a (apos a) G0) by lia. cbn [fst snd].
      eexists. split; [split; [eexists; split; [reflexivity|apply value_in; auto; lia]|reflexivity]|].
      repeat split; cbn; auto; try lia. rewrite wrap_small by lia. lia.
    + replace (Z.of_nat (alim a) - Z.of_nat (apos a) <? Z.of_nat n) with true by lia. exists a. auto.
  - (* GetAt *) unfold checkGet. rewrite L. rewrite wrap32_id by (unfold isInt; lia).
    destruct ((0 <=? p) && (p + Z.of_nat n <=? Z.of_nat (alim a))) eqn:Q.
    + replace (Z.of_nat (alim a) - p <? Z.of_nat n) with false by lia.
      replace (rawGet n b p) with (rawGet n b (Z.of_nat (Z.to_nat p))) by (f_equal; lia). rewrite (get_in n b a (Z.to_nat p) G0) by lia. cbn [fst snd].
      exists a. split; [split; [eexists; split; [reflexivity|apply value_in; auto; lia]|reflexivity]|exact G0].
    + replace (Z.of_nat (alim a) - p <? Z.of_nat n) with true by lia. exists a. auto.
  - (* PutBytes *) unfold checkPut. rewrite R, P, L. rewrite wrap_small by lia.
    destruct (Nat.leb_spec (apos a + length l) (alim a)) as [Q|Q].
    + replace ((Z.of_nat (apos a) <? 0) || (Z.of_nat (alim a) <? Z.of_nat (apos a) + Z.of_nat (length l))) with false by lia.
      rewrite (range_at b (Z.of_nat (apos a)) (Z.of_nat (length l)) (length pre + apos a)) by (rewrite ?E; rewrite ?app_length in *; lia).
      cbn [fst snd]. eexists. split; [split; reflexivity|].
      pose proof (overwrite_length (window a) (apos a) l) as OL.
      repeat split; cbn; auto; try lia.
      * rewrite E. apply blit_in. lia.
      * apply overwrite_bytes; auto. apply T.
      * rewrite !app_length in *. lia.
    + replace ((Z.of_nat (apos a) <? 0) || (Z.of_nat (alim a) <? Z.of_nat (apos a) + Z.of_nat (length l))) with true by lia.
      exists a. auto.
  - (* GetBytes *) destruct T as [T1 T2]. unfold checkGet. rewrite P, L. rewrite (wrap_small (Z.of_nat (alim a) - _)) by lia.
    destruct (Nat.leb_spec (apos a + n) (alim a)) as [Q|Q].
    + replace (Z.of_nat (alim a) - Z.of_nat (apos a) <? Z.of_nat n) with false by lia.
      rewrite (range_at b (Z.of_nat (apos a)) (Z.of_nat n) (length pre + apos a)) by (rewrite ?E; rewrite ?app_length in *; lia).
      rewrite D, T1. cbn [fst snd]. rewrite E, part_in by lia.
      eexists. split; [split; reflexivity|].
      repeat split; cbn; auto; try lia. rewrite wrap_small by lia. lia.
    + replace (Z.of_nat (alim a) - Z.of_nat (apos a) <? Z.of_nat n) with true by lia. exists a. auto.
  - eexists. split; [split; reflexivity|]. repeat split; cbn; auto; lia.
  - eexists. split; [split; reflexivity|]. repeat split; cbn; auto; lia.
  - eexists. split; [split; reflexivity|]. repeat split; cbn; auto; lia.
  - (* Compact *) destruct (Z.eqb_spec (position b) 0) as [Q|Q].
    + eexists. split; [split; reflexivity|]. assert (apos a = 0%nat) as -> by lia. rewrite Nat.sub_0_r.
      assert (W : overwrite (window a) 0 (part (window a) 0 (alim a)) = window a).
      { pose proof (cut (window a) 0 (alim a)) as X. unfold overwrite. rewrite part_length by lia. symmetry. apply X. lia. }
      rewrite W. cbn [fst snd]. unfold good, shows. cbn. repeat split; auto; lia.
    + unfold checkPut. cbn [readonly setPos limit]. rewrite R, P, L in *. rewrite wrap_small by lia.
      replace ((0 <? 0) || (Z.of_nat (alim a) <? 0 + (Z.of_nat (alim a) - Z.of_nat (apos a)))) with false by lia.
      rewrite (range_at b (Z.of_nat (apos a)) _ (length pre + apos a)) by (rewrite ?E; rewrite ?app_length in *; lia).
      rewrite (range_at b 0 _ (length pre)) by (rewrite ?E; rewrite ?app_length in *; lia).
      rewrite D. replace (d && (Z.of_nat (apos a) <? Z.of_nat (alim a) - Z.of_nat (apos a))) with false
        by (destruct d; cbn [andb]; [|reflexivity]; destruct T as [T|[T|T]]; [discriminate|lia|lia]).
      cbn [fst snd]. eexists. split; [split; reflexivity|].
      replace (Z.to_nat (Z.of_nat (alim a) - Z.of_nat (apos a))) with (alim a - apos a)%nat by lia.
      pose proof (part_length (window a) (apos a) (alim a - apos a)) as PL.
      pose proof (overwrite_length (window a) 0 (part (window a) (apos a) (alim a - apos a))) as OL. 
      repeat split; cbn -[overwrite part]; auto; try lia.
      * rewrite E, part_in by lia. pose proof (blit_in (window a) (part (window a) (apos a) (alim a - apos a)) 0) as X.
        rewrite PL, Nat.add_0_r in X by lia. apply X. lia.
      * apply overwrite_bytes; auto. now apply part_bytes.
      * rewrite !app_length in *. lia.
  - eexists. split; [split; reflexivity|]. repeat split; cbn; auto; lia.
  - eexists. split; [split; reflexivity|]. repeat split; cbn; auto; lia.
Qed.
Lemma run_ok : forall l b a, good b a -> follows d pre post l b a.
Proof.
  induction l as [|c l IH]; intros b a G; cbn [follows]; auto. intro T.
  destruct (step_ok c b a G T) as (a' & A & G'). exists a'. split; [exact A|]. split; [apply G'|now apply IH].
Qed.
End Step.
