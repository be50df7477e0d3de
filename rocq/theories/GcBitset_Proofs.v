From Coq Require Import Sorted.
From Verif Require Import Base Res Bits Words_Model Words_Proofs GcBitset_Model.
Local Open Scope N_scope.

Lemma zeroWords_ok : forall n p start, wordsOk p -> start + N.of_nat n <= N.of_nat (length p) ->
  exists p', zeroWords p start n = Ok p' /\ length p' = length p /\ wordsOk p'
    /\ (forall j, rdw p' j = if (start <=? j) && (j <? start + N.of_nat n) then Ok 0 else rdw p j)
    /\ (forall k, bitAt p' k = if (start <=? k / 64) && (k / 64 <? start + N.of_nat n) then false else bitAt p k).
Proof.
  induction n as [|n IH]; intros p start Hok Hl; cbn [zeroWords].
  - exists p. split; [reflexivity|]. split; [reflexivity|]. split; [assumption|]. split.
    + intros j. replace ((start <=? j) && (j <? start + N.of_nat 0)) with false by lia. reflexivity.
    + intros k. replace ((start <=? k / 64) && (k / 64 <? start + N.of_nat 0)) with false by lia. reflexivity.
  - destruct (wrw_ok p start 0 Hok) as (p1 & E & H2 & H3 & H4 & H5); [reflexivity|lia|]. rewrite E. cbn [bind].
    destruct (IH p1 (start + 1) H3) as (p2 & E2 & G2 & G3 & G4 & G5); [lia|]. exists p2.
    split; [exact E2|]. split; [congruence|]. split; [assumption|]. split.
    + intros j. rewrite G4, H4. destruct (j =? start) eqn:Ej.
      * replace ((start <=? j) && (j <? start + N.of_nat (S n))) with true by lia.
        destruct ((start + 1 <=? j) && (j <? start + 1 + N.of_nat n)); reflexivity.
      * replace ((start <=? j) && (j <? start + N.of_nat (S n))) with ((start + 1 <=? j) && (j <? start + 1 + N.of_nat n)) by lia.
        reflexivity.
    + intros k. rewrite G5, H5. destruct (k / 64 =? start) eqn:Ej.
      * replace ((start <=? k / 64) && (k / 64 <? start + N.of_nat (S n))) with true by lia.
        rewrite N.bits_0. destruct (_ && _); reflexivity.
      * replace ((start <=? k / 64) && (k / 64 <? start + N.of_nat (S n))) with ((start + 1 <=? k / 64) && (k / 64 <? start + 1 + N.of_nat n)) by lia.
        reflexivity.
Qed.

(** Word index of the extension bit of [i] relative to the bitset, [i >= 63]. *)
Definition extw (i : N) : N := (i - 63) / 64.

(** The bitset [p] holds exactly the offsets [S]. [n] is the number of extension words in use. *)
Record holds (S : N -> bool) (p : words) : Prop := {
  h_ok : wordsOk p;
  h_len : 0 < N.of_nat (length p) < 2 ^ 32;
  h_low : forall i, i < 63 -> bitAt p i = S i;
  h_ext : forall i, 63 <= i -> S i = true -> bitAt p 63 = true;
  h_words : bitAt p 63 = true -> exists c n, rdw p 1 = Ok c /\ rdw p 2 = Ok n /\ n + 3 <= N.of_nat (length p) /\ c <= 64 * n
    /\ (forall i, 63 <= i -> S i = true -> c <= i - 63 /\ extw i < n)
    /\ (forall i, 63 <= i -> extw i < n -> bitAt p (i + 129) = S i) }.

Lemma word0 : forall p w, wordsOk p -> rdw p 0 = Ok w -> (forall b, b < 64 -> N.testbit w b = bitAt p b) /\ w < 2 ^ 64.
Proof.
  intros p w Hok E. split.
  - intros b Hb. symmetry. replace b with (0 * 64 + b) at 1 by lia. apply bitAt_rdw; assumption.
  - eapply rdw_bound; eassumption.
Qed.

Lemma word_zero_iff : forall w, w < 2 ^ 64 -> (w =? 0) = true <-> (forall b, b < 64 -> N.testbit w b = false).
Proof.
  intros w Hw. split.
  - intros H b _. apply N.eqb_eq in H. subst. apply N.bits_0.
  - intros H. apply N.eqb_eq. apply word_zero; assumption.
Qed.

Lemma word_ext_iff : forall w, w < 2 ^ 64 -> (w =? BitsetExtensionBit) = true
  <-> (N.testbit w 63 = true /\ forall b, b < 63 -> N.testbit w b = false).
Proof.
  intros w Hw. split.
  - intros H. apply N.eqb_eq in H. subst. split; [reflexivity|]. intros b Hb. unfold BitsetExtensionBit.
    apply N.pow2_bits_false. lia.
  - intros [H1 H2]. apply N.eqb_eq. apply N.bits_inj_iff. intros b. unfold BitsetExtensionBit.
    destruct (N.lt_ge_cases b 63); [rewrite H2, N.pow2_bits_false by lia; reflexivity|].
    destruct (N.eq_dec b 63); [subst; rewrite H1, N.pow2_bits_true; reflexivity|].
    rewrite (testbit_high w 64), N.pow2_bits_false by lia. reflexivity.
Qed.

Lemma scanWords_ok : forall fuel p S word len,
  (N.to_nat (len - word) < fuel)%nat -> len + 3 <= N.of_nat (length p) -> wordsOk p ->
  (forall i, 63 <= i -> extw i < len -> bitAt p (i + 129) = S i) ->
  exists b w, scanWords fuel p word len = Ok (b, w) /\ word <= w <= N.max word len
    /\ (forall i, 63 <= i -> word <= extw i -> extw i < w -> extw i < len -> S i = false)
    /\ (b = true -> w < len /\ exists i, 63 <= i /\ extw i = w /\ S i = true)
    /\ (b = false -> len <= w).
Proof.
  induction fuel as [|fuel IH]; intros p S word len Hf Hl Hok Hb; [lia|]. cbn [scanWords].
  destruct (word <? len) eqn:E.
  - destruct (rdw_ok p (word + 3)) as (w & Hw & Hn); [lia|]. rewrite Hw. cbn [bind].
    assert (Hwb : forall b, b < 64 -> N.testbit w b = S (64 * word + b + 63)).
    { intros b Hbb. rewrite <- Hb; [|lia|unfold extw; lia].
      rewrite <- (bitAt_rdw p (word + 3) w Hw b Hbb). f_equal. lia. }
    assert (Hw64 : w < 2 ^ 64) by (eapply rdw_bound; eassumption).
    destruct (w =? 0) eqn:Ez; cbn [negb].
    + pose proof (proj1 (word_zero_iff w Hw64) Ez) as Hz.
      destruct (IH p S (word + 1) len) as (b & w' & E1 & E2 & E3 & E4 & E5); auto; [lia|].
      exists b, w'. split; [assumption|]. split; [lia|]. split; [|auto].
      intros i Hi H1 H2 H3. destruct (N.eq_dec (extw i) word) as [He|He].
      * unfold extw in He. assert (Hb' : i - 63 - 64 * word < 64) by lia.
        specialize (Hz _ Hb'). rewrite Hwb in Hz by assumption. rewrite <- Hz. f_equal. lia.
      * apply E3; auto. lia.
    + exists true, word. split; [reflexivity|]. split; [lia|]. split; [intros; lia|]. split; [|discriminate].
      intros _. split; [lia|].
      assert (Hex : exists b, b < 64 /\ N.testbit w b = true).
      { assert (Hne : w <> 0) by (apply N.eqb_neq; assumption).
        exists (N.log2 w). split; [|apply N.bit_log2; assumption].
        apply N.log2_lt_pow2; lia. }
      destruct Hex as (b & Hb1 & Hb2). exists (64 * word + b + 63).
      split; [lia|]. split; [unfold extw; lia|]. rewrite <- Hwb; assumption.
  - exists false, word. split; [reflexivity|]. split; [lia|]. split; [intros; lia|]. split; [discriminate|]. intros _. lia.
Qed.

Lemma hasMore_ok : forall S p, holds S p ->
  exists b p', bitsetHasMore p = Ok (b, p') /\ holds S p' /\ length p' = length p
    /\ (b = false -> forall i, S i = false)
    /\ (b = true -> exists i, S i = true)
    /\ (b = true -> rdw p' 0 = Ok BitsetExtensionBit -> exists w i, rdw p' 1 = Ok (indexOf w 0) /\ 63 <= i /\ extw i = w /\ S i = true)
    /\ (b = true -> rdw p' 0 = Ok 0 -> False).
Proof.
  intros S p [Hok Hlen Hlow Hext Hwords]. unfold bitsetHasMore.
  destruct (rdw_ok p 0) as (p0 & E0 & _); [lia|]. rewrite E0. cbn [bind].
  destruct (word0 p p0 Hok E0) as [Hbits H64].
  destruct (p0 =? 0) eqn:Ez.
  - exists false, p. split; [reflexivity|]. split; [split; assumption|]. split; [reflexivity|].
    split; [|split; [discriminate|split; discriminate]]. intros _ i.
    pose proof (proj1 (word_zero_iff p0 H64) Ez) as Hz.
    destruct (N.lt_ge_cases i 63).
    + rewrite <- Hlow, <- Hbits by lia. apply Hz. lia.
    + destruct (S i) eqn:Es; [|reflexivity]. apply Hext in Es; [|assumption]. rewrite <- Hbits, Hz in Es by lia. discriminate.
  - destruct (p0 =? BitsetExtensionBit) eqn:Ee.
    + destruct (proj1 (word_ext_iff p0 H64) Ee) as [H63 Hl].
      rewrite Hbits in H63 by lia. destruct (Hwords H63) as (c & n & E1 & E2 & Hn & Hcn & Hc & Hb).
      rewrite E2. cbn [bind]. rewrite E1. cbn [bind].
      destruct (scanWords_ok (Datatypes.S (N.to_nat (n - wordOf c))) p S (wordOf c) n) as (b & w & Es & G1 & G2 & G3 & G4);
        [lia|lia|assumption|assumption|].
      rewrite Es. cbn [bind fst snd]. unfold indexOf.
      assert (Hwn : w <= n) by (unfold wordOf in G1; lia).
      change (2 ^ 32) with 4294967296 in Hlen.
      destruct (wrw_ok p 1 (w * 64 + 0) Hok) as (p' & Ew & K2 & K3 & K4 & K5); [change (2 ^ 64) with 18446744073709551616; lia|lia|].
      rewrite Ew. cbn [bind]. exists b, p'. split; [reflexivity|].
      assert (Hall : forall i, 63 <= i -> S i = true -> w <= extw i).
      { intros i Hi Hs. destruct (N.le_gt_cases w (extw i)) as [|Hlt]; [assumption|exfalso].
        rewrite (G2 i) in Hs; [discriminate|assumption| |assumption|apply Hc; assumption].
        destruct (Hc i Hi Hs) as [Hc1 _]. unfold extw, wordOf. lia. }
      split.
      { split; try assumption.
        - rewrite K2. assumption.
        - intros i Hi. rewrite K5. replace (i / 64 =? 1) with false by lia. auto.
        - intros i Hi Hs. rewrite K5. cbn. eauto.
        - intros _. exists (w * 64 + 0), n. rewrite !K4, K2. cbn [N.eqb Pos.eqb].
          split; [reflexivity|]. split; [assumption|]. split; [lia|]. split; [lia|]. split.
          + intros i Hi Hs. specialize (Hall i Hi Hs). destruct (Hc i Hi Hs). split; [|assumption]. unfold extw in Hall. lia.
          + intros i Hi Hx. rewrite K5. replace ((i + 129) / 64 =? 1) with false by lia. auto. }
      split; [assumption|]. split; [|split; [|split]].
      * intros Hbf i. specialize (G4 Hbf). destruct (N.lt_ge_cases i 63).
        { rewrite <- Hlow, <- Hbits by lia. auto. }
        destruct (S i) eqn:Esi; [|reflexivity]. specialize (Hall i ltac:(assumption) Esi).
        destruct (Hc i ltac:(assumption) Esi). lia.
      * intros Hbt. destruct (G3 Hbt) as (_ & i & _ & _ & Hi). eauto.
      * intros Hbt _. destruct (G3 Hbt) as (_ & i & Hi1 & Hi2 & Hi3). exists w, i. rewrite K4. auto.
      * intros _. rewrite K4. cbn [N.eqb]. rewrite E0. intros [= ->]. discriminate.
    + exists true, p. split; [reflexivity|]. split; [split; assumption|]. split; [reflexivity|].
      split; [discriminate|]. split; [|split].
      * intros _.
        assert (Hex : exists b, b < 63 /\ N.testbit p0 b = true).
        { destruct (existsb (fun b => N.testbit p0 (N.of_nat b)) (seq 0 63)) eqn:Ex.
          - apply existsb_exists in Ex. destruct Ex as (b & Hin & Hb). apply in_seq in Hin. exists (N.of_nat b). split; [lia|assumption].
          - exfalso. assert (Hno : forall b, b < 63 -> N.testbit p0 b = false).
            { intros b Hb. destruct (N.testbit p0 b) eqn:Eb; [|reflexivity].
              assert (existsb (fun b => N.testbit p0 (N.of_nat b)) (seq 0 63) = true); [|congruence].
              apply existsb_exists. exists (N.to_nat b). split; [apply in_seq; lia|]. rewrite N2Nat.id. assumption. }
            destruct (N.testbit p0 63) eqn:E63.
            + assert ((p0 =? BitsetExtensionBit) = true); [|congruence]. apply word_ext_iff; auto.
            + assert ((p0 =? 0) = true); [|congruence]. apply word_zero_iff; auto. intros b Hb.
              destruct (N.eq_dec b 63); [subst; assumption|]. apply Hno. lia. }
        destruct Hex as (b & Hb & Ht). exists b. rewrite <- Hlow, <- Hbits by lia. assumption.
      * intros _ E. rewrite E0 in E. injection E as ->. discriminate.
      * intros _ E. rewrite E0 in E. injection E as ->. discriminate.
Qed.

Lemma lowBit_ok : forall n w bit, 
  match lowBit n w bit with
  | Some b => bit <= b < bit + N.of_nat n /\ N.testbit w b = true /\ forall k, bit <= k < b -> N.testbit w k = false
  | None => forall k, bit <= k < bit + N.of_nat n -> N.testbit w k = false
  end.
Proof.
  induction n as [|n IH]; intros w bit; cbn [lowBit]; [intros; lia|].
  assert (Hb : negb (N.land w (N.shiftl 1 bit) =? 0) = N.testbit w bit).
  { destruct (N.testbit w bit) eqn:Et.
    + apply negb_true_iff, N.eqb_neq. intros Hz. apply (f_equal (fun z => N.testbit z bit)) in Hz.
      rewrite N.land_spec, shift1_bit, N.eqb_refl, Et, N.bits_0 in Hz. discriminate.
    + apply negb_false_iff, N.eqb_eq. apply N.bits_inj_iff. intros k. rewrite N.land_spec, shift1_bit, N.bits_0.
      destruct (k =? bit) eqn:E2; [|apply andb_false_r]. apply N.eqb_eq in E2. subst. rewrite Et. reflexivity. }
  rewrite Hb. destruct (N.testbit w bit) eqn:Et.
  - split; [lia|]. split; [assumption|]. intros; lia.
  - specialize (IH w (bit + 1)). destruct (lowBit n w (bit + 1)).
    + destruct IH as (H1 & H2 & H3). split; [lia|]. split; [assumption|]. intros k Hk.
      destruct (N.eq_dec k bit); [subst; assumption|]. apply H3. lia.
    + intros k Hk. destruct (N.eq_dec k bit); [subst; assumption|]. apply IH. lia.
Qed.

(** Taking the next offset removes and returns the least one. *)
Lemma next_ok : forall S p, holds S p -> (exists i, S i = true) ->
  exists i p', bitsetNext p = Ok (i, p') /\ S i = true /\ (forall j, j < i -> S j = false)
    /\ length p' = length p /\ holds (fun j => S j && negb (j =? i)) p'.
Proof.
  intros S p0 Hh [i0 Hi0]. unfold bitsetNext.
  destruct (hasMore_ok S p0 Hh) as (b & p & E & Hp & Hlp & Hf & Ht & Hw & Hnz). rewrite E. cbn [bind fst snd].
  destruct b; [|rewrite Hf in Hi0 by reflexivity; discriminate]. cbn [negb]. clear Hf. specialize (Ht eq_refl). specialize (Hw eq_refl). specialize (Hnz eq_refl).
  destruct Hp as [Hok Hlen Hlow Hext Hwords].
  destruct (rdw_ok p 0) as (q & E0 & _); [lia|]. rewrite E0. cbn [bind].
  destruct (word0 p q Hok E0) as [Hbits H64].
  destruct (q =? 0) eqn:Ez; [apply N.eqb_eq in Ez; subst; elim Hnz; assumption|].
  change (2 ^ 32) with 4294967296 in Hlen.
  destruct (q =? BitsetExtensionBit) eqn:Ee.
  - destruct (proj1 (word_ext_iff q H64) Ee) as [H63 Hl]. apply N.eqb_eq in Ee. subst q.
    destruct (Hw E0) as (w & i1 & E1 & Hi1 & Hiw & Hsi1). rewrite E1. cbn [bind].
    rewrite Hbits in H63 by lia. destruct (Hwords H63) as (c & n & E1' & E2 & Hn & Hcn & Hc & Hb).
    rewrite E1 in E1'. injection E1' as <-. unfold indexOf in *.
    replace (wordOf (w * 64 + 0)) with w by (unfold wordOf; lia). replace (bitOf (w * 64 + 0)) with 0 by (unfold bitOf; lia).
    assert (Hwn : w < n) by (rewrite <- Hiw; apply Hc; assumption).
    destruct (rdw_ok p (w + 3)) as (x & Hx & Hnx); [lia|]. rewrite Hx. cbn [bind].
    assert (Hxb : forall b, b < 64 -> N.testbit x b = S (64 * w + b + 63)).
    { intros b Hbb. rewrite <- Hb; [|lia|unfold extw; lia]. rewrite <- (bitAt_rdw p (w + 3) x Hx b Hbb). f_equal. lia. }
    pose proof (lowBit_ok (N.to_nat (64 - 0)) x 0) as Hlb. destruct (lowBit (N.to_nat (64 - 0)) x 0) as [bit|].
    2: { exfalso. unfold extw in Hiw. specialize (Hlb (i1 - 63 - 64 * w) ltac:(lia)). rewrite Hxb in Hlb by lia.
         replace (64 * w + (i1 - 63 - 64 * w) + 63) with i1 in Hlb by lia. congruence. }
    destruct Hlb as (Hb1 & Hb2 & Hb3).
    destruct (wrw_ok p 1 (w * 64 + bit + 1) Hok) as (p1 & Ew & K2 & K3 & K4 & K5); [change (2 ^ 64) with 18446744073709551616; lia|lia|].
    rewrite Ew. cbn [bind]. unfold bitsetSet. replace (63 <=? w * 64 + bit + 1 + 62) with true by lia. cbn [bind fst snd].
    destruct (clearBit_ok p1 (w * 64 + bit + 1 + 62 + 129)) as (p2 & Ec & L2 & L3 & L4 & L5); [assumption|lia|].
    rewrite Ec. cbn [bind]. exists (w * 64 + bit + 1 + 62), p2. split; [reflexivity|].
    assert (Hsi : S (w * 64 + bit + 1 + 62) = true) by (rewrite <- Hb2, Hxb by lia; f_equal; lia).
    split; [assumption|]. 
    assert (Hmin : forall j, j < w * 64 + bit + 1 + 62 -> S j = false).
    { intros j Hj. destruct (S j) eqn:Esj; [|reflexivity]. destruct (N.lt_ge_cases j 63).
      - rewrite <- Hlow, <- Hbits, Hl in Esj by lia. discriminate.
      - destruct (Hc j ltac:(assumption) Esj) as [Hcj Hxj].
        specialize (Hb3 (j - 63 - 64 * w) ltac:(lia)). rewrite Hxb in Hb3 by lia. rewrite <- Esj, <- Hb3. f_equal. lia. }
    split; [exact Hmin|]. split; [congruence|].
    split.
    + assumption.
    + rewrite L2, K2. change (2 ^ 32) with 4294967296. assumption.
    + intros i Hi. rewrite L4, K5. replace (i =? w * 64 + bit + 1 + 62 + 129) with false by lia.
      replace (i / 64 =? 1) with false by lia. rewrite Hlow by assumption.
      replace (i =? w * 64 + bit + 1 + 62) with false by lia. cbn [negb]. rewrite andb_true_r. reflexivity.
    + intros i Hi Hs. rewrite L4, K5. replace (63 =? w * 64 + bit + 1 + 62 + 129) with false by lia. cbn. assumption.
    + intros _. exists (w * 64 + bit + 1), n.
      rewrite !L5 by lia. rewrite !K4, L2, K2. cbn [N.eqb Pos.eqb].
      split; [reflexivity|]. split; [assumption|]. split; [lia|]. split; [lia|]. split.
      * intros i Hi Hs. apply andb_true_iff in Hs. destruct Hs as [Hs Hne].
        destruct (Hc i Hi Hs) as [_ Hx2]. split; [|assumption].
        destruct (N.lt_ge_cases i (w * 64 + bit + 1 + 62)) as [Hlt|Hge]; [rewrite Hmin in Hs by assumption; discriminate|lia].
      * intros i Hi Hx2. rewrite L4, K5. replace ((i + 129) / 64 =? 1) with false by lia.
        destruct (i =? w * 64 + bit + 1 + 62) eqn:Ei.
        -- replace (i + 129 =? w * 64 + bit + 1 + 62 + 129) with true by lia. cbn. rewrite andb_false_r. reflexivity.
        -- replace (i + 129 =? w * 64 + bit + 1 + 62 + 129) with false by lia. cbn. rewrite andb_true_r. auto.
  - assert (Hex : exists b, b < 63 /\ S b = true).
    { destruct Ht as [i Hi]. destruct (existsb (fun b => N.testbit q (N.of_nat b)) (seq 0 63)) eqn:Ex.
      - apply existsb_exists in Ex. destruct Ex as (b & Hin & Hb). apply in_seq in Hin. exists (N.of_nat b).
        split; [lia|]. rewrite <- Hlow, <- Hbits by lia. assumption.
      - exfalso. assert (Hno : forall b, b < 63 -> N.testbit q b = false).
        { intros b Hb. destruct (N.testbit q b) eqn:Eb; [|reflexivity].
          assert (existsb (fun b => N.testbit q (N.of_nat b)) (seq 0 63) = true); [|congruence].
          apply existsb_exists. exists (N.to_nat b). split; [apply in_seq; lia|]. rewrite N2Nat.id. assumption. }
        destruct (N.testbit q 63) eqn:E63.
        + assert ((q =? BitsetExtensionBit) = true); [|congruence]. apply word_ext_iff; auto.
        + assert ((q =? 0) = true); [|congruence]. apply word_zero_iff; auto. intros b Hb.
          destruct (N.eq_dec b 63); [subst; assumption|]. apply Hno. lia. }
    pose proof (lowBit_ok 63 q 0) as Hlb. destruct (lowBit 63 q 0) as [i|].
    2: { exfalso. destruct Hex as (b & Hb & Hs). rewrite <- Hlow, <- Hbits in Hs by lia. rewrite Hlb in Hs by lia. discriminate. }
    destruct Hlb as (Hb1 & Hb2 & Hb3).
    unfold bitsetSet. replace (63 <=? i) with false by lia. cbn [bind fst snd].
    destruct (clearBit_ok p i) as (p2 & Ec & L2 & L3 & L4 & L5); [assumption|lia|].
    rewrite Ec. cbn [bind]. exists i, p2. split; [reflexivity|].
    rewrite Hbits, Hlow in Hb2 by lia. split; [assumption|]. split.
    { intros j Hj. rewrite <- Hlow, <- Hbits by lia. apply Hb3. lia. }
    split; [congruence|]. split.
    + assumption.
    + rewrite L2. change (2 ^ 32) with 4294967296. assumption.
    + intros j Hj. rewrite L4. destruct (j =? i); cbn [negb]; [rewrite andb_false_r; reflexivity|rewrite andb_true_r; auto].
    + intros j Hj Hs. rewrite L4. replace (63 =? i) with false by lia. apply andb_true_iff in Hs. eapply Hext; [eassumption|tauto].
    + rewrite L4. replace (63 =? i) with false by lia. intros H63. destruct (Hwords H63) as (c & n & E1 & E2 & Hn & Hcn & Hc & Hb).
      exists c, n. rewrite !L5 by lia. rewrite L2. split; [assumption|]. split; [assumption|]. split; [assumption|]. split; [assumption|]. split.
      * intros j Hj Hs. apply andb_true_iff in Hs. apply Hc; tauto.
      * intros j Hj Hx. rewrite L4. replace (j + 129 =? i) with false by lia. replace (j =? i) with false by lia.
        cbn [negb]. rewrite andb_true_r. auto.
Qed.

(** * Building the bitset *)
Record building (S : N -> bool) (p : words) (last : N) : Prop := {
  b_ok : wordsOk p;
  b_len : 0 < N.of_nat (length p) < 2 ^ 32;
  b_room : last < N.of_nat (length p) + 2;
  b_low : forall i, i < 63 -> bitAt p i = S i;
  b_ext : forall i, 63 <= i -> S i = true -> bitAt p 63 = true;
  b_63 : bitAt p 63 = true -> 63 <= last;
  b_last : forall i, S i = true -> i <= last;
  b_words : 63 <= last -> rdw p 1 = Ok 0 /\ exists n, rdw p 2 = Ok n /\ n <= 1 + extw last
    /\ (forall i, 63 <= i -> S i = true -> extw i < n)
    /\ (forall i, 63 <= i -> extw i <= extw last -> bitAt p (i + 129) = S i) }.

Lemma building_holds : forall S p last, building S p last -> holds S p.
Proof.
  intros S p last [Hok Hlen Hroom Hlow Hext H63 Hlast Hw]. split; try assumption.
  intros H. specialize (H63 H). destruct (Hw H63) as (E1 & n & E2 & Hn & Hs & Hb).
  exists 0, n. split; [assumption|]. split; [assumption|]. split; [unfold extw in Hn; lia|]. split; [lia|]. split.
  - intros i Hi Hsi. split; [lia|auto].
  - intros i Hi Hx. apply Hb; [assumption|lia].
Qed.

Lemma init_ok : forall p, wordsOk p -> 0 < N.of_nat (length p) < 2 ^ 32 ->
  exists p', bitsetInit p = Ok p' /\ length p' = length p /\ building (fun _ => false) p' 0.
Proof.
  intros p Hok Hl. unfold bitsetInit. destruct (zeroWords_ok 1 p 0 Hok) as (p' & E & H2 & H3 & H4 & H5); [lia|].
  exists p'. split; [assumption|]. split; [assumption|]. split; try assumption; try (intros; lia); try (intros; discriminate).
  - intros i Hi. rewrite H5. replace ((0 <=? i / 64) && (i / 64 <? 0 + N.of_nat 1)) with true by lia. reflexivity.
  - rewrite H5. cbn. discriminate.
Qed.

Lemma clear_ok : forall S p last off, building S p last -> last <= off -> off < N.of_nat (length p) + 2 ->
  exists p', bitsetClear p last off = Ok p' /\ length p' = length p /\ building S p' off.
Proof.
  intros S p last off [Hok Hlen Hroom Hlow Hext H63 Hlast Hw] Hle Hoff. unfold bitsetClear.
  change (2 ^ 32) with 4294967296 in *.
  destruct (off <? 63) eqn:E1.
  { exists p. split; [reflexivity|]. split; [reflexivity|]. split; try assumption.
    - intros H. specialize (H63 H). lia.
    - intros i Hi. specialize (Hlast i Hi). lia.
    - intros. lia. }
  destruct (last <? 63) eqn:E2.
  { assert (Hwo : wordOf (off + 129) = extw off + 3) by (unfold wordOf, extw; lia).
    destruct (zeroWords_ok (N.to_nat (wordOf (off + 129))) p 1 Hok) as (p' & E & K2 & K3 & K4 & K5); [unfold extw in Hwo; lia|].
    rewrite N2Nat.id, Hwo in *.
    exists p'. split; [assumption|]. split; [assumption|]. split; try assumption; try (rewrite K2; assumption).
    - intros i Hi. rewrite K5. replace ((1 <=? i / 64) && (i / 64 <? 1 + (extw off + 3))) with false by lia. auto.
    - intros i Hi Hs. specialize (Hlast i Hs). lia.
    - intros _. lia.
    - intros i Hs. specialize (Hlast i Hs). lia.
    - intros _. split; [rewrite K4; replace ((1 <=? 1) && (1 <? 1 + (extw off + 3))) with true by lia; reflexivity|].
      exists 0. split; [rewrite K4; replace ((1 <=? 2) && (2 <? 1 + (extw off + 3))) with true by lia; reflexivity|].
      split; [lia|]. split.
      + intros i Hi Hs. specialize (Hlast i Hs). lia.
      + intros i Hi Hx. rewrite K5.
        replace ((1 <=? (i + 129) / 64) && ((i + 129) / 64 <? 1 + (extw off + 3))) with true by (unfold extw in *; lia).
        destruct (S i) eqn:Es; [specialize (Hlast i Es); lia|reflexivity]. }
  destruct (Hw ltac:(lia)) as (W1 & n & W2 & Hn & Hs & Hb).
  assert (Hwo : wordOf (off + 129) = extw off + 3) by (unfold wordOf, extw; lia).
  assert (Hwl : wordOf (last + 129) = extw last + 3) by (unfold wordOf, extw; lia).
  assert (Hmono : extw last <= extw off) by (unfold extw; lia).
  rewrite Hwo, Hwl. destruct (extw last + 3 <? extw off + 3) eqn:E3.
  - destruct (zeroWords_ok (N.to_nat (extw off + 3 - (extw last + 3))) p (extw last + 3 + 1) Hok) as (p' & E & K2 & K3 & K4 & K5);
      [unfold extw in *; lia|].
    rewrite N2Nat.id in *.
    exists p'. split; [assumption|]. split; [assumption|]. split; try assumption; try (rewrite K2; assumption).
    + intros i Hi. rewrite K5. replace ((extw last + 3 + 1 <=? i / 64) && (i / 64 <? extw last + 3 + 1 + (extw off + 3 - (extw last + 3)))) with false by lia. auto.
    + intros i Hi Hsi. rewrite K5. replace ((extw last + 3 + 1 <=? 63 / 64) && (63 / 64 <? extw last + 3 + 1 + (extw off + 3 - (extw last + 3)))) with false by lia. eauto.
    + intros _. lia.
    + intros i Hsi. specialize (Hlast i Hsi). lia.
    + intros _. rewrite !K4.
      replace ((extw last + 3 + 1 <=? 1) && (1 <? extw last + 3 + 1 + (extw off + 3 - (extw last + 3)))) with false by lia.
      replace ((extw last + 3 + 1 <=? 2) && (2 <? extw last + 3 + 1 + (extw off + 3 - (extw last + 3)))) with false by lia.
      split; [assumption|]. exists n. split; [assumption|]. split; [lia|]. split; [assumption|].
      intros i Hi Hx. rewrite K5. destruct (N.le_gt_cases (extw i) (extw last)) as [Hil|Hil].
      * replace ((extw last + 3 + 1 <=? (i + 129) / 64) && ((i + 129) / 64 <? extw last + 3 + 1 + (extw off + 3 - (extw last + 3)))) with false by (unfold extw in *; lia). auto.
      * replace ((extw last + 3 + 1 <=? (i + 129) / 64) && ((i + 129) / 64 <? extw last + 3 + 1 + (extw off + 3 - (extw last + 3)))) with true by (unfold extw in *; lia).
        destruct (S i) eqn:Es; [|reflexivity]. specialize (Hlast i Es). unfold extw in *. lia.
  - exists p. split; [reflexivity|]. split; [reflexivity|]. split; try assumption.
    + intros _. lia.
    + intros i Hsi. specialize (Hlast i Hsi). lia.
    + intros _. split; [assumption|]. exists n. split; [assumption|]. split; [lia|]. split; [assumption|].
      intros i Hi Hx. apply Hb; [assumption|lia].
Qed.

Lemma ext_bits : forall w b, b < 64 -> N.testbit (N.lor w BitsetExtensionBit) b = (N.testbit w b || (b =? 63)).
Proof.
  intros w b Hb. rewrite N.lor_spec. f_equal. unfold BitsetExtensionBit.
  destruct (b =? 63) eqn:E; [apply N.eqb_eq in E; subst; reflexivity|]. apply N.pow2_bits_false. apply N.eqb_neq in E. auto.
Qed.

Lemma set_ok : forall S p last i, building S p last -> i <= last ->
  exists p', bitsetSet p i true = Ok p' /\ length p' = length p /\ building (fun j => (j =? i) || S j) p' last.
Proof.
  intros S p last i [Hok Hlen Hroom Hlow Hext H63 Hlast Hw] Hi. unfold bitsetSet.
  change (2 ^ 32) with 4294967296 in *.
  destruct (63 <=? i) eqn:Ei.
  - destruct (Hw ltac:(lia)) as (W1 & n & W2 & Hn & Hs & Hb).
    destruct (rdw_ok p 0) as (p0 & E0 & N0); [lia|]. rewrite E0. cbn [bind].
    destruct (word0 p p0 Hok E0) as [Hbits H64].
    destruct (wrw_ok p 0 (N.lor p0 BitsetExtensionBit) Hok) as (p1 & E1 & K2 & K3 & K4 & K5); [apply lor_bound; [assumption|reflexivity]|lia|].
    rewrite E1. cbn [bind]. rewrite K4. cbn [N.eqb Pos.eqb]. rewrite W2. cbn [bind].
    assert (Hwo : wordOf (i + 129) = extw i + 3) by (unfold wordOf, extw; lia). rewrite Hwo.
    replace (extw i + 3 - 3) with (extw i) by lia. replace (extw i + 3 - 2) with (extw i + 1) by lia.
    assert (Hex : extw i <= extw last) by (unfold extw; lia).
    assert (Hroom2 : extw last + 3 < N.of_nat (length p)) by (unfold extw; lia).
    assert (Hb1 : forall k, bitAt p1 k = bitAt p k || (k =? 63)).
    { intros k. rewrite K5. destruct (k / 64 =? 0) eqn:Ek.
      - replace (k mod 64) with k by lia. rewrite ext_bits, Hbits by lia. reflexivity.
      - replace (k =? 63) with false by lia. rewrite orb_false_r. reflexivity. }
    assert (Hp2 : exists p2 n', (if n <=? extw i then wrw p1 2 (extw i + 1) else Ok p1) = Ok p2
       /\ length p2 = length p /\ wordsOk p2 /\ rdw p2 2 = Ok n' /\ n <= n' /\ extw i < n' <= 1 + extw last
       /\ rdw p2 1 = Ok 0 /\ (forall k, k / 64 <> 2 -> bitAt p2 k = bitAt p1 k)).
    { destruct (n <=? extw i) eqn:En.
      - destruct (wrw_ok p1 2 (extw i + 1) K3) as (p2 & E2 & L2 & L3 & L4 & L5);
          [change (2 ^ 64) with 18446744073709551616; lia|lia|].
        exists p2, (extw i + 1). rewrite !L4, !K4. cbn [N.eqb Pos.eqb].
        split; [assumption|]. split; [congruence|]. split; [assumption|]. split; [reflexivity|]. split; [lia|]. split; [lia|].
        split; [assumption|]. intros k Hk. rewrite L5. replace (k / 64 =? 2) with false by lia. reflexivity.
      - exists p1, n. rewrite !K4. cbn [N.eqb Pos.eqb].
        split; [reflexivity|]. split; [assumption|]. split; [assumption|]. split; [assumption|]. split; [lia|]. split; [lia|].
        split; [assumption|]. reflexivity. }
    destruct Hp2 as (p2 & n' & E2 & L2 & L3 & L4 & L5 & L6 & L7 & L8). rewrite E2. cbn [bind fst snd].
    destruct (markBit_ok p2 (i + 129) L3) as (p3 & E3 & M2 & M3 & M4 & M5); [unfold extw in *; lia|].
    assert (Hne : forall w, w < 3 -> w <> (i + 129) / 64) by (intros; lia).
    rewrite E3. exists p3. split; [reflexivity|]. split; [congruence|]. split.
    + assumption.
    + change (2 ^ 32) with 4294967296. lia.
    + lia.
    + intros j Hj. rewrite M4, L8, Hb1 by lia. replace (j =? i + 129) with false by lia. replace (j =? 63) with false by lia.
      replace (j =? i) with false by lia. rewrite orb_false_r. cbn [orb]. auto.
    + intros j Hj _. rewrite M4, L8, Hb1 by (cbn; lia). replace (63 =? i + 129) with false by lia. apply orb_true_r.
    + intros _. lia.
    + intros j Hj. apply orb_true_iff in Hj. destruct Hj as [Hj|Hj]; [lia|auto].
    + intros _. rewrite !M5 by (apply Hne; lia). split; [assumption|]. exists n'. split; [assumption|]. split; [lia|]. split.
      * intros j Hj Hsj. apply orb_true_iff in Hsj. destruct Hsj as [Hsj|Hsj]; [apply N.eqb_eq in Hsj; subst; lia|].
        specialize (Hs j Hj Hsj). lia.
      * intros j Hj Hx. rewrite M4. destruct (j =? i) eqn:Eji.
        -- replace (j + 129 =? i + 129) with true by lia. reflexivity.
        -- replace (j + 129 =? i + 129) with false by lia. rewrite L8, Hb1 by lia. replace (j + 129 =? 63) with false by lia.
           rewrite orb_false_r. cbn [orb]. auto.
  - cbn [bind fst snd]. destruct (markBit_ok p i Hok) as (p3 & E3 & M2 & M3 & M4 & M5); [lia|].
    rewrite E3. exists p3. split; [reflexivity|]. split; [assumption|]. split.
    + assumption.
    + change (2 ^ 32) with 4294967296. lia.
    + lia.
    + intros j Hj. rewrite M4. destruct (j =? i); [reflexivity|]. cbn [orb]. auto.
    + intros j Hj Hs. rewrite M4. replace (63 =? i) with false by lia. replace (j =? i) with false in Hs by lia. eauto.
    + rewrite M4. replace (63 =? i) with false by lia. assumption.
    + intros j Hj. apply orb_true_iff in Hj. destruct Hj as [Hj|Hj]; [lia|auto].
    + intros H. destruct (Hw H) as (W1 & n & W2 & Hn & Hs & Hb). rewrite !M5 by lia. split; [assumption|].
      exists n. split; [assumption|]. split; [assumption|]. split.
      * intros j Hj Hsj. replace (j =? i) with false in Hsj by lia. auto.
      * intros j Hj Hx. rewrite M4. replace (j + 129 =? i) with false by lia. replace (j =? i) with false by lia. cbn [orb]. auto.
Qed.

Lemma building_ext : forall S S' p last, (forall i, S i = S' i) -> building S p last -> building S' p last.
Proof.
  intros S S' p last HS [Hok Hlen Hroom Hlow Hext H63 Hlast Hw]. split; try assumption.
  - intros i Hi. rewrite <- HS. auto.
  - intros i Hi Hs. rewrite <- HS in Hs. eauto.
  - intros i Hs. rewrite <- HS in Hs. eauto.
  - intros H. destruct (Hw H) as (W1 & n & W2 & Hn & Hs & Hb). split; [assumption|]. exists n.
    split; [assumption|]. split; [assumption|]. split.
    + intros i Hi Hsi. rewrite <- HS in Hsi. auto.
    + intros i Hi Hx. rewrite <- HS. auto.
Qed.
Lemma holds_ext : forall S S' p, (forall i, S i = S' i) -> holds S p -> holds S' p.
Proof.
  intros S S' p HS [Hok Hlen Hlow Hext Hw]. split; try assumption.
  - intros i Hi. rewrite <- HS. auto.
  - intros i Hi Hs. rewrite <- HS in Hs. eauto.
  - intros H. destruct (Hw H) as (c & n & W1 & W2 & Hn & Hcn & Hs & Hb). exists c, n.
    split; [assumption|]. split; [assumption|]. split; [assumption|]. split; [assumption|]. split.
    + intros i Hi Hsi. rewrite <- HS in Hsi. auto.
    + intros i Hi Hx. rewrite <- HS. auto.
Qed.

(** * The walker *)
Definition memb (l : list N) (i : N) : bool := existsb (N.eqb i) l.
Definition need (ptrs : list (N * bool)) : list N := map fst (filter snd ptrs).

Lemma memb_app : forall a b i, memb (a ++ b) i = memb a i || memb b i.
Proof. intros. apply existsb_app. Qed.

Record winv (L : N) (done : list (N * bool)) (k : walker) : Prop := {
  w_total : total k = N.of_nat (length done);
  w_visits : visits k = N.of_nat (length (need done));
  w_first : first k = hd 0 (need done);
  w_len : N.of_nat (length (bits k)) = L;
  w_ok : wordsOk (bits k);
  w_pos : Forall (fun x => x <> 0) (tl (need done));
  w_last : last k = 0 \/ In (last k) (map fst done);
  w_early : total k < 3 -> second k = nth 1 (need done) 0 /\ last k = 0;
  w_late : 3 <= total k -> second k = 0 /\ building (memb (tl (need done))) (bits k) (last k) }.

Lemma need_app : forall a b, need (a ++ b) = need a ++ need b.
Proof. intros. unfold need. rewrite filter_app, map_app. reflexivity. Qed.

Lemma tl_app_one : forall (l : list N) x, tl (l ++ [x]) = match l with [] => [] | _ :: r => r ++ [x] end.
Proof. intros [|y l] x; reflexivity. Qed.

Lemma visit_ok : forall L done k off nv, 0 < L < 2 ^ 32 -> winv L done k ->
  (forall o, In o (map fst done) -> o < off) -> off < L + 2 ->
  exists k', visit k off nv = Ok k' /\ winv L (done ++ [(off, nv)]) k'.
Proof.
  intros L done k off nv HL [Ht Hv Hf Hl Hok Hpos Hla Hearly Hlate] Hinc Hoff. unfold visit.
  assert (Hndin : forall o, In o (need done) -> In o (map fst done)).
  { intros o Ho. unfold need in Ho. apply in_map_iff in Ho. destruct Ho as ([a b] & <- & Ha). apply filter_In in Ha. apply in_map. tauto. }
  assert (Hlastoff : last k <= off) by (destruct Hla as [-> |Hin]; [lia|specialize (Hinc _ Hin); lia]).
  set (N' := need (done ++ [(off, nv)])).
  assert (HN' : N' = need done ++ (if nv then [off] else [])).
  { unfold N'. rewrite need_app. f_equal. destruct nv; reflexivity. }
  set (visits' := if nv then visits k + 1 else visits k).
  assert (Hv' : visits' = N.of_nat (length N')).
  { unfold visits'. rewrite HN', Hv, app_length. destruct nv; cbn [length]; lia. }
  set (first' := if nv && (visits' =? 1) then off else first k).
  assert (Hf' : first' = hd 0 N').
  { unfold first'. rewrite HN', Hv', HN', app_length. destruct (need done) as [|x l]; destruct nv; cbn [length hd app andb]; auto.
    destruct (N.of_nat (S (length l) + 1) =? 1) eqn:E; [lia|auto]. }
  assert (Hpos' : Forall (fun x => x <> 0) (tl N')).
  { rewrite HN'. destruct (need done) as [|x l]; [destruct nv; constructor|]. cbn [app tl] in *. apply Forall_app. split; [assumption|].
    destruct nv; [|constructor]. constructor; [|constructor]. specialize (Hinc x (Hndin x (or_introl eq_refl))). lia. }
  assert (Hlenneed : (length (need done) <= length done)%nat).
  { unfold need. rewrite map_length. apply filter_length_le. }
  set (second' := if nv && negb (visits' =? 1) && (visits' =? 2) then off else second k).
  assert (Hmap : map fst (done ++ [(off, nv)]) = map fst done ++ [off]) by (rewrite map_app; reflexivity).
  assert (Hlen' : N.of_nat (length (done ++ [(off, nv)])) = total k + 1) by (rewrite app_length, Ht; cbn [length]; lia).
  assert (Hsec : total k < 3 -> second' = nth 1 N' 0).
  { intros H. destruct (Hearly H) as [Hs _]. unfold second'. rewrite Hv', HN'.
    destruct (need done) as [|x [|y l]]; destruct nv; cbn [app length nth andb negb] in *; auto.
    destruct (N.of_nat (S (S (length (l ++ [off])))) =? 2) eqn:E2; [|rewrite andb_false_r; auto].
    rewrite app_length in E2. cbn [length] in E2. lia. }
  (* the bitset after the possible initialisation *)
  assert (Hp : exists p, (if total k + 1 =? 3 then bitsetInit (bits k) else Ok (bits k)) = Ok p
     /\ length p = length (bits k) /\ wordsOk p
     /\ (total k + 1 = 3 -> building (fun _ => false) p 0)
     /\ (total k + 1 <> 3 -> p = bits k)).
  { destruct (total k + 1 =? 3) eqn:E.
    - destruct (init_ok (bits k)) as (p & Ep & Hlp & Hb); [assumption|lia|]. exists p. split; [assumption|].
      split; [assumption|]. split; [apply Hb|]. split; [auto|]. intros; lia.
    - exists (bits k). split; [reflexivity|]. split; [reflexivity|]. split; [assumption|]. split; [intros; lia|reflexivity]. }
  destruct Hp as (p & Ep & Hlp & Hpok & Hp3 & Hpn). rewrite Ep. cbn [bind]. cbv zeta.
  fold visits'. fold first'. fold second'.
  assert (Hfinish : forall p' s' l', length p' = length (bits k) -> wordsOk p' -> (l' = 0 \/ l' = last k \/ l' = off) ->
     (total k + 1 < 3 -> s' = nth 1 N' 0 /\ l' = 0) ->
     (3 <= total k + 1 -> s' = 0 /\ building (memb (tl N')) p' l') ->
     winv L (done ++ [(off, nv)]) {| bits := p'; first := first'; second := s'; last := l'; visits := visits'; total := total k + 1 |}).
  { intros p' s' l' G1 G2 G3 G4 G5.
    split; cbn [GcBitset_Model.total GcBitset_Model.visits GcBitset_Model.first GcBitset_Model.bits GcBitset_Model.last GcBitset_Model.second]; fold N'; auto.
    - rewrite G1. assumption.
    - rewrite Hmap. destruct G3 as [-> |[-> | ->]]; [left; reflexivity| |right; apply in_or_app; right; left; reflexivity].
      destruct Hla as [Hla|Hla]; [left; assumption|right; apply in_or_app; left; assumption]. }
  destruct (2 <? total k + 1) eqn:Elate.
  2: { rewrite andb_false_r. cbn [andb]. eexists. split; [reflexivity|]. rewrite Hpn by lia.
    apply Hfinish; [reflexivity|assumption|auto| |intros; lia]. intros _. split; [apply Hsec; lia|apply Hearly; lia]. }
  rewrite andb_true_r.
  assert (Hroom : off < N.of_nat (length p) + 2) by lia.
  destruct (total k + 1 =? 3) eqn:E3.
  - destruct (Hearly ltac:(lia)) as [_ Hl0]. rewrite Hsec by lia. rewrite Hl0 in *.
    specialize (Hp3 ltac:(lia)).
    assert (Hlong : (length (need done) <= 2)%nat) by lia.
    destruct (1 <? visits') eqn:E1; cbn [andb].
    + destruct (clear_ok _ p 0 off Hp3 ltac:(lia) Hroom) as (p1 & Ec & Hl1 & Hb1).
      assert (HN2 : exists x y l, N' = x :: y :: l) by (rewrite Hv' in E1; destruct N' as [|x [|y l]]; cbn [length] in E1; [lia|lia|eauto]).
      destruct HN2 as (x & y & l & EN). rewrite EN in *. cbn [nth tl] in *. inversion Hpos' as [|? ? Hy0 ?]; subst.
      replace (y =? 0) with false by lia. cbn [negb orb]. rewrite Ec. cbn [bind].
      assert (Hyoff : y <= off).
      { assert (Hin : In y (need done ++ (if nv then [off] else []))) by (rewrite <- HN'; right; left; reflexivity).
        apply in_app_or in Hin. destruct Hin as [Hin|Hin]; [specialize (Hinc _ (Hndin _ Hin)); lia|].
        destruct nv; [destruct Hin as [->|[]]; lia|destruct Hin]. }
      destruct (set_ok _ p1 off y Hb1 Hyoff) as (p2 & Es & Hl2 & Hb2). rewrite Es. cbn [bind].
      destruct nv.
      * destruct (set_ok _ p2 off off Hb2 ltac:(lia)) as (p3 & Es3 & Hl3 & Hb3). rewrite Es3. cbn [bind].
        eexists. split; [reflexivity|]. apply Hfinish; [congruence|apply Hb3|auto|intros; lia|].
        intros _. split; [reflexivity|]. eapply building_ext; [|exact Hb3]. intros i. cbn beta.
        destruct (need done) as [|a [|b [|c r]]]; cbn [app length] in HN', Hlong; try discriminate; try lia.
        -- injection HN' as -> -> ->. cbn [memb existsb]. destruct (i =? off); reflexivity.
        -- injection HN' as -> -> ->. cbn [memb existsb]. destruct (i =? off), (i =? b); reflexivity.
      * cbn [bind]. eexists. split; [reflexivity|]. apply Hfinish; [congruence|apply Hb2|auto|intros; lia|].
        intros _. split; [reflexivity|]. eapply building_ext; [|exact Hb2]. intros i. cbn beta.
        rewrite app_nil_r in HN'. rewrite <- HN' in Hlong. cbn [length] in Hlong. destruct l; [|cbn [length] in Hlong; lia]. reflexivity.
    + eexists. split; [reflexivity|].
      assert (HN1 : tl N' = [] /\ nth 1 N' 0 = 0) by (rewrite Hv' in E1; destruct N' as [|x [|y l]]; cbn [length] in E1; [auto|auto|lia]).
      destruct HN1 as [Htl Hnth]. rewrite Hnth. apply Hfinish; [first [assumption|reflexivity]|assumption|auto|intros; lia|]. intros _. split; [reflexivity|].
      rewrite Htl. eapply building_ext; [|exact Hp3]. reflexivity.
  - destruct (Hlate ltac:(lia)) as [Hs0 Hb]. rewrite Hpn in * by lia. clear Hsec.
    destruct nv.
    + rewrite orb_true_r, andb_true_r.
      destruct (need done) as [|x [|y l]] eqn:En; cbn [app tl length] in *.
      * assert (Ev : visits' = 1) by (rewrite Hv', HN'; reflexivity).
        unfold second'. rewrite Ev. cbn. eexists. split; [reflexivity|]. rewrite Ev in Hfinish. apply Hfinish; [first [assumption|reflexivity]|assumption|auto|intros; lia|].
        intros _. split; [assumption|]. rewrite HN'. exact Hb.
      * assert (Ev : visits' = 2) by (rewrite Hv', HN'; reflexivity).
        rewrite HN' in Hpos'. cbn [tl] in Hpos'. inversion Hpos'; subst.
        unfold second'. rewrite Ev. cbn [N.eqb Pos.eqb negb andb N.ltb N.compare Pos.compare Pos.compare_cont]. replace (off =? 0) with false by lia. cbn [negb].
        destruct (clear_ok _ _ _ off Hb Hlastoff Hroom) as (p1 & Ec & Hl1 & Hb1). rewrite Ec. cbn [bind].
        destruct (set_ok _ p1 off off Hb1 ltac:(lia)) as (p2 & Es & Hl2 & Hb2). rewrite Es. cbn [bind].
        destruct (set_ok _ p2 off off Hb2 ltac:(lia)) as (p3 & Es3 & Hl3 & Hb3). rewrite Es3. cbn [bind].
        eexists. split; [reflexivity|]. rewrite Ev in Hfinish. apply Hfinish; [congruence|apply Hb3|auto|intros; lia|].
        intros _. split; [reflexivity|]. eapply building_ext; [|exact Hb3]. intros i. cbn beta. rewrite HN'. cbn [tl memb existsb].
        destruct (i =? off); reflexivity.
      * assert (Ev : (1 <? visits') = true) by (rewrite Hv', HN'; cbn [length]; lia).
        assert (Ev2 : (visits' =? 2) = false) by (rewrite Hv', HN'; cbn [length]; rewrite app_length; cbn [length]; lia).
        unfold second'. rewrite Ev, Ev2, andb_false_r, Hs0. cbn [N.eqb negb].
        destruct (clear_ok _ _ _ off Hb Hlastoff Hroom) as (p1 & Ec & Hl1 & Hb1). rewrite Ec. cbn [bind].
        destruct (set_ok _ p1 off off Hb1 ltac:(lia)) as (p2 & Es & Hl2 & Hb2). rewrite Es. cbn [bind].
        eexists. split; [reflexivity|]. apply Hfinish; [congruence|apply Hb2|auto|intros; lia|].
        intros _. split; [reflexivity|]. eapply building_ext; [|exact Hb2]. intros i. cbn beta. rewrite HN'. cbn [tl].
        change (y :: l ++ [off]) with ((y :: l) ++ [off]). rewrite memb_app. cbn [memb existsb]. rewrite orb_false_r. apply orb_comm.
    + unfold second'. cbn [andb]. rewrite Hs0. cbn [N.eqb negb orb]. rewrite andb_false_r.
      eexists. split; [reflexivity|]. apply Hfinish; [first [assumption|reflexivity]|assumption|auto|intros; lia|]. intros _. split; [reflexivity|].
      rewrite HN', app_nil_r. assumption.
Qed.

Lemma walkAll_ok : forall ptrs L done k, 0 < L < 2 ^ 32 -> winv L done k ->
  (forall o o', In o (map fst done) -> In o' (map fst ptrs) -> o < o') ->
  StronglySorted N.lt (map fst ptrs) -> Forall (fun p => fst p < L + 2) ptrs ->
  exists k', walkAll k ptrs = Ok k' /\ winv L (done ++ ptrs) k'.
Proof.
  induction ptrs as [|[o nv] ptrs IH]; intros L done k HL Hw Hlt Hs Hb; cbn [walkAll].
  - exists k. rewrite app_nil_r. auto.
  - cbn [map fst] in *. inversion Hs; subst. inversion Hb; subst. cbn [fst] in *.
    destruct (visit_ok L done k o nv HL Hw) as (k1 & E & Hw1); [|assumption|].
    { intros o' Ho'. apply Hlt; [assumption|left; reflexivity]. }
    rewrite E. cbn [bind]. destruct (IH L (done ++ [(o, nv)]) k1) as (k2 & E2 & Hw2); auto.
    + intros a b Ha Hbb. rewrite map_app in Ha. apply in_app_or in Ha. destruct Ha as [Ha|[<-|[]]].
      * apply Hlt; [assumption|right; assumption].
      * match goal with H : Forall (N.lt o) _ |- _ => rewrite Forall_forall in H; apply H; assumption end.
    + exists k2. rewrite <- app_assoc in Hw2. auto.
Qed.

(** Successive ascents to the object until it stops being the current parent. *)
Fixpoint ascents (fuel : nat) (p : words) (ptrs : list N) : res (list N) :=
  match fuel with
  | O => Fuel
  | S fuel =>
      bind (ascend p ptrs) (fun r =>
      if snd r then bind (ascents fuel (snd (fst r)) ptrs) (fun l => Ok (fst (fst r) :: l))
      else Ok [fst (fst r)])
  end.

Lemma memb_In : forall l i, memb l i = true <-> In i l.
Proof.
  intros l i. unfold memb. rewrite existsb_exists. split.
  - intros (x & Hx & E). apply N.eqb_eq in E. subst. assumption.
  - intros H. exists i. split; [assumption|apply N.eqb_refl].
Qed.

Lemma drain_ok : forall l p a b c r, holds (memb l) p -> l <> [] -> StronglySorted N.lt l ->
  forall fuel, (length l <= fuel)%nat -> ascents fuel p (a :: b :: c :: r) = Ok l.
Proof.
  induction l as [|x l IH]; intros p a b c r Hh Hne Hs fuel Hf; [elim Hne; reflexivity|].
  destruct fuel as [|fuel]; [cbn in Hf; lia|]. cbn [ascents ascend].
  destruct (next_ok _ p Hh) as (i & p1 & E & Hi & Hmin & Hl1 & Hh1).
  { exists x. apply memb_In. left. reflexivity. }
  rewrite E. cbn [bind fst snd]. inversion Hs as [|? ? Hsl Hfa]; subst.
  assert (i = x) as ->.
  { apply memb_In in Hi. destruct Hi as [->|Hi]; [reflexivity|].
    rewrite Forall_forall in Hfa. specialize (Hfa i Hi). specialize (Hmin x Hfa).
    assert (memb (x :: l) x = true) by (apply memb_In; left; reflexivity). congruence. }
  assert (Hh1' : holds (memb l) p1).
  { eapply holds_ext; [|exact Hh1]. intros j. cbn beta. cbn [memb existsb]. destruct (j =? x) eqn:Ej; cbn [negb orb].
    - rewrite andb_false_r. symmetry. apply not_true_is_false. intros Hm. apply memb_In in Hm. apply N.eqb_eq in Ej. subst.
      rewrite Forall_forall in Hfa. specialize (Hfa x Hm). lia.
    - rewrite andb_true_r. reflexivity. }
  destruct (hasMore_ok _ p1 Hh1') as (more & p2 & E2 & Hh2 & Hl2 & Hfalse & Htrue & _). rewrite E2. cbn [bind fst snd].
  destruct more.
  - destruct l as [|y l]; [destruct (Htrue eq_refl) as (i9 & Hi9); discriminate|].
    rewrite (IH p2 a b c r Hh2); [reflexivity|discriminate|assumption|cbn in *; lia].
  - destruct l as [|y l]; [reflexivity|]. specialize (Hfalse eq_refl y).
    assert (memb (y :: l) y = true) by (apply memb_In; left; reflexivity). congruence.
Qed.

Lemma sorted_need : forall ptrs, StronglySorted N.lt (map fst ptrs) -> StronglySorted N.lt (need ptrs).
Proof.
  induction ptrs as [|[o nv] ptrs IH]; intros H; [constructor|]. cbn [map fst] in H. inversion H; subst.
  unfold need. cbn [filter snd]. destruct nv; [|apply IH; assumption]. cbn [map fst]. constructor; [apply IH; assumption|].
  rewrite Forall_forall in *. intros x Hx. apply in_map_iff in Hx. destruct Hx as (y & <- & Hy). apply filter_In in Hy.
  match goal with H : forall x, In x (map fst ptrs) -> _ |- _ => apply H end. apply in_map. tauto.
Qed.

Lemma collect_visits : forall ptrs p,
  StronglySorted N.lt (map fst ptrs) -> wordsOk p -> 0 < N.of_nat (length p) < 2 ^ 32 ->
  Forall (fun q => fst q < N.of_nat (length p) + 2) ptrs ->
  exists k, walkAll (newWalker p) ptrs = Ok k
    /\ visits k = N.of_nat (length (need ptrs)) /\ first k = hd 0 (need ptrs)
    /\ (1 < visits k -> forall fuel, (length ptrs <= fuel)%nat ->
          ascents fuel (bits k) (map fst ptrs) = Ok (tl (need ptrs))).
Proof.
  intros ptrs p Hs Hok Hlen Hb.
  destruct (walkAll_ok ptrs (N.of_nat (length p)) [] (newWalker p) Hlen) as (k & E & Hw); auto.
  { split; cbn; auto; try constructor; try (intros; lia); auto. }
  { intros o o' []. }
  exists k. split; [exact E|]. cbn [app] in Hw. destruct Hw as [Ht Hv Hf Hl Hok' Hpos Hla Hearly Hlate].
  split; [assumption|]. split; [assumption|]. intros Hmany fuel Hfuel. rewrite Hv in Hmany.
  pose proof (sorted_need ptrs Hs) as Hsn.
  assert (Hle : (length (need ptrs) <= length ptrs)%nat) by (unfold need; rewrite map_length; apply filter_length_le).
  destruct ptrs as [|[o1 n1] [|[o2 n2] [|[o3 n3] r]]]; try (cbn [length] in *; lia).
  - destruct fuel as [|fuel]; [cbn in Hfuel; lia|]. destruct n1, n2; cbn in Hmany; try lia. reflexivity.
  - cbn [map fst] in *. destruct (need _) as [|x l] eqn:En; [cbn in Hmany; lia|]. cbn [tl].
    apply (drain_ok l); [| | |cbn [length] in *; lia].
    + eapply building_holds. apply Hlate. rewrite Ht. cbn [length]. lia.
    + destruct l; [cbn in Hmany; lia|discriminate].
    + inversion Hsn; assumption.
Qed.
