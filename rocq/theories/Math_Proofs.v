From Verif Require Import Base Math_Model.
Local Open Scope N_scope.

Lemma W32_pow : W32 = 2 ^ 32. Proof. reflexivity. Qed.

(** Loop invariant: started at 2^k with everything below too small. *)
Lemma npot_loop_some : forall fuel k n,
  (32 - N.to_nat k <= fuel)%nat -> k <= 31 -> n <= 2 ^ 31 ->
  (k = 0 \/ 2 ^ (k - 1) < n) ->
  exists j, k <= j <= 31 /\ nextPowerOfTwo_loop fuel (2 ^ k) n = Some (2 ^ j)
            /\ n <= 2 ^ j /\ (j = 0 \/ 2 ^ (j - 1) < n).
Proof.
  induction fuel as [|f IH]; intros k n Hf Hk Hn Hlow; [lia|].
  cbn [nextPowerOfTwo_loop].
  destruct (2 ^ k <? n) eqn:E.
  - apply N.ltb_lt in E.
    assert (Hk' : k < 31).
    { destruct (N.eq_dec k 31) as [->|]; [lia|lia]. }
    replace ((2 ^ k * 2) mod W32) with (2 ^ (k + 1)).
    2:{ rewrite N.pow_add_r. rewrite N.mod_small; [reflexivity|].
        rewrite W32_pow. change 2 with (2 ^ 1) at 2. rewrite <- N.pow_add_r.
        apply N.pow_lt_mono_r; lia. }
    destruct (IH (k + 1) n) as (j & Hj & Hr & H1 & H2); try lia.
    { right. replace (k + 1 - 1) with k by lia. exact E. }
    exists j. split; [lia|]. auto.
  - apply N.ltb_ge in E. exists k. split; [lia|]. auto.
Qed.

Lemma nextPowerOfTwo_spec : forall n, n <= 2 ^ 31 ->
  exists j, j <= 31 /\ nextPowerOfTwo n = Some (2 ^ j) /\ n <= 2 ^ j /\ (j = 0 \/ 2 ^ (j - 1) < n).
Proof.
  intros n Hn. unfold nextPowerOfTwo.
  destruct (npot_loop_some 33 0 n) as (j & Hj & Hr & H1 & H2); auto; try lia.
  exists j. rewrite <- Hr. split; [lia|]. split; [reflexivity|]. auto.
Qed.

Lemma npot_pow2 : forall j, j <= 31 -> nextPowerOfTwo (2 ^ j) = Some (2 ^ j).
Proof.
  intros j Hj. destruct (nextPowerOfTwo_spec (2 ^ j)) as (i & Hi & Hr & H1 & H2).
  { apply N.pow_le_mono_r; lia. }
  assert (j <= i) by (apply (N.pow_le_mono_r_iff 2); lia).
  assert (i = j).
  { destruct H2 as [->|H2]; [lia|]. apply (N.pow_lt_mono_r_iff 2) in H2; lia. }
  subst. exact Hr.
Qed.

(** Past 2^31 the loop never ends: r becomes 0 and stays there. *)
Lemma npot_loop_zero : forall fuel n, 0 < n -> nextPowerOfTwo_loop fuel 0 n = None.
Proof.
  induction fuel as [|f IH]; intros n Hn; cbn [nextPowerOfTwo_loop];
  replace (0 <? n) with true by (symmetry; apply N.ltb_lt; lia).
  - reflexivity.
  - replace ((0 * 2) mod W32) with 0 by reflexivity. apply IH; assumption.
Qed.

Lemma npot_loop_div : forall fuel k n, k <= 31 -> 2 ^ 31 < n ->
  nextPowerOfTwo_loop fuel (2 ^ k) n = None.
Proof.
  induction fuel as [|f IH]; intros k n Hk Hn; cbn [nextPowerOfTwo_loop];
  (replace (2 ^ k <? n) with true by
    (symmetry; apply N.ltb_lt; eapply N.le_lt_trans; [|exact Hn]; apply N.pow_le_mono_r; lia)).
  - reflexivity.
  - destruct (N.eq_dec k 31) as [->|Hne].
    + replace ((2 ^ 31 * 2) mod W32) with 0 by reflexivity.
      apply npot_loop_zero. lia.
    + replace ((2 ^ k * 2) mod W32) with (2 ^ (k + 1)).
      * apply IH; lia.
      * rewrite N.pow_add_r. rewrite N.mod_small; [reflexivity|].
        rewrite W32_pow. change 2 with (2 ^ 1) at 2. rewrite <- N.pow_add_r.
        apply N.pow_lt_mono_r; lia.
Qed.

Lemma nextPowerOfTwo_diverges : forall fuel n, 2 ^ 31 < n -> nextPowerOfTwo_loop fuel 1 n = None.
Proof. intros. change 1 with (2 ^ 0). apply npot_loop_div; lia. Qed.

Lemma log_loop_some : forall fuel k n,
  (32 - N.to_nat k <= fuel)%nat -> k <= 31 -> n <= 2 ^ 31 ->
  (k = 0 \/ 2 ^ (k - 1) < n) ->
  exists j, k <= j <= 31 /\ log_loop fuel (2 ^ k) k n = Some j
            /\ n <= 2 ^ j /\ (j = 0 \/ 2 ^ (j - 1) < n).
Proof.
  induction fuel as [|f IH]; intros k n Hf Hk Hn Hlow; [lia|].
  cbn [log_loop].
  destruct (2 ^ k <? n) eqn:E.
  - apply N.ltb_lt in E.
    assert (Hk' : k < 31).
    { destruct (N.eq_dec k 31) as [->|]; [lia|lia]. }
    replace ((2 ^ k * 2) mod W32) with (2 ^ (k + 1)).
    2:{ rewrite N.pow_add_r. rewrite N.mod_small; [reflexivity|].
        rewrite W32_pow. change 2 with (2 ^ 1) at 2. rewrite <- N.pow_add_r.
        apply N.pow_lt_mono_r; lia. }
    destruct (IH (k + 1) n) as (j & Hj & Hr & H1 & H2); try lia.
    { right. replace (k + 1 - 1) with k by lia. exact E. }
    exists j. split; [lia|]. auto.
  - apply N.ltb_ge in E. exists k. split; [lia|]. auto.
Qed.

Lemma ulog_spec : forall n, n <= 2 ^ 31 ->
  exists j, ulog n = Some j /\ n <= 2 ^ j /\ (j = 0 \/ 2 ^ (j - 1) < n).
Proof.
  intros n Hn. unfold ulog.
  destruct (log_loop_some 33 0 n) as (j & Hj & Hr & H1 & H2); auto; try lia.
  exists j. rewrite <- Hr. auto.
Qed.

Lemma ceilingDivide_spec : forall n d, 0 < d -> n + d <= W32 ->
  exists q, ceilingDivide n d = Some q /\ d * q >= n /\ (q = 0 \/ d * (q - 1) < n).
Proof.
  intros n d Hd Hw. unfold ceilingDivide.
  replace (d =? 0) with false by (symmetry; apply N.eqb_neq; lia).
  eexists; split; [reflexivity|].
  unfold W32 in *.
  replace ((n + d + (4294967296 - 1)) mod 4294967296) with (n + d - 1).
  2:{ destruct (N.eq_dec (n + d) 0); [lia|].
      replace (n + d + (4294967296 - 1)) with ((n + d - 1) + 1 * 4294967296) by lia.
      rewrite N.mod_add by lia. rewrite N.mod_small; lia. }
  pose proof (N.div_mod (n + d - 1) d ltac:(lia)) as Hdm.
  pose proof (N.mod_lt (n + d - 1) d ltac:(lia)) as Hml.
  set (q := (n + d - 1) / d) in *. set (r := (n + d - 1) mod d) in *.
  split; [nia|]. destruct (N.eq_dec q 0); [left; assumption|right; nia].
Qed.

Lemma land_pow2_lt : forall h p, N.land h (2 ^ p - 1) < 2 ^ p.
Proof.
  intros h p. rewrite <- N.pred_sub. rewrite <- N.ones_equiv.
  rewrite N.land_ones. apply N.mod_lt. apply N.pow_nonzero. lia.
Qed.
