(** The interpreter's C++ arithmetic against the JVMS arithmetic. *)
From Verif Require Import Base Res Bits Interp_Types Interp_Model Jvm_Spec Interp_Obs Interp_Spec Interp_Rel Interp_Heap.
Import ListNotations.
Local Open Scope Z_scope.

Lemma arith_ok : forall E w o a b, e_wrapv E = true -> 0 < w ->
  exists r, arith E w o a b = Ok r /\ ubits w r = ubits w (jbin w o a b).
Proof.
  intros E w o a b W Hw. unfold arith, jbin, wrap, ovf. rewrite W.
  destruct o; try (eexists; split; [reflexivity|]; rewrite ubits_sgn by assumption; reflexivity);
    (destruct (inI w _); eexists; (split; [reflexivity|]); rewrite !ubits_sgn by assumption; reflexivity).
Qed.

Lemma jbin_range : forall w o a b, 0 < w -> inI w (jbin w o a b) = true.
Proof. intros. apply sgn_range. assumption. Qed.
Lemma jshift_range : forall w o a b, 0 < w -> inI w (jshift w o a b) = true.
Proof. intros. apply sgn_range. assumption. Qed.

Lemma land_ones_mod : forall b n, 0 <= n -> Z.land b (Z.ones n) = b mod 2 ^ n.
Proof. intros. apply Z.land_ones. assumption. Qed.

Lemma shift_ok : forall E w o a b n, e_wrapv E = true -> 0 < w -> n = b mod w ->
  exists r, shift E w o a (ubits w a) n = Ok r /\ ubits w r = ubits w (jshift w o a b).
Proof.
  intros E w o a b n W Hw Hn.
  assert (B : 0 <= n < w) by (subst n; apply Z.mod_pos_bound; assumption).
  unfold jshift, wrap. rewrite <- Hn. destruct o; cbn [shift].
  - unfold shiftL. rewrite W. destruct (_ && _); eexists; (split; [reflexivity|]); rewrite !ubits_sgn by assumption; reflexivity.
  - eexists. split; [reflexivity|]. rewrite ubits_sgn by assumption. rewrite Z.shiftr_div_pow2 by lia. reflexivity.
  - eexists. split; [reflexivity|]. rewrite ubits_sgn by assumption. f_equal.
    rewrite N.shiftr_div_pow2, N2Z.inj_div, N2Z.inj_pow, of_ubits by assumption. rewrite Z2N.id by lia. reflexivity.
Qed.

Lemma test_jcond : forall c a b, test c a b = jcond c a b.
Proof.
  intros c a b. unfold test, jcond. destruct (Z.compare_spec a b); destruct c; lia.
Qed.

Lemma quot_in : forall w a b, 0 < w -> inI w a = true -> b <> 0 ->
  ((a =? minI w) && (b =? -1)) = false -> inI w (Z.quot a b) = true.
Proof.
  intros w a b Hw A Nb D. destruct (pow_half w Hw) as [_ P]. unfold inI, minI, maxI in *.
  assert (Z.abs (Z.quot a b) <= Z.abs a).
  { rewrite <- Z.quot_abs by assumption.
    apply Z.quot_le_upper_bound; [lia|]. nia. }
  destruct (Z.eq_dec b (-1)) as [->|].
  - assert (Z.quot a (-1) = - a) by (rewrite Z.quot_opp_r with (b := 1) by lia; rewrite Z.quot_1_r; reflexivity).
    lia.
  - destruct (Z.eq_dec a (- 2 ^ (w - 1))) as [->|]; [|lia].
    destruct (Z.eq_dec b 1) as [->|]; [rewrite Z.quot_1_r; lia|].
    assert (Z.abs (Z.quot (- 2 ^ (w - 1)) b) <= 2 ^ (w - 1) - 1); [|lia].
    rewrite <- Z.quot_abs by assumption. rewrite Z.abs_opp, (Z.abs_eq (2 ^ (w - 1))) by lia.
    assert (Z.quot (2 ^ (w - 1)) (Z.abs b) < 2 ^ (w - 1)) by (apply Z.quot_lt; lia). lia.
Qed.

Lemma rem_in : forall w a b, 0 < w -> inI w a = true -> inI w b = true -> b <> 0 -> inI w (Z.rem a b) = true.
Proof.
  intros w a b Hw A B Nb. destruct (pow_half w Hw) as [_ P]. unfold inI, minI, maxI in *.
  assert (Z.abs (Z.rem a b) < Z.abs b) by (apply Z.rem_bound_abs; assumption).
  lia.
Qed.

Lemma neg_ok : forall w z, 0 < w -> ubits w (- Z.of_N (ubits w z)) = ubits w (wrap w (- z)).
Proof.
  intros w z Hw. unfold wrap. rewrite ubits_sgn, of_ubits by assumption. apply ubits_congr.
  destruct (pow_half w Hw). rewrite <- Z.sub_0_l, <- (Z.sub_0_l z). rewrite Zminus_mod_idemp_r. reflexivity.
Qed.

Lemma inc_ok : forall w z c, 0 < w -> ubits w (Z.of_N (ubits w z) + c) = ubits w (wrap w (z + c)).
Proof.
  intros w z c Hw. unfold wrap. rewrite ubits_sgn, of_ubits by assumption. apply ubits_congr.
  apply Zplus_mod_idemp_l.
Qed.

Lemma f2iSat_ok : forall w scale maxf f, 0 < w -> 0 <= scale ->
  2 ^ (w - 1) - 1 <= maxf <= 2 ^ (w - 1) ->
  f2iSat w scale maxf f = Ok (jtoint w scale f).
Proof.
  intros w scale maxf f Hw Hs M. destruct (pow_half w Hw) as [_ P].
  assert (S : 0 < 2 ^ scale) by (apply Z.pow_pos_nonneg; lia).
  destruct f as [|[]|z]; unfold f2iSat, jtoint; try reflexivity.
  unfold castF, ftrunc, inI, minI, maxI.
  set (W := 2 ^ (w - 1)) in *. set (C := 2 ^ scale) in *.
  pose proof (Z.quot_rem' z C) as QR. pose proof (Z.rem_bound_abs z C ltac:(lia)) as RB.
  set (q := Z.quot z C) in *. set (r := Z.rem z C) in *.
  assert (SG : 0 <= z -> 0 <= r) by (intros; apply Z.rem_nonneg; lia).
  assert (SG' : z <= 0 -> r <= 0) by (intros; apply Z.rem_nonpos; lia).
  destruct (Z.leb_spec (maxf * C) z).
  - f_equal. rewrite Z.min_l; [lia|]. nia.
  - destruct (Z.leb_spec z (- W * C)).
    + f_equal. rewrite Z.max_l; [reflexivity|]. rewrite Z.min_r; nia.
    + assert (- W <= q <= W - 1) by nia.
      replace ((- W <=? q) && (q <=? W - 1)) with true by lia. f_equal. lia.
Qed.

Lemma jtoint_range : forall w scale f, 0 < w -> inI w (jtoint w scale f) = true.
Proof.
  intros w scale f Hw. destruct (pow_half w Hw) as [_ P]. unfold inI, minI, maxI, jtoint.
  destruct f as [|[]|z]; lia.
Qed.
