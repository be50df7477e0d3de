(** Proofs about System.arraycopy. *)
From Coq Require Import ZArith Lia Bool List.
Import ListNotations.
From Verif Require Import ArrayCopy_Model ArrayCopy_Spec.
Local Open Scope Z_scope.

Definition window (k m : nat) (l : list Z) := firstn m (skipn k l).

Lemma window_app1 k m a b : (k + m <= length a)%nat -> window k m (a ++ b) = window k m a.
Proof.
  intro H. unfold window. rewrite skipn_app, firstn_app, skipn_length.
  replace (m - (length a - k))%nat with 0%nat by lia. simpl. apply app_nil_r.
Qed.
Lemma window_app2 k m a b : (length a <= k)%nat -> window k m (a ++ b) = window (k - length a) m b.
Proof. intro H. unfold window. rewrite skipn_app. rewrite (skipn_all2 a) by lia. reflexivity. Qed.
Lemma window_firstn k m n l : (k + m <= n)%nat -> window k m (firstn n l) = window k m l.
Proof. intro H. unfold window. rewrite skipn_firstn_comm, firstn_firstn. f_equal. lia. Qed.
Lemma window_skipn k m j l : window k m (skipn j l) = window (j + k) m l.
Proof.
  unfold window. f_equal. revert l. induction j as [|j IH]; intro l; [reflexivity|].
  destruct l as [|x l]; [now rewrite !skipn_nil|]. simpl. apply IH.
Qed.

Lemma element_window es b i : 0 < es -> 0 <= i -> element es b i = window (Z.to_nat (i * es)) (Z.to_nat es) b.
Proof. reflexivity. Qed.

Lemma splice_ok es src so dst d0 n b : 0 < es -> 0 <= so -> 0 <= d0 -> 0 < n ->
  (so + n) * es <= len src -> (d0 + n) * es <= len dst ->
  b = firstn (Z.to_nat (d0 * es)) dst ++ firstn (Z.to_nat (n * es)) (skipn (Z.to_nat (so * es)) src)
      ++ skipn (Z.to_nat (d0 * es + n * es)) dst ->
  copied es src so dst b d0 n.
Proof.
  intros Hes Hs Hd Hn H1 H2 ->. unfold copied, len in *.
  assert (P1 : 0 <= d0 * es) by (apply Z.mul_nonneg_nonneg; lia).
  assert (P2 : 0 <= so * es) by (apply Z.mul_nonneg_nonneg; lia).
  assert (P3 : 0 <= n * es) by (apply Z.mul_nonneg_nonneg; lia).
  rewrite !Z.mul_add_distr_r in *.
  split.
  - rewrite !app_length, !firstn_length, !skipn_length. lia.
  - intros i Hi. assert (P4 : 0 <= i * es) by (apply Z.mul_nonneg_nonneg; lia).
    rewrite !(element_window es _ i) by lia.
    destruct (Z.leb_spec d0 i) as [Hle|Hlt]; cbn [andb].
    + assert (Q : d0 * es <= i * es) by (apply Z.mul_le_mono_nonneg_r; lia).
      rewrite window_app2 by (rewrite firstn_length; lia). rewrite firstn_length.
      destruct (Z.ltb_spec i (d0 + n)) as [Hin|Hout].
      * assert (Q2 : (i + 1) * es <= (d0 + n) * es) by (apply Z.mul_le_mono_nonneg_r; lia).
        rewrite !Z.mul_add_distr_r in Q2.
        rewrite window_app1 by (rewrite firstn_length, skipn_length; lia).
        rewrite window_firstn by lia. rewrite window_skipn.
        rewrite element_window by lia. f_equal.
        replace ((so + i - d0) * es) with (so * es + i * es - d0 * es) by ring. lia.
      * assert (Q2 : (d0 + n) * es <= i * es) by (apply Z.mul_le_mono_nonneg_r; lia).
        rewrite Z.mul_add_distr_r in Q2.
        rewrite window_app2 by (rewrite firstn_length, skipn_length; lia).
        rewrite window_skipn, firstn_length, skipn_length. f_equal.
        clear - P1 P2 P3 P4 Q Q2 H1 H2.
        rewrite (Nat.min_l (Z.to_nat (n * es))) by lia. rewrite Nat.min_l by lia. lia.
    + assert (Q : (i + 1) * es <= d0 * es) by (apply Z.mul_le_mono_nonneg_r; lia).
      rewrite Z.mul_add_distr_r in Q.
      rewrite window_app1 by (rewrite firstn_length; lia). apply window_firstn. lia.
Qed.

Lemma mul32_small a b : 0 <= a * b < 4294967296 -> mul32 a b = a * b.
Proof. intro H. unfold mul32. apply Z.mod_small. exact H. Qed.

Lemma compatible_alike s d : 0 < arrayElementSize (aClass s) -> 0 < arrayElementSize (aClass d) ->
  alike (aClass s) (aClass d) -> compatibleArrayTypes (aClass s) (aClass d) = true.
Proof.
  intros Hs Hd Ha. unfold compatibleArrayTypes.
  replace (arrayElementSize (aClass s) =? 0) with false by (symmetry; apply Z.eqb_neq; lia).
  replace (arrayElementSize (aClass d) =? 0) with false by (symmetry; apply Z.eqb_neq; lia).
  cbn [negb andb]. destruct Ha as [->|[_ [_ [_ [-> ->]]]]].
  - rewrite Z.eqb_refl. reflexivity.
  - apply orb_true_r.
Qed.

Lemma alike_size s d : alike s d -> arrayElementSize s = arrayElementSize d.
Proof. intros [->|[_ [_ [H _]]]]; auto. Qed.
