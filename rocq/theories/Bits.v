(** Shared lemmas about bits of binary naturals.  No model content. *)
From Verif Require Import Base.
Local Open Scope N_scope.

Lemma pow2_pos : forall n, 0 < 2 ^ n.
Proof. intros n. apply N.neq_0_lt_0, N.pow_nonzero. lia. Qed.

Lemma testbit_high : forall b n i, b < 2 ^ n -> n <= i -> N.testbit b i = false.
Proof.
  intros b n i Hb Hi. destruct (N.eq_dec b 0) as [->|Hnz]; [apply N.bits_0|].
  apply N.bits_above_log2. apply N.log2_lt_pow2; [lia|].
  eapply N.lt_le_trans; [eassumption|]. apply N.pow_le_mono_r; lia.
Qed.

Lemma lt_pow2_testbit : forall b n, (forall i, n <= i -> N.testbit b i = false) -> b < 2 ^ n.
Proof.
  intros b n H. destruct (N.eq_dec b 0) as [->|Hnz]; [apply pow2_pos|].
  apply N.log2_lt_pow2; [lia|].
  destruct (N.lt_ge_cases (N.log2 b) n) as [|Hge]; [assumption|].
  specialize (H _ Hge). rewrite N.bit_log2 in H by assumption. discriminate.
Qed.

Lemma land_disjoint : forall a b n, b < 2 ^ n -> N.land (a * 2 ^ n) b = 0.
Proof.
  intros a b n H. apply N.bits_inj_iff. intros i. rewrite N.land_spec, N.bits_0, <- N.shiftl_mul_pow2.
  destruct (N.lt_ge_cases i n).
  - rewrite N.shiftl_spec_low by assumption. reflexivity.
  - rewrite (testbit_high b n i) by assumption. apply andb_false_r.
Qed.

Lemma lor_disjoint : forall a b n, b < 2 ^ n -> N.lor (a * 2 ^ n) b = a * 2 ^ n + b.
Proof.
  intros a b n H. rewrite <- N.lxor_lor by (apply land_disjoint; assumption).
  symmetry. apply N.add_nocarry_lxor, land_disjoint. assumption.
Qed.

(** Decision by enumeration of all [k]-bit numbers. *)
Fixpoint allbits (k : nat) (f : N -> bool) : bool :=
  match k with
  | O => f 0
  | S k => allbits k (fun x => f (2 * x)) && allbits k (fun x => f (2 * x + 1))
  end.

Lemma allbits_ok : forall k f, allbits k f = true -> forall x, x < 2 ^ N.of_nat k -> f x = true.
Proof.
  induction k as [|k IH]; intros f H x Hx.
  - cbn in *. assert (x = 0) by lia. subst. assumption.
  - cbn [allbits] in H. apply andb_true_iff in H. destruct H as [H0 H1].
    rewrite Nat2N.inj_succ, N.pow_succ_r in Hx by lia.
    pose proof (N.div2_odd x) as E.
    assert (Hd : N.div2 x < 2 ^ N.of_nat k) by (destruct (N.odd x); cbn [N.b2n] in E; lia).
    destruct (N.odd x); cbn [N.b2n] in E.
    + pose proof (IH _ H1 _ Hd) as H. cbn beta in H. rewrite E. exact H.
    + pose proof (IH _ H0 _ Hd) as H. cbn beta in H. rewrite E, N.add_0_r. exact H.
Qed.
