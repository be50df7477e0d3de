From Coq Require Import ZArith List Bool Lia ZifyBool Znumtheory.
From Verif Require Import JNum_Model JRandom_Model.
Import ListNotations.
Local Open Scope Z_scope.

#[global] Arguments advance : simpl never.
Definition M : Z := 2 ^ 48.
Lemma wrap64_mod : forall z, wrap64 z mod M = z mod M.
Proof.
  intro z. unfold wrap64, M. pose proof (Z.div_mod (z + 2 ^ 63) (2 ^ 64)) as E.
  replace ((z + 2 ^ 63) mod 2 ^ 64 - 2 ^ 63) with (z + (- (2 ^ 16 * ((z + 2 ^ 63) / 2 ^ 64))) * 2 ^ 48).
  - apply Z_mod_plus_full.
  - assert (2 ^ 64 = 2 ^ 16 * 2 ^ 48) by reflexivity. lia.
Qed.
Lemma advance_eq : forall s, advance s = (s * Mask + 11) mod M.
Proof.
  intro s. unfold advance. replace (2 ^ 48 - 1) with (Z.ones 48) by reflexivity. rewrite Z.land_ones by lia. fold M.
  rewrite wrap64_mod, <- Z.add_mod_idemp_l, wrap64_mod, Z.add_mod_idemp_l by (unfold M; lia). reflexivity.
Qed.
Lemma advance_range : forall s, 0 <= advance s < M.
Proof. intro s. rewrite advance_eq. apply Z.mod_pos_bound. reflexivity. Qed.
Lemma setSeed_range : forall s, 0 <= setSeed s < M.
Proof. intro s. unfold setSeed. replace (2 ^ 48 - 1) with (Z.ones 48) by reflexivity. rewrite Z.land_ones by lia. apply Z.mod_pos_bound. reflexivity. Qed.

(** After 2^k steps the seed is A k * seed + C k. *)
Fixpoint A (k : nat) : Z := match k with O => Mask | S j => A j * A j end.
Fixpoint C (k : nat) : Z := match k with O => 11 | S j => (A j + 1) * C j end.
Definition p2 (k : nat) : Z := 2 ^ Z.of_nat k.
Lemma p2S : forall k, p2 (S k) = 2 * p2 k.
Proof. intro k. unfold p2. rewrite Nat2Z.inj_succ, Z.pow_succ_r by lia. reflexivity. Qed.
Lemma AC : forall k, exists u w, A k = 1 + 4 * p2 k * u /\ C k = p2 k * (2 * w + 1).
Proof.
  induction k as [|k (u & w & EA & EC)].
  - exists (Mask / 4), 5. split; reflexivity.
  - exists (u + 2 * p2 k * u * u), (p2 k * u * (2 * w + 1) + w). cbn [A C]. rewrite EA, EC, p2S. split; ring.
Qed.
Fixpoint after (n : nat) (s : Z) : Z := match n with O => s | S m => advance (after m s) end.
Lemma after_add : forall n m s, after (n + m) s = after n (after m s).
Proof. intros. induction n; cbn; congruence. Qed.
Lemma after_pow : forall k s, exists z, after (2 ^ k) s = A k * s + C k + M * z.
Proof.
  induction k; intro s.
  - cbn [after Nat.pow A C]. rewrite advance_eq. exists (- ((s * Mask + 11) / M)). pose proof (Z.div_mod (s * Mask + 11) M). unfold M, Mask in *. lia.
  - replace (2 ^ S k)%nat with (2 ^ k + 2 ^ k)%nat by (cbn; lia). rewrite after_add.
    destruct (IHk s) as [z Ez]. destruct (IHk (after (2 ^ k) s)) as [z' Ez']. rewrite Ez', Ez. cbn [A C]. exists (A k * z + z'). ring.
Qed.
Lemma M_split : forall k, (k <= 48)%nat -> exists q, M = p2 k * q /\ ((k < 48)%nat -> exists q', q = 2 * q').
Proof.
  intros k H. exists (p2 (48 - k)). split.
  - unfold p2, M. rewrite <- Z.pow_add_r by lia. f_equal. lia.
  - intro L. exists (p2 (47 - k)). replace (48 - k)%nat with (S (47 - k)) by lia. apply p2S.
Qed.
(** 2^k steps change the seed by an odd multiple of 2^k. *)
Lemma after_change : forall k s, (k <= 48)%nat -> exists d, after (2 ^ k) s = s + p2 k * d /\ ((k < 48)%nat -> Z.odd d = true).
Proof.
  intros k s H. destruct (after_pow k s) as [z E]. destruct (AC k) as (u & w & EA & EC). destruct (M_split k H) as (q & EM & EQ).
  exists (4 * u * s + 2 * w + 1 + q * z). rewrite E, EA, EC, EM. split; [ring|]. intro L. destruct (EQ L) as [q' ->].
  replace (4 * u * s + 2 * w + 1 + 2 * q' * z) with (2 * (2 * u * s + w + q' * z) + 1) by ring. 
  rewrite Z.add_comm, Z.odd_add_mul_2. reflexivity.
Qed.
Lemma reach : forall k s t, (k <= 48)%nat -> exists n, Z.of_nat n < p2 k /\ exists q, after n s = t + p2 k * q.
Proof.
  induction k; intros s t H.
  - exists 0%nat. split; [reflexivity|]. exists (s - t). cbn [after]. change (p2 0) with 1. lia.
  - destruct (IHk s t) as (n & L & q & E); [lia|]. destruct (Z.odd q) eqn:O.
    + exists (2 ^ k + n)%nat. split.
      * rewrite p2S. unfold p2 in *. rewrite Nat2Z.inj_add, Nat2Z.inj_pow. lia.
      * rewrite after_add. destruct (after_change k (after n s)) as (d & Ed & Od); [lia|]. specialize (Od ltac:(lia)).
        apply Z.odd_spec in O, Od. destruct O as [a ->], Od as [b ->]. exists (a + b + 1). rewrite Ed, E, p2S. ring.
    + exists n. split; [rewrite p2S; unfold p2 in *; lia|]. rewrite <- Z.negb_even in O. apply negb_false_iff in O. apply Z.even_spec in O.
      destruct O as [a ->]. exists a. rewrite E, p2S. ring.
Qed.
Lemma after_range : forall n s, 0 <= s < M -> 0 <= after n s < M.
Proof. intros [|n] s H; cbn; auto. apply advance_range. Qed.
Lemma visits : forall s t, 0 <= s < M -> 0 <= t < M -> exists n, Z.of_nat n < M /\ after n s = t.
Proof.
  intros s t S T. destruct (reach 48 s t) as (n & L & q & E); [lia|]. exists n. split; [exact L|].
  pose proof (after_range n s S). change (p2 48) with M in E. assert (q = 0) by (unfold M in *; lia). subst. lia.
Qed.
Lemma after_mult : forall k m s, (k <= 48)%nat -> exists q, after (m * 2 ^ k) s = s + p2 k * q.
Proof.
  intros k m s H. induction m as [|m [q E]]; [exists 0; cbn; lia|]. cbn [Nat.mul]. rewrite after_add.
  destruct (after_change k (after (m * 2 ^ k) s) H) as (d & Ed & _). exists (q + d). rewrite Ed, E. ring.
Qed.
Lemma period_gen : forall j k m s, (j + k = 48)%nat -> 0 <= s < M -> (after (m * 2 ^ k) s = s <-> (p2 j | Z.of_nat m)).
Proof.
  induction j; intros k m s H S.
  - assert (k = 48)%nat by lia. subst k. split; [intros _; apply Z.divide_1_l|]. intros _.
    destruct (after_mult 48 m s) as [q E]; [lia|]. pose proof (after_range (m * 2 ^ 48) s S) as R.
    rewrite E in R |- *. change (p2 48) with M in *. assert (q = 0) by (unfold M in *; lia). subst. lia.
  - destruct (Nat.Even_or_Odd m) as [[m' ->]|[m' ->]].
    + replace (2 * m' * 2 ^ k)%nat with (m' * 2 ^ (Datatypes.S k))%nat by (cbn; lia). rewrite IHj by lia.
      rewrite p2S, Nat2Z.inj_mul. change (Z.of_nat 2) with 2. split; [apply Z.mul_divide_mono_l | apply Z.mul_divide_cancel_l; lia].
    + split; intro D; exfalso.
      * replace ((2 * m' + 1) * 2 ^ k)%nat with (2 ^ k + m' * 2 ^ (Datatypes.S k))%nat in D by (cbn; lia). rewrite after_add in D.
        destruct (after_mult (Datatypes.S k) m' s) as [q E]; [lia|]. destruct (after_change k (after (m' * 2 ^ Datatypes.S k) s)) as (d & Ed & Od); [lia|].
        specialize (Od ltac:(lia)). rewrite Ed, E, p2S in D. apply Z.odd_spec in Od. destruct Od as [b ->].
        assert (0 < p2 k) by (apply Z.pow_pos_nonneg; lia).
        assert (Y : p2 k * (2 * (q + b) + 1) = 0) by lia. apply Z.mul_eq_0 in Y. lia.
      * rewrite p2S in D. destruct D as [x D]. lia.
Qed.
Lemma period : forall n s, 0 <= s < M -> (after n s = s <-> (M | Z.of_nat n)).
Proof. intros n s S. pose proof (period_gen 48 0 n s eq_refl S) as P. cbn [Nat.pow] in P. rewrite Nat.mul_1_r in P. exact P. Qed.

Lemma draw_value : forall bits s, 0 < bits < 32 -> snd (draw bits s) = advance s / 2 ^ (48 - bits) /\ 0 <= snd (draw bits s) < 2 ^ bits.
Proof.
  intros bits s B. unfold draw. cbn [snd]. rewrite Z.shiftr_div_pow2 by lia. pose proof (advance_range s) as R.
  assert (P : 0 < 2 ^ (48 - bits)) by (apply Z.pow_pos_nonneg; lia).
  assert (E : M = 2 ^ (48 - bits) * 2 ^ bits) by (unfold M; rewrite <- Z.pow_add_r by lia; f_equal; lia).
  assert (Q : 0 <= advance s / 2 ^ (48 - bits) < 2 ^ bits).
  { split; [apply Z.div_pos; lia|]. apply Z.div_lt_upper_bound; lia. }
  assert (2 ^ bits <= 2 ^ 31) by (apply Z.pow_le_mono_r; lia).
  unfold wrap32. rewrite Z.mod_small by lia. lia.
Qed.
Lemma draw_range : forall s, 0 <= snd (draw 31 s) < 2 ^ 31.
Proof. intro s. apply draw_value. lia. Qed.

Lemma again_ok : forall limit b, 0 < limit < 2 ^ 31 -> 0 <= b < 2 ^ 31 -> again limit b = negb (b <? limit * (2 ^ 31 / limit)).
Proof.
  intros limit b L B. unfold again. rewrite Z.rem_mod_nonneg by lia.
  pose proof (Z.div_mod b limit) as E. pose proof (Z.mod_pos_bound b limit) as R. pose proof (Z.div_mod (2 ^ 31) limit) as E'. pose proof (Z.mod_pos_bound (2 ^ 31) limit) as R'.
  specialize (E ltac:(lia)). specialize (R ltac:(lia)). specialize (E' ltac:(lia)). specialize (R' ltac:(lia)). assert (X0 : 0 <= b / limit) by (apply Z.div_pos; lia).
  set (x := b / limit) in *. set (r := b mod limit) in *. set (q := 2 ^ 31 / limit) in *. set (r' := 2 ^ 31 mod limit) in *.
  clearbody x r q r'. assert (L0 : 0 < limit) by lia. assert (0 <= limit * x) by (apply Z.mul_nonneg_nonneg; lia).
  assert (W : wrap32 (b - r) = limit * x) by (unfold wrap32; rewrite Z.mod_small; lia). rewrite W.
  assert (K : b < limit * q <-> limit * x + limit <= 2 ^ 31) by (clear W L B; split; intro Y;
    [ assert (x < q) by (apply (Z.mul_lt_mono_pos_l limit); lia); assert (limit * (x + 1) <= limit * q) by (apply Z.mul_le_mono_nonneg_l; lia); lia
    | assert (x < q) by (destruct (Z.lt_ge_cases x q) as [?|G]; [assumption|]; assert (limit * q <= limit * x) by (apply Z.mul_le_mono_nonneg_l; lia); lia);
      assert (limit * (x + 1) <= limit * q) by (apply Z.mul_le_mono_nonneg_l; lia); lia ]).
  destruct (Z.ltb_spec b (limit * q)) as [X|X]; cbn [negb].
  - apply K in X. unfold wrap32. rewrite Z.mod_small by lia. lia.
  - assert (2 ^ 31 < limit * x + limit) by lia. unfold wrap32.
    replace (limit * x + (limit - 1) + 2 ^ 31) with (limit * x + limit - 1 - 2 ^ 31 + 1 * 2 ^ 32) by lia.
    rewrite Z_mod_plus_full, Z.mod_small by lia. lia.
Qed.
Lemma again_zero : forall limit, 0 < limit < 2 ^ 31 -> again limit 0 = false.
Proof. intros limit L. unfold again. rewrite Z.rem_0_l by lia. unfold wrap32. rewrite (Z.mod_small (0 - 0 + 2 ^ 31)) by lia. rewrite Z.mod_small by lia. lia. Qed.
Lemma draw_seed : forall bits s, fst (draw bits s) = advance s.
Proof. reflexivity. Qed.
Lemma after_front : forall n s, after (S n) s = after n (advance s).
Proof. intros n s. replace (S n) with (n + 1)%nat by lia. rewrite after_add. reflexivity. Qed.
Lemma search_S : forall f limit s, search (S f) limit s =
  if again limit (snd (draw 31 s)) then search f limit (advance s) else Some (advance s, Z.rem (snd (draw 31 s)) limit).
Proof. reflexivity. Qed.
Lemma search_ends : forall limit n s, 0 < limit < 2 ^ 31 -> after (S n) s = 0 -> exists r, search (S n) limit s = Some r.
Proof.
  intros limit n. induction n; intros s L E.
  - rewrite after_front in E. cbn [after] in E. destruct (draw_value 31 s) as [V _]; [lia|]. rewrite E, Z.div_0_l in V by discriminate.
    rewrite search_S, V, again_zero by exact L. eexists. reflexivity.
  - rewrite after_front in E. rewrite search_S. destruct (again limit (snd (draw 31 s))); [exact (IHn _ L E)|eexists; reflexivity].
Qed.
Lemma search_range : forall limit n s s' v, 0 < limit -> search n limit s = Some (s', v) -> 0 <= v < limit.
Proof.
  intros limit. induction n; intros s s' v L E; [discriminate|]. rewrite search_S in E. pose proof (draw_range s) as R. 
  destruct (again limit (snd (draw 31 s))); [exact (IHn _ _ _ L E)|]. generalize dependent (snd (draw 31 s)). intros b E R. 
  assert (V : v = Z.rem b limit) by congruence. rewrite V, Z.rem_mod_nonneg by lia. apply Z.mod_pos_bound. lia.
Qed.
Lemma search_more : forall limit n m s r, (n <= m)%nat -> search n limit s = Some r -> search m limit s = Some r.
Proof.
  intros limit. induction n; intros m s r L E; [discriminate|]. destruct m; [lia|]. rewrite search_S in *. destruct (again limit (snd (draw 31 s))); auto. apply IHn; auto. lia.
Qed.

Lemma land_neg : forall p, Z.land (Zpos p) (- Zpos p) = Zpos p -> exists k, 0 <= k /\ Zpos p = 2 ^ k.
Proof.
  induction p; intro H.
  - exfalso. assert (X : Z.testbit (Z.land (Zpos p~1) (- Zpos p~1)) = Z.testbit (Zpos p~1)) by now rewrite H.
    assert (Y : Z.land (Zpos p) (Z.lnot (Zpos p)) = Zpos p).
    { apply Z.bits_inj'. intros i Hi. apply (f_equal (fun f => f (Z.succ i))) in X. rewrite Z.land_spec in X |- *.
      replace (Zpos p~1) with (2 * Zpos p + 1) in X by lia. rewrite Z.testbit_odd_succ in X by lia.
      replace (- (2 * Zpos p + 1)) with (2 * Z.lnot (Zpos p) + 1) in X by (unfold Z.lnot; lia). rewrite Z.testbit_odd_succ in X by lia. exact X. }
    rewrite Z.land_lnot_diag in Y. discriminate.
  - destruct IHp as (k & K & E).
    + apply Z.bits_inj'. intros i Hi. apply (f_equal (fun z => Z.testbit z (Z.succ i))) in H. rewrite Z.land_spec in H |- *.
      replace (Zpos p~0) with (2 * Zpos p) in H by lia. replace (- (2 * Zpos p)) with (2 * - Zpos p) in H by lia. rewrite !Z.testbit_even_succ in H by lia. exact H.
    + exists (k + 1). split; [lia|]. rewrite Z.pow_add_r by lia. lia.
  - exists 0. split; [lia|reflexivity].
Qed.
Lemma single_pow : forall limit, 0 < limit < 2 ^ 31 -> single limit = true -> exists k, 0 <= k <= 30 /\ limit = 2 ^ k.
Proof.
  intros limit L H. unfold single in H. apply Z.eqb_eq in H. assert (wrap32 (- limit) = - limit) as X by (unfold wrap32; rewrite Z.mod_small; lia). rewrite X in H.
  destruct limit as [|p|p]; try lia. apply land_neg in H. destruct H as (k & K & E). exists k. split; [|exact E]. split; [exact K|].
  assert (k < 31); [|lia]. apply (Z.pow_lt_mono_r_iff 2); lia.
Qed.
Lemma single_value : forall k b, 0 <= k <= 30 -> 0 <= b < 2 ^ 31 -> wrap32 (Z.shiftr (2 ^ k * b) 31) = b / 2 ^ (31 - k) /\ 0 <= b / 2 ^ (31 - k) < 2 ^ k.
Proof.
  intros k b K B. assert (E : 2 ^ 31 = 2 ^ k * 2 ^ (31 - k)) by (rewrite <- Z.pow_add_r by lia; f_equal; lia).
  assert (0 < 2 ^ k) by (apply Z.pow_pos_nonneg; lia). assert (0 < 2 ^ (31 - k)) by (apply Z.pow_pos_nonneg; lia).
  rewrite Z.shiftr_div_pow2 by lia. rewrite E at 1. rewrite Z.div_mul_cancel_l by lia.
  assert (Q : 0 <= b / 2 ^ (31 - k) < 2 ^ k) by (split; [apply Z.div_pos; lia | apply Z.div_lt_upper_bound; lia]).
  assert (2 ^ k <= 2 ^ 30) by (apply Z.pow_le_mono_r; lia). split; [|exact Q]. unfold wrap32. rewrite Z.mod_small; lia.
Qed.

Lemma lowBytes_ok : forall n r i, (i < n)%nat -> nth i (lowBytes n r) 0 = Z.shiftr r (8 * Z.of_nat i) mod 256.
Proof.
  induction n; intros r i H; [lia|]. destruct i; cbn [lowBytes nth]; [now rewrite Z.shiftr_0_r|]. rewrite IHn by lia. rewrite Z.shiftr_shiftr by lia. do 2 f_equal. lia.
Qed.
Lemma lowBytes_length : forall n r, length (lowBytes n r) = n.
Proof. induction n; cbn; auto. Qed.
Lemma nextBytes_ok : forall f n s, (n <= f)%nat -> length (nextBytes f n s) = n /\
  forall i, (i < n)%nat -> nth i (nextBytes f n s) 0 = Z.shiftr (snd (nextInt (after (i / 4) s))) (8 * Z.of_nat (i mod 4)) mod 256.
Proof.
  induction f; intros n s H; [split; [cbn; lia|lia]|]. cbn [nextBytes]. destruct (Nat.eqb_spec n 0); [subst; split; [reflexivity|lia]|].
  destruct (nextInt s) as [s' r] eqn:D. destruct (IHf (n - Nat.min n 4)%nat s') as [L E]; [lia|]. split.
  - rewrite app_length, lowBytes_length, L. lia.
  - intros i Hi. destruct (Nat.lt_ge_cases i 4).
    + rewrite app_nth1 by (rewrite lowBytes_length; lia). rewrite lowBytes_ok by lia. rewrite Nat.div_small, Nat.mod_small by lia. cbn [after]. rewrite D. reflexivity.
    + rewrite app_nth2, lowBytes_length by (rewrite lowBytes_length; lia). rewrite E by lia. replace (Nat.min n 4) with 4%nat by lia.
      replace i with (i - 4 + 1 * 4)%nat at 3 4 by lia. rewrite Nat.div_add, Nat.mod_add by lia. rewrite after_add.
      unfold nextInt, draw in D. injection D as <- _. reflexivity.
Qed.
