From Coq Require Import ZArith List Bool Lia ZifyBool.
From Verif Require Import JNum_Model JRandom_Model JRandom_Spec JRandom_Proofs.
Import ListNotations.
Local Open Scope Z_scope.

Lemma calls_after : forall n s, calls n s = after n s.
Proof. induction n; intro s; [reflexivity|]. cbn [calls after]. rewrite IHn. apply draw_seed. Qed.

(** * C169: the numbers of java.util.Random

    Every seed gives a state, and so does every call. *)
Theorem C169_states : forall seed, isSeed (setSeed seed) /\ forall s, isSeed (fst (nextInt s)).
Proof. intro seed. split; [apply setSeed_range | intro s; unfold nextInt; rewrite draw_seed; apply advance_range]. Qed.
(** From every state every state is reached, in fewer than 2^48 calls ... *)
Theorem C169_every_state_is_reached : forall s t, isSeed s -> isSeed t -> exists n, Z.of_nat n < 2 ^ 48 /\ calls n s = t.
Proof. intros s t S T. destruct (visits s t S T) as (n & L & E). exists n. split; [exact L|]. now rewrite calls_after. Qed.
(** ... and the sequence of states repeats after 2^48 calls and no sooner. *)
Theorem C169_period : forall s n, isSeed s -> (calls n s = s <-> (2 ^ 48 | Z.of_nat n)).
Proof. intros s n S. rewrite calls_after. apply (period n s S). Qed.
(** nextInt(limit) ends from every state, for every limit above 0, and gives a number from 0 to limit - 1. *)
Theorem C169_next_below : forall limit s, 0 < limit < 2 ^ 31 -> isSeed s ->
  exists fuel s' v, nextIntBelow fuel limit s = Drawn s' v /\ 0 <= v < limit.
Proof.
  intros limit s L S. unfold nextIntBelow. assert (X : (limit <=? 0) = false) by lia.
  destruct (single limit) eqn:Q.
  - exists 0%nat, (advance s), (wrap32 (Z.shiftr (limit * snd (draw 31 s)) 31)). rewrite X. split; [reflexivity|].
    destruct (single_pow limit L Q) as (k & K & ->). pose proof (draw_range s) as R. destruct (single_value k _ K R) as [-> V]. exact V.
  - destruct (visits (advance s) 0 (advance_range s)) as (n & _ & E); [unfold M; lia|]. rewrite <- after_front in E.
    destruct (search_ends limit n s L E) as ([s' v] & F). exists (Datatypes.S n), s', v. rewrite X, F. split; [reflexivity|]. eapply search_range; [|exact F]. lia.
Qed.
(** More fuel changes nothing: the number is the one the loop finds. *)
Theorem C169_next_below_is_one : forall f f' limit s s' v, (f <= f')%nat -> nextIntBelow f limit s = Drawn s' v -> nextIntBelow f' limit s = Drawn s' v.
Proof.
  intros f f' limit s s' v L. unfold nextIntBelow. destruct (limit <=? 0); [discriminate|]. destruct (single limit); [auto|].
  destruct (search f limit s) as [[a b]|] eqn:E; [|discriminate]. rewrite (search_more _ _ _ _ _ L E). auto.
Qed.
(** And it is fair: for every limit there is one number [q], such that every result [v] is given by
    exactly [q] of the 2^31 possible draws [b], the others being thrown away and drawn again. *)
Definition gives (limit b v : Z) : Prop :=
  0 <= b < 2 ^ 31 /\ forall s, snd (draw 31 s) = b -> nextIntBelow 1 limit s = Drawn (advance s) v.
Lemma draw_any : forall b, 0 <= b < 2 ^ 31 -> exists s, isSeed s /\ snd (draw 31 s) = b.
Proof.
  intros b B. destruct (visits 1 (b * 2 ^ 17)) as (n & _ & E); [unfold M; lia|unfold M; lia|].
  destruct n as [|n]; [cbn [after] in E; lia|]. exists (after n 1). split; [apply (after_range n 1); unfold M; lia|].
  destruct (draw_value 31 (after n 1)) as [-> _]; [lia|]. cbn [after] in E. rewrite E. change (2 ^ (48 - 31)) with (2 ^ 17). apply Z.div_mul. lia.
Qed.
Theorem C169_next_below_is_fair : forall limit, 0 < limit < 2 ^ 31 ->
  exists q, 0 < q /\ forall v, 0 <= v < limit -> exists e, enumerates q e (fun b => gives limit b v).
Proof.
  intros limit L. assert (X : (limit <=? 0) = false) by lia. destruct (single limit) eqn:Q.
  - destruct (single_pow limit L Q) as (k & K & E). set (q := 2 ^ (31 - k)).
    assert (Q0 : 0 < q) by (apply Z.pow_pos_nonneg; lia).
    assert (LQ : limit * q = 2 ^ 31) by (subst limit; unfold q; rewrite <- Z.pow_add_r by lia; f_equal; lia).
    exists q. split; [exact Q0|]. intros v V. exists (fun j => v * q + j). split; [intros; lia|]. intro b.
    assert (G : 0 <= b < 2 ^ 31 -> forall s, snd (draw 31 s) = b -> nextIntBelow 1 limit s = Drawn (advance s) (b / q)).
    { intros B s D. unfold nextIntBelow. rewrite X, Q. destruct (single_value k b K B) as [W _]. rewrite <- E in W. fold q in W.
      rewrite <- W, <- D. reflexivity. }
    split.
    + intros [B H]. destruct (draw_any b B) as (s & _ & D). specialize (H s D). rewrite (G B s D) in H.
      assert (b / q = v) by congruence. exists (b mod q). split; [apply Z.mod_pos_bound; lia|]. subst v. pose proof (Z.div_mod b q). lia.
    + intros (j & J & ->). assert (B : 0 <= v * q + j < 2 ^ 31) by nia. split; [exact B|]. intros s D. rewrite (G B s D).
      f_equal. rewrite Z.add_comm, Z.div_add, Z.div_small by lia. reflexivity.
  - exists (2 ^ 31 / limit). pose proof (Z.div_str_pos (2 ^ 31) limit ltac:(lia)) as Q0. split; [exact Q0|]. intros v V.
    exists (fun j => v + limit * j). split; [intros; nia|]. intro b.
    assert (P : limit * (2 ^ 31 / limit) <= 2 ^ 31) by (apply Z.mul_div_le; lia).
    assert (G : 0 <= b < 2 ^ 31 -> forall s, snd (draw 31 s) = b -> 
              nextIntBelow 1 limit s = if b <? limit * (2 ^ 31 / limit) then Drawn (advance s) (b mod limit) else StillLooking).
    { intros B s D. unfold nextIntBelow. rewrite X, Q, search_S, D, again_ok, Z.rem_mod_nonneg by lia. now destruct (b <? limit * (2 ^ 31 / limit)). }
    set (q := 2 ^ 31 / limit) in *. clearbody q. split.
    + intros [B H]. destruct (draw_any b B) as (s & _ & D). specialize (H s D). rewrite (G B s D) in H.
      destruct (Z.ltb_spec b (limit * q)) as [Y|Y]; [|discriminate]. assert (b mod limit = v) by congruence.
      exists (b / limit). split; [split; [apply Z.div_pos; lia | apply Z.div_lt_upper_bound; lia]|]. pose proof (Z.div_mod b limit). lia.
    + intros (j & J & ->). assert (B : 0 <= v + limit * j < limit * q) by nia. assert (B' : 0 <= v + limit * j < 2 ^ 31) by lia. split; [exact B'|].
      intros s D. rewrite (G B' s D). destruct (Z.ltb_spec (v + limit * j) (limit * q)); [|lia]. f_equal.
      rewrite Z.mul_comm, Z.mod_add, Z.mod_small by lia. reflexivity.
Qed.
(** nextDouble is a multiple of 2^-53 from 0 up to, not including, 1. *)
Theorem C169_next_double : forall s, 0 <= snd (nextDouble53 s) < 2 ^ 53.
Proof.
  intro s. unfold nextDouble53. destruct (draw_value 26 s) as [_ R]; [lia|]. destruct (draw 26 s) as [s1 a]. cbn [snd] in R.
  destruct (draw_value 27 s1) as [_ R']; [lia|]. destruct (draw 27 s1) as [s2 b]. cbn [snd] in *. rewrite Z.shiftl_mul_pow2 by lia.
  unfold wrap64. rewrite (Z.mod_small (a * 2 ^ 27 + 2 ^ 63)) by lia. rewrite Z.mod_small by lia. lia.
Qed.
(** nextBytes fills the array with the bytes of the numbers of nextInt(), lowest first. *)
Theorem C169_next_bytes : forall n s, length (nextBytes n n s) = n /\
  forall i, (i < n)%nat -> nth i (nextBytes n n s) 0 = Z.shiftr (snd (nextInt (calls (i / 4) s))) (8 * Z.of_nat (i mod 4)) mod 256.
Proof. intros n s. destruct (nextBytes_ok n n s (le_n n)) as [L E]. split; [exact L|]. intros i I0. rewrite calls_after. auto. Qed.

(** The first numbers for seed 42: whole, below 10, and as bytes. *)
Example random_somewhere :
  let s := setSeed 42 in
  isSeed s /\ snd (nextInt s) = -1170105035 /\ nextIntBelow 1 10 s = Drawn (fst (nextInt s)) 0 /\
  nextIntBelow 1 10 (calls 1 s) = Drawn (calls 2 s) 3 /\ nextIntBelow 0 (-1) s = IllegalArgument /\
  nextBytes 5 5 s = [53; 157; 65; 186; 247].
Proof. vm_compute. intuition congruence. Qed.

Definition JRandom_theorems :=
  (C169_states, C169_every_state_is_reached, C169_period, C169_next_below, C169_next_below_is_one, C169_next_below_is_fair, C169_next_double, C169_next_bytes).
Print Assumptions JRandom_theorems.
