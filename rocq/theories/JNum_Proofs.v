(** Proofs about numbers as text and bit counting. *)
From Coq Require Import List ZArith Bool Lia.
From Verif Require Import Res JNum_Model JNum_Spec.
Import ListNotations.
Local Open Scope Z_scope.
Local Arguments Z.add : simpl never.
Local Arguments Z.sub : simpl never.
Local Arguments Z.mul : simpl never.
Local Arguments Z.pow : simpl never.
Local Arguments Z.of_nat : simpl never.

Lemma wrap64_id : forall z, isLong z -> wrap64 z = z.
Proof. intros z H. unfold wrap64, isLong in *. rewrite Z.mod_small; lia. Qed.
Lemma wrap32_id : forall z, isInt z -> wrap32 z = z.
Proof. intros z H. unfold wrap32, isInt in *. rewrite Z.mod_small; lia. Qed.
Lemma wrap64_range : forall z, isLong (wrap64 z).
Proof. intro z. unfold wrap64, isLong. pose proof (Z.mod_pos_bound (z + 2 ^ 63) (2 ^ 64)). lia. Qed.
Lemma wrap32_range : forall z, isInt (wrap32 z).
Proof. intro z. unfold wrap32, isInt. pose proof (Z.mod_pos_bound (z + 2 ^ 31) (2 ^ 32)). lia. Qed.

(** congruence modulo 2^64 *)
Lemma wrap64_mod : forall z, exists k, wrap64 z = z + k * 2 ^ 64.
Proof.
  intro z. unfold wrap64. exists (- ((z + 2 ^ 63) / 2 ^ 64)).
  pose proof (Z.div_mod (z + 2 ^ 63) (2 ^ 64)). lia.
Qed.
Lemma wrap64_shift : forall z k, wrap64 (z + k * 2 ^ 64) = wrap64 z.
Proof.
  intros z k. unfold wrap64. f_equal.
  replace (z + k * 2 ^ 64 + 2 ^ 63) with (z + 2 ^ 63 + k * 2 ^ 64) by lia.
  apply Z.mod_add. lia.
Qed.
Lemma wrap64_add : forall a b, wrap64 (wrap64 a + b) = wrap64 (a + b).
Proof.
  intros a b. destruct (wrap64_mod a) as [k ->].
  replace (a + k * 2 ^ 64 + b) with (a + b + k * 2 ^ 64) by lia. apply wrap64_shift.
Qed.
Lemma wrap64_addr : forall a b, wrap64 (a + wrap64 b) = wrap64 (a + b).
Proof. intros a b. rewrite Z.add_comm, wrap64_add, Z.add_comm. reflexivity. Qed.
Lemma wrap64_opp : forall a, wrap64 (- wrap64 a) = wrap64 (- a).
Proof.
  intros a. destruct (wrap64_mod a) as [k ->].
  replace (- (a + k * 2 ^ 64)) with (- a + (- k) * 2 ^ 64) by lia. apply wrap64_shift.
Qed.

(** ** Digits *)

Fixpoint digs (fuel : nat) (m r : Z) : list Z :=
  match fuel with
  | O => []
  | S k => if m =? 0 then [] else (m mod r) :: digs k (m / r) r
  end.

Lemma valueOf_app : forall r a b, valueOf r (a ++ [b]) = valueOf r a * r + b.
Proof. intros r a b. unfold valueOf. rewrite fold_left_app. reflexivity. Qed.

Lemma pow_pos : forall r k, 2 <= r -> 0 < r ^ Z.of_nat k.
Proof. intros. apply Z.pow_pos_nonneg; lia. Qed.

Lemma pow_S : forall r k, r ^ Z.of_nat (S k) = r * r ^ Z.of_nat k.
Proof. intros. rewrite Nat2Z.inj_succ, Z.pow_succ_r by lia. reflexivity. Qed.

Lemma div_bound : forall m r k, 2 <= r -> 0 <= m < r ^ Z.of_nat (S k) -> 0 <= m / r < r ^ Z.of_nat k.
Proof.
  intros m r k Hr H. rewrite pow_S in H. split; [apply Z.div_pos; lia|].
  apply Z.div_lt_upper_bound; lia.
Qed.

Lemma digs_value : forall k m r, 2 <= r -> 0 <= m < r ^ Z.of_nat k ->
  valueOf r (rev (digs k m r)) = m.
Proof.
  induction k as [|k IH]; intros m r Hr H.
  - change (r ^ Z.of_nat 0) with 1 in H. simpl. unfold valueOf. simpl. lia.
  - simpl. destruct (Z.eqb_spec m 0) as [->|Hm]; [reflexivity|]. simpl.
    rewrite valueOf_app, IH; [|lia|apply div_bound; auto].
    pose proof (Z.div_mod m r). lia.
Qed.

Lemma digs_range : forall k m r, 2 <= r -> isDigits r (digs k m r).
Proof.
  induction k as [|k IH]; intros m r Hr; simpl; [constructor|].
  destruct (m =? 0); [constructor|]. constructor; [|exact (IH _ _ Hr)].
  apply Z.mod_pos_bound. lia.
Qed.

(** the most significant digit is not zero *)
Lemma digs_last : forall k m r, 2 <= r -> 0 < m < r ^ Z.of_nat k ->
  exists l d, digs k m r = l ++ [d] /\ d <> 0.
Proof.
  induction k as [|k IH]; intros m r Hr H.
  - change (r ^ Z.of_nat 0) with 1 in H. lia.
  - simpl. destruct (Z.eqb_spec m 0) as [->|Hm]; [lia|].
    destruct (Z.eq_dec (m / r) 0) as [E|E].
    + exists [], (m mod r). rewrite E. split.
      * simpl. destruct k; reflexivity.
      * pose proof (Z.div_mod m r). lia.
    + pose proof (div_bound m r k Hr (conj (Z.lt_le_incl _ _ (proj1 H)) (proj2 H))).
      destruct (IH (m / r) r Hr) as [l [d [E1 E2]]]; [lia|].
      exists (m mod r :: l), d. rewrite E1. auto.
Qed.

Lemma digs_zero : forall k r, digs k 0 r = [].
Proof. intros [|k] r; reflexivity. Qed.

Lemma digs_fuel : forall k k' m r, 2 <= r -> 0 <= m < r ^ Z.of_nat k -> (k <= k')%nat ->
  digs k' m r = digs k m r.
Proof.
  induction k as [|k IH]; intros k' m r Hr H Hk.
  - change (r ^ Z.of_nat 0) with 1 in H. assert (m = 0) by lia. subst. rewrite digs_zero. reflexivity.
  - destruct k' as [|k']; [lia|]. simpl. destruct (m =? 0); [reflexivity|]. f_equal.
    apply IH; [lia|apply div_bound; auto|lia].
Qed.

(** signed quotient and remainder in terms of the magnitude *)
Definition sg (negative : bool) (m : Z) : Z := if negative then - m else m.

Lemma quot_sg : forall ng m r, 2 <= r -> 0 <= m -> Z.quot (sg ng m) r = sg ng (m / r).
Proof.
  intros ng m r Hr Hm. destruct ng; simpl.
  - rewrite Z.quot_opp_l, Z.quot_div_nonneg by lia. reflexivity.
  - rewrite Z.quot_div_nonneg by lia. reflexivity.
Qed.
Lemma rem_sg : forall ng m r, 2 <= r -> 0 <= m -> Z.rem (sg ng m) r = sg ng (m mod r).
Proof.
  intros ng m r Hr Hm. destruct ng; simpl.
  - rewrite Z.rem_opp_l, Z.rem_mod_nonneg by lia. reflexivity.
  - rewrite Z.rem_mod_nonneg by lia. reflexivity.
Qed.
Lemma sg_long : forall ng m r, 2 <= r -> 0 <= m <= 2 ^ 63 -> isLong (sg ng (m / r)).
Proof.
  intros ng m r Hr Hm. assert (0 <= m / r <= 2 ^ 62).
  { split; [apply Z.div_pos; lia|]. 
    apply Z.le_trans with (2 ^ 63 / r); [apply Z.div_le_mono; lia|].
    apply Z.le_trans with (2 ^ 63 / 2); [|reflexivity]. apply Z.div_le_compat_l; lia. }
  unfold isLong, sg. destruct ng; lia.
Qed.
Lemma sg_zero : forall ng m, (sg ng m =? 0) = (m =? 0).
Proof. intros [] m; simpl; destruct (Z.eqb_spec m 0); destruct (Z.eqb_spec (- m) 0); lia. Qed.

Lemma count_spec : forall k m r ng size, 2 <= r -> 0 <= m <= 2 ^ 63 -> m < r ^ Z.of_nat k ->
  forall fuel, (k < fuel)%nat ->
  countDigits fuel (sg ng m) r size = Ok (size + Z.of_nat (length (digs k m r))).
Proof.
  induction k as [|k IH]; intros m r ng size Hr Hm H fuel Hf.
  - change (r ^ Z.of_nat 0) with 1 in H. assert (m = 0) by lia. subst m.
    destruct fuel; [lia|]. simpl. rewrite sg_zero. simpl. f_equal. lia.
  - destruct fuel as [|fuel]; [lia|]. simpl. rewrite sg_zero.
    destruct (Z.eqb_spec m 0) as [->|Hn]; [simpl; f_equal; lia|].
    rewrite quot_sg, wrap64_id by (try apply sg_long; lia).
    pose proof (div_bound m r k Hr (conj (proj1 Hm) H)).
    rewrite IH; [|lia| |lia|lia].
    + simpl length. f_equal. lia.
    + assert (m / r <= m) by (apply Z.div_le_upper_bound; nia). lia.
Qed.

Definition chOf (d : Z) : Z :=
  if (0 <=? d) && (d <=? 9) then char16 (c0 + d) else char16 (ca + (d - 10)).

Lemma chOf_digit : forall d, 0 <= d < 36 -> chOf d = digitChar d.
Proof.
  intros d H. unfold chOf, digitChar, char16, c0, ca.
  destruct (Z.leb_spec 0 d); [|lia]. destruct (Z.leb_spec d 9), (Z.ltb_spec d 10); simpl; try lia;
    apply Z.mod_small; lia.
Qed.

Lemma store_mid : forall (pre suf : list Z) x v,
  store (pre ++ x :: suf) (Z.of_nat (length pre)) v = Ok (pre ++ v :: suf).
Proof.
  intros pre suf x v. unfold store.
  destruct (Z.leb_spec 0 (Z.of_nat (length pre))); [|lia].
  rewrite app_length. simpl length.
  destruct (Z.ltb_spec (Z.of_nat (length pre)) (Z.of_nat (length pre + S (length suf)))); [|lia].
  cbv iota beta delta [andb]. rewrite Nat2Z.id. f_equal.
  rewrite firstn_app, firstn_all, Nat.sub_diag. change (firstn 0 (x :: suf)) with (@nil Z).
  rewrite app_nil_r. f_equal. f_equal.
  change (x :: suf) with ([x] ++ suf). rewrite app_assoc.
  replace (S (length pre)) with (length (pre ++ [x])) by (rewrite app_length; simpl; lia).
  rewrite skipn_app, skipn_all, Nat.sub_diag. reflexivity.
Qed.

Lemma put_spec : forall k m r ng p suf, 2 <= r <= 36 -> 0 <= m <= 2 ^ 63 -> m < r ^ Z.of_nat k ->
  forall fuel, (k < fuel)%nat -> (length (digs k m r) <= p)%nat ->
  putDigits fuel (sg ng m) r ng (Z.of_nat p - 1) (repeat 0 p ++ suf) =
    Ok (Z.of_nat (p - length (digs k m r)) - 1,
        repeat 0 (p - length (digs k m r)) ++ rev (map chOf (digs k m r)) ++ suf).
Proof.
  induction k as [|k IH]; intros m r ng p suf Hr Hm H fuel Hf Hp.
  - change (r ^ Z.of_nat 0) with 1 in H. assert (m = 0) by lia. subst m.
    destruct fuel; [lia|]. simpl. rewrite sg_zero. simpl. rewrite Nat.sub_0_r. reflexivity.
  - destruct fuel as [|fuel]; [lia|]. cbn [putDigits digs]. rewrite sg_zero.
    cbn [digs] in Hp.
    destruct (Z.eqb_spec m 0) as [->|Hn].
    { simpl. rewrite Nat.sub_0_r. reflexivity. }
    cbv zeta. rewrite rem_sg, quot_sg by lia.
    pose proof (Z.mod_pos_bound m r) as Hmod.
    assert (E : (if ng then wrap64 (- sg ng (m mod r)) else sg ng (m mod r)) = m mod r).
    { destruct ng; simpl; [|reflexivity]. rewrite Z.opp_involutive. apply wrap64_id.
      unfold isLong. lia. }
    rewrite E. fold (chOf (m mod r)).
    cbn [length] in Hp. destruct p as [|p]; [lia|].
    replace (repeat 0 (S p) ++ suf) with (repeat 0 p ++ 0 :: suf)
      by (change (repeat 0 (S p)) with (repeat 0 (S p)); rewrite <- Nat.add_1_r, repeat_app, <- app_assoc; reflexivity).
    replace (Z.of_nat (S p) - 1) with (Z.of_nat (length (repeat 0 p)))
      by (rewrite repeat_length; lia).
    rewrite store_mid. simpl bind. rewrite wrap64_id by (apply sg_long; lia).
    rewrite repeat_length.
    pose proof (div_bound m r k (proj1 Hr) (conj (proj1 Hm) H)).
    rewrite IH; [|lia| |lia|lia|lia].
    + simpl length. simpl Nat.sub. simpl map. simpl rev. rewrite <- app_assoc. reflexivity.
    + assert (m / r <= m) by (apply Z.div_le_upper_bound; nia). lia.
Qed.

(** ** Text *)

Local Opaque digs.

Lemma length_bound : forall m r, 2 <= r -> 0 <= m <= 2 ^ 63 -> m < r ^ Z.of_nat 64.
Proof.
  intros m r Hr Hm. apply Z.lt_le_trans with (2 ^ Z.of_nat 64).
  { apply Z.le_lt_trans with (2 ^ 63); [lia|reflexivity]. }
  apply Z.pow_le_mono_l. lia.
Qed.

Lemma toString_digs : forall fuel v r, (64 < fuel)%nat -> 2 <= r <= 36 -> isLong v -> v <> 0 ->
  toStringRadix fuel v r =
    Ok ((if v <? 0 then [45] else []) ++ map digitChar (rev (digs 64 (Z.abs v) r))).
Proof.
  intros fuel v r Hf Hr Hv Hn. unfold toStringRadix.
  destruct (Z.ltb_spec r 1); [lia|]. destruct (Z.ltb_spec 36 r); [lia|]. simpl orb. cbv iota.
  destruct (Z.eqb_spec v 0) as [E0|_]; [lia|]. cbv zeta.
  assert (Ev : v = sg (v <? 0) (Z.abs v)).
  { unfold sg. destruct (Z.ltb_spec v 0); lia. }
  assert (Hm : 0 <= Z.abs v <= 2 ^ 63) by (unfold isLong in Hv; lia).
  set (m := Z.abs v) in *. set (ng := v <? 0) in *. clearbody m ng.
  rewrite Ev. rewrite (count_spec 64 m r ng) by (try apply length_bound; lia). simpl bind.
  pose proof (put_spec 64 m r ng) as P.
  set (n := length (digs 64 m r)) in *.
  assert (Hch : map chOf (digs 64 m r) = map digitChar (digs 64 m r)).
  { apply map_ext_in. intros d Hd. apply chOf_digit.
    pose proof (digs_range 64 m r ltac:(lia)) as R. unfold isDigits in R. rewrite Forall_forall in R.
    specialize (R d Hd). lia. }
  destruct ng.
  - replace (1 + Z.of_nat n - 1) with (Z.of_nat (S n) - 1) by lia.
    replace (Z.to_nat (1 + Z.of_nat n)) with (S n) by lia.
    rewrite <- (app_nil_r (repeat 0 (S n))).
    rewrite (P (S n) []) by (try apply length_bound; lia).
    replace (S n - n)%nat with 1%nat by lia. simpl bind. cbv iota.
    change (Z.of_nat 1 - 1) with (Z.of_nat (length (@nil Z))).
    change (repeat 0 1 ++ rev (map chOf (digs 64 m r)) ++ [])
      with ([] ++ 0 :: rev (map chOf (digs 64 m r)) ++ []).
    pose proof (store_mid [] (rev (map chOf (digs 64 m r)) ++ []) 0 minus) as Q.
    etransitivity; [exact Q|].
    rewrite app_nil_r, Hch, map_rev. reflexivity.
  - replace (0 + Z.of_nat n - 1) with (Z.of_nat n - 1) by lia.
    replace (Z.to_nat (0 + Z.of_nat n)) with n by lia.
    rewrite <- (app_nil_r (repeat 0 n)).
    rewrite (P n []) by (try apply length_bound; lia).
    rewrite Nat.sub_diag. simpl. rewrite app_nil_r, Hch, map_rev. reflexivity.
Qed.

Lemma toString_text : forall fuel v r, (64 < fuel)%nat -> 2 <= r <= 36 -> isLong v ->
  exists s, toStringRadix fuel v r = Ok s /\ isText r v s.
Proof.
  intros fuel v r Hf Hr Hv. destruct (Z.eq_dec v 0) as [->|Hn].
  - exists [48]. split.
    + unfold toStringRadix. destruct (Z.ltb_spec r 1); [lia|]. destruct (Z.ltb_spec 36 r); [lia|].
      reflexivity.
    + exists [0]. split; [reflexivity|]. split; [constructor; [lia|constructor]|].
      split; [discriminate|]. split; [reflexivity|]. reflexivity.
  - eexists. split; [apply toString_digs; auto|].
    exists (rev (digs 64 (Z.abs v) r)). split; [reflexivity|].
    assert (Hm : 0 < Z.abs v < r ^ Z.of_nat 64).
    { split; [lia|]. apply length_bound; unfold isLong in Hv; lia. }
    split. { unfold isDigits. apply Forall_rev. apply digs_range. lia. }
    destruct (digs_last 64 (Z.abs v) r) as [l [d [E Hd]]]; [lia|lia|].
    split. { rewrite E, rev_app_distr. discriminate. }
    split. { rewrite E, rev_app_distr. simpl. lia. }
    apply digs_value; lia.
Qed.

(** ** Parsing *)

Lemma digit_reads : forall c d r, readsAs c d -> 0 <= d < r -> r <= 36 -> digit c r = d.
Proof.
  intros c d r H Hd Hr. unfold digit, digitChar, readsAs, c0, c9, cA, cZ, ca, cz in *.
  destruct H as [->|[H ->]].
  - unfold digitChar. destruct (Z.ltb_spec d 10).
    + destruct (Z.leb_spec 48 (48 + d)); [|lia]. destruct (Z.leb_spec (48 + d) 57); [|lia].
      cbv zeta. simpl andb. cbv iota.
      destruct (Z.ltb_spec (48 + d - 48) 0); [lia|]. destruct (Z.ltb_spec (48 + d - 48) r); lia.
    + destruct (Z.leb_spec (97 + (d - 10)) 57); [lia|]. rewrite andb_false_r.
      destruct (Z.leb_spec 97 (97 + (d - 10))); [|lia]. destruct (Z.leb_spec (97 + (d - 10)) 122); [|lia].
      cbv zeta. simpl andb. cbv iota.
      destruct (Z.ltb_spec (97 + (d - 10) - 97 + 10) 0); [lia|].
      destruct (Z.ltb_spec (97 + (d - 10) - 97 + 10) r); lia.
  - destruct (Z.leb_spec (65 + (d - 10)) 57); [lia|]. rewrite andb_false_r.
    destruct (Z.leb_spec 97 (65 + (d - 10))); [lia|]. simpl andb. cbv iota.
    destruct (Z.leb_spec 65 (65 + (d - 10))); [|lia]. destruct (Z.leb_spec (65 + (d - 10)) 90); [|lia].
    cbv zeta. simpl andb. cbv iota.
    destruct (Z.ltb_spec (65 + (d - 10) - 65 + 10) 0); [lia|].
    destruct (Z.ltb_spec (65 + (d - 10) - 65 + 10) r); lia.
Qed.

Lemma digit_only : forall c r, 0 <= digit c r -> exists d, readsAs c d /\ 0 <= d < r /\ digit c r = d.
Proof.
  intros c r. unfold digit, readsAs, digitChar, c0, c9, cA, cZ, ca, cz.
  destruct (Z.leb_spec 48 c), (Z.leb_spec c 57); simpl andb; cbv iota zeta.
  1: { destruct (Z.ltb_spec (c - 48) 0); [lia|]. destruct (Z.ltb_spec (c - 48) r); [|lia].
       intros _. exists (c - 48). destruct (Z.ltb_spec (c - 48) 10); lia. }
  all: destruct (Z.leb_spec 97 c), (Z.leb_spec c 122); simpl andb; cbv iota zeta; try lia.
  all: try (destruct (Z.ltb_spec (c - 97 + 10) 0); [lia|]; destruct (Z.ltb_spec (c - 97 + 10) r); [|lia];
       intros _; exists (c - 97 + 10); destruct (Z.ltb_spec (c - 97 + 10) 10); lia).
  all: destruct (Z.leb_spec 65 c), (Z.leb_spec c 90); simpl andb; cbv iota zeta; try lia.
  all: try (destruct (Z.ltb_spec (c - 65 + 10) 0); [lia|]; destruct (Z.ltb_spec (c - 65 + 10) r); [|lia];
       intros _; exists (c - 65 + 10); split; [right; lia|lia]).
  all: destruct (Z.ltb_spec (-1) 0); lia.
Qed.

Lemma valueOf_cons : forall r ds a,
  fold_left (fun a d => a * r + d) ds a = a * r ^ Z.of_nat (length ds) + valueOf r ds.
Proof.
  intros r ds. unfold valueOf. induction ds as [|d ds IH]; intro a.
  - simpl. change (r ^ Z.of_nat 0) with 1. lia.
  - simpl fold_left. rewrite IH, (IH (0 * r + d)). simpl length. rewrite pow_S. lia.
Qed.

Lemma valueOf_bound : forall r ds, 2 <= r -> isDigits r ds -> 0 <= valueOf r ds < r ^ Z.of_nat (length ds).
Proof.
  intros r ds Hr. induction ds as [|d ds IH]; intro H.
  - unfold valueOf. simpl. change (r ^ Z.of_nat 0) with 1. lia.
  - inversion H; subst. specialize (IH H3). unfold valueOf. simpl fold_left. rewrite valueOf_cons.
    simpl length. rewrite pow_S. nia.
Qed.

(** The loop, when the factor has not overflowed. *)
Lemma parseDigits_ok : forall cs ds r number factor, Forall2 readsAs cs ds -> 2 <= r <= 36 ->
  isDigits r ds -> factor = r ^ (Z.of_nat (length ds) - 1) \/ ds = [] ->
  r ^ (Z.of_nat (length ds) - 1) < 2 ^ 63 ->
  parseDigits cs r number factor =
    Ok (match ds with [] => number | _ => wrap64 (number + valueOf r ds) end).
Proof.
  intros cs ds r number factor H. revert number factor.
  induction H as [|c d cs ds Hc H IH]; intros number factor Hr Hd Hf Hb; [reflexivity|].
  inversion Hd as [|? ? Hd1 Hd2]; subst. destruct Hf as [->|Hf]; [|discriminate].
  cbn [parseDigits]. cbv zeta. rewrite (digit_reads c d r Hc) by lia.
  destruct (Z.leb_spec 0 d); [|lia].
  replace (Z.of_nat (length (d :: ds)) - 1) with (Z.of_nat (length ds)) in * by (simpl length; lia).
  destruct ds as [|d2 ds].
  - inversion H; subst. simpl. change (r ^ Z.of_nat 0) with 1. f_equal.
    rewrite wrap64_addr. f_equal. unfold valueOf. simpl. lia.
  - assert (Hq : Z.quot (r ^ Z.of_nat (length (d2 :: ds))) r = r ^ Z.of_nat (length ds)).
    { simpl length. rewrite pow_S, Z.mul_comm. apply Z.quot_mul. lia. }
    rewrite Hq.
    assert (Hp : 0 < r ^ Z.of_nat (length ds) < 2 ^ 63).
    { simpl length in Hb. rewrite pow_S in Hb. pose proof (pow_pos r (length ds)). nia. }
    rewrite (wrap64_id (r ^ Z.of_nat (length ds))) by (unfold isLong; lia).
    replace (Z.of_nat (length (d2 :: ds)) - 1) with (Z.of_nat (length ds)) in IH by (simpl length; lia).
    rewrite IH; [|lia|exact Hd2|auto|lia].
    f_equal. rewrite wrap64_add.
    replace (number + wrap64 (d * r ^ Z.of_nat (length (d2 :: ds))) + valueOf r (d2 :: ds))
      with (number + valueOf r (d2 :: ds) + wrap64 (d * r ^ Z.of_nat (length (d2 :: ds)))) by lia.
    rewrite wrap64_addr. f_equal.
    assert (valueOf r (d :: d2 :: ds) = d * r ^ Z.of_nat (length (d2 :: ds)) + valueOf r (d2 :: ds)).
    { unfold valueOf at 1. change (fold_left (fun a d => a * r + d) (d :: d2 :: ds) 0)
        with (fold_left (fun a d => a * r + d) (d2 :: ds) (0 * r + d)).
      rewrite valueOf_cons. lia. }
    lia.
Qed.

Lemma pow_ok : forall r n c, 0 <= c -> 2 <= r -> c * r ^ Z.of_nat n < 2 ^ 63 ->
  pow r n c = c * r ^ Z.of_nat n.
Proof.
  intros r n. induction n as [|n IH]; intros c Hc Hr H; simpl.
  - change (r ^ Z.of_nat 0) with 1. lia.
  - rewrite pow_S in H. pose proof (pow_pos r n Hr).
    rewrite wrap64_id.
    + rewrite IH; [|nia|lia|]; rewrite ?pow_S; nia.
    + unfold isLong. nia.
Qed.

Lemma reads_not_minus : forall c d, readsAs c d -> 0 <= d -> c <> minus.
Proof.
  intros c d H Hd. unfold readsAs, digitChar, minus in *. destruct H as [->|[H ->]]; [|lia].
  destruct (Z.ltb_spec d 10); lia.
Qed.

Lemma parse_numeral : forall s r (neg : bool) ds cs, s = (if neg then [45] else []) ++ cs ->
  Forall2 readsAs cs ds -> ds <> [] -> isDigits r ds -> 2 <= r <= 36 ->
  r ^ (Z.of_nat (length ds) - 1) < 2 ^ 63 ->
  parseLong s r = Ok (wrap64 (if neg then - valueOf r ds else valueOf r ds)).
Proof.
  intros s r neg ds cs -> H Hne Hd Hr Hb. unfold parseLong.
  assert (E : (match (if neg then [45] else []) ++ cs with c :: _ => c =? minus | [] => false end) = neg).
  { destruct neg; [reflexivity|]. simpl. destruct H as [|c d cs ds Hc H]; [reflexivity|].
    inversion Hd; subst. apply Z.eqb_neq. eapply reads_not_minus; eauto. lia. }
  rewrite E.
  replace (if neg then tl ((if neg then [45] else []) ++ cs) else (if neg then [45] else []) ++ cs)
    with cs by (destruct neg; reflexivity).
  cbv zeta.
  assert (L : length cs = length ds) by (clear - H; induction H; simpl; congruence).
  assert (Hl : (0 < length ds)%nat) by (destruct ds; [congruence|simpl; lia]).
  rewrite pow_ok; [|lia|lia|].
  - rewrite (parseDigits_ok cs ds r 0 (1 * _)); auto.
    + simpl bind. destruct ds as [|d ds]; [congruence|]. rewrite Z.add_0_l.
      destruct neg; [rewrite wrap64_opp; reflexivity|reflexivity].
    + left. rewrite L, Z2Nat.id by lia. lia.
  - rewrite L, Z2Nat.id by lia. lia.
Qed.

Lemma text_round : forall v r, 2 <= r <= 36 -> isLong v -> v <> - 2 ^ 63 ->
  forall s, isText r v s -> parseLong s r = Ok v.
Proof.
  intros v r Hr Hv Hm s [ds [-> [Hd [Hne [Hh Hval]]]]].
  assert (HF : Forall2 readsAs (map digitChar ds) ds).
  { clear. induction ds; simpl; constructor; auto. left. reflexivity. }
  assert (Hb : r ^ (Z.of_nat (length ds) - 1) < 2 ^ 63).
  { destruct ds as [|d ds]; [congruence|].
    replace (Z.of_nat (length (d :: ds)) - 1) with (Z.of_nat (length ds)) by (simpl length; lia).
    destruct (Z.eq_dec d 0) as [->|Hd0].
    - specialize (Hh eq_refl). inversion Hh. simpl length. reflexivity.
    - inversion Hd; subst. unfold valueOf in Hval. simpl fold_left in Hval.
      rewrite valueOf_cons in Hval. pose proof (valueOf_bound r ds ltac:(lia) H2).
      pose proof (pow_pos r (length ds) ltac:(lia)). unfold isLong in Hv. nia. }
  rewrite (parse_numeral _ r (v <? 0) ds (map digitChar ds) eq_refl HF Hne Hd Hr Hb).
  rewrite Hval. f_equal. rewrite wrap64_id; destruct (Z.ltb_spec v 0); unfold isLong in *; lia.
Qed.

Lemma min_round : forall r, 2 <= r <= 36 -> forall s,
  toStringRadix 65 (- 2 ^ 63) r = Ok s -> parseLong s r = Ok (- 2 ^ 63).
Proof.
  intros r Hr s H.
  assert (A : forallb (fun k => match toStringRadix 65 (- 2 ^ 63) (Z.of_nat k) with
      | Ok s => match parseLong s (Z.of_nat k) with Ok z => z =? - 2 ^ 63 | _ => false end
      | _ => false end) (seq 2 35) = true) by (vm_compute; reflexivity).
  rewrite forallb_forall in A. specialize (A (Z.to_nat r)).
  rewrite Z2Nat.id in A by lia. rewrite H in A.
  assert (I : In (Z.to_nat r) (seq 2 35)) by (apply in_seq; lia).
  specialize (A I). destruct (parseLong s r) as [z| | |]; try discriminate.
  apply Z.eqb_eq in A. congruence.
Qed.

Lemma toString_round : forall fuel v r s, (64 < fuel)%nat -> 2 <= r <= 36 -> isLong v ->
  toStringRadix fuel v r = Ok s -> parseLong s r = Ok v.
Proof.
  intros fuel v r s Hf Hr Hv H. destruct (Z.eq_dec v (- 2 ^ 63)) as [->|Hm].
  - apply min_round; [exact Hr|]. rewrite <- H.
    rewrite (toString_digs 65), (toString_digs fuel) by (unfold isLong; lia). reflexivity.
  - destruct (toString_text fuel v r Hf Hr Hv) as [s' [E T]]. rewrite H in E. inversion E; subst.
    eapply text_round; eauto.
Qed.

(** a character that is no digit anywhere is refused *)
Lemma parseDigits_reject : forall cs r n f c, In c cs -> digit c r < 0 ->
  parseDigits cs r n f = Abort.
Proof.
  induction cs as [|x cs IH]; intros r n f c H Hd; [destruct H|].
  cbn [parseDigits]. cbv zeta. destruct (Z.leb_spec 0 (digit x r)); [|reflexivity].
  destruct H as [->|H]; [lia|]. eapply IH; eauto.
Qed.
