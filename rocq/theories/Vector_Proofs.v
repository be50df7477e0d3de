From Coq Require Import List ZArith Bool Lia.
From Verif Require Import Zone_Model Vector_Model Vector_Spec.
Import ListNotations.
Local Open Scope nat_scope.
Local Arguments Z.add : simpl never.
Local Arguments Z.mul : simpl never.

(** The vector holds the bytes [l]. *)
Definition holds (v : vector) (l : list Z) : Prop :=
  position v = length l /\ (0 < minimumCapacity v)%Z /\ match data v with Some d => firstn (length l) d = l /\ length l <= length d /\ (Z.of_nat (length d) < 2 ^ 32)%Z | None => l = [] end.

Lemma raw_len : forall j n, length (raw j n) = n.
Proof. intros. unfold raw. rewrite map_length, seq_length. auto. Qed.
Lemma u32_nat : forall n, (Z.of_nat n < 2 ^ 32)%Z -> u32 (Z.of_nat n) = Z.of_nat n.
Proof. intros. unfold u32. apply Z.mod_small. lia. Qed.
Lemma resize_ok : forall j d n, length d <= n -> (Z.of_nat n < 2 ^ 32)%Z -> resize j d n = d ++ skipn (length d) (raw j n).
Proof.
  intros j d n H Hn. unfold resize. rewrite !u32_nat by lia. rewrite Z.min_l by lia. rewrite Nat2Z.id. rewrite firstn_all. auto.
Qed.
Lemma umax_small : forall a b, (0 <= a < 2 ^ 32)%Z -> (a <= umax a b < 2 ^ 32)%Z.
Proof. intros a b H. unfold umax. assert (u32 a = a) by (apply Z.mod_small; auto). assert (0 <= u32 b < 2^32)%Z by (apply Z.mod_pos_bound; lia). lia. Qed.
Lemma ensure_ok : forall j v l n, holds v l -> (Z.of_nat (length l + n) < 2 ^ 32)%Z ->
  exists v', ensure j n v = Ok v' /\ holds v' l /\ length l + n <= count v'.
Proof.
  intros j v l n (Hp & Hm & Hd) Hn. unfold ensure, count. rewrite Hp. destruct (Nat.ltb_spec (match data v with Some d => length d | None => 0 end) (length l + n)) as [H|H].
  2:{ exists v. split; auto. split; auto. unfold holds. auto. }
  rewrite (proj2 (Z.ltb_lt _ _) Hm). eexists. split; [reflexivity|]. set (m := umax _ _). assert (Hu : (Z.of_nat (length l + n) <= m < 2 ^ 32)%Z) by (apply umax_small; lia).
  set (k := Z.to_nat m). assert (Hk : length l + n <= k /\ (Z.of_nat k < 2 ^ 32)%Z) by (unfold k; lia). unfold holds. cbn [position minimumCapacity data].
  destruct (data v) as [d|].
  - destruct Hd as (A & B & C). rewrite resize_ok by lia. assert (L : length (d ++ skipn (length d) (raw j k)) = k) by (rewrite app_length, skipn_length, raw_len; lia).
    rewrite L. repeat split; auto; try lia. rewrite firstn_app. replace (length l - length d) with 0 by lia. cbn [firstn]. rewrite app_nil_r. auto.
  - subst l. rewrite raw_len. cbn in *. repeat split; auto; lia.
Qed.
Lemma write_ok : forall v d off bs, data v = Some d -> off + length bs <= length d -> write off bs v = Ok (V (Some (firstn off d ++ bs ++ skipn (off + length bs) d)) (position v) (minimumCapacity v)).
Proof. intros v d off bs E H. unfold write. rewrite E. rewrite (proj2 (Nat.leb_le _ _)) by auto. auto. Qed.
Lemma firstn_pre : forall {A} (a b : list A), firstn (length a) (a ++ b) = a.
Proof. intros. rewrite firstn_app, Nat.sub_diag, firstn_all. cbn. apply app_nil_r. Qed.
Lemma append_ok : forall j v l bs, holds v l -> (Z.of_nat (length l + length bs) < 2 ^ 32)%Z -> exists v', append j bs v = Ok (length l, v') /\ holds v' (l ++ bs).
Proof.
  intros j v l bs H Hn. destruct (ensure_ok j v l (length bs) H Hn) as (v1 & E & (Hp & Hm & Hd) & Hc). unfold append. rewrite E. cbn [bind]. unfold count in Hc.
  destruct (data v1) as [d|] eqn:D.
  - destruct Hd as (A & B & C). rewrite (write_ok _ d); auto. 2: lia. cbn [bind]. eexists. rewrite Hp. split; [reflexivity|]. unfold holds. cbn [position minimumCapacity data].
    rewrite app_length. repeat split; auto; try lia.
    + rewrite A. rewrite app_assoc. rewrite <- app_length. apply firstn_pre.
    + rewrite !app_length, firstn_length, skipn_length. lia.
    + rewrite !app_length, firstn_length, skipn_length. lia.
  - subst l. cbn in Hc. destruct bs; cbn in Hc; [|lia]. unfold write. cbn. eexists. rewrite Hp. split; [reflexivity|]. unfold holds. cbn. auto.
Qed.
Lemma firstn_sub : forall (l d : list Z) off n, firstn (length l) d = l -> off + n <= length l -> firstn n (skipn off d) = firstn n (skipn off l).
Proof.
  intros l d off n H Hn. rewrite <- H. rewrite skipn_firstn_comm, firstn_firstn. f_equal. lia.
Qed.
Lemma get_ok : forall v l off n, holds v l -> get off n v = if off + n <=? length l then Ok (firstn n (skipn off l)) else Abort.
Proof.
  intros v l off n (Hp & Hm & Hd). unfold get. rewrite Hp. destruct (Nat.leb_spec (off + n) (length l)); auto. destruct (data v) as [d|].
  - destruct Hd as (A & B & C). rewrite (proj2 (Nat.leb_le _ _)) by lia. f_equal. apply firstn_sub; auto.
  - subst. cbn in *. assert (n = 0) by lia. subst. auto.
Qed.
Lemma set_ok : forall v l off bs, holds v l -> if off + length bs <=? length l
  then exists v', set off bs v = Ok v' /\ holds v' (firstn off l ++ bs ++ skipn (off + length bs) l) else set off bs v = Abort.
Proof.
  intros v l off bs (Hp & Hm & Hd). unfold set. rewrite Hp. destruct (Nat.leb_spec (off + length bs) (length l)); auto. destruct (data v) as [d|] eqn:D.
  - destruct Hd as (A & B & C). rewrite (write_ok _ d); auto; [|lia]. eexists. split; [reflexivity|]. unfold holds. cbn [position minimumCapacity data].
    assert (Ll : length (firstn off l ++ bs ++ skipn (off + length bs) l) = length l) by (rewrite !app_length, firstn_length, skipn_length; lia).
    assert (Ld : length (firstn off d ++ bs ++ skipn (off + length bs) d) = length d) by (rewrite !app_length, firstn_length, skipn_length; lia).
    rewrite Ll, Ld. repeat split; auto. rewrite firstn_app, firstn_length, firstn_firstn. rewrite (Nat.min_l off (length d)), (Nat.min_r (length l) off) by lia.
    rewrite firstn_app, (firstn_all2 bs) by lia.
    assert (E1 : firstn off l = firstn off d) by (rewrite <- A, firstn_firstn; f_equal; lia).
    assert (E2 : skipn (off + length bs) l = firstn (length l - (off + length bs)) (skipn (off + length bs) d)) by (rewrite <- A at 1; rewrite skipn_firstn_comm; auto).
    rewrite E1, E2. replace (length l - off - length bs) with (length l - (off + length bs)) by lia. auto.
  - subst. cbn in *. assert (bs = []) by (destruct bs; auto; cbn in *; lia). subst. cbn in *. assert (off = 0) by lia. subst. unfold write. rewrite D. cbn. exists v. split; auto. unfold holds. rewrite D. auto.
Qed.
Lemma pop_ok : forall v l n, holds v l -> if n <=? length l then exists v', pop n v = Ok (skipn (length l - n) l, v') /\ holds v' (firstn (length l - n) l) else pop n v = Abort.
Proof.
  intros v l n H. unfold pop. assert (H' := H). destruct H' as (Hp & Hm & Hd). rewrite Hp. destruct (Nat.leb_spec n (length l)); auto.
  rewrite (get_ok v l) by auto. rewrite (proj2 (Nat.leb_le _ _)) by lia. cbn [bind]. rewrite (firstn_all2 (skipn (length l - n) l)) by (rewrite skipn_length; lia). eexists. split.
  - reflexivity.
  - unfold holds. cbn [position minimumCapacity data]. rewrite firstn_length, Nat.min_l by lia. repeat split; auto. destruct (data v) as [d|].
    + destruct Hd as (A & B & C). repeat split; auto; try lia. transitivity (firstn (length l - n) (firstn (length l) d)); [rewrite firstn_firstn; f_equal; lia|rewrite A; auto].
    + subst. auto.
Qed.
Lemma step_ok : forall j o v l, holds v l -> (match spec o l with Some (_, l') => Z.of_nat (length l') < 2 ^ 32 | None => True end)%Z ->
  match spec o l with Some (r, l') => exists v', step j o v = Ok (r, v') /\ holds v' l' | None => step j o v = Abort end.
Proof.
  intros j o v l H Hl. destruct o; cbn [spec step] in *.
  - rewrite app_length in Hl. destruct (append_ok j v l bs H Hl) as (v' & E & H'). rewrite E. cbn. eauto.
  - pose proof (set_ok v l off bs H) as X. destruct (_ <=? _). destruct X as (v' & E & H'). rewrite E. cbn. eauto. rewrite X. auto.
  - rewrite (get_ok v l) by auto. destruct (_ <=? _); cbn; eauto.
  - pose proof (pop_ok v l n H) as X. destruct (_ <=? _). destruct X as (v' & E & H'). rewrite E. cbn. eauto. rewrite X. auto.
Qed.
Lemma peak_le : forall os l, length l <= peak os l.
Proof. destruct os; cbn; intros; lia. Qed.
Theorem run_ok : forall j os k v l, holds v l -> (Z.of_nat (peak os l) < 2 ^ 32)%Z ->
  match specs os l with Some (rs, l') => exists v', run j k os v = Ok (rs, v') /\ holds v' l' | None => run j k os v = Abort end.
Proof.
  intros j. induction os as [|o os IH]; intros k v l H Hp; cbn [specs run peak] in *.
  - eauto.
  - pose proof (step_ok (j k) o v l H) as X. destruct (spec o l) as [[r l']|].
    + pose proof (peak_le os l'). destruct X as (v' & E & H'). lia. rewrite E. cbn [bind fst snd]. specialize (IH (S k) v' l' H' ltac:(lia)).
      destruct (specs os l') as [[rs l'']|]. destruct IH as (v2 & E2 & H2). rewrite E2. cbn. eauto. rewrite IH. auto.
    + rewrite X by auto. auto.
Qed.
Lemma create_ok : forall mc, (0 < mc)%Z -> holds (create mc) [].
Proof. intros. unfold holds. cbn. auto. Qed.
Lemma bytes_len : forall n x, length (bytes n x) = n.
Proof. induction n; intros; cbn; auto. Qed.
Lemma value_bytes : forall n x, (0 <= x < 256 ^ Z.of_nat n)%Z -> value (bytes n x) = x.
Proof.
  induction n as [|n IH]; intros x H. cbn in *. lia. cbn [bytes value]. rewrite IH. rewrite Z.add_comm. symmetry. apply Z.div_mod. lia.
  rewrite Nat2Z.inj_succ, Z.pow_succ_r in H by lia. split. apply Z.div_pos; lia. apply Z.div_lt_upper_bound; lia.
Qed.
