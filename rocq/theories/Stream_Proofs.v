From Verif Require Import Base Res Bits Stream_Model Stream_Spec.
Local Open Scope N_scope.

(** Running the model on a sequence of operations; an operation reports an error when it
    increases the number of handleError calls. *)
Definition m_op (saved : list N) (s : stream) (o : sop) : res (list N * stream) :=
  let num r := bind r (fun p : N * stream => Ok ([fst p], snd p)) in
  match o with
  | Skip n => Ok ([], skip s n)
  | Read n => read s n
  | Read1 => num (read1 s)
  | Read2 => num (read2 s)
  | Read4 => num (read4 s)
  | Read8 => num (read8 s)
  | Tell => Ok ([position s], s)
  | Seek k => Ok ([], setPosition s (nth k saved 0))
  end.
Fixpoint m_run (saved : list N) (s : stream) (ops : list sop) : res (list (list N * bool) * N) :=
  match ops with
  | [] => Ok ([], position s)
  | o :: r =>
      bind (m_op saved s o) (fun vs =>
      bind (m_run (saves o saved (position s)) (snd vs) r) (fun rest =>
      Ok ((fst vs, errors s <? errors (snd vs)) :: fst rest, snd rest)))
  end.

Definition good (s : stream) : Prop :=
  ssize s = N.of_nat (length (data s)) /\ ssize s < 2 ^ 32 /\ position s <= ssize s
  /\ Forall (fun b => b < 256) (data s).

Lemma sub32_ok : forall a b, b <= a -> a < 2 ^ 32 -> sub32 a b = a - b.
Proof. intros a b H1 H2. unfold sub32. change (2 ^ 32) with 4294967296 in *. lia. Qed.

Definition after (s : stream) (n : N) : stream :=
  if fits (data s) (position s) n then withPos s (position s + n) else handleError s.

Lemma read_ok : forall s n, good s -> n < 2 ^ 32 ->
  read s n = Ok ((if fits (data s) (position s) n then padded (data s) (position s) n else repeat 0 (N.to_nat n)), after s n).
Proof.
  intros s n (H1 & H2 & H3 & H4) Hn. unfold read, after, fits. rewrite sub32_ok by assumption.
  destruct (position s + n <=? N.of_nat (length (data s))) eqn:E.
  - replace (ssize s - position s <? n) with false by lia. unfold copy. rewrite E. cbn [bind]. f_equal. f_equal.
    + unfold padded. rewrite firstn_length, skipn_length.
      replace (N.to_nat n - Nat.min (N.to_nat n) (length (data s) - N.to_nat (position s)))%nat with 0%nat by lia.
      cbn [repeat]. rewrite app_nil_r. reflexivity.
    + f_equal. unfold add32. apply N.mod_small. lia.
  - replace (ssize s - position s <? n) with true by lia. reflexivity.
Qed.

Lemma skip_ok : forall s n, good s -> n < 2 ^ 32 -> skip s n = after s n.
Proof.
  intros s n (H1 & H2 & H3 & H4) Hn. unfold skip, after, fits. rewrite sub32_ok by assumption.
  destruct (position s + n <=? N.of_nat (length (data s))) eqn:E.
  - replace (ssize s - position s <? n) with false by lia. f_equal. unfold add32. apply N.mod_small. lia.
  - replace (ssize s - position s <? n) with true by lia. reflexivity.
Qed.

Lemma after_good : forall s n, good s -> good (after s n).
Proof.
  intros s n (H1 & H2 & H3 & H4). unfold after, fits. destruct (_ <=? _) eqn:E; unfold good; cbn; repeat split; auto. lia.
Qed.

(** A numeric read of [w] bytes from [s]: value, position and errors. *)
Definition num_post (s : stream) (w : N) (v : N) (s' : stream) : Prop :=
  v = bigEndian (padded (data s) (position s) w) /\ v < 256 ^ w
  /\ data s' = data s /\ good s'
  /\ position s' = N.min (position s + w) (N.of_nat (length (data s)))
  /\ errors s <= errors s' /\ (errors s <? errors s') = negb (fits (data s) (position s) w).

Lemma bigEndian_app_gen : forall l acc, fold_left (fun acc b => acc * 256 + b) l acc
  = acc * 256 ^ N.of_nat (length l) + bigEndian l.
Proof.
  unfold bigEndian. induction l as [|b l IH]; intros acc; cbn [fold_left length].
  - change (N.of_nat 0) with 0. rewrite N.pow_0_r. lia.
  - rewrite IH, (IH (0 * 256 + b)), Nat2N.inj_succ, N.pow_succ_r'. lia.
Qed.
Lemma bigEndian_app : forall a b, bigEndian (a ++ b) = bigEndian a * 256 ^ N.of_nat (length b) + bigEndian b.
Proof. intros a b. unfold bigEndian at 1. rewrite fold_left_app, bigEndian_app_gen. reflexivity. Qed.

Lemma padded_length : forall d p n, length (padded d p n) = N.to_nat n.
Proof.
  intros d p n. unfold padded. rewrite app_length, repeat_length, firstn_length. lia.
Qed.

Lemma skipn_skipn' : forall {A} (l : list A) a b, skipn a (skipn b l) = skipn (b + a) l.
Proof. intros A l a b. revert l. induction b as [|b IH]; intros l; [reflexivity|]. destruct l; cbn; [destruct a; reflexivity|apply IH]. Qed.

Lemma firstn_add : forall {A} (l : list A) a b, firstn (a + b) l = firstn a l ++ firstn b (skipn a l).
Proof.
  intros A l a. revert l. induction a as [|a IH]; intros l b; [reflexivity|]. destruct l; cbn; [destruct b; reflexivity|].
  f_equal. apply IH.
Qed.

(** Two consecutive padded reads are one. *)
Lemma padded_split : forall d p a b, p <= N.of_nat (length d) ->
  padded d p (a + b) = padded d p a ++ padded d (N.min (p + a) (N.of_nat (length d))) b.
Proof.
  intros d p a b Hp. unfold padded.
  set (l := skipn (N.to_nat p) d).
  assert (Hl : length l = (length d - N.to_nat p)%nat) by (unfold l; apply skipn_length).
  rewrite N2Nat.inj_add, firstn_add.
  destruct (N.le_gt_cases (p + a) (N.of_nat (length d))) as [H|H].
  - rewrite N.min_l by assumption.
    replace (skipn (N.to_nat (p + a)) d) with (skipn (N.to_nat a) l) by (unfold l; rewrite skipn_skipn'; f_equal; lia).
    rewrite !app_length, !firstn_length, !skipn_length.
    replace (N.to_nat a - Nat.min (N.to_nat a) (length l))%nat with 0%nat by lia. cbn [repeat]. rewrite app_nil_r, <- app_assoc.
    do 3 f_equal. lia.
  - rewrite N.min_r by lia. rewrite Nat2N.id, skipn_all, firstn_nil. cbn [length app].
    rewrite (skipn_all2 l) by lia. rewrite firstn_nil, app_nil_r.
    rewrite <- app_assoc, <- repeat_app. f_equal. f_equal. rewrite firstn_length. lia.
Qed.

Lemma read1_ok : forall s, good s -> exists v s', read1 s = Ok (v, s') /\ num_post s 1 v s'.
Proof.
  intros s Hg. unfold read1. rewrite read_ok by (try assumption; reflexivity). cbn [bind fst snd].
  exists (hd 0 (padded (data s) (position s) 1)), (after s 1).
  pose proof (after_good s 1 Hg) as Hg'. destruct Hg as (H1 & H2 & H3 & H4).
  assert (Hp : exists b, padded (data s) (position s) 1 = [b] /\ b < 256 /\ (fits (data s) (position s) 1 = false -> b = 0)).
  { unfold padded. destruct (skipn (N.to_nat (position s)) (data s)) as [|b l] eqn:E.
    - exists 0. split; [reflexivity|]. split; [reflexivity|auto].
    - exists b. split; [reflexivity|]. split.
      + rewrite Forall_forall in H4. apply H4. rewrite <- (firstn_skipn (N.to_nat (position s))), E. apply in_or_app. right. left. reflexivity.
      + unfold fits. intros Hf. apply (f_equal (@length N)) in E. rewrite skipn_length in E. cbn in E. lia. }
  destruct Hp as (b & Eb & Hb & Hz). split.
  - do 2 f_equal. destruct (fits (data s) (position s) 1) eqn:E; [reflexivity|]. rewrite Eb, Hz by reflexivity. reflexivity.
  - unfold num_post. rewrite Eb. cbn [hd]. split; [unfold bigEndian; cbn [fold_left]; lia|]. split; [exact Hb|].
    unfold after, fits in *. destruct (position s + 1 <=? N.of_nat (length (data s))) eqn:E; cbn in *; repeat split; auto; try lia; apply Hg'.
Qed.

Lemma combine_ok : forall (f : stream -> res (N * stream)) w, 0 < w ->
  (forall s, good s -> exists v s', f s = Ok (v, s') /\ num_post s w v s') ->
  forall s, good s -> exists v s',
    bind (f s) (fun a => bind (f (snd a)) (fun b => Ok (N.lor (N.shiftl (fst a) (8 * w)) (fst b) mod 2 ^ (2 * (8 * w)), snd b)))
    = Ok (v, s') /\ num_post s (w + w) v s'.
Proof.
  intros f w Hw IH s Hg. destruct (IH s Hg) as (a & s1 & E1 & Ha & Hab & Hd1 & Hg1 & Hp1 & Hl1 & He1). rewrite E1. cbn [bind fst snd].
  destruct (IH s1 Hg1) as (b & s2 & E2 & Hb & Hbb & Hd2 & Hg2 & Hp2 & Hl2 & He2). rewrite E2. cbn [bind fst snd].
  eexists _, s2. split; [reflexivity|]. destruct Hg as (H1 & H2 & H3 & H4).
  assert (Hpow : 256 ^ w = 2 ^ (8 * w)) by (rewrite N.pow_mul_r; reflexivity).
  assert (Hpow2 : 256 ^ (w + w) = 256 ^ w * 256 ^ w) by apply N.pow_add_r.
  rewrite Hpow in *.
  assert (Hv : N.lor (N.shiftl a (8 * w)) b mod 2 ^ (2 * (8 * w)) = a * 2 ^ (8 * w) + b).
  { rewrite N.shiftl_mul_pow2, lor_disjoint by assumption. apply N.mod_small.
    replace (2 * (8 * w)) with (8 * w + 8 * w) by lia. rewrite N.pow_add_r.
    set (P := 2 ^ (8 * w)) in *. assert (P * a + P <= P * P); [|lia]. rewrite <- N.mul_succ_r. apply N.mul_le_mono_l. lia. }
  unfold num_post. rewrite Hv, Hpow2.
  rewrite Hd1 in *. split; [|split; [|split; [|split; [|split; [|split]]]]].
  - rewrite padded_split by lia. rewrite bigEndian_app, padded_length, N2Nat.id, <- Ha, Hpow, <- Hp1, <- Hb. reflexivity.
  - set (P := 2 ^ (8 * w)) in *. assert (P * a + P <= P * P); [|lia]. rewrite <- N.mul_succ_r. apply N.mul_le_mono_l. lia.
  - congruence.
  - assumption.
  - rewrite Hp2, Hp1. lia.
  - lia.
  - unfold fits in *. rewrite Hp1 in He2. lia.
Qed.

Lemma read2_ok : forall s, good s -> exists v s', read2 s = Ok (v, s') /\ num_post s 2 v s'.
Proof. exact (combine_ok read1 1 eq_refl read1_ok). Qed.
Lemma read4_ok : forall s, good s -> exists v s', read4 s = Ok (v, s') /\ num_post s 4 v s'.
Proof. exact (combine_ok read2 2 eq_refl read2_ok). Qed.
Lemma read8_ok : forall s, good s -> exists v s', read8 s = Ok (v, s') /\ num_post s 8 v s'.
Proof. exact (combine_ok read4 4 eq_refl read4_ok). Qed.

Lemma op_ok : forall saved s o, good s -> Forall (fun p => p <= ssize s) saved -> sop_ok o ->
  exists v s', m_op saved s o = Ok (v, s') /\ data s' = data s /\ good s'
    /\ spec_op (data s) saved (position s) o = (v, position s', errors s <? errors s').
Proof.
  intros saved s o Hg Hs Ho. destruct o; cbn [m_op spec_op sop_ok] in *.
  - exists [], (skip s n). rewrite skip_ok by assumption. pose proof (after_good s n Hg). unfold after in *.
    destruct (fits (data s) (position s) n); repeat split; auto; try apply H; cbn; f_equal; lia.
  - rewrite read_ok by assumption. eexists _, _. split; [reflexivity|]. pose proof (after_good s n Hg). unfold after in *.
    destruct (fits (data s) (position s) n); repeat split; auto; try apply H; cbn; f_equal; lia.
  - destruct (read1_ok s Hg) as (v & s' & E & P). rewrite E. cbn [bind fst snd]. exists [v], s'.
    destruct P as (-> & _ & Hd & Hg' & Hp & _ & He). repeat split; auto; try apply Hg'. unfold spec_num. rewrite Hp, He. reflexivity.
  - destruct (read2_ok s Hg) as (v & s' & E & P). rewrite E. cbn [bind fst snd]. exists [v], s'.
    destruct P as (-> & _ & Hd & Hg' & Hp & _ & He). repeat split; auto; try apply Hg'. unfold spec_num. rewrite Hp, He. reflexivity.
  - destruct (read4_ok s Hg) as (v & s' & E & P). rewrite E. cbn [bind fst snd]. exists [v], s'.
    destruct P as (-> & _ & Hd & Hg' & Hp & _ & He). repeat split; auto; try apply Hg'. unfold spec_num. rewrite Hp, He. reflexivity.
  - destruct (read8_ok s Hg) as (v & s' & E & P). rewrite E. cbn [bind fst snd]. exists [v], s'.
    destruct P as (-> & _ & Hd & Hg' & Hp & _ & He). repeat split; auto; try apply Hg'. unfold spec_num. rewrite Hp, He. reflexivity.
  - exists [position s], s. repeat split; auto; try apply Hg. f_equal. lia.
  - exists [], (setPosition s (nth k saved 0)). split; [reflexivity|]. split; [reflexivity|]. split.
    + destruct Hg as (H1 & H2 & H3 & H4). repeat split; auto. cbn.
      destruct (nth_in_or_default k saved 0) as [Hin| ->]; [rewrite Forall_forall in Hs; apply Hs; assumption|lia].
    + cbn. f_equal. lia.
Qed.

Lemma run_ok : forall ops saved s, good s -> Forall (fun p => p <= ssize s) saved -> Forall sop_ok ops ->
  m_run saved s ops = Ok (spec_run (data s) saved (position s) ops).
Proof.
  induction ops as [|o ops IH]; intros saved s Hg Hs Hall; [reflexivity|]. inversion Hall; subst. cbn [m_run spec_run].
  destruct (op_ok saved s o Hg Hs) as (v & s' & E & Hd & Hg' & Hsp); [assumption|]. rewrite E, Hsp. cbn [bind fst snd].
  assert (Hsz : ssize s' = ssize s) by (destruct Hg as (-> & _), Hg' as (-> & _); congruence).
  rewrite IH; [|assumption| |assumption].
  - cbn [bind fst snd]. rewrite Hd. destruct (spec_run (data s) (saves o saved (position s)) (position s') ops). reflexivity.
  - rewrite Hsz. destruct o; cbn [saves]; auto. apply Forall_app. split; [assumption|]. constructor; [apply Hg|constructor].
Qed.

Lemma stream_ok : forall d ops, Forall (fun b => b < 256) d -> N.of_nat (length d) < 2 ^ 32 -> Forall sop_ok ops ->
  m_run [] (newStream d (N.of_nat (length d))) ops = Ok (spec_run d [] 0 ops).
Proof.
  intros d ops Hd Hl Hall. apply (run_ok ops [] (newStream d _)); [|constructor|assumption].
  repeat split; auto. cbn. lia.
Qed.
