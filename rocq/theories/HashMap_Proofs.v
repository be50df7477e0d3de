From Verif Require Import Base Math_Model Math_Proofs HashMap_Model HashMap_Spec.
Local Open Scope N_scope.

Lemma set_nth_split : forall {A} (l1 l2 : list A) x y,
  set_nth (length l1) y (l1 ++ x :: l2) = Some (l1 ++ y :: l2).
Proof.
  intros A l1 l2 x y; induction l1 as [|z l1 IH]; simpl; [reflexivity|]. rewrite IH. reflexivity.
Qed.

Lemma find_filter : forall {A} (f g : A -> bool) l,
  List.find f (filter g l) = List.find (fun x => g x && f x) l.
Proof.
  intros A f g l; induction l as [|x l IH]; simpl; [reflexivity|].
  destruct (g x); simpl; rewrite ?IH; destruct (f x); reflexivity.
Qed.

Section Proofs.
Context {K V : Type}.
Variable hash : K -> N.
Variable equal : K -> K -> bool.
Variable weak : bool.
Hypothesis equal_refl : forall k, equal k k = true.
Hypothesis equal_sym : forall a b, equal a b = true -> equal b a = true.
Hypothesis equal_trans : forall a b c, equal a b = true -> equal b c = true -> equal a c = true.
Hypothesis hash_equal : forall a b, equal a b = true -> hash a = hash b.

Notation entry := (K * V)%type.
Notation table := (list (list entry)).
Notation skipped := (skipped weak).
Notation live d := (fun kv : entry => negb (skipped d (fst kv))).

Definition pow2len (a : table) (p : N) : Prop := N.of_nat (length a) = 2 ^ p.

Definition placed (a : table) : Prop :=
  forall i c kv, nth_error a i = Some c -> In kv c -> bucketIndex hash (fst kv) (length a) = i.

Lemma index_lt : forall k a p, pow2len a p -> (bucketIndex hash k (length a) < length a)%nat.
Proof.
  intros k a p H. unfold bucketIndex, pow2len in *. rewrite H.
  pose proof (land_pow2_lt (hash k) p). lia.
Qed.

Lemma placed_split : forall l1 c l2 kv, placed (l1 ++ c :: l2) ->
  In kv (concat l1) \/ In kv (concat l2) ->
  bucketIndex hash (fst kv) (length (l1 ++ c :: l2)) <> length l1.
Proof.
  intros l1 c l2 kv Hp [Hin|Hin]; apply in_concat in Hin; destruct Hin as (c' & Hc & Hkv);
  apply In_nth_error in Hc; destruct Hc as (j & Hj).
  - assert (j < length l1)%nat by (apply nth_error_Some; congruence).
    rewrite (Hp j c' kv); [lia| |assumption]. rewrite nth_error_app1 by assumption. exact Hj.
  - rewrite (Hp (S (length l1 + j)) c' kv); [lia| |assumption].
    rewrite nth_error_app2 by lia.
    replace (S (length l1 + j) - length l1)%nat with (S j) by lia. exact Hj.
Qed.

Lemma placed_set : forall l1 c c' l2, placed (l1 ++ c :: l2) ->
  (forall kv, In kv c' -> bucketIndex hash (fst kv) (length (l1 ++ c :: l2)) = length l1) ->
  placed (l1 ++ c' :: l2).
Proof.
  intros l1 c c' l2 Hp Hc i x kv Hx Hkv.
  assert (HL : length (l1 ++ c' :: l2) = length (l1 ++ c :: l2)) by (rewrite !app_length; reflexivity).
  rewrite HL.
  destruct (lt_eq_lt_dec i (length l1)) as [[Hlt|Heq]|Hgt].
  - rewrite nth_error_app1 in Hx by assumption. apply (Hp i x); [|assumption].
    rewrite nth_error_app1 by assumption. exact Hx.
  - subst i. rewrite nth_error_app2 in Hx by lia. rewrite Nat.sub_diag in Hx.
    cbn in Hx. inversion Hx; subst x. apply Hc; assumption.
  - rewrite nth_error_app2 in Hx by lia.
    apply (Hp i x); [|assumption].
    rewrite nth_error_app2 by lia.
    destruct (i - length l1)%nat eqn:E; [lia|]. exact Hx.
Qed.

Lemma pushNode_ok : forall a p kv, pow2len a p -> placed a ->
  exists a', pushNode hash kv a = Some a' /\ length a' = length a /\ placed a'
             /\ Permutation (concat a') (kv :: concat a).
Proof.
  intros a p kv Hl Hp. unfold pushNode.
  destruct (nth_error_lt_ex a (bucketIndex hash (fst kv) (length a)) (index_lt (fst kv) a p Hl)) as (c & Hc).
  rewrite Hc. destruct (nth_error_split' _ _ _ Hc) as (l1 & l2 & Ha & Hi).
  rewrite <- Hi. rewrite Ha. rewrite set_nth_split.
  eexists; split; [reflexivity|]. split; [rewrite !app_length; reflexivity|]. split.
  - subst a. apply placed_set with (c := c); [assumption|].
    intros x [<-|Hx]; [symmetry; exact Hi|].
    apply (Hp (length l1) c x); [|assumption]. rewrite Hi. exact Hc.
  - rewrite !concat_app. simpl. symmetry. apply Permutation_middle.
Qed.

Lemma rehashChain_ok : forall d c a p, pow2len a p -> placed a ->
  exists a', rehashChain hash weak d c a = Some a' /\ length a' = length a /\ placed a'
             /\ Permutation (concat a') (filter (live d) c ++ concat a).
Proof.
  intros d c; induction c as [|kv c IH]; intros a p Hl Hp; cbn [rehashChain filter].
  - exists a. repeat split; auto.
  - destruct (skipped d (fst kv)) eqn:E; cbn [negb].
    + apply IH with (p := p); assumption.
    + destruct (pushNode_ok a p kv Hl Hp) as (a1 & H1 & HL1 & HP1 & Hperm1).
      rewrite H1.
      destruct (IH a1 p) as (a2 & H2 & HL2 & HP2 & Hperm2).
      { unfold pow2len in *. rewrite HL1. assumption. } { assumption. }
      exists a2. split; [assumption|]. split; [congruence|]. split; [assumption|].
      rewrite Hperm2, Hperm1. simpl. symmetry. apply Permutation_middle.
Qed.

Lemma rehashAll_ok : forall d old a p, pow2len a p -> placed a ->
  exists a', rehashAll hash weak d old a = Some a' /\ length a' = length a /\ placed a'
             /\ Permutation (concat a') (filter (live d) (concat old) ++ concat a).
Proof.
  intros d old; induction old as [|c old IH]; intros a p Hl Hp; cbn [rehashAll concat filter].
  - exists a. repeat split; auto.
  - destruct (rehashChain_ok d c a p Hl Hp) as (a1 & H1 & HL1 & HP1 & Hperm1).
    rewrite H1.
    destruct (IH a1 p) as (a2 & H2 & HL2 & HP2 & Hperm2).
    { unfold pow2len in *. rewrite HL1. assumption. } { assumption. }
    exists a2. split; [assumption|]. split; [congruence|]. split; [assumption|].
    rewrite filter_app. rewrite Hperm2, Hperm1.
    rewrite app_assoc. apply Permutation_app_tail. apply Permutation_app_comm.
Qed.

Definition nodes (m : hmap K V) : list entry :=
  match harray m with None => [] | Some a => concat a end.

Definition alenat (m : hmap K V) : nat := match harray m with None => O | Some a => length a end.

(** Structural invariant, independent of the abstract contents. *)
Definition WF (m : hmap K V) : Prop :=
  match harray m with
  | None => hsize m = 0
  | Some a => (exists p, p <= 31 /\ pow2len a p) /\ placed a
  end.

(** Result of a resize to a power of two. *)
Lemma resize_ok : forall d m j, j <= 31 -> WF m ->
  exists m', resize hash weak d m (2 ^ j) = Some m' /\ hsize m' = hsize m
    /\ alen m' = 2 ^ j /\ WF m'
    /\ (Permutation (nodes m') (filter (live d) (nodes m)) \/ m' = m).
Proof.
  intros d m j Hj Hwf. unfold resize.
  assert (Hlt : 2 ^ j < W32).
  { rewrite W32_pow. apply N.pow_lt_mono_r; lia. }
  rewrite N.mod_small by assumption.
  assert (Hpos : 0 < 2 ^ j) by (apply N.neq_0_lt_0; apply N.pow_nonzero; lia).
  replace (2 ^ j =? 0) with false by (symmetry; apply N.eqb_neq; lia).
  rewrite npot_pow2 by assumption.
  set (fresh := repeat (@nil entry) (N.to_nat (2 ^ j))).
  assert (Hfl : pow2len fresh j).
  { unfold pow2len, fresh. rewrite repeat_length. lia. }
  assert (Hfp : placed fresh).
  { intros i c kv Hc Hin. apply nth_error_In in Hc. apply repeat_spec in Hc. subst c. destruct Hin. }
  assert (Hfc : concat fresh = []) by apply concat_repeat_nil.
  unfold WF in Hwf. destruct (harray m) as [old|] eqn:Em.
  - destruct (N.of_nat (length old) =? 2 ^ j) eqn:El.
    + apply N.eqb_eq in El. exists m. unfold alen, WF. rewrite Em.
      repeat split; auto; tauto.
    + destruct (rehashAll_ok d old fresh j Hfl Hfp) as (a & Ha & HL & HP & Hperm).
      rewrite Ha. eexists; split; [reflexivity|].
      unfold alen, WF, nodes; cbn [hsize harray]. rewrite Em.
      split; [reflexivity|]. split; [rewrite HL; exact Hfl|].
      split. { split; [|assumption]. exists j. split; [assumption|]. unfold pow2len in *. rewrite HL. assumption. }
      left. rewrite Hperm, Hfc, app_nil_r. reflexivity.
  - eexists; split; [reflexivity|]. unfold alen, WF, nodes; cbn [hsize harray]. rewrite Em.
    split; [reflexivity|]. split; [exact Hfl|]. split.
    { split; [|assumption]. exists j; split; assumption. }
    left. rewrite Hfc. reflexivity.
Qed.

Lemma resize_zero : forall d (m : hmap K V), resize hash weak d m 0 = Some {| hsize := hsize m; harray := None |}.
Proof. reflexivity. Qed.

(** pairwise distinct keys *)
Definition distinct (l : list entry) : Prop :=
  ForallOrdPairs (fun x y => equal (fst x) (fst y) = false) l.

Lemma equal_sym_b : forall a b, equal a b = equal b a.
Proof.
  intros a b. destruct (equal a b) eqn:E, (equal b a) eqn:F; auto.
  - apply equal_sym in E. congruence.
  - apply equal_sym in F. congruence.
Qed.

Lemma distinct_cons : forall x l, distinct (x :: l) <->
  (forall y, In y l -> equal (fst x) (fst y) = false) /\ distinct l.
Proof.
  intros x l. unfold distinct. split.
  - intros H. inversion H; subst. split; [|assumption]. apply Forall_forall. assumption.
  - intros [H1 H2]. constructor; [|assumption]. apply Forall_forall. assumption.
Qed.

Lemma distinct_perm : forall l l', Permutation l l' -> distinct l -> distinct l'.
Proof.
  intros l l' H; induction H; intros HD.
  - assumption.
  - apply distinct_cons in HD as [H1 H2]. apply distinct_cons. split.
    + intros y Hy. apply H1. eapply Permutation_in; [symmetry; eassumption|assumption].
    + auto.
  - apply distinct_cons in HD as [H1 H2]. apply distinct_cons in H2 as [H2 H3].
    apply distinct_cons. split.
    + intros z [<-|Hz]; [rewrite equal_sym_b; apply H1; left; reflexivity | apply H2; assumption].
    + apply distinct_cons. split; [|assumption]. intros z Hz. apply H1. right; assumption.
  - auto.
Qed.

Lemma distinct_filter : forall f l, distinct l -> distinct (filter f l).
Proof.
  intros f l; induction l as [|x l IH]; simpl; intros HD; [constructor|].
  apply distinct_cons in HD as [H1 H2]. destruct (f x); [|auto].
  apply distinct_cons. split; [|auto]. intros y Hy. apply H1. apply filter_In in Hy. tauto.
Qed.

Definition match_ (k : K) : entry -> bool := fun kv => equal k (fst kv).

Lemma match_pair : forall k k0 v0, match_ k (k0, v0) = equal k k0.
Proof. reflexivity. Qed.

Lemma find_perm : forall k l l', Permutation l l' -> distinct l ->
  List.find (match_ k) l = List.find (match_ k) l'.
Proof.
  intros k l l' H; induction H; intros HD; simpl.
  - reflexivity.
  - apply distinct_cons in HD as [H1 H2]. destruct (match_ k x); auto.
  - apply distinct_cons in HD as [H1 H2].
    destruct (match_ k y) eqn:Ey, (match_ k x) eqn:Ex; auto.
    exfalso. unfold match_ in *.
    assert (Hyx : equal (fst y) (fst x) = true) by (eapply equal_trans; [apply equal_sym; eassumption|assumption]).
    rewrite (H1 x) in Hyx; [discriminate|left; reflexivity].
  - rewrite IHPermutation1 by assumption. apply IHPermutation2.
    eapply distinct_perm; eassumption.
Qed.

(** The bucket of a key holds every entry matching it. *)
Lemma find_in_bucket : forall d k l1 c l2, placed (l1 ++ c :: l2) ->
  bucketIndex hash k (length (l1 ++ c :: l2)) = length l1 ->
  List.find (match_ k) (filter (live d) (concat (l1 ++ c :: l2))) = List.find (match_ k) (filter (live d) c).
Proof.
  intros d k l1 c l2 Hp Hi.
  rewrite concat_app. simpl. rewrite !filter_app, !find_app'.
  assert (Hno : forall kv, In kv (concat l1) \/ In kv (concat l2) -> match_ k kv = false).
  { intros kv Hin. destruct (match_ k kv) eqn:E; [|reflexivity]. exfalso.
    apply (placed_split l1 c l2 kv Hp Hin). rewrite <- Hi.
    unfold bucketIndex. unfold match_ in E. apply hash_equal in E. rewrite E. reflexivity. }
  rewrite (find_none_iff _ (filter _ (concat l1))).
  2:{ intros x Hx. apply filter_In in Hx. apply Hno. tauto. }
  destruct (List.find (match_ k) (filter _ c)) eqn:E; [reflexivity|].
  apply find_none_iff. intros x Hx. apply filter_In in Hx. apply Hno. tauto.
Qed.

Lemma chainFind_eq : forall d k c,
  chainFind equal weak d k c = List.find (match_ k) (filter (live d) c).
Proof.
  intros d k c; induction c as [|[k' v] c IH]; cbn [chainFind filter]; [reflexivity|].
  cbn [fst]. destruct (skipped d k'); cbn [negb]; [assumption|].
  cbn [List.find]. unfold match_ at 1. cbn [fst]. destruct (equal k k'); auto.
Qed.

(** The abstraction relation. *)
Definition Abs (m : hmap K V) (d : K -> bool) (l : list entry) : Prop :=
  WF m /\ distinct l /\ Permutation (filter (live d) (nodes m)) l.

Lemma findNode_ok : forall m d l k, Abs m d l ->
  findNode hash equal weak d m k = Some (List.find (match_ k) l).
Proof.
  intros m d l k (Hwf & HD & Hperm). unfold findNode, WF, nodes in *.
  destruct (harray m) as [a|] eqn:Em.
  - destruct Hwf as ((p & Hp31 & Hl) & Hpl).
    destruct (nth_error_lt_ex a _ (index_lt k a p Hl)) as (c & Hc). rewrite Hc.
    destruct (nth_error_split' _ _ _ Hc) as (l1 & l2 & Ha & Hi). subst a.
    rewrite chainFind_eq. f_equal.
    rewrite <- (find_in_bucket d k l1 c l2 Hpl (eq_sym Hi)).
    apply find_perm; [assumption|]. eapply distinct_perm; [symmetry; eassumption|assumption].
  - simpl in Hperm. apply Permutation_nil in Hperm. subst l. reflexivity.
Qed.

Lemma find_ok : forall m d l k, Abs m d l ->
  find hash equal weak d m k = Some (sget equal k l).
Proof.
  intros m d l k H. unfold find, sget. rewrite (findNode_ok m d l k H).
  unfold match_. destruct (List.find (fun kv => equal k (fst kv)) l) as [[k' v]|]; reflexivity.
Qed.

(** Size bookkeeping.  [n] bounds the number of operations so far. *)
Definition SizeOK (m : hmap K V) (n : N) : Prop :=
  N.of_nat (length (nodes m)) <= hsize m /\ hsize m <= n /\ alen m <= umax 16 n
  /\ (weak = false -> hsize m = N.of_nat (length (nodes m))).

Lemma live_strong : forall d (l : list entry), weak = false -> filter (live d) l = l.
Proof.
  intros d l H. apply filter_all. intros x _. unfold HashMap_Model.skipped. rewrite H. reflexivity.
Qed.

Lemma umax_le : forall a b, a <= umax a b /\ b <= umax a b.
Proof. intros. unfold umax. destruct (b <? a) eqn:E; [apply N.ltb_lt in E|apply N.ltb_ge in E]; lia. Qed.
Lemma umax_lub : forall a b c, a <= c -> b <= c -> umax a b <= c.
Proof. intros. unfold umax. destruct (b <? a); lia. Qed.
Lemma umax_cases : forall a b, umax a b = a \/ umax a b = b.
Proof. intros. unfold umax. destruct (b <? a); auto. Qed.

Lemma perm_len : forall A (l l' : list A), Permutation l l' -> length l = length l'.
Proof. intros; apply Permutation_length; assumption. Qed.

Lemma resize_nodes_len : forall d m m',
  Permutation (nodes m') (filter (live d) (nodes m)) \/ m' = m ->
  (length (nodes m') <= length (nodes m))%nat
  /\ (weak = false -> Permutation (nodes m') (nodes m))
  /\ Permutation (filter (live d) (nodes m')) (filter (live d) (nodes m)).
Proof.
  intros d m m' [H| -> ].
  - split; [|split].
    + rewrite (perm_len _ _ _ H). apply filter_length_le.
    + intros Hw. rewrite H. rewrite live_strong by assumption. reflexivity.
    + apply (Permutation_filter' (live d)) in H. rewrite H. rewrite filter_filter.
      apply perm_eq.
      apply filter_ext. intros x. destruct (negb _); reflexivity.
  - repeat split; auto.
Qed.

Lemma insert_ok : forall d0 d1 m k v l n,
  WF m -> Permutation (filter (live d0) (nodes m)) l ->
  (forall x, d0 x = true -> d1 x = true) ->
  skipped d1 k = false ->
  SizeOK m n -> n < 2 ^ 31 ->
  exists m', insert hash weak d0 d1 m k v = Some m' /\ WF m' /\ SizeOK m' (n + 1)
     /\ Permutation (filter (live d1) (nodes m')) (filter (live d1) ((k, v) :: l)).
Proof.
  intros d0 d1 m k v l n Hwf Hperm Hmono Hk (Hs1 & Hs2 & Hs3 & Hs4) Hn.
  unfold insert.
  rewrite N.mod_small by (unfold W32; lia).
  set (m1 := {| hsize := hsize m + 1; harray := harray m |}).
  assert (Hn1 : nodes m1 = nodes m) by reflexivity.
  assert (Ha1 : alen m1 = alen m) by reflexivity.
  (* first resize *)
  assert (Hm2 : exists m2,
    match harray m1 with
    | None => resize hash weak d0 m1 16
    | Some a => if alen m1 * 2 <=? hsize m1 then resize hash weak d0 m1 (alen m1 * 2) else Some m1
    end = Some m2 /\ (exists a, harray m2 = Some a) /\ WF m2 /\ hsize m2 = hsize m + 1
    /\ alen m2 <= umax 16 (n + 1)
    /\ (length (nodes m2) <= length (nodes m))%nat
    /\ (weak = false -> Permutation (nodes m2) (nodes m))
    /\ Permutation (filter (live d0) (nodes m2)) (filter (live d0) (nodes m))).
  { destruct (harray m) as [a|] eqn:Em.
    - assert (Hwf1 : WF m1).
      { unfold WF in *. cbn. rewrite Em in *. exact Hwf. }
      unfold m1 at 1; cbn [harray].
      unfold WF in Hwf. rewrite Em in Hwf. destruct Hwf as ((p & Hp31 & Hl) & Hpl).
      assert (HA : alen m1 = 2 ^ p) by (unfold alen, m1; cbn; exact Hl).
      destruct (alen m1 * 2 <=? hsize m1) eqn:E.
      + apply N.leb_le in E.
        assert (Hp : p + 1 <= 31).
        { destruct (N.eq_dec p 31) as [->|]; [|lia]. exfalso. rewrite HA in E.
          unfold m1 in E; cbn [hsize] in E. change (2 ^ 31) with 2147483648 in *. lia. }
        rewrite HA. replace (2 ^ p * 2) with (2 ^ (p + 1)) by (rewrite N.pow_add_r; reflexivity).
        destruct (resize_ok d0 m1 (p + 1) Hp Hwf1) as (m2 & Hr & Hsz & Hal & Hwf2 & Hpm).
        exists m2. split; [assumption|].
        split.
        { unfold alen in Hal. destruct (harray m2); [eauto|]. exfalso.
          symmetry in Hal. apply N.pow_nonzero in Hal; lia. }
        split; [assumption|]. split; [rewrite Hsz; reflexivity|].
        split. { rewrite Hal. pose proof (umax_le 16 (n + 1)).
                 rewrite HA in E. unfold m1 in E; cbn [hsize] in E. rewrite N.pow_add_r.
                 change (2 ^ 1) with 2. lia. }
        apply resize_nodes_len in Hpm. rewrite Hn1 in Hpm. exact Hpm.
      + exists m1. split; [reflexivity|]. split; [exists a; reflexivity|].
        split; [assumption|]. split; [reflexivity|].
        split. { rewrite Ha1. eapply N.le_trans; [exact Hs3|]. apply umax_lub; pose proof (umax_le 16 (n + 1)); lia. }
        rewrite Hn1. repeat split; auto.
    - unfold m1 at 1; cbn [harray].
      assert (Hwf1' : WF {| hsize := 0; harray := None |} ) by reflexivity.
      unfold WF in Hwf; rewrite Em in Hwf.
      (* resize from a null array does not look at hsize *)
      unfold resize.
      change (16 mod W32) with 16. change (16 =? 0) with false. cbv iota.
      change 16 with (2 ^ 4) at 1. rewrite npot_pow2 by lia. unfold m1; cbn [harray hsize].
      eexists; split; [reflexivity|].
      split; [eexists; reflexivity|].
      split. { unfold WF; cbn [harray]. split.
        - exists 4. split; [lia|]. unfold pow2len. rewrite repeat_length. reflexivity.
        - intros i c kv Hc Hin. apply nth_error_In in Hc. apply repeat_spec in Hc. subst c. destruct Hin. }
      split; [reflexivity|].
      split. { unfold alen; cbn [harray]. rewrite repeat_length.
               pose proof (umax_le 16 (n + 1)). rewrite N2Nat.id. change (2 ^ 4) with 16. lia. }
      unfold nodes. cbn [harray]. rewrite concat_repeat_nil, Em. repeat split; auto. }
  destruct Hm2 as (m2 & Hr2 & (a & Ham2) & Hwf2 & Hsz2 & Hal2 & Hlen2 & Hstr2 & Hperm2).
  rewrite Hr2, Ham2.
  unfold WF in Hwf2; rewrite Ham2 in Hwf2. destruct Hwf2 as ((p & Hp31 & Hl) & Hpl).
  destruct (pushNode_ok a p (k, v) Hl Hpl) as (a' & Hpush & HL & HP & Hperm3).
  rewrite Hpush.
  set (m3 := {| hsize := hsize m2; harray := Some a' |}).
  assert (Hwf3 : WF m3).
  { unfold WF, m3; cbn [harray]. split; [|assumption]. exists p. split; [assumption|]. unfold pow2len in *. rewrite HL. assumption. }
  assert (Hn3 : Permutation (nodes m3) ((k, v) :: nodes m2)).
  { unfold nodes, m3; cbn [harray]. rewrite Ham2. exact Hperm3. }
  assert (Ha3 : alen m3 = 2 ^ p).
  { unfold alen, m3; cbn [harray]. rewrite HL. exact Hl. }
  assert (Hal3 : alen m3 <= umax 16 (n + 1)).
  { replace (alen m3) with (alen m2); [assumption|]. rewrite Ha3. unfold alen. rewrite Ham2. exact Hl. }
  assert (Hlive3 : Permutation (filter (live d1) (nodes m3)) (filter (live d1) ((k, v) :: l))).
  { apply (Permutation_filter' (live d1)) in Hn3. rewrite Hn3. cbn [filter fst]. rewrite Hk. cbn [negb].
    constructor. rewrite <- Hperm.
    assert (Hsub : forall ns : list entry, filter (live d1) ns = filter (live d1) (filter (live d0) ns)).
    { intros ns. rewrite filter_filter. apply filter_ext. intros x.
      unfold HashMap_Model.skipped. destruct weak; cbn; [|reflexivity].
      destruct (d0 (fst x)) eqn:E0; cbn; [rewrite (Hmono _ E0)|rewrite andb_true_r]; reflexivity. }
    rewrite (Hsub (nodes m2)). apply Permutation_filter'. exact Hperm2. }
  assert (Hs3' : SizeOK m3 (n + 1)).
  { unfold SizeOK. apply perm_len in Hn3 as Hlen3. cbn [length] in Hlen3.
    unfold m3 at 2 3 5; cbn [hsize]. rewrite Hsz2.
    split; [lia|]. split; [lia|]. split; [assumption|].
    intros Hw. apply Hs4 in Hw as Hs4'. apply Hstr2 in Hw. apply perm_len in Hw. lia. }
  destruct (hsize m3 <=? alen m3 / 3) eqn:E.
  - apply N.leb_le in E. rewrite Ha3 in E |- *.
    assert (Hp0 : 1 <= p).
    { destruct (N.eq_dec p 0) as [->|]; [|lia]. exfalso. unfold m3 in E; cbn [hsize] in E. rewrite Hsz2 in E.
      change (2 ^ 0 / 3) with 0 in E. lia. }
    replace (2 ^ p / 2) with (2 ^ (p - 1)).
    2:{ replace p with (p - 1 + 1) at 2 by lia. rewrite N.pow_add_r. change (2 ^ 1) with 2.
        rewrite N.div_mul by lia. reflexivity. }
    destruct (resize_ok d1 m3 (p - 1) ltac:(lia) Hwf3) as (m4 & Hr & Hsz & Hal & Hwf4 & Hpm).
    exists m4. split; [assumption|]. split; [assumption|].
    apply resize_nodes_len in Hpm as (Hq1 & Hq2 & Hq3).
    destruct Hs3' as (Hx1 & Hx2 & Hx3 & Hx4).
    split.
    + unfold SizeOK. rewrite Hsz, Hal. split; [lia|]. split; [assumption|].
      split. { eapply N.le_trans; [|exact Hx3]. rewrite Ha3. apply N.pow_le_mono_r; lia. }
      intros Hw. rewrite (Hx4 Hw). apply Hq2 in Hw. apply perm_len in Hw. lia.
    + rewrite Hq3. assumption.
  - exists m3. auto.
Qed.

Lemma distinct_cons_absent : forall k v l, distinct l -> smem equal k l = false -> distinct ((k, v) :: l).
Proof.
  intros k v l HD Hm. apply distinct_cons. split; [|assumption].
  intros y Hy. unfold smem, sget in Hm. cbn [fst].
  destruct (List.find (fun kv => equal k (fst kv)) l) eqn:E; [discriminate|].
  apply (find_none _ _ E). assumption.
Qed.

Lemma distinct_skill : forall ks l, distinct l -> distinct (skill weak ks l).
Proof. intros ks l H. unfold skill. destruct weak; [apply distinct_filter|]; assumption. Qed.

Lemma live_skill : forall d mid (l : list entry), (forall x, In x l -> skipped d (fst x) = false) ->
  filter (live (orb_dead d mid)) l = skill weak mid l.
Proof.
  intros d mid l H. unfold skill, HashMap_Model.skipped, orb_dead in *.
  destruct weak; cbn in *.
  - apply filter_ext_in. intros x Hx. rewrite (H x Hx). reflexivity.
  - apply filter_all. reflexivity.
Qed.

Lemma abs_all_live : forall m d l, Abs m d l -> forall x, In x l -> skipped d (fst x) = false.
Proof.
  intros m d l (_ & _ & Hp) x Hx. eapply Permutation_in in Hx; [|symmetry; exact Hp].
  apply filter_In in Hx. destruct Hx as [_ Hx]. apply negb_true_iff in Hx. exact Hx.
Qed.

Lemma nodes_die : forall d mid m l, Permutation (filter (live d) (nodes m)) l ->
  (forall x, In x l -> skipped d (fst x) = false) ->
  Permutation (filter (live (orb_dead d mid)) (nodes m)) (skill weak mid l).
Proof.
  intros d mid m l Hp Hl.
  rewrite <- (live_skill d mid l Hl). rewrite <- Hp.
  rewrite filter_filter. apply perm_eq.
  apply filter_ext. intros x. unfold HashMap_Model.skipped, orb_dead.
  destruct weak; cbn; [|reflexivity]. destruct (d (fst x)); cbn; [reflexivity|]. rewrite andb_true_r. reflexivity.
Qed.

(** removal along the chain *)
Lemma chainRemove_ok : forall d k c c' o n, chainRemove equal weak d k c = (c', o, n) ->
  N.of_nat (length c) = N.of_nat (length c') + n
  /\ incl c' c
  /\ o = option_map snd (List.find (match_ k) (filter (live d) c))
  /\ (distinct (filter (live d) c) ->
      filter (live d) c' = filter (fun kv => negb (match_ k kv)) (filter (live d) c))
  /\ (weak = false -> n = if List.find (match_ k) c then 1 else 0).
Proof.
  intros d k c; induction c as [|[k0 v0] c IH]; intros c' o n H; cbn [chainRemove] in H.
  - inversion H; subst. cbn. repeat split; auto. intros x [].
  - cbn [filter fst]. destruct (skipped d k0) eqn:Es; cbn [negb].
    + destruct (chainRemove equal weak d k c) as [[r' o'] n'] eqn:E. inversion H; subst.
      destruct (IH _ _ _ eq_refl) as (H1 & H2 & H3 & H4 & H5).
      cbn [length]. repeat split; auto; try lia.
      * intros x Hx. right. auto.
      * intros Hw. unfold HashMap_Model.skipped in Es. rewrite Hw in Es. discriminate.
    + destruct (equal k k0) eqn:Ek.
      * inversion H; subst. cbn [length List.find]. rewrite ?match_pair, ?Ek.
        repeat split; auto; try lia.
        -- intros x Hx; right; assumption.
        -- intros HD. apply distinct_cons in HD as [HD1 HD2]. cbn [filter]. rewrite ?match_pair, ?Ek. cbn [negb].
           symmetry. apply filter_all. intros x Hx. apply negb_true_iff. unfold match_.
           specialize (HD1 x Hx). cbn [fst] in HD1.
           destruct (equal k (fst x)) eqn:E2; [|reflexivity].
           assert (equal k0 (fst x) = true) by (eapply equal_trans; [apply equal_sym; eassumption|assumption]).
           congruence.
      * destruct (chainRemove equal weak d k c) as [[r' o'] n'] eqn:E. inversion H; subst.
        destruct (IH _ _ _ eq_refl) as (H1 & H2 & H3 & H4 & H5).
        cbn [length List.find]. rewrite ?match_pair, ?Ek. repeat split; auto; try lia.
        -- intros x [<-|Hx]; [left; reflexivity|right; auto].
        -- intros HD. apply distinct_cons in HD as [HD1 HD2]. cbn [filter fst]. rewrite Es. cbn [negb].
           rewrite ?match_pair, ?Ek. cbn [negb]. f_equal. auto.
Qed.

Lemma remove_ok : forall m d l k n, Abs m d l -> SizeOK m n ->
  exists m', remove hash equal weak d m k = Some (m', sget equal k l)
    /\ Abs m' d (sdel equal k l) /\ SizeOK m' n.
Proof.
  intros m d l k n HA (Hs1 & Hs2 & Hs3 & Hs4). pose proof HA as (Hwf & HD & Hperm).
  unfold remove. unfold WF, nodes in *. destruct (harray m) as [a|] eqn:Em.
  2:{ cbn in Hperm. apply Permutation_nil in Hperm. subst l. exists m. split; [reflexivity|].
      split; [exact HA|]. unfold SizeOK, nodes. rewrite Em. auto. }
  destruct Hwf as ((p & Hp31 & Hl) & Hpl).
  destruct (nth_error_lt_ex a _ (index_lt k a p Hl)) as (c & Hc). rewrite Hc.
  destruct (nth_error_split' _ _ _ Hc) as (l1 & l2 & Ha & Hi).
  destruct (chainRemove equal weak d k c) as [[c' o] nr] eqn:Ecr.
  destruct (chainRemove_ok _ _ _ _ _ _ Ecr) as (Hlen & Hincl & Ho & Hfil & Hnr).
  rewrite <- Hi.
  replace (set_nth (length l1) c' a) with (Some (l1 ++ c' :: l2)) by (rewrite Ha; symmetry; apply set_nth_split).
  assert (HDc : distinct (filter (live d) (concat a))) by (eapply distinct_perm; [symmetry; eassumption|assumption]).
  assert (HDc' : distinct (filter (live d) c)).
  { rewrite Ha, concat_app in HDc. simpl in HDc. rewrite !filter_app in HDc.
    apply (distinct_perm _ (filter (live d) c ++ (filter (live d) (concat l1) ++ filter (live d) (concat l2)))) in HDc.
    2:{ rewrite !app_assoc. apply Permutation_app_tail. apply Permutation_app_comm. }
    clear - HDc. induction (filter (live d) c) as [|x xs IH]; [constructor|].
    simpl in HDc. apply distinct_cons in HDc as [H1 H2]. apply distinct_cons. split; [|auto].
    intros y Hy. apply H1. apply in_or_app. left; assumption. }
  specialize (Hfil HDc').
  assert (Hoo : o = sget equal k l).
  { rewrite Ho. unfold sget. fold (match_ k).
    rewrite <- (find_perm k _ _ Hperm HDc). rewrite Ha.
    rewrite find_in_bucket; [|rewrite <- Ha; assumption|rewrite <- Ha; symmetry; exact Hi].
    destruct (List.find (match_ k) (filter (live d) c)); reflexivity. }
  assert (Hclen : N.of_nat (length (concat a)) = N.of_nat (length (concat (l1 ++ c' :: l2))) + nr).
  { rewrite Ha, !concat_app. simpl. rewrite !app_length. lia. }
  destruct (hsize m <? nr) eqn:Elt.
  { apply N.ltb_lt in Elt. exfalso. lia. }
  set (m1 := {| hsize := hsize m - nr; harray := Some (l1 ++ c' :: l2) |}).
  assert (HLen : length (l1 ++ c' :: l2) = length a) by (rewrite Ha, !app_length; reflexivity).
  assert (Hwf1 : WF m1).
  { unfold WF, m1; cbn [harray]. split.
    - exists p. split; [assumption|]. unfold pow2len in *. rewrite HLen. assumption.
    - rewrite Ha in Hpl. apply placed_set with (c := c); [assumption|].
      intros kv Hkv. apply (Hpl (length l1) c kv).
      + rewrite nth_error_app2 by lia. rewrite Nat.sub_diag. reflexivity.
      + apply Hincl. assumption. }
  assert (Hno : forall kv, In kv (concat l1) \/ In kv (concat l2) -> match_ k kv = false).
  { intros kv Hin. destruct (match_ k kv) eqn:E; [|reflexivity]. exfalso.
    rewrite Ha in Hpl. apply (placed_split l1 c l2 kv Hpl Hin). rewrite <- Ha, Hi.
    unfold bucketIndex. unfold match_ in E. apply hash_equal in E. rewrite E. reflexivity. }
  assert (Habs1 : Permutation (filter (live d) (nodes m1)) (sdel equal k l)).
  { unfold nodes, m1; cbn [harray]. unfold sdel. fold (match_ k).
    change (fun kv : entry => negb (equal k (fst kv))) with (fun kv : entry => negb (match_ k kv)).
    rewrite <- (Permutation_filter' (fun kv => negb (match_ k kv)) _ _ Hperm).
    rewrite Ha, !concat_app. simpl. rewrite !filter_app. rewrite Hfil.
    rewrite (filter_all (fun kv => negb (match_ k kv)) (filter (live d) (concat l1))).
    2:{ intros x Hx. apply filter_In in Hx. rewrite Hno; [reflexivity|tauto]. }
    rewrite (filter_all (fun kv => negb (match_ k kv)) (filter (live d) (concat l2))).
    2:{ intros x Hx. apply filter_In in Hx. rewrite Hno; [reflexivity|tauto]. }
    reflexivity. }
  assert (HD1 : distinct (sdel equal k l)) by (apply distinct_filter; assumption).
  assert (HA1 : alen m1 = alen m) by (unfold alen, m1; cbn [harray]; rewrite Em, HLen; reflexivity).
  assert (HS1 : SizeOK m1 n).
  { unfold SizeOK. rewrite HA1. unfold nodes, m1; cbn [harray hsize]. unfold nodes in *. rewrite ?Em in *.
    repeat split; try lia. }
  destruct (hsize m1 <=? alen m1 / 3) eqn:E.
  - apply N.leb_le in E.
    assert (HAp : alen m1 = 2 ^ p) by (rewrite HA1; unfold alen; rewrite Em; exact Hl).
    rewrite HAp in E |- *.
    destruct (N.eq_dec p 0) as [->|Hp0].
    + change (2 ^ 0 / 2) with 0. rewrite resize_zero. eexists. split; [rewrite Hoo; reflexivity|].
      change (2 ^ 0 / 3) with 0 in E.
      destruct HS1 as (Hx1 & Hx2 & Hx3 & Hx4).
      assert (Hn0 : nodes m1 = []).
      { destruct (nodes m1); [reflexivity|]. cbn [length] in Hx1. lia. }
      split.
      * split; [unfold WF; cbn [harray hsize]; lia|]. split; [assumption|].
        unfold nodes; cbn [harray]. cbn [filter]. rewrite Hn0 in Habs1. cbn in Habs1. exact Habs1.
      * unfold SizeOK, nodes, alen; cbn [harray hsize length]. repeat split; try lia.
    + replace (2 ^ p / 2) with (2 ^ (p - 1)).
      2:{ replace p with (p - 1 + 1) at 2 by lia. rewrite N.pow_add_r. change (2 ^ 1) with 2.
          rewrite N.div_mul by lia. reflexivity. }
      destruct (resize_ok d m1 (p - 1) ltac:(lia) Hwf1) as (m4 & Hr & Hsz & Hal & Hwf4 & Hpm).
      rewrite Hr. exists m4. split; [rewrite Hoo; reflexivity|].
      apply resize_nodes_len in Hpm as (Hq1 & Hq2 & Hq3).
      destruct HS1 as (Hx1 & Hx2 & Hx3 & Hx4).
      split.
      * split; [assumption|]. split; [assumption|]. rewrite Hq3. assumption.
      * unfold SizeOK. rewrite Hsz, Hal. split; [lia|]. split; [assumption|]. split.
        { eapply N.le_trans; [|exact Hx3]. rewrite HAp. apply N.pow_le_mono_r; lia. }
        intros Hw. rewrite (Hx4 Hw). apply Hq2 in Hw. apply perm_len in Hw. lia.
  - exists m1. split; [rewrite Hoo; reflexivity|]. split; [|assumption].
    split; [assumption|]. split; assumption.
Qed.

(** replacing in place *)
Lemma chainSet_keys : forall d k (v : V) c, map fst (chainSet equal weak d k v c) = map fst c.
Proof.
  intros d k v c; induction c as [|[k0 v0] c IH]; cbn [chainSet]; [reflexivity|].
  destruct (skipped d k0); [cbn; rewrite IH; reflexivity|].
  destruct (equal k k0); cbn; rewrite ?IH; reflexivity.
Qed.

Lemma chainSet_live : forall d k v c, distinct (filter (live d) c) ->
  filter (live d) (chainSet equal weak d k v c) = sset equal k v (filter (live d) c).
Proof.
  intros d k v c; induction c as [|[k0 v0] c IH]; cbn [chainSet filter fst]; intros HD; [reflexivity|].
  destruct (skipped d k0) eqn:Es; cbn [negb] in *.
  - cbn [filter fst]. rewrite Es. cbn [negb]. auto.
  - apply distinct_cons in HD as [HD1 HD2]. destruct (equal k k0) eqn:Ek.
    + cbn [filter fst]. rewrite Es. cbn [negb]. unfold sset. cbn [map fst]. rewrite Ek. f_equal.
      rewrite <- (map_id (filter _ c)) at 1. apply map_ext_in. intros x Hx.
      destruct (equal k (fst x)) eqn:E2; [|reflexivity]. exfalso.
      specialize (HD1 x Hx). cbn [fst] in HD1.
      assert (equal k0 (fst x) = true) by (eapply equal_trans; [apply equal_sym; eassumption|assumption]).
      congruence.
    + cbn [filter fst]. rewrite Es. cbn [negb]. unfold sset. cbn [map fst]. rewrite Ek. f_equal. apply IH. assumption.
Qed.

Lemma sset_id : forall k v (l : list entry), (forall x, In x l -> match_ k x = false) -> sset equal k v l = l.
Proof.
  intros k v l H. unfold sset. rewrite <- (map_id l) at 2. apply map_ext_in. intros x Hx.
  unfold match_ in H. rewrite (H x Hx). reflexivity.
Qed.

Lemma sset_distinct : forall k v l, distinct l -> distinct (sset equal k v l).
Proof.
  intros k v l; induction l as [|x l IH]; intros HD; [constructor|].
  apply distinct_cons in HD as [H1 H2]. unfold sset; cbn [map]. apply distinct_cons. split; [|apply IH; assumption].
  intros y Hy. apply in_map_iff in Hy as (z & <- & Hz). specialize (H1 z Hz).
  destruct (equal k (fst x)), (equal k (fst z)); cbn [fst]; assumption.
Qed.

Lemma replace_ok : forall m d l k v n, Abs m d l -> SizeOK m n -> smem equal k l = true ->
  exists m', insertOrReplace hash equal weak d d m k v = Some (m', false) /\
  (forall d1, insertOrReplace hash equal weak d d1 m k v = Some (m', false))
    /\ Abs m' d (sset equal k v l) /\ SizeOK m' n.
Proof.
  intros m d l k v n HA (Hs1 & Hs2 & Hs3 & Hs4) Hm. pose proof HA as (Hwf & HD & Hperm).
  unfold insertOrReplace. rewrite (findNode_ok m d l k HA).
  unfold smem, sget in Hm. fold (match_ k) in Hm.
  destruct (List.find (match_ k) l) as [kv0|] eqn:Ef; [|discriminate].
  unfold WF, nodes in *. destruct (harray m) as [a|] eqn:Em.
  2:{ cbn in Hperm. apply Permutation_nil in Hperm. subst l. discriminate. }
  destruct Hwf as ((p & Hp31 & Hl) & Hpl).
  destruct (nth_error_lt_ex a _ (index_lt k a p Hl)) as (c & Hc). rewrite Hc.
  destruct (nth_error_split' _ _ _ Hc) as (l1 & l2 & Ha & Hi).
  rewrite <- Hi.
  replace (set_nth (length l1) (chainSet equal weak d k v c) a) with (Some (l1 ++ chainSet equal weak d k v c :: l2))
    by (rewrite Ha; symmetry; apply set_nth_split).
  eexists. split; [reflexivity|]. split; [reflexivity|].
  assert (HLen : length (l1 ++ chainSet equal weak d k v c :: l2) = length a) by (rewrite Ha, !app_length; reflexivity).
  assert (HDc : distinct (filter (live d) (concat a))) by (eapply distinct_perm; [symmetry; eassumption|assumption]).
  assert (HDc' : distinct (filter (live d) c)).
  { rewrite Ha, concat_app in HDc. simpl in HDc. rewrite !filter_app in HDc.
    apply (distinct_perm _ (filter (live d) c ++ (filter (live d) (concat l1) ++ filter (live d) (concat l2)))) in HDc.
    2:{ rewrite !app_assoc. apply Permutation_app_tail. apply Permutation_app_comm. }
    clear - HDc. induction (filter (live d) c) as [|x xs IH]; [constructor|].
    simpl in HDc. apply distinct_cons in HDc as [H1 H2]. apply distinct_cons. split; [|auto].
    intros y Hy. apply H1. apply in_or_app. left; assumption. }
  assert (Hno : forall kv, In kv (concat l1) \/ In kv (concat l2) -> match_ k kv = false).
  { intros kv Hin. destruct (match_ k kv) eqn:E; [|reflexivity]. exfalso.
    rewrite Ha in Hpl. apply (placed_split l1 c l2 kv Hpl Hin). rewrite <- Ha, Hi.
    unfold bucketIndex. unfold match_ in E. apply hash_equal in E. rewrite E. reflexivity. }
  split.
  - split; [|split].
    + unfold WF; cbn [harray]. split.
      * exists p. split; [assumption|]. unfold pow2len in *. rewrite HLen. assumption.
      * rewrite Ha in Hpl. apply placed_set with (c := c); [assumption|].
        intros kv Hkv.
        assert (Hk : In (fst kv) (map fst c)).
        { rewrite <- (chainSet_keys d k v c). apply in_map. assumption. }
        apply in_map_iff in Hk as (kv' & Hk1 & Hk2). rewrite <- Hk1.
        apply (Hpl (length l1) c kv'); [|assumption].
        rewrite nth_error_app2 by lia. rewrite Nat.sub_diag. reflexivity.
    + apply sset_distinct. assumption.
    + unfold nodes; cbn [harray]. unfold sset. rewrite <- Hperm.
      fold (sset equal k v (filter (live d) (concat a))).
      rewrite Ha, !concat_app. simpl. rewrite !filter_app. rewrite chainSet_live by assumption.
      unfold sset at 2. rewrite !map_app.
      fold (sset equal k v (filter (live d) (concat l1))).
      fold (sset equal k v (filter (live d) (concat l2))).
      fold (sset equal k v (filter (live d) c)).
      rewrite (sset_id k v (filter _ (concat l1))), (sset_id k v (filter _ (concat l2))); [reflexivity| |].
      * intros x Hx. apply filter_In in Hx. apply Hno; tauto.
      * intros x Hx. apply filter_In in Hx. apply Hno; tauto.
  - assert (HClen : length (concat (l1 ++ chainSet equal weak d k v c :: l2)) = length (concat a)).
    { rewrite Ha, !concat_app. simpl. rewrite !app_length.
      rewrite <- (map_length fst (chainSet _ _ _ _ _ c)), chainSet_keys, map_length. reflexivity. }
    unfold SizeOK, nodes, alen in *; cbn [harray hsize]. rewrite ?Em in *. rewrite HLen, HClen. auto.
Qed.

Definition RInv (s : hmap K V * (K -> bool)) (ss : list entry * (K -> bool)) (n : N) : Prop :=
  Abs (fst s) (snd s) (fst ss) /\ (forall x, snd s x = snd ss x) /\ SizeOK (fst s) n.

Lemma SizeOK_mono : forall m n, SizeOK m n -> SizeOK m (n + 1).
Proof.
  intros m n (H1 & H2 & H3 & H4). unfold SizeOK. repeat split; auto; try lia.
  eapply N.le_trans; [exact H3|]. apply umax_lub; pose proof (umax_le 16 (n + 1)); lia.
Qed.

Lemma alive_skipped : forall (d d' : K -> bool) (k : K), (forall x, d x = d' x) -> alive weak d' k -> skipped d k = false.
Proof.
  intros d d' k He H. unfold alive, HashMap_Model.skipped in *. destruct weak; [|reflexivity].
  cbn. rewrite He. auto.
Qed.

Lemma step_ok : forall s ss o n, RInv s ss n -> allowed equal weak ss o -> n < 2 ^ 31 ->
  exists s', step hash equal weak s o = Some (s', snd (sstep equal weak ss o))
             /\ RInv s' (fst (sstep equal weak ss o)) (n + 1).
Proof.
  intros [m d] [l d'] o n (HA & Hd & HS) Hal Hn. cbn [fst snd] in *.
  pose proof (abs_all_live m d l HA) as Hlv. pose proof HA as (Hwf & HD & Hperm).
  assert (Hins : forall k v mid, alive weak (fun x => d' x || mid x) k -> smem equal k l = false ->
     exists m', insert hash weak d (orb_dead d mid) m k v = Some m'
      /\ RInv (m', orb_dead d mid) (skill weak mid (sadd k v l), fun x => d' x || mid x) (n + 1)).
  { intros k v mid Hk Hm.
    assert (Hsk : skipped (orb_dead d mid) k = false).
    { eapply alive_skipped; [|exact Hk]. intros x. unfold orb_dead. rewrite Hd. reflexivity. }
    destruct (insert_ok d (orb_dead d mid) m k v l n Hwf Hperm) as (m' & Hr & Hwf' & HS' & Hp').
    { intros x Hx. unfold orb_dead. rewrite Hx. reflexivity. } { exact Hsk. } { assumption. } { assumption. }
    exists m'. split; [assumption|]. split; [|split].
    - cbn [fst snd]. split; [assumption|]. split.
      + apply distinct_skill. apply distinct_cons_absent; assumption.
      + rewrite Hp'. unfold sadd. apply perm_eq. apply live_skill.
        intros x [<-|Hx]; [|auto]. cbn [fst].
        unfold HashMap_Model.skipped, orb_dead in Hsk |- *. destruct weak; [|reflexivity]. cbn in *.
        apply orb_false_iff in Hsk. tauto.
    - intros x. cbn [snd]. unfold orb_dead. rewrite Hd. reflexivity.
    - cbn [fst]. assumption. }
  assert (Hkeep : forall mid (m' : hmap K V) l', Abs m' d l' -> SizeOK m' n ->
     RInv (m', orb_dead d mid) (skill weak mid l', fun x => d' x || mid x) (n + 1)).
  { intros mid m' l' HA' HS'. split; [|split].
    - cbn [fst snd]. pose proof HA' as (Hw' & HD' & Hp'). split; [assumption|]. split.
      + apply distinct_skill; assumption.
      + apply nodes_die; [assumption|]. eapply abs_all_live; exact HA'.
    - intros x. cbn [snd]. unfold orb_dead. rewrite Hd. reflexivity.
    - cbn [fst]. apply SizeOK_mono; assumption. }
  destruct o as [k v mid|k v mid|k v mid|k|k|ks]; cbn [allowed] in Hal.
  - destruct Hal as [Hk Hm]. destruct (Hins k v mid Hk Hm) as (m' & Hr & HR).
    cbn [step sstep]. rewrite Hr. eexists; split; [reflexivity|]. exact HR.
  - cbn [step sstep]. destruct (smem equal k l) eqn:Em.
    + destruct (replace_ok m d l k v n HA HS Em) as (m' & _ & Hr & HA' & HS').
      rewrite Hr. eexists; split; [reflexivity|]. cbn [fst]. apply Hkeep; assumption.
    + destruct (Hins k v mid Hal Em) as (m' & Hr & HR).
      unfold insertOrReplace. rewrite (findNode_ok m d l k HA).
      unfold smem, sget in Em. fold (match_ k) in Em.
      destruct (List.find (match_ k) l); [discriminate|].
      rewrite Hr. eexists; split; [reflexivity|]. exact HR.
  - cbn [step sstep]. destruct (smem equal k l) eqn:Em.
    + unfold insertMaybe. rewrite (findNode_ok m d l k HA).
      unfold smem, sget in Em. fold (match_ k) in Em.
      destruct (List.find (match_ k) l); [|discriminate].
      eexists; split; [reflexivity|]. cbn [fst]. apply Hkeep; assumption.
    + destruct (Hins k v mid Hal Em) as (m' & Hr & HR).
      unfold insertMaybe. rewrite (findNode_ok m d l k HA).
      unfold smem, sget in Em. fold (match_ k) in Em.
      destruct (List.find (match_ k) l); [discriminate|].
      rewrite Hr. eexists; split; [reflexivity|]. exact HR.
  - cbn [step sstep]. destruct (remove_ok m d l k n HA HS) as (m' & Hr & HA' & HS').
    rewrite Hr. eexists; split; [reflexivity|]. split; [exact HA'|]. split; [exact Hd|].
    cbn [fst]. apply SizeOK_mono; assumption.
  - cbn [step sstep]. rewrite (find_ok m d l k HA). eexists; split; [reflexivity|].
    split; [exact HA|]. split; [exact Hd|]. cbn [fst]. apply SizeOK_mono; assumption.
  - cbn [step sstep]. eexists; split; [reflexivity|]. cbn [fst]. apply Hkeep; assumption.
Qed.

Lemma run_ok : forall ops s ss n, RInv s ss n -> allowed_all equal weak ss ops ->
  n + N.of_nat (length ops) <= 2 ^ 31 ->
  exists s', run hash equal weak s ops = Some (s', snd (srun equal weak ss ops))
             /\ RInv s' (fst (srun equal weak ss ops)) (n + N.of_nat (length ops)).
Proof.
  induction ops as [|o ops IH]; intros s ss n HR Hal Hn.
  - exists s. split; [reflexivity|]. cbn [length srun fst]. rewrite N.add_0_r. assumption.
  - cbn [allowed_all] in Hal. destruct Hal as [Ho Hal]. cbn [length] in *.
    destruct (step_ok s ss o n HR Ho ltac:(lia)) as (s1 & Hs1 & HR1).
    cbn [run srun]. rewrite Hs1.
    destruct (sstep equal weak ss o) as [ss1 x] eqn:Es. cbn [fst snd] in *.
    destruct (IH s1 ss1 (n + 1) HR1 Hal ltac:(lia)) as (s2 & Hr & HR2).
    rewrite Hr. destruct (srun equal weak ss1 ops) as [ss2 xs]. cbn [fst snd] in *.
    eexists; split; [reflexivity|].
    replace (n + N.of_nat (S (length ops))) with (n + 1 + N.of_nat (length ops)) by lia. exact HR2.
Qed.

Lemma RInv_init : RInv (empty, fun _ => false) ([], fun _ => false) 0.
Proof.
  split; [|split].
  - split; [reflexivity|]. split; [constructor|]. cbn. constructor.
  - reflexivity.
  - unfold SizeOK, nodes, alen; cbn. repeat split; try lia.
Qed.

Theorem refines : forall ops : list (op K V),
  allowed_all equal weak ([], fun _ => false) ops ->
  N.of_nat (length ops) <= 2 ^ 31 ->
  exists s', run hash equal weak (empty, fun _ => false) ops
             = Some (s', snd (srun equal weak ([], fun _ => false) ops)).
Proof.
  intros ops Hal Hn.
  destruct (run_ok ops _ _ 0 RInv_init Hal ltac:(lia)) as (s' & Hr & _). eauto.
Qed.

Theorem bookkeeping : forall (ops : list (op K V)) s' xs,
  allowed_all equal weak ([], fun _ => false) ops ->
  N.of_nat (length ops) <= 2 ^ 31 ->
  run hash equal weak (empty, fun _ => false) ops = Some (s', xs) ->
  let m := fst s' in
  (forall a, harray m = Some a ->
     (exists p, N.of_nat (length a) = 2 ^ p)
     /\ (forall i c kv, nth_error a i = Some c -> In kv c ->
           N.of_nat i = N.land (hash (fst kv)) (N.of_nat (length a) - 1)))
  /\ N.of_nat (length (match harray m with None => [] | Some a => concat a end)) <= hsize m
  /\ (weak = false -> hsize m = N.of_nat (length (match harray m with None => [] | Some a => concat a end))
                      /\ hsize m = N.of_nat (length (fst (fst (srun equal weak ([], fun _ => false) ops)))))
  /\ alen m <= umax 16 (N.of_nat (length ops)).
Proof.
  intros ops s' xs Hal Hn Hr.
  destruct (run_ok ops _ _ 0 RInv_init Hal ltac:(lia)) as (s1 & Hr1 & HR).
  rewrite Hr in Hr1. inversion Hr1; subst s1. clear Hr1.
  destruct HR as ((Hwf & HD & Hperm) & Hd & Hs1 & Hs2 & Hs3 & Hs4).
  cbn zeta. split; [|split; [|split]].
  - intros a Ha. unfold WF in Hwf. rewrite Ha in Hwf. destruct Hwf as ((p & Hp & Hl) & Hpl).
    split; [exists p; exact Hl|]. intros i c kv Hc Hin. specialize (Hpl i c kv Hc Hin).
    unfold bucketIndex in Hpl. lia.
  - exact Hs1.
  - intros Hw. split; [apply Hs4; assumption|]. rewrite (Hs4 Hw). f_equal.
    rewrite live_strong in Hperm by assumption. apply perm_len in Hperm. exact Hperm.
  - rewrite N.add_0_l in Hs3. exact Hs3.
Qed.

(** iteration *)
Lemma itFind_concat : forall a c r, itFind (K := K) (V := V) a = (c, r) ->
  concat a = c ++ concat r /\ (c = [] -> r = []).
Proof.
  induction a as [|b a IH]; intros c r H; cbn [itFind] in H.
  - inversion H; subst. auto.
  - destruct b as [|x b].
    + apply IH in H. exact H.
    + inversion H; subst. split; [reflexivity|]. discriminate.
Qed.

Lemma itRun_all : forall fuel c r, (c = [] -> r = []) -> (length (c ++ concat r) <= fuel)%nat ->
  itRun (K := K) (V := V) fuel (c, r) = c ++ concat r.
Proof.
  induction fuel as [|f IH]; intros c r Hc Hl.
  - destruct c; [rewrite Hc in * by reflexivity; reflexivity|]. cbn in Hl. lia.
  - cbn [itRun itNext]. destruct c as [|x [|y c]].
    + rewrite Hc by reflexivity. reflexivity.
    + destruct (itFind r) as [c' r'] eqn:E. destruct (itFind_concat _ _ _ E) as [H1 H2].
      cbn [app]. rewrite H1. f_equal. apply IH; [assumption|]. rewrite <- H1. cbn in Hl. lia.
    + cbn [app]. f_equal. rewrite IH; [reflexivity|discriminate|]. cbn in Hl |- *. lia.
Qed.

Theorem iterate_all : forall (m : hmap K V) fuel,
  (length (nodes m) <= fuel)%nat -> itRun fuel (itStart m) = nodes m.
Proof.
  intros m fuel H. unfold itStart, nodes in *. destruct (harray m) as [a|].
  - destruct (itFind a) as [c r] eqn:E. destruct (itFind_concat _ _ _ E) as [H1 H2].
    rewrite H1. apply itRun_all; [assumption|]. rewrite <- H1. assumption.
  - destruct fuel; reflexivity.
Qed.
End Proofs.
