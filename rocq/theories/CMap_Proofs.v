(** Proofs about ConcurrentHashMap. *)
From Coq Require Import ZArith Lia Bool List Sorted.
Import ListNotations.
From Verif Require Import JNum_Model PSet_Model PSet_Spec PSet_Proofs CMap_Model CMap_Spec.

(** *** Comparing without overflow *)
Lemma descend_congr {T} (cmp cmp' : T -> T -> Z) x t : forall c, (forall v, In v (inorder t) -> cmp x v = cmp' x v) -> descend cmp x t c = descend cmp' x t c.
Proof.
  induction t as [|r l IHl v rt IHr]; intros c H; [reflexivity|]. cbn [descend]. cbn [inorder] in H.
  rewrite (H v) by (apply in_or_app; right; left; reflexivity).
  rewrite IHl by (intros; apply H; apply in_or_app; auto). rewrite IHr by (intros; apply H; apply in_or_app; right; right; auto). reflexivity.
Qed.
Lemma find_congr {T} (cmp cmp' : T -> T -> Z) x s : (forall v, In v (elements s) -> cmp x v = cmp' x v) -> find cmp x s = find cmp' x s.
Proof. intro H. unfold find. rewrite (descend_congr cmp cmp') by exact H. reflexivity. Qed.

Section P.
Context {K V : Type}.
Variable keq : K -> K -> bool.
Variable veq : V -> V -> bool.
Variable hash : K -> Z.
Hypothesis keqOk : forall a b, keq a b = true <-> a = b.
Variable used : K -> Prop.
Hypothesis SP : spread hash used.
Notation node := (node K V).
Notation content := (content K V).

Definition cmpZ (a b : node) : Z := fst a - fst b.
Lemma orderedZ : ordered cmpZ.
Proof.
  split; unfold cmpZ; intros; [|lia]. destruct (Z.lt_total (fst a) (fst b)) as [H|[->|H]].
  - rewrite (Z.sgn_neg (fst a - fst b)), (Z.sgn_pos (fst b - fst a)); lia.
  - rewrite Z.sub_diag. reflexivity.
  - rewrite (Z.sgn_pos (fst a - fst b)), (Z.sgn_neg (fst b - fst a)); lia.
Qed.
Definition single (k : K) (v : V) : node := (hash k, [(k, v)]).
Record rep (c : content) (m : amap (K:=K) (V:=V)) : Prop := {
  rGood : good cmpZ (cset c);
  rSize : csize c = Z.of_nat (length (elements (cset c)));
  rForm : forall n, In n (elements (cset c)) -> exists k v, n = single k v /\ used k;
  rMap : forall k v, m k = Some v <-> In (single k v) (elements (cset c)) }.

Lemma wrap_small z : (Z.abs z < 2 ^ 31 -> wrap32 z = z)%Z.
Proof. intro H. unfold wrap32. rewrite Z.mod_small; lia. Qed.
Lemma cmp_agree k l n : used k -> (exists k' v, n = single k' v /\ used k') -> cmpNode (hash k, l) n = cmpZ (hash k, l) n /\ cmpNode n (hash k, l) = cmpZ n (hash k, l).
Proof.
  intros U [k' [v [-> U']]]. unfold cmpNode, cmpZ, single. cbn [fst]. destruct (SP k k' U U') as [_ A]. split; apply wrap_small; lia.
Qed.

Lemma cases c m k l : rep c m -> used k ->
  let x := (hash k, l) in let p := pathOf hash c k l in
  (m k = None /\ fresh p = true /\ pathValue p = Some x /\ exists a b, elements (cset c) = a ++ b /\ below cmpZ x a /\ above cmpZ x b /\
     exists s', addPath p = Some s' /\ good cmpZ s' /\ elements s' = a ++ x :: b) \/
  (exists v, m k = Some v /\ fresh p = false /\ pathValue p = Some (single k v) /\ exists a b, elements (cset c) = a ++ [single k v] ++ b /\ below cmpZ x a /\ above cmpZ x b /\
     (exists s', replaceWith cmpNode p x = Some s' /\ good cmpZ s' /\ elements s' = a ++ x :: b) /\
     (exists s', remove p = Some s' /\ good cmpZ s' /\ elements s' = a ++ b)).
Proof.
  intros R U. cbn zeta. unfold pathOf.
  assert (AG : forall n, In n (elements (cset c)) -> cmpNode (hash k, l) n = cmpZ (hash k, l) n /\ cmpNode n (hash k, l) = cmpZ n (hash k, l)).
  { intros n I. apply cmp_agree; [exact U|]. apply (rForm _ _ R n I). }
  rewrite (find_congr cmpNode cmpZ) by (intros; apply AG; assumption).
  destruct (find_cases cmpZ orderedZ (hash k, l) (cset c) (rGood _ _ R)) as [[a [b [E [B [A [F X]]]]]]|[a [n [b [E [C [B [A [F [V1 [[s' [P [G' E']]] X]]]]]]]]]]].
  - left. split.
    + destruct (m k) as [v|] eqn:M; [|reflexivity]. exfalso. apply (rMap _ _ R) in M. rewrite E in M. unfold below, above in *. rewrite Forall_forall in A, B.
      apply in_app_or in M. destruct M as [M|M]; [specialize (B _ M)|specialize (A _ M)]; unfold cmpZ, single in *; cbn in *; lia.
    + split; [exact F|]. split.
      * unfold find, pathValue. unfold find in F.
        pose proof (rGood _ _ R) as [[[RB [n0 RR]] _] _].
        pose proof (descend_rb cmpZ (hash k, l) (root (cset c)) [] n0 RR (rbcNil n0) (fun _ => RB)) as D.
        destruct (descend cmpZ (hash k, l) (root (cset c)) []) as [[[|] mm] cc]; cbn in F; [|discriminate]. destruct D as [-> _]. reflexivity.
      * exists a, b. auto.
  - right. assert (I : In n (elements (cset c))) by (rewrite E; apply in_or_app; right; left; reflexivity).
    destruct (rForm _ _ R n I) as [k' [v [-> U']]]. unfold cmpZ, single in C. cbn in C.
    assert (k = k') by (apply (SP k k' U U'); lia). subst k'.
    exists v. split; [apply (rMap _ _ R); exact I|]. split; [exact F|]. split; [exact V1|]. exists a, b. split; [exact E|]. split; [exact B|]. split; [exact A|]. split; [|exact X].
    exists s'. split; [|auto]. rewrite <- P. unfold replaceWith. rewrite F. unfold pathValue in V1. destruct (PSet_Model.node (find cmpZ (hash k, l) (cset c))) as [|r0 l0 v0 rt0]; [reflexivity|].
    injection V1 as ->. rewrite (proj2 (AG _ I)). reflexivity.
Qed.

Lemma keq_refl k : keq k k = true.
Proof. apply keqOk. reflexivity. Qed.
Lemma cells c m k : rep c m -> used k ->
  cellsOf hash c k = match m k with Some v => [(k, v)] | None => [] end /\ cellOf keq hash c k = option_map (fun v => (k, v)) (m k).
Proof.
  intros R U. assert (X : cellsOf hash c k = match m k with Some v => [(k, v)] | None => [] end).
  { unfold cellsOf. destruct (cases c m k [] R U) as [[-> [_ [-> _]]]|[v [-> [_ [-> _]]]]]; reflexivity. }
  split; [exact X|]. unfold cellOf. rewrite X. destruct (m k); [|reflexivity]. cbn. rewrite keq_refl. reflexivity.
Qed.

Lemma enum c m : rep c m -> enumerates (flat_map snd (elements (cset c))) m /\ length (flat_map snd (elements (cset c))) = length (elements (cset c)).
Proof.
  intro R. destruct (rGood _ _ R) as [_ S].
  assert (X : NoDup (map fst (flat_map snd (elements (cset c)))) /\ length (flat_map snd (elements (cset c))) = length (elements (cset c)) /\
    forall k v, In (k, v) (flat_map snd (elements (cset c))) <-> In (single k v) (elements (cset c))).
  { pose proof (rForm _ _ R) as F. revert F S. generalize (elements (cset c)). induction l as [|n l IH]; intros F S.
    - cbn. split; [constructor|]. tauto.
    - unfold sorted in S. apply StronglySorted_inv in S. destruct S as [S1 S2].
      destruct (IH ltac:(intros; apply F; right; assumption) S1) as [I1 [I2 I3]]. destruct (F n ltac:(left; reflexivity)) as [k [v [-> U]]].
      cbn [flat_map snd single app map fst length]. split; [|split].
      + constructor; [|exact I1]. intro I. apply in_map_iff in I. destruct I as [[k' v'] [Q I]]. cbn in Q. subst k'. apply I3 in I.
        rewrite Forall_forall in S2. specialize (S2 _ I). unfold cmpZ, single in S2. cbn in S2. lia.
      + rewrite I2. reflexivity.
      + intros k' v'. cbn [In]. rewrite I3. split; (intros [Q|Q]; [left|right; exact Q]).
        * injection Q as <- <-. reflexivity.
        * unfold single in Q. congruence. }
  destruct X as [X1 [X2 X3]]. split; [split; [exact X1|]|exact X2]. intros k v. rewrite X3. symmetry. apply (rMap _ _ R).
Qed.

(** Inserting, replacing and removing. *)
Lemma rep_with c m k v a b z s' mid : rep c m -> used k -> elements (cset c) = a ++ mid ++ b -> (forall n, In n mid -> exists w, n = single k w) ->
  below cmpZ (single k v) a -> above cmpZ (single k v) b -> good cmpZ s' -> elements s' = a ++ single k v :: b ->
  z = Z.of_nat (length (elements s')) -> rep {| cset := s'; csize := z |} (fun k' => if keq k' k then Some v else m k').
Proof.
  intros R U E MI B A G E' Z. unfold below, above in *. rewrite Forall_forall in A, B. split; cbn [cset csize]; [exact G|exact Z| |].
  - intros n I. rewrite E' in I. apply in_app_or in I. destruct I as [I|[I|I]].
    + apply (rForm _ _ R). rewrite E. apply in_or_app. auto.
    + exists k, v. auto.
    + apply (rForm _ _ R). rewrite E. apply in_or_app. right. apply in_or_app. auto.
  - intros k' v'. rewrite E'. destruct (keq k' k) eqn:Q.
    + apply keqOk in Q. subst k'. split.
      * intro X. injection X as ->. apply in_or_app. right. left. reflexivity.
      * intro I. apply in_app_or in I. destruct I as [I|[I|I]].
        -- specialize (B _ I). unfold cmpZ, single in B. cbn in B. lia.
        -- unfold single in I. congruence.
        -- specialize (A _ I). unfold cmpZ, single in A. cbn in A. lia.
    + assert (N : k' <> k) by (intro X; apply keqOk in X; congruence). rewrite (rMap _ _ R), E. rewrite !in_app_iff. cbn [In]. split.
      * intros [I|[I|I]]; auto. destruct (MI _ I) as [w X]. unfold single in X. congruence.
      * intros [I|[I|I]]; auto. unfold single in I. congruence.
Qed.
Lemma rep_without c m k v a b z s' l : rep c m -> used k -> elements (cset c) = a ++ [single k v] ++ b ->
  below cmpZ (hash k, l) a -> above cmpZ (hash k, l) b -> good cmpZ s' -> elements s' = a ++ b ->
  z = Z.of_nat (length (elements s')) -> rep {| cset := s'; csize := z |} (fun k' => if keq k' k then None else m k').
Proof.
  intros R U E B A G E' Z. unfold below, above in *. rewrite Forall_forall in A, B. split; cbn [cset csize]; [exact G|exact Z| |].
  - intros n I. rewrite E' in I. apply (rForm _ _ R). rewrite E. rewrite !in_app_iff in *. tauto.
  - intros k' v'. rewrite E'. destruct (keq k' k) eqn:Q.
    + apply keqOk in Q. subst k'. split; [discriminate|]. intro I. apply in_app_or in I. destruct I as [I|I].
      * specialize (B _ I). unfold cmpZ, single in B. cbn in B. lia.
      * specialize (A _ I). unfold cmpZ, single in A. cbn in A. lia.
    + assert (N : k' <> k) by (intro X; apply keqOk in X; congruence). rewrite (rMap _ _ R), E. rewrite !in_app_iff. cbn [In]. split; [|tauto].
      intros [I|[[I|[]]|I]]; auto. unfold single in I. congruence.
Qed.

(** What a call does if it is alone. *)
Definition fits (w : wish (K:=K) (V:=V)) (m m' : amap (K:=K) (V:=V)) : Prop :=
  match w with Keep => m' = m | Swap c' => rep c' m' | Stuck => False end.
Lemma put_ok c m k v ifa ifp : rep c m -> used k ->
  let r := putWish keq hash c k v ifa ifp in snd r = m k /\
  fits (fst r) m (if match m k with Some w => ifp w | None => ifa end then (fun k' => if keq k' k then Some v else m k') else m).
Proof.
  intros R U. cbn zeta. unfold putWish. destruct (cells c m k R U) as [C1 C2]. rewrite C2, C1. pose proof (rSize _ _ R) as SZ.
  destruct (m k) as [w|] eqn:M; cbn [option_map snd fst].
  - destruct (ifp w); [|split; reflexivity]. cbn [updated fst]. rewrite keq_refl. cbn [fst snd]. split; [reflexivity|].
    destruct (cases c m k [(k, v)] R U) as [[M' _]|[w' [M' [F [PV [a [b [E [B [A [[s' [P [G E']]] _]]]]]]]]]]]; [congruence|].
    rewrite P. cbn [with_ swap fits]. eapply (rep_with c m k v a b); try eassumption.
    + intros n [<-|[]]. eauto.
    + rewrite SZ, E', E, !app_length. cbn [length]. rewrite ?app_length. reflexivity.
  - destruct ifa; [|split; reflexivity]. cbn [fst snd]. split; [reflexivity|].
    destruct (cases c m k [(k, v)] R U) as [[_ [F [_ [a [b [E [B [A [s' [P [G E']]]]]]]]]]]|[w' [M' _]]]; [|congruence].
    rewrite F, P. cbn [with_ swap fits]. eapply (rep_with c m k v a b (csize c + 1) s' []); try eassumption.
    + intros n [].
    + rewrite SZ, E', E, !app_length. cbn [length]. lia.
Qed.
Lemma remove_ok c m k cond : rep c m -> used k ->
  let r := removeWish keq hash c k cond in snd r = m k /\
  fits (fst r) m (if match m k with Some w => cond w | None => false end then (fun k' => if keq k' k then None else m k') else m).
Proof.
  intros R U. cbn zeta. unfold removeWish. destruct (cells c m k R U) as [C1 C2]. rewrite C2, C1. pose proof (rSize _ _ R) as SZ.
  destruct (m k) as [w|] eqn:M; cbn [option_map snd fst]; [|split; reflexivity].
  destruct (cond w); [|split; reflexivity]. cbn [dropped fst]. rewrite keq_refl. cbn [fst snd]. split; [reflexivity|].
  destruct (cases c m k [] R U) as [[M' _]|[w' [M' [F [PV [a [b [E [B [A [_ [s' [P [G E']]]]]]]]]]]]]]; [congruence|].
  rewrite P. cbn [with_ swap fits]. eapply (rep_without c m k w' a b); try eassumption.
  rewrite SZ, E', E, !app_length. cbn [length]. lia.
Qed.

Lemma rep_empty m : (forall k, m k = None) -> rep Empty m.
Proof.
  intro H. split; [apply good_empty|reflexivity|intros n []|]. intros k v. rewrite H. split; [discriminate|intros []].
Qed.
Lemma same_refl (m : amap (K:=K) (V:=V)) : same m m.
Proof. intro k. reflexivity. Qed.
Lemma attempt_ok o c m : rep c m -> (forall k, keyOf o = Some k -> used k) ->
  exists m', acts keq veq o m m' (snd (attempt keq veq hash o c)) /\ fits (fst (attempt keq veq hash o c)) m m'.
Proof.
  intros R U. destruct o as [k|k| | | |k v|k v|k v|k old v|k|k v]; cbn [attempt acts keyOf] in *; try specialize (U k eq_refl).
  - exists m. destruct (cells c m k R U) as [_ ->]. cbn. split; [|reflexivity]. split; [apply same_refl|]. destruct (m k); reflexivity.
  - exists m. destruct (cells c m k R U) as [_ ->]. cbn. split; [|reflexivity]. split; [apply same_refl|]. destruct (m k); reflexivity.
  - exists m. cbn. split; [|reflexivity]. split; [apply same_refl|]. destruct (enum c m R) as [E L]. eexists. split; [exact E|]. rewrite (rSize _ _ R), L. reflexivity.
  - exists m. cbn. split; [|reflexivity]. split; [apply same_refl|]. destruct (enum c m R) as [E L].
    replace (iterate (size (cset c)) successor (first (cset c))) with (elements (cset c)); [eauto|].
    destruct (rGood _ _ R) as [[_ SZ] _]. rewrite SZ. pose proof (first_ok (cset c)) as Q. destruct (first (cset c)) as [p|].
    + destruct Q as [W [v [PV EL]]]. rewrite (iterate_up (cset c) _ p v W PV); [exact EL|]. rewrite EL. cbn. lia.
    + rewrite Q. reflexivity.
  - exists (fun _ => None). cbn. split; [auto|]. apply rep_empty. reflexivity.
  - pose proof (put_ok c m k v true (fun _ => true) R U) as [A F]. destruct (putWish _ _ _ _ _ _ _) as [w r]. cbn [fst snd] in *.
    eexists. split; [|exact F]. split; [|rewrite A; reflexivity]. destruct (m k); intro; reflexivity.
  - pose proof (put_ok c m k v true (fun _ => false) R U) as [A F]. destruct (putWish _ _ _ _ _ _ _) as [w r]. cbn [fst snd] in *.
    eexists. split; [|exact F]. split; [|rewrite A; reflexivity]. destruct (m k); intro; reflexivity.
  - pose proof (put_ok c m k v false (fun _ => true) R U) as [A F]. destruct (putWish _ _ _ _ _ _ _) as [w r]. cbn [fst snd] in *.
    eexists. split; [|exact F]. split; [|rewrite A; reflexivity]. destruct (m k); intro; reflexivity.
  - pose proof (put_ok c m k v false (fun x => veq x old) R U) as [A F]. destruct (putWish _ _ _ _ _ _ _) as [w r]. cbn [fst snd] in *.
    eexists. split; [|exact F]. split; [|rewrite A; reflexivity]. unfold has. destruct (m k) as [u|]; [destruct (veq u old)|]; intro; reflexivity.
  - pose proof (remove_ok c m k (fun _ => true) R U) as [A F]. destruct (removeWish _ _ _ _ _) as [w r]. cbn [fst snd] in *.
    eexists. split; [|exact F]. split; [|rewrite A; reflexivity]. destruct (m k) eqn:M; intro k'; [reflexivity|].
    destruct (keq k' k) eqn:Q; [|reflexivity]. apply keqOk in Q. subst. exact M.
  - pose proof (remove_ok c m k (fun x => veq x v) R U) as [A F]. destruct (removeWish _ _ _ _ _) as [w r]. cbn [fst snd] in *.
    eexists. split; [|exact F]. split; [|rewrite A; reflexivity]. unfold has. destruct (m k) as [u|]; [destruct (veq u v)|]; intro; reflexivity.
Qed.

(** *** Threads *)
Notation state := (state K V).
Notation op := (op K V).
Notation answer := (answer K V).
Lemma nth_setPlace (l : list (op * place (K:=K) (V:=V))) i p o q j : nth_error l i = Some (o, q) -> nth_error (setPlace l i p) j = if Nat.eqb j i then Some (o, p) else nth_error l j.
Proof.
  intro H. unfold setPlace. rewrite H. assert (L : i < length l) by (apply nth_error_Some; congruence).
  assert (FL : length (firstn i l) = i) by (apply firstn_length_le; lia).
  destruct (Nat.eqb_spec j i) as [->|N].
  - rewrite nth_error_app2 by lia. rewrite FL, Nat.sub_diag. reflexivity.
  - destruct (Nat.lt_ge_cases j i).
    + rewrite nth_error_app1 by lia. clear H FL N. revert i j L H0. induction l as [|x l IH]; intros [|i] [|j] L X; cbn in *; auto; try lia. apply IH; lia.
    + rewrite nth_error_app2 by lia. rewrite FL. destruct (j - i) as [|d] eqn:D; [lia|]. cbn [nth_error].
      replace j with (S i + d) by lia. clear. revert l. induction (S i) as [|n IH]; intro l; [reflexivity|]. destruct l; [destruct d; reflexivity|]. cbn. apply IH.
Qed.
Lemma ofCall_snoc i l j (o : op) (a : answer) : ofCall i (l ++ [(j, o, a)]) = ofCall i l ++ (if Nat.eqb j i then [(j, o, a)] else []).
Proof. unfold ofCall. rewrite filter_app. cbn. destruct (Nat.eqb j i); reflexivity. Qed.

Definition placeInv (s : state) (i : nat) (o : op) (p : place (K:=K) (V:=V)) : Prop :=
  match p with
  | Idle | Trying => ofCall i (log s) = []
  | Swapping id seen c' a => ofCall i (log s) = [] /\ o <> Clear /\ id < fresh_ s /\
      (id = fst (current s) -> attempt keq veq hash o (snd (current s)) = (Swap c', a)) /\
      (id = 0 -> attempt keq veq hash o Empty = (Swap c', a)) /\ seen <= length (log s) /\ (id <> fst (current s) -> seen < length (log s))
  | Returned a => ofCall i (log s) = [(i, o, a)]
  end.
Record inv (s : state) : Prop := {
  iMap : exists m, legal keq veq (fun _ => None) (log s) m /\ rep (snd (current s)) m;
  iFresh : fst (current s) < fresh_ s;
  iEmpty : fst (current s) = 0 -> snd (current s) = Empty;
  iPlaces : forall i o p, nth_error (calls s) i = Some (o, p) -> (forall k, keyOf o = Some k -> used k) /\ placeInv s i o p }.

(** A call acts: the other calls do not mind. *)
Lemma act_inv s i o q a cur nx m' : inv s -> nth_error (calls s) i = Some (o, q) -> ofCall i (log s) = [] ->
  (forall m, legal keq veq (fun _ => None) (log s) m -> rep (snd (current s)) m -> acts keq veq o m (m' m) a /\ rep (snd cur) (m' m)) ->
  (cur = current s \/ cur = (0, Empty) \/ fst cur = fresh_ s) -> fst cur < nx -> fresh_ s <= nx ->
  inv {| current := cur; fresh_ := nx; calls := setPlace (calls s) i (Returned a); log := log s ++ [(i, o, a)] |}.
Proof.
  intros I H N A C L1 L2. destruct (iMap _ I) as [m [LG R]]. destruct (A m LG R) as [A1 A2]. split; cbn [current fresh_ calls log].
  - exists (m' m). split; [|exact A2]. econstructor; eassumption.
  - exact L1.
  - intro Z. destruct C as [->|[->|C]]; [apply (iEmpty _ I Z)|reflexivity|]. pose proof (iFresh _ I). lia.
  - intros j o' p' Hj. rewrite (nth_setPlace _ _ _ _ _ _ H) in Hj. destruct (Nat.eqb_spec j i) as [->|Ne].
    + injection Hj as <- <-. split; [apply (iPlaces _ I i o q H)|]. unfold placeInv. cbn [log]. rewrite ofCall_snoc, N, Nat.eqb_refl. reflexivity.
    + destruct (iPlaces _ I j o' p' Hj) as [U P]. split; [exact U|]. unfold placeInv in *. cbn [log current fresh_].
      rewrite ofCall_snoc. replace (i =? j) with false by (symmetry; apply Nat.eqb_neq; congruence). rewrite app_nil_r, app_length. cbn [length].
      destruct p' as [| |id seen c' a'|a']; auto. destruct P as [P1 [P2 [P3 [P4 [P5 [P6 P7]]]]]].
      split; [exact P1|]. split; [exact P2|]. split; [lia|]. split; [|split; [exact P5|split; [lia|intro; lia]]].
      intro Q. destruct C as [->|[->|C]]; [apply P4; exact Q|apply P5; exact Q|]. exfalso. lia.
Qed.
Lemma move_inv s i o q p : inv s -> nth_error (calls s) i = Some (o, q) -> placeInv s i o p ->
  inv {| current := current s; fresh_ := fresh_ s; calls := setPlace (calls s) i p; log := log s |}.
Proof.
  intros I H P. split; cbn [current fresh_ calls log]; [apply I|apply I|apply I|].
  intros j o' p' Hj. rewrite (nth_setPlace _ _ _ _ _ _ H) in Hj. destruct (Nat.eqb_spec j i) as [->|Ne].
  - injection Hj as <- <-. split; [apply (iPlaces _ I i o q H)|exact P].
  - destruct (iPlaces _ I j o' p' Hj) as [U P']. split; [exact U|exact P'].
Qed.
Lemma acts_some o c m : rep c m -> (forall k, keyOf o = Some k -> used k) ->
  match attempt keq veq hash o c with
  | (Keep, a) => acts keq veq o m m a
  | (Swap c', a) => exists m', acts keq veq o m m' a /\ rep c' m'
  | (Stuck, _) => False
  end.
Proof.
  intros R U. destruct (attempt_ok o c m R U) as [m' [A F]]. destruct (attempt keq veq hash o c) as [[|c'|] a]; cbn [fst snd fits] in *; [subst; exact A|eauto|exact F].
Qed.

Lemma step_inv s i : inv s -> inv (step keq veq hash i s).
Proof.
  intro I. unfold step. destruct (nth_error (calls s) i) as [[o [| |id seen c' a|a]]|] eqn:H; auto;
    pose proof (iPlaces _ I i _ _ H) as [U P]; cbn [placeInv] in P.
  - apply (move_inv s i o Idle); auto.
  - assert (G : o <> Clear -> inv (match attempt keq veq hash o (snd (current s)) with
          | (Keep, a) => {| current := current s; fresh_ := fresh_ s; calls := setPlace (calls s) i (Returned a); log := log s ++ [(i, o, a)] |}
          | (Swap c', a) => {| current := current s; fresh_ := fresh_ s; calls := setPlace (calls s) i (Swapping (fst (current s)) (length (log s)) c' a); log := log s |}
          | (Stuck, _) => {| current := current s; fresh_ := fresh_ s; calls := setPlace (calls s) i (Returned Fails); log := log s ++ [(i, o, Fails)] |}
          end)).
    { intro NC. destruct (attempt keq veq hash o (snd (current s))) as [[|c'|] a] eqn:E.
      - apply (act_inv s i o Trying a (current s) (fresh_ s) (fun m => m)); auto; [|apply I].
        intros m LG R. split; [|exact R]. pose proof (acts_some o _ m R U) as X. rewrite E in X. exact X.
      - apply (move_inv s i o Trying); auto. cbn [placeInv]. split; [exact P|]. split; [exact NC|]. split; [apply I|]. split; [auto|]. split; [|split; [lia|congruence]].
        intro Z. rewrite <- (iEmpty _ I Z). exact E.
      - destruct (iMap _ I) as [m [LG R]]. pose proof (acts_some o _ m R U) as X. rewrite E in X. contradiction. }
    destruct o; try (apply G; discriminate).
    apply (act_inv s i Clear Trying Done (0, Empty) (fresh_ s) (fun _ _ => None)); auto.
    + intros m LG R. cbn. split; [auto|]. apply rep_empty. reflexivity.
    + cbn. pose proof (iFresh _ I). lia.
  - destruct P as [P1 [P2 [P3 [P4 [P5 [P6 P7]]]]]]. destruct (Nat.eqb_spec id (fst (current s))) as [Q|Q].
    + specialize (P4 Q).
      assert (X : forall m, rep (snd (current s)) m -> exists m', acts keq veq o m m' a /\ rep c' m').
      { intros m R. pose proof (acts_some o _ m R U) as X. rewrite P4 in X. exact X. }
      destruct (iMap _ I) as [m [LG R]]. destruct (X m R) as [m2 [A R2]].
      split; cbn [current fresh_ calls log].
      * exists m2. split; [econstructor; eassumption|exact R2].
      * cbn. lia.
      * cbn. pose proof (iFresh _ I). lia.
      * intros j o' p' Hj. rewrite (nth_setPlace _ _ _ _ _ _ H) in Hj. destruct (Nat.eqb_spec j i) as [->|Ne].
        -- injection Hj as <- <-. split; [exact U|]. cbn [placeInv log]. rewrite ofCall_snoc, P1, Nat.eqb_refl. reflexivity.
        -- destruct (iPlaces _ I j o' p' Hj) as [U' P']. split; [exact U'|]. unfold placeInv in *. cbn [log current fresh_ fst snd].
           rewrite ofCall_snoc. replace (i =? j) with false by (symmetry; apply Nat.eqb_neq; congruence). rewrite app_nil_r, app_length. cbn [length].
           destruct p' as [| |id' seen' c2 a'|a']; auto. destruct P' as [Q1 [Q2 [Q3 [Q4 [Q5 [Q6 Q7]]]]]].
           split; [exact Q1|]. split; [exact Q2|]. split; [lia|]. split; [intro; lia|]. split; [exact Q5|]. split; [lia|intro; lia].
    + apply (move_inv s i o (Swapping id seen c' a)); auto.
Qed.
Lemma run_inv is : forall s, inv s -> inv (run keq veq hash is s).
Proof. induction is as [|i is IH]; intros s I; [exact I|]. apply IH, step_inv, I. Qed.
Lemma start_inv os : (forall o, In o os -> forall k, keyOf o = Some k -> used k) -> inv (start os).
Proof.
  intro U. split; cbn [start current fresh_ calls log fst snd].
  - exists (fun _ => None). split; [constructor|]. apply rep_empty. reflexivity.
  - lia.
  - reflexivity.
  - intros i o p H. apply nth_error_In in H. apply in_map_iff in H. destruct H as [o' [E H]]. injection E as -> <-. split; [apply U; exact H|reflexivity].
Qed.
Lemma log_grows is : forall s, exists l, log (run keq veq hash is s) = log s ++ l.
Proof.
  induction is as [|i is IH]; intro s; [exists []; cbn; rewrite app_nil_r; reflexivity|]. cbn [run].
  destruct (IH (step keq veq hash i s)) as [l E]. assert (X : exists l', log (step keq veq hash i s) = log s ++ l').
  { unfold step. destruct (nth_error (calls s) i) as [[o [| |id seen c' a|a]]|]; try (exists []; cbn; rewrite app_nil_r; reflexivity).
    - destruct o; try (eexists; reflexivity); destruct (attempt _ _ _ _ _) as [[|c'|] a]; try (eexists; reflexivity); exists []; cbn; rewrite app_nil_r; reflexivity.
    - destruct (id =? fst (current s)); [eexists; reflexivity|exists []; cbn; rewrite app_nil_r; reflexivity]. }
  destruct X as [l' X]. rewrite E, X. exists (l' ++ l). rewrite app_assoc. reflexivity.
Qed.
End P.
