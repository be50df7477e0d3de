(** Proofs about sorting and searching. *)
From Coq Require Import ZArith List Bool Lia Permutation.
Import ListNotations.
From Verif Require Import JNum_Model JSort_Model JSort_Spec.
Local Open Scope nat_scope.

Lemma nth_error_ext {A} : forall l m : list A, (forall k, nth_error l k = nth_error m k) -> l = m.
Proof.
  induction l as [|x l IH]; intros [|y m] H; [reflexivity|discriminate (H 0)|discriminate (H 0)|]. f_equal; [pose proof (H 0) as E; cbn in E; congruence|]. apply IH. intro k. exact (H (S k)).
Qed.
Section Arr.
Context {A : Type}.
Implicit Types l : list A.
Lemma set_app : forall (a : list A) x b v, set (a ++ x :: b) (length a) v = Some (a ++ v :: b).
Proof. induction a as [|y a IH]; intros x b v; [reflexivity|]. cbn. rewrite IH. reflexivity. Qed.
Lemma get_app (a : list A) (x : A) b : get (a ++ x :: b) (length a) = Some x.
Proof. unfold get. rewrite nth_error_app2 by lia. rewrite Nat.sub_diag. reflexivity. Qed.
Lemma get_split l i x : get l i = Some x -> exists a b, l = a ++ x :: b /\ length a = i.
Proof. intro E. apply nth_error_split in E. exact E. Qed.
Lemma get_some l i : i < length l -> exists x, get l i = Some x.
Proof. intro L. unfold get. destruct (nth_error l i) as [x|] eqn:E; [eauto|]. apply nth_error_None in E. lia. Qed.
Lemma get_lt l i x : get l i = Some x -> i < length l.
Proof. intro E. apply nth_error_Some. unfold get in E. congruence. Qed.
Lemma set_some l i v : i < length l -> exists l', set l i v = Some l' /\ length l' = length l /\ get l' i = Some v /\ (forall k, k <> i -> get l' k = get l k).
Proof.
  intro L. destruct (get_some l i L) as [x E]. destruct (get_split l i x E) as [a [b [-> <-]]]. exists (a ++ v :: b). rewrite set_app. split; [reflexivity|]. split; [rewrite !app_length; reflexivity|].
  split; [apply get_app|]. intros k K. unfold get. destruct (Nat.lt_trichotomy k (length a)) as [H|[H|H]]; [rewrite !nth_error_app1 by lia; reflexivity|contradiction|].
  rewrite !nth_error_app2 by lia. destruct (k - length a) as [|m] eqn:M; [lia|]. reflexivity.
Qed.
(** Two elements change places. *)
Lemma swap_perm l i j x y l1 l2 : get l i = Some x -> get l j = Some y -> i <> j -> set l i y = Some l1 -> set l1 j x = Some l2 -> Permutation l2 l.
Proof.
  assert (G : forall l i j x y l1 l2, i < j -> get l i = Some x -> get l j = Some y -> set l i y = Some l1 -> set l1 j x = Some l2 -> Permutation l2 l).
  { clear. intros l i j x y l1 l2 L X Y S1 S2. destruct (get_split l i x X) as [a [b [-> LA]]]. subst i. rewrite set_app in S1. inversion S1; subst l1.
    assert (YB : get b (j - length a - 1) = Some y). { unfold get in *. rewrite nth_error_app2 in Y by lia. destruct (j - length a) as [|m] eqn:M; [lia|]. cbn in Y. replace (S m - 1) with m by lia. exact Y. }
    destruct (get_split b _ y YB) as [c [d [-> LC]]]. replace j with (length (a ++ y :: c)) in S2 by (rewrite app_length; cbn; lia).
    replace (a ++ y :: c ++ y :: d) with ((a ++ y :: c) ++ y :: d) in S2 by (rewrite <- app_assoc; reflexivity). rewrite set_app in S2. inversion S2; subst l2. rewrite <- app_assoc. cbn [app].
    apply Permutation_app_head. rewrite <- !Permutation_middle. apply perm_swap. }
  intros X Y N S1 S2. destruct (Nat.lt_trichotomy i j) as [L|[L|L]]; [eapply G; eassumption|contradiction|].
  (* the other way round: set both in the other order *)
  pose proof (get_lt _ _ _ X) as LX. pose proof (get_lt _ _ _ Y) as LY.
  destruct (set_some l i y LX) as [l1' [E1 [E1b [E1c E1d]]]]. rewrite S1 in E1. inversion E1; subst l1'. destruct (set_some l1 j x ltac:(lia)) as [l2' [E2 [E2b [E2c E2d]]]]. rewrite S2 in E2. inversion E2; subst l2'.
  destruct (set_some l j x LY) as [m1 [F1 [F1b [F1c F1d]]]]. destruct (set_some m1 i y ltac:(lia)) as [m2 [F2 [F2b [F2c F2d]]]].
  assert (l2 = m2). { apply nth_error_ext. intro k. fold (get l2 k) (get m2 k). destruct (Nat.eq_dec k i) as [->|K1]; [rewrite E2d by lia; rewrite E1c, F2c; reflexivity|].
    destruct (Nat.eq_dec k j) as [->|K2]; [rewrite E2c, F2d by lia; rewrite F1c; reflexivity|]. rewrite E2d, E1d, F2d, F1d by lia. reflexivity. }
  subst m2. apply (G l j i y x m1 l2 L Y X F1 F2).
Qed.
Lemma set_get l i x l' : get l i = Some x -> set l i x = Some l' -> l' = l.
Proof. intros G S. destruct (get_split l i x G) as [a [b [-> <-]]]. rewrite set_app in S. inversion S. reflexivity. Qed.
Lemma set_length l i v l' : set l i v = Some l' -> length l' = length l.
Proof. intros. destruct (Nat.lt_ge_cases i (length l)) as [L|L]; [destruct (set_some l i v L) as [l'' [E [H1 _]]]; congruence|]. exfalso. revert i L l' H. induction l as [|x l IH]; intros i L l' H; [discriminate|]. destruct i as [|i]; [cbn in L; lia|]. cbn in H. destruct (set l i v) eqn:E; [|discriminate]. eapply (IH i ltac:(cbn in L; lia)). exact E. Qed.

Context (cmp : A -> A -> Z).

(** *** Insertion sort *)
Lemma shift_ok t : forall pre x rest, exists a b, shift cmp (pre ++ x :: rest) t (length pre) = Some (a ++ t :: b ++ rest) /\ pre = a ++ b /\
  Forall (fun y => (0 < cmp y t)%Z) b /\ (a = [] \/ exists a' y, a = a' ++ [y] /\ (cmp y t <= 0)%Z).
Proof.
  intro pre. induction pre as [|y pre IH] using rev_ind; intros x rest.
  - exists [], []. cbn. auto.
  - rewrite app_length. cbn [length]. rewrite Nat.add_1_r. cbn [shift]. replace ((pre ++ [y]) ++ x :: rest) with (pre ++ y :: x :: rest) by (rewrite <- app_assoc; reflexivity).
    rewrite get_app. cbn [bind]. assert (ST : forall v, set (pre ++ y :: x :: rest) (S (length pre)) v = Some (pre ++ y :: v :: rest)).
    { intro v. replace (pre ++ y :: x :: rest) with ((pre ++ [y]) ++ x :: rest) by (rewrite <- app_assoc; reflexivity). replace (S (length pre)) with (length (pre ++ [y])) by (rewrite app_length; cbn; lia).
      rewrite set_app, <- app_assoc. reflexivity. }
    destruct (Z.ltb_spec 0 (cmp y t)) as [C|C].
    + rewrite ST. cbn [bind]. destruct (IH y (y :: rest)) as [a [b [E [P [F G]]]]]. exists a, (b ++ [y]). split; [rewrite E, <- app_assoc; reflexivity|]. split; [rewrite P, app_assoc; reflexivity|].
      split; [apply Forall_app; split; [exact F|repeat constructor; exact C]|exact G].
    + rewrite ST. exists (pre ++ [y]), []. split; [rewrite <- app_assoc; reflexivity|]. split; [rewrite app_nil_r; reflexivity|]. split; [constructor|]. right. exists pre, y. auto.
Qed.
Inductive srt : list A -> Prop := srt_nil : srt [] | srt_snoc l x : srt l -> Forall (fun y => (cmp y x <= 0)%Z) l -> srt (l ++ [x]).
Lemma srt_inv l x : srt (l ++ [x]) -> srt l /\ Forall (fun y => (cmp y x <= 0)%Z) l.
Proof. intro H. remember (l ++ [x]) as m. destruct H; [destruct l; discriminate|]. apply app_inj_tail in Heqm. destruct Heqm; subst. auto. Qed.
Lemma srt_app a b : srt a -> srt b -> (forall x y, In x a -> In y b -> (cmp x y <= 0)%Z) -> srt (a ++ b).
Proof.
  intros SA SB. induction SB as [|b x SB IH F]; intro H; [rewrite app_nil_r; exact SA|]. rewrite app_assoc. constructor; [apply IH; intros; apply H; auto; apply in_or_app; left; assumption|].
  apply Forall_app. split; [|exact F]. apply Forall_forall. intros y Y. apply H; [exact Y|apply in_or_app; right; left; reflexivity].
Qed.
Lemma srt_app_inv a b : srt (a ++ b) -> srt a /\ srt b /\ (forall x y, In x a -> In y b -> (cmp x y <= 0)%Z).
Proof.
  revert a. induction b as [|y b IH] using rev_ind; intros a H; [rewrite app_nil_r in H; repeat split; [exact H|constructor|intros ? ? ? []]|].
  rewrite app_assoc in H. destruct (srt_inv _ _ H) as [H1 H2]. destruct (IH a H1) as [A1 [A2 A3]]. apply Forall_app in H2. destruct H2 as [H2 H3]. split; [exact A1|]. split; [constructor; assumption|].
  intros x z X Z. apply in_app_or in Z. destruct Z as [Z|[<-|[]]]; [apply A3; assumption|]. rewrite Forall_forall in H2. apply H2. exact X.
Qed.
Lemma srt_sorted l : srt l -> sorted cmp l.
Proof.
  intros S i j x y L X Y. destruct (nth_error_split l j Y) as [a [b [-> LA]]]. destruct (srt_app_inv _ _ S) as [_ [_ H]]. apply H; [|left; reflexivity].
  rewrite nth_error_app1 in X by lia. apply nth_error_In with i. exact X.
Qed.
Hypothesis C : comparator cmp.
Lemma cmp_refl x : cmp x x = 0%Z.
Proof. pose proof (turns _ C x x). destruct (Z.sgn_spec (cmp x x)) as [[? ?]|[[? ?]|[? ?]]]; lia. Qed.
Lemma cmp_turn x y : ((cmp x y < 0 <-> 0 < cmp y x) /\ (cmp x y <= 0 <-> 0 <= cmp y x))%Z.
Proof. pose proof (turns _ C x y). destruct (Z.sgn_spec (cmp x y)) as [[? ?]|[[? ?]|[? ?]]], (Z.sgn_spec (cmp y x)) as [[? ?]|[[? ?]|[? ?]]]; lia. Qed.
Lemma insertions_ok : forall rest pre, srt pre -> exists r, insertions cmp (pre ++ rest) (seq (length pre) (length rest)) = Some r /\ Permutation r (pre ++ rest) /\ srt r /\ sameOrder cmp (pre ++ rest) r.
Proof.
  induction rest as [|t rest IH]; intros pre S.
  - exists pre. rewrite app_nil_r. cbn. repeat split; auto.
  - cbn [length seq insertions]. rewrite get_app. cbn [bind]. destruct (shift_ok t pre t rest) as [a [b [E [P [F G]]]]]. rewrite E. cbn [bind].
    replace (a ++ t :: b ++ rest) with ((a ++ t :: b) ++ rest) by (rewrite <- app_assoc; reflexivity). subst pre. destruct (srt_app_inv _ _ S) as [SA [SB SAB]].
    assert (AT : forall x, In x a -> (cmp x t <= 0)%Z).
    { intros x X. destruct G as [->|[a' [y [-> Y]]]]; [destruct X|]. apply in_app_or in X. destruct X as [X|[<-|[]]]; [|exact Y]. destruct (srt_inv _ _ SA) as [_ FA]. rewrite Forall_forall in FA. apply (transitive _ C x y t); auto. }
    assert (TB : forall y, In y b -> (cmp t y <= 0)%Z). { intros y Y. rewrite Forall_forall in F. specialize (F y Y). destruct (cmp_turn t y). lia. }
    assert (S2 : srt (a ++ t :: b)).
    { apply srt_app; [exact SA| |].
      - change (t :: b) with ([t] ++ b). apply srt_app; [apply (srt_snoc [] t); constructor|exact SB|]. intros x y [<-|[]] Y. apply TB. exact Y.
      - intros x y X [<-|Y]; [apply AT; exact X|apply SAB; assumption]. }
    replace (Datatypes.S (length (a ++ b))) with (length (a ++ t :: b)) by (rewrite !app_length; cbn; lia).
    destruct (IH (a ++ t :: b) S2) as [r [R1 [R2 [R3 R4]]]]. exists r. split; [exact R1|]. split; [|split; [exact R3|]].
    + rewrite R2. rewrite <- !app_assoc. cbn [app]. apply Permutation_app_head. rewrite Permutation_middle. reflexivity.
    + intro x. rewrite (R4 x). rewrite !filter_app. cbn [filter]. rewrite <- !app_assoc. f_equal. destruct (Z.eqb_spec (cmp x t) 0) as [X|X]; [|rewrite ?app_nil_l; reflexivity].
      assert (FB : filter (fun y => (cmp x y =? 0)%Z) b = []).
      { assert (NB : forall y, In y b -> (cmp x y =? 0)%Z = false).
        { intros y Y. apply Z.eqb_neq. intro XY. rewrite Forall_forall in F. specialize (F y Y). destruct (cmp_turn x t) as [_ T1]. assert (T3 : (cmp t x <= 0)%Z) by (destruct (cmp_turn t x); lia).
          destruct (cmp_turn x y) as [_ T2]. assert (T4 : (cmp y x <= 0)%Z) by (destruct (cmp_turn y x); lia). pose proof (transitive _ C y x t T4 ltac:(lia)). lia. }
        clear - NB. induction b as [|y b IHb]; [reflexivity|]. cbn. rewrite (NB y (or_introl eq_refl)). apply IHb. intros z Z. apply NB. right. exact Z. }
      rewrite FB. reflexivity.
Qed.
Lemma insertionSort_ok l : exists r, insertionSort cmp l = Some r /\ Permutation r l /\ srt r /\ sameOrder cmp l r.
Proof.
  unfold insertionSort. destruct l as [|x l]; [exists []; repeat split; auto; constructor|]. cbn [length]. replace (S (length l) - 1) with (length l) by lia.
  apply (insertions_ok l [x]). apply (srt_snoc [] x); constructor.
Qed.

(** *** Partition *)
Lemma scanUp_ok l m : forall fuel i p y, i <= p -> get l p = Some y -> ~ (cmp y m < 0)%Z -> p - i < fuel -> exists i' x, scanUp cmp fuel l m i = Some i' /\ i <= i' <= p /\ get l i' = Some x /\ ~ (cmp x m < 0)%Z.
Proof.
  induction fuel as [|f IH]; intros i p y L G N F; [lia|]. cbn [scanUp]. pose proof (get_lt _ _ _ G). destruct (get_some l i ltac:(lia)) as [x X]. rewrite X. cbn [bind].
  destruct (Z.ltb_spec (cmp x m) 0) as [Q|Q]; [|exists i, x; repeat split; auto; lia].
  assert (i <> p) by (intros ->; rewrite G in X; inversion X; subst; contradiction). destruct (IH (S i) p y ltac:(lia) G N ltac:(lia)) as [i' [x' [E [B [D H']]]]]. exists i', x'. repeat split; auto; lia.
Qed.
Lemma scanDown_ok l m : forall j q y, q < j -> j <= length l -> get l q = Some y -> ~ (cmp m y < 0)%Z -> exists j' x, scanDown cmp l m j = Some j' /\ q <= j' < j /\ get l j' = Some x /\ ~ (cmp m x < 0)%Z.
Proof.
  induction j as [|j IH]; intros q y L LL G N; [lia|]. cbn [scanDown]. destruct (get_some l j ltac:(lia)) as [x X]. rewrite X. cbn [bind].
  destruct (Z.ltb_spec (cmp m x) 0) as [Q|Q]; [|exists j, x; repeat split; auto; lia].
  assert (q <> j) by (intros ->; rewrite G in X; inversion X; subst; contradiction). destruct (IH q y ltac:(lia) ltac:(lia) G N) as [j' [x' [E [B [D H']]]]]. exists j', x'. repeat split; auto; lia.
Qed.
Lemma partition_ok m : forall fuel l i j, j < fuel -> j <= length l -> (exists p y, i <= p /\ get l p = Some y /\ ~ (cmp y m < 0)%Z) -> (exists q y, q < j /\ get l q = Some y /\ ~ (cmp m y < 0)%Z) ->
  exists p l', partition cmp fuel l m i j = Some (p, l') /\ p < length l /\ Permutation l' l.
Proof.
  induction fuel as [|f IH]; intros l i j F J [p [y [P1 [P2 P3]]]] [q [z [Q1 [Q2 Q3]]]]; [lia|]. cbn [partition].
  pose proof (get_lt _ _ _ P2) as PL. destruct (scanUp_ok l m (S (length l)) i p y P1 P2 P3 ltac:(lia)) as [i' [xi [E1 [B1 [G1 N1]]]]]. rewrite E1. cbn [bind].
  destruct (scanDown_ok l m j q z Q1 J Q2 Q3) as [j' [xj [E2 [B2 [G2 N2]]]]]. rewrite E2. cbn [bind]. destruct (Nat.leb_spec j' i') as [L|L]; [exists i', l; repeat split; auto; apply (get_lt _ _ _ G1)|].
  rewrite G1, G2. cbn [bind]. destruct (set_some l i' xj (get_lt _ _ _ G1)) as [l1 [S1 [S1b [S1c S1d]]]]. rewrite S1. cbn [bind]. destruct (set_some l1 j' xi ltac:(lia)) as [l2 [S2 [S2b [S2c S2d]]]]. rewrite S2. cbn [bind].
  destruct (IH l2 (S i') j' ltac:(lia) ltac:(lia)) as [p' [l' [R1 [R2 R3]]]].
  - exists j', xi. repeat split; auto.
  - exists i', xj. split; [exact L|]. split; [rewrite S2d by lia; exact S1c|exact N2].
  - exists p', l'. split; [exact R1|]. split; [lia|]. rewrite R3. apply (swap_perm l i' j' xi xj l1 l2); auto; lia.
Qed.

(** *** Heap sort *)
Lemma sift_ok value offset count : forall fuel l i l0, i < count -> offset + count <= length l -> count - i < fuel -> set l (offset + i) value = Some l0 ->
  exists l', sift cmp fuel l i count offset value = Some l' /\ Permutation l' l0 /\ length l' = length l.
Proof.
  induction fuel as [|f IH]; intros l i l0 I L F S0; [lia|]. cbn [sift]. pose proof (set_length _ _ _ _ S0) as LEN. destruct (Nat.ltb_spec i (Nat.div2 count)) as [D|D]; [|exists l0; split; [exact S0|split; [reflexivity|exact LEN]]].
  assert (D2 : 2 * i + 1 < count). { pose proof (Nat.div2_odd count). destruct (Nat.odd count); cbn [Nat.b2n] in *; lia. }
  assert (CH : exists child, (if 2 * i + 1 + 1 <? count then do x <- get l (2 * i + 1); do y <- get l (2 * i + 1 + 1); Some (if (cmp x y <? 0)%Z then 2 * i + 1 + 1 else 2 * i + 1) else Some (2 * i + 1)) = Some child /\ i < child < count).
  { destruct (Nat.ltb_spec (2 * i + 1 + 1) count) as [X|X]; [|exists (2 * i + 1); split; [reflexivity|lia]]. destruct (get_some l (2 * i + 1) ltac:(lia)) as [x ->]. destruct (get_some l (2 * i + 1 + 1) ltac:(lia)) as [y ->]. cbn [bind].
    eexists. split; [reflexivity|]. destruct (cmp x y <? 0)%Z; lia. }
  cbv zeta. destruct CH as [child [-> CB]]. cbn [bind]. destruct (get_some l child ltac:(lia)) as [x ->]. cbn [bind]. destruct (0 <=? cmp value x)%Z; [exists l0; split; [exact S0|split; [reflexivity|exact LEN]]|].
  destruct (get_some l (offset + child) ltac:(lia)) as [y Y]. rewrite Y. cbn [bind]. destruct (set_some l (offset + i) y ltac:(lia)) as [l1 [S1 [S1b [S1c S1d]]]]. rewrite S1. cbn [bind].
  destruct (set_some l1 (offset + child) value ltac:(lia)) as [l2 [S2 [S2b [S2c S2d]]]]. destruct (IH l1 child l2 ltac:(lia) ltac:(lia) ltac:(lia) S2) as [l' [R1 [R2 R3]]]. exists l'. split; [exact R1|]. split; [|lia]. rewrite R2.
  (* l2 is l0 with two elements exchanged *)
  destruct (set_some l (offset + i) value ltac:(lia)) as [l0' [T0 [T0b [T0c T0d]]]]. rewrite S0 in T0. inversion T0; subst l0'. destruct (set_some l0 (offset + i) y ltac:(lia)) as [m1 [M1 [M1b [M1c M1d]]]].
  destruct (set_some m1 (offset + child) value ltac:(lia)) as [m2 [M2 [M2b [M2c M2d]]]]. assert (l2 = m2).
  { apply nth_error_ext. intro k. fold (get l2 k) (get m2 k). destruct (Nat.eq_dec k (offset + child)) as [->|K1]; [rewrite S2c, M2c; reflexivity|]. rewrite S2d, M2d by exact K1.
    destruct (Nat.eq_dec k (offset + i)) as [->|K2]; [rewrite S1c, M1c; reflexivity|]. rewrite S1d, M1d, T0d by exact K2. reflexivity. }
  subst m2. apply (swap_perm l0 (offset + i) (offset + child) value y m1 l2 T0c); [rewrite T0d by lia; exact Y|lia|exact M1|exact M2].
Qed.
Lemma siftDown_ok l i count offset : i < count -> offset + count <= length l -> exists l', siftDown cmp l i count offset = Some l' /\ Permutation l' l /\ length l' = length l.
Proof.
  intros I L. unfold siftDown. destruct (get_some l (offset + i) ltac:(lia)) as [v V]. rewrite V. cbn [bind]. destruct (set_some l (offset + i) v ltac:(lia)) as [l0 [S0 _]].
  destruct (sift_ok v offset count (S count) l i l0 I L ltac:(lia) S0) as [l' [R1 [R2 R3]]]. rewrite (set_get _ _ _ _ V S0) in R2. exists l'. auto.
Qed.
Lemma heapify_ok count begin : forall is l, Forall (fun i => i < count) is -> begin + count <= length l -> exists l', heapify cmp l is count begin = Some l' /\ Permutation l' l /\ length l' = length l.
Proof.
  induction is as [|i is IH]; intros l F L; [exists l; auto|]. inversion F; subst. cbn [heapify]. destruct (siftDown_ok l i count begin ltac:(assumption) L) as [l1 [-> [P1 L1]]]. cbn [bind].
  destruct (IH l1 ltac:(assumption) ltac:(lia)) as [l2 [E [P2 L2]]]. exists l2. split; [exact E|]. split; [rewrite P2; exact P1|lia].
Qed.
Lemma extract_ok count begin : forall is l, Forall (fun i => 0 < i < count) is -> begin + count <= length l -> exists l', extract cmp l is begin = Some l' /\ Permutation l' l /\ length l' = length l.
Proof.
  induction is as [|i is IH]; intros l F L; [exists l; auto|]. inversion F; subst. cbn [extract]. destruct (get_some l (begin + i) ltac:(lia)) as [x X]. destruct (get_some l begin ltac:(lia)) as [y Y]. rewrite X, Y. cbn [bind].
  destruct (set_some l (begin + i) y ltac:(lia)) as [l1 [S1 [S1b _]]]. rewrite S1. cbn [bind]. destruct (set_some l1 begin x ltac:(lia)) as [l2 [S2 [S2b _]]]. rewrite S2. cbn [bind].
  destruct (siftDown_ok l2 0 i begin ltac:(lia) ltac:(lia)) as [l3 [-> [P3 L3]]]. cbn [bind]. destruct (IH l3 ltac:(assumption) ltac:(lia)) as [l4 [E [P4 L4]]]. exists l4. split; [exact E|]. split; [|lia].
  rewrite P4, P3. apply (swap_perm l (begin + i) begin x y l1 l2 X Y); auto; lia.
Qed.
Lemma heapSort_ok l begin end_ : begin <= end_ <= length l -> exists l', heapSort cmp l begin end_ = Some l' /\ Permutation l' l /\ length l' = length l.
Proof.
  intro L. unfold heapSort. cbv zeta. destruct (heapify_ok (end_ - begin) begin (rev (seq 0 (Nat.div2 (end_ - begin)))) l) as [l1 [-> [P1 L1]]].
  - apply Forall_forall. intros i I. apply in_rev, in_seq in I. pose proof (Nat.div2_odd (end_ - begin)). lia.
  - lia.
  - cbn [bind]. destruct (extract_ok (end_ - begin) begin (rev (seq 1 (end_ - begin - 1))) l1) as [l2 [E [P2 L2]]]; [apply Forall_forall; intros i I; apply in_rev, in_seq in I; lia|lia|].
    exists l2. split; [exact E|]. split; [rewrite P2; exact P1|lia].
Qed.

(** *** Introsort *)
Lemma median_one a b c : median cmp a b c = a \/ median cmp a b c = b \/ median cmp a b c = c.
Proof. unfold median. repeat (match goal with |- context [if ?b then _ else _] => destruct b end); auto. Qed.
Lemma introSort_ok : forall fuel l begin end_ limit, limit < fuel -> end_ <= length l -> exists l', introSort cmp fuel l begin end_ limit = Some l' /\ Permutation l' l.
Proof.
  induction fuel as [|f IH]; intros l begin end_ limit F L; [lia|]. cbn [introSort]. destruct (Nat.leb_spec (end_ - begin) 16) as [SM|SM]; [exists l; auto|].
  destruct (Nat.eqb_spec limit 0) as [Z|Z]; [destruct (heapSort_ok l begin end_ ltac:(lia)) as [l' [E [P _]]]; exists l'; auto|].
  assert (D : Nat.div2 (end_ - begin) + 1 < end_ - begin). { pose proof (Nat.div2_odd (end_ - begin)). destruct (Nat.odd (end_ - begin)); cbn [Nat.b2n] in *; lia. }
  destruct (get_some l begin ltac:(lia)) as [a EA]. destruct (get_some l (begin + Nat.div2 (end_ - begin) + 1) ltac:(lia)) as [b EB]. destruct (get_some l (end_ - 1) ltac:(lia)) as [c EC]. rewrite EA, EB, EC. cbn [bind].
  set (m := median cmp a b c). assert (M : exists p, begin <= p < end_ /\ get l p = Some m).
  { destruct (median_one a b c) as [H|[H|H]]; fold m in H; rewrite H; [exists begin|exists (begin + Nat.div2 (end_ - begin) + 1)|exists (end_ - 1)]; split; auto; lia. }
  destruct M as [p [PB PM]]. assert (REF : ~ (cmp m m < 0)%Z) by (rewrite cmp_refl; lia).
  destruct (partition_ok m (S end_) l begin end_ ltac:(lia) L) as [pv [l1 [-> [P1 P2]]]]; [exists p, m; repeat split; auto; lia|exists p, m; repeat split; auto; lia|]. cbn [bind fst snd].
  pose proof (Permutation_length P2) as PL. assert (LM : Nat.div2 limit < f). { pose proof (Nat.div2_odd limit). destruct (Nat.odd limit); cbn [Nat.b2n] in *; lia. }
  destruct (IH l1 pv end_ (Nat.div2 limit) LM ltac:(lia)) as [l2 [-> Q1]]. cbn [bind]. pose proof (Permutation_length Q1) as QL. destruct (IH l2 begin pv (Nat.div2 limit) LM ltac:(lia)) as [l3 [-> Q2]].
  exists l3. split; [reflexivity|]. rewrite Q2, Q1, P2. reflexivity.
Qed.
Lemma sort_ok l : exists r, sort cmp l = Some r /\ Permutation r l /\ sorted cmp r /\ (length l <= 16 -> sameOrder cmp l r).
Proof.
  unfold sort. destruct (introSort_ok (S (length l)) l 0 (length l) (length l) ltac:(lia) (le_n _)) as [l1 [E1 P1]]. rewrite E1. cbn [bind]. destruct (insertionSort_ok l1) as [r [E2 [P2 [S2 O2]]]]. exists r. split; [exact E2|].
  split; [rewrite P2; exact P1|]. split; [apply srt_sorted; exact S2|]. intro L. cbn [introSort] in E1. rewrite Nat.sub_0_r in E1. destruct (Nat.leb_spec (length l) 16); [|lia]. inversion E1; subst l1. exact O2.
Qed.
End Arr.

(** *** Searching *)
Local Open Scope Z_scope.
Lemma wrap32_small z : - 2 ^ 31 <= z < 2 ^ 31 -> wrap32 z = z.
Proof. intro H. unfold wrap32. rewrite Z.mod_small; lia. Qed.
Lemma nth_in_range {B} (l : list B) i : 0 <= i < Z.of_nat (length l) -> exists x, get l (Z.to_nat i) = Some x.
Proof. intro H. apply get_some. lia. Qed.
Lemma quot2 z : 0 <= z -> 2 * Z.quot z 2 <= z < 2 * Z.quot z 2 + 2.
Proof. intro H. pose proof (Z.quot_rem z 2 ltac:(lia)). pose proof (Z.rem_bound_pos z 2 H ltac:(lia)). lia. Qed.
Lemma searchInts_ok (a : list Z) key from to : Z.of_nat (length a) <= 2 ^ 30 -> 0 <= from -> to <= Z.of_nat (length a) ->
  (forall i j x y, from <= Z.of_nat i -> (i <= j)%nat -> Z.of_nat j < to -> get a i = Some x -> get a j = Some y -> x <= y) ->
  forall fuel left right, from <= left -> left <= right + 1 -> right < to -> right - left + 1 < Z.of_nat fuel ->
  (forall i x, from <= Z.of_nat i < left -> get a i = Some x -> x < key) -> (forall i x, right < Z.of_nat i < to -> get a i = Some x -> key < x) ->
  exists r, searchInts fuel a key left right = Some r /\ found (fun x y => x - y) a from to key r.
Proof.
  intros LEN F0 T0 ASC. induction fuel as [|f IH]; intros left right L1 L2 L3 FU LO HI; [lia|]. cbn [searchInts]. destruct (Z.leb_spec left right) as [C|C].
  - cbv zeta. rewrite wrap32_small by lia. pose proof (quot2 (left + right) ltac:(lia)) as Q. set (mid := Z.quot (left + right) 2) in *.
    destruct (Z.ltb_spec mid 0); [lia|]. destruct (nth_in_range a mid ltac:(lia)) as [x X]. rewrite X. cbn [bind]. destruct (Z.ltb_spec x key) as [K|K]; [|destruct (Z.ltb_spec key x) as [K2|K2]].
    + apply IH; try lia. intros i y Y E. destruct (Z.lt_ge_cases (Z.of_nat i) left) as [Q1|Q1]; [apply (LO i y); [lia|exact E]|]. assert (y <= x); [|lia]. apply (ASC i (Z.to_nat mid) y x); try lia; assumption.
      intros i y Y E. apply (HI i y); [lia|exact E].
    + apply IH; try lia. intros i y Y E. apply (LO i y); [lia|exact E]. intros i y Y E. destruct (Z.lt_ge_cases right (Z.of_nat i)) as [Q1|Q1]; [apply (HI i y); [lia|exact E]|]. assert (x <= y); [|lia]. apply (ASC (Z.to_nat mid) i x y); try lia; assumption.
    + exists mid. split; [reflexivity|]. split; [|lia]. intros _. split; [lia|]. exists x. split; [exact X|lia].
  - exists (- left - 1). rewrite wrap32_small by lia. split; [reflexivity|]. split; [lia|]. intros _. cbv zeta. replace (- (- left - 1) - 1) with left by lia. split; [lia|]. split.
    + intros i x I E. specialize (LO i x ltac:(lia) E). lia.
    + intros i x I E. specialize (HI i x ltac:(lia) E). lia.
Qed.
Lemma searchList_ok {B} (cmp : B -> B -> Z) (l : list B) needle : comparator cmp -> sorted cmp l -> Z.of_nat (length l) <= 2 ^ 30 ->
  forall fuel left right, -1 <= left -> left < right -> right <= Z.of_nat (length l) -> right - left <= Z.of_nat fuel ->
  (forall i x, Z.of_nat i <= left -> get l i = Some x -> 0 < cmp needle x) -> (forall i x, right <= Z.of_nat i -> get l i = Some x -> cmp needle x < 0) ->
  exists r, searchList cmp fuel l needle left right = Some r /\ found cmp l 0 (Z.of_nat (length l)) needle r.
Proof.
  intros C SO LEN. induction fuel as [|f IH]; intros left right L1 L2 L3 FU LO HI; [lia|]. cbn [searchList]. rewrite (wrap32_small (left + 1)) by lia. destruct (Z.ltb_spec (left + 1) right) as [R|R].
  - cbv zeta. rewrite wrap32_small by lia. rewrite Z.shiftr_div_pow2 by lia. change (2 ^ 1) with 2. pose proof (Z.div_mod (left + right) 2 ltac:(lia)) as Q. pose proof (Z.mod_pos_bound (left + right) 2 ltac:(lia)) as Q'.
    set (mid := (left + right) / 2) in *. destruct (Z.ltb_spec mid 0); [lia|]. destruct (nth_in_range l mid ltac:(lia)) as [x X]. rewrite X. cbn [bind].
    assert (LT : forall i y, Z.of_nat i < mid -> get l i = Some y -> cmp y x <= 0) by (intros i y I E; apply (SO i (Z.to_nat mid) y x); [lia|exact E|exact X]).
    assert (GT : forall i y, mid < Z.of_nat i -> get l i = Some y -> cmp x y <= 0) by (intros i y I E; apply (SO (Z.to_nat mid) i x y); [lia|exact X|exact E]).
    destruct (Z.ltb_spec (cmp needle x) 0) as [K|K]; [|destruct (Z.ltb_spec 0 (cmp needle x)) as [K2|K2]].
    + apply IH; try lia. exact LO. intros i y I E. destruct (Z.eq_dec (Z.of_nat i) mid) as [EQ|NE]; [replace (Z.to_nat mid) with i in X by lia; unfold get in *; congruence|].
      specialize (GT i y ltac:(lia) E). pose proof (transitive _ C needle x y ltac:(lia) GT) as T. destruct (Z.eq_dec (cmp needle y) 0) as [Z0|]; [|lia]. exfalso.
      destruct (cmp_turn cmp C needle y) as [_ T1]. destruct (cmp_turn cmp C y needle) as [_ T2]. pose proof (transitive _ C x y needle GT ltac:(lia)) as T3. destruct (cmp_turn cmp C needle x). lia.
    + apply IH; try lia; [|exact HI]. intros i y I E. destruct (Z.eq_dec (Z.of_nat i) mid) as [EQ|NE]; [replace (Z.to_nat mid) with i in X by lia; unfold get in *; congruence|].
      specialize (LT i y ltac:(lia) E). destruct (Z.lt_ge_cases 0 (cmp needle y)) as [|G]; [assumption|]. exfalso. pose proof (transitive _ C needle y x G LT). lia.
    + exists mid. split; [reflexivity|]. split; [|lia]. intros _. split; [lia|]. exists x. split; [exact X|lia].
  - exists (-1 - right). rewrite wrap32_small by lia. split; [reflexivity|]. split; [lia|]. intros _. cbv zeta. replace (- (-1 - right) - 1) with right by lia. split; [lia|]. split.
    + intros i x I E. apply (LO i x); [lia|exact E].
    + intros i x I E. apply (HI i x); [lia|exact E].
Qed.

(** *** Reversing *)
Lemma swapEnds_ok {B} : forall fuel (pre mid post : list B), (length mid < fuel)%nat -> length pre = length post ->
  swapEnds fuel (pre ++ mid ++ post) (Z.of_nat (length pre)) (Z.of_nat (length (pre ++ mid)) - 1) = Some (pre ++ rev mid ++ post).
Proof.
  induction fuel as [|f IH]; intros pre mid post F E; [lia|]. cbn [swapEnds]. destruct mid as [|x mid].
  - rewrite app_nil_r. destruct (Z.ltb_spec (Z.of_nat (length pre)) (Z.of_nat (length pre) - 1)); [lia|reflexivity].
  - destruct (rev mid) as [|y m] eqn:R.
    + assert (mid = []) by (rewrite <- (rev_involutive mid), R; reflexivity). subst mid. rewrite app_length. cbn [length].
      destruct (Z.ltb_spec (Z.of_nat (length pre)) (Z.of_nat (length pre + 1) - 1)); [lia|reflexivity].
    + assert (M : mid = rev m ++ [y]) by (rewrite <- (rev_involutive mid), R; reflexivity). set (n := rev m) in *. subst mid. rewrite !app_length. cbn [length]. rewrite app_length. cbn [length].
      destruct (Z.ltb_spec (Z.of_nat (length pre)) (Z.of_nat (length pre + S (length n + 1)) - 1)) as [L|L]; [|lia]. rewrite Nat2Z.id.
      replace (Z.to_nat (Z.of_nat (length pre + S (length n + 1)) - 1)) with (length (pre ++ x :: n)) by (rewrite app_length; cbn [length]; lia).
      replace (pre ++ (x :: n ++ [y]) ++ post) with (pre ++ x :: (n ++ y :: post)) by (cbn [app]; rewrite <- app_assoc; reflexivity). rewrite get_app. cbn [bind].
      replace (pre ++ x :: n ++ y :: post) with ((pre ++ x :: n) ++ y :: post) by (rewrite <- app_assoc; reflexivity). rewrite get_app. cbn [bind].
      replace ((pre ++ x :: n) ++ y :: post) with (pre ++ x :: (n ++ y :: post)) by (rewrite <- app_assoc; reflexivity). rewrite set_app. cbn [bind].
      replace (pre ++ y :: n ++ y :: post) with ((pre ++ y :: n) ++ y :: post) by (rewrite <- app_assoc; reflexivity). replace (length (pre ++ x :: n)) with (length (pre ++ y :: n)) by (rewrite !app_length; reflexivity). rewrite set_app. cbn [bind].
      specialize (IH (pre ++ [y]) n (x :: post)). cbn [length] in F. rewrite app_length in F. cbn [length] in F. specialize (IH ltac:(lia)). rewrite !app_length in IH. cbn [length] in IH. specialize (IH ltac:(lia)).
      replace (Z.of_nat (length pre) + 1) with (Z.of_nat (length pre + 1)) by lia. replace (Z.of_nat (length pre + S (length n + 1)) - 1 - 1) with (Z.of_nat (length pre + 1 + length n) - 1) by lia.
      replace ((pre ++ y :: n) ++ x :: post) with ((pre ++ [y]) ++ n ++ x :: post) by (rewrite <- !app_assoc; reflexivity). rewrite IH. f_equal. cbn [rev]. rewrite rev_app_distr. cbn [rev app]. rewrite <- !app_assoc. reflexivity.
Qed.
