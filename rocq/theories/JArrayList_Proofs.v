From Coq Require Import ZArith List Bool Lia Arith.
Import ListNotations.
From Verif Require Import JNum_Model JNum_Proofs JArrayList_Model JArrayList_Spec.
Local Open Scope Z_scope.

Section Proofs.
Context {A : Type} (eqA : A -> A -> bool).
Notation elem := (elem A).
Record rep (s : state A) (l : list elem) : Prop := {
  repSize : size_ s = Z.of_nat (length l);
  repArray : match array s with None => l = [] | Some a => (length l <= length a)%nat /\ firstn (length l) a = l end }.

Lemma rep_new : rep new [].
Proof. split; reflexivity. Qed.
Lemma rep_elements s l : rep s l -> elements s = l.
Proof. intros [S R]. unfold elements. destruct (array s) as [a|]; [|auto]. rewrite S, Nat2Z.id. apply R. Qed.

Lemma wrap32_small z : - 2 ^ 31 <= z < 2 ^ 31 -> wrap32 z = z.
Proof. intro H. unfold wrap32. rewrite Z.mod_small; lia. Qed.
Lemma resize_ok s l c : rep s l -> Z.of_nat (length l) <= c -> 0 < c -> exists s', resize s c = Some s' /\ rep s' l /\ exists a, array s' = Some a /\ capacity a = c.
Proof.
  intros [S R] H P. unfold resize. destruct (Z.eqb_spec c 0); [lia|]. destruct (array s) as [a|] eqn:E.
  - destruct (Z.eqb_spec (capacity a) c) as [Q|Q].
    + exists s. split; [reflexivity|]. split; [split; [exact S|rewrite E; exact R]|]. exists a. auto.
    + destruct (Z.ltb_spec c 0); [lia|]. destruct R as [R1 R2]. unfold arraycopy, capacity in *. rewrite repeat_length, S.
      replace ((0 <? 0) || (0 <? 0) || (Z.of_nat (length l) <? 0) || (Z.of_nat (length a) <? 0 + Z.of_nat (length l)) || (Z.of_nat (Z.to_nat c) <? 0 + Z.of_nat (length l))) with false
        by (symmetry; rewrite !orb_false_iff, !Z.ltb_ge; lia).
      cbn [option_map]. eexists. split; [reflexivity|]. change (Z.to_nat 0) with 0%nat. cbn [firstn skipn app]. rewrite Nat2Z.id, R2. split.
      * split; cbn; [reflexivity|]. rewrite app_length. split; [lia|]. rewrite firstn_app, Nat.sub_diag, firstn_all. cbn. apply app_nil_r.
      * eexists. split; [reflexivity|]. cbn. rewrite app_length, skipn_length, repeat_length. lia.
  - destruct (Z.ltb_spec c 0); [lia|]. subst l. eexists. split; [reflexivity|]. split.
    + split; cbn; [exact S|]. split; [lia|reflexivity].
    + eexists. split; [reflexivity|]. unfold capacity. rewrite repeat_length. lia.
Qed.
Lemma grow_ok s l n : rep s l -> Z.of_nat (length l) < 2 ^ 31 -> exists s', grow s n = Some s' /\ rep s' l /\ exists a, array s' = Some a /\ n <= capacity a.
Proof.
  intros R B. unfold grow. destruct (array s) as [a|] eqn:E.
  - pose proof (repArray _ _ R) as Q. rewrite E in Q. destruct Q as [Q _]. destruct (Z.ltb_spec (capacity a) n) as [L|L].
    + assert (0 <= capacity a /\ Z.of_nat (length l) <= capacity a) as CA by (unfold capacity; lia).
      destruct (resize_ok s l (Z.max n (wrap32 (capacity a * 2))) R ltac:(lia) ltac:(lia)) as (s' & E' & R' & a' & EA & CC). exists s'. split; [exact E'|]. split; [exact R'|]. exists a'. split; [exact EA|]. lia.
    + exists s. split; [reflexivity|]. split; [exact R|]. exists a. auto.
  - pose proof (repArray _ _ R) as Q. rewrite E in Q. subst l.
    destruct (resize_ok s [] (Z.max n 16) R ltac:(cbn; lia) ltac:(lia)) as (s' & E' & R' & a' & EA & CC). exists s'. split; [exact E'|]. split; [exact R'|]. exists a'. split; [exact EA|]. lia.
Qed.
Lemma store_length (a : list elem) i e : (i < length a)%nat -> length (store a i e) = length a.
Proof. intro H. unfold store. rewrite app_length. cbn [length]. rewrite firstn_length, skipn_length. lia. Qed.
Lemma firstn_app_exact {B} (x y : list B) n : n = length x -> firstn n (x ++ y) = x.
Proof. intros ->. rewrite firstn_app, Nat.sub_diag, firstn_all. cbn. apply app_nil_r. Qed.
Lemma skipn_app_exact {B} (x y : list B) n : n = length x -> skipn n (x ++ y) = y.
Proof. intros ->. rewrite skipn_app, Nat.sub_diag, skipn_all. reflexivity. Qed.

Lemma addAt_ok s l i e : rep s l -> Z.of_nat (length l) < 2 ^ 31 - 1 -> 0 <= i <= Z.of_nat (length l) ->
  exists s', addAt s i e = (s', Done) /\ rep s' (firstn (Z.to_nat i) l ++ e :: skipn (Z.to_nat i) l).
Proof.
  intros R B I. pose proof (repSize _ _ R) as S. unfold addAt. rewrite S. rewrite !(wrap32_small (_ + 1)) by lia. replace (Z.max (Z.of_nat (length l) + 1) (i + 1)) with (Z.of_nat (length l) + 1) by lia.
  destruct (grow_ok s l (Z.of_nat (length l) + 1) R ltac:(lia)) as (s1 & -> & R1 & a & EA & CA). rewrite EA. rewrite (wrap32_small (Z.of_nat (length l) + 1 - i)), wrap32_small by lia.
  pose proof (repArray _ _ R1) as Q. rewrite EA in Q. destruct Q as [Q1 Q2]. unfold arraycopy.
  replace ((i <? 0) || (i + 1 <? 0) || (Z.of_nat (length l) + 1 - i - 1 <? 0) || (capacity a <? i + (Z.of_nat (length l) + 1 - i - 1)) || (capacity a <? i + 1 + (Z.of_nat (length l) + 1 - i - 1))) with false
    by (symmetry; rewrite !orb_false_iff, !Z.ltb_ge; lia).
  assert (exists n, i = Z.of_nat n /\ (n <= length l)%nat) as (n & -> & N) by (exists (Z.to_nat i); lia). rewrite Nat2Z.id.
  replace (Z.to_nat (Z.of_nat n + 1)) with (Datatypes.S n) by lia. replace (Z.to_nat (Z.of_nat (length l) + 1 - Z.of_nat n - 1)) with (length l - n)%nat by lia.
  replace (Z.to_nat (Z.of_nat n + 1 + (Z.of_nat (length l) + 1 - Z.of_nat n - 1))) with (Datatypes.S (length l)) by lia.
  assert (firstn (length l - n) (skipn n a) = skipn n l) as F by (rewrite <- Q2 at 2; rewrite firstn_skipn_comm; replace (n + (length l - n))%nat with (length l) by lia; reflexivity).
  rewrite F. unfold capacity in CA. assert (firstn n a = firstn n l) as F2 by (rewrite <- Q2, firstn_firstn; f_equal; lia).
  set (b := firstn (Datatypes.S n) a ++ skipn n l ++ skipn (Datatypes.S (length l)) a). assert (length b = length a) as LB by (unfold b; rewrite !app_length, firstn_length, !skipn_length; lia).
  replace ((Z.of_nat n <? 0) || (capacity b <=? Z.of_nat n)) with false by (symmetry; unfold capacity; rewrite orb_false_iff, Z.ltb_ge, Z.leb_gt; lia).
  eexists. split; [reflexivity|]. assert (length (firstn n l ++ e :: skipn n l) = Datatypes.S (length l)) as LL by (rewrite app_length; cbn [length]; rewrite firstn_length, skipn_length; lia).
  split; cbn [size_ array]; rewrite LL; [lia|]. rewrite store_length by lia. split; [lia|]. unfold store.
  assert (firstn n b = firstn n l) as -> by (unfold b; rewrite firstn_app, firstn_firstn, firstn_length; replace (n - Nat.min (Datatypes.S n) (length a))%nat with 0%nat by lia; cbn [firstn]; rewrite app_nil_r, Nat.min_l by lia; exact F2).
  assert (skipn (Datatypes.S n) b = skipn n l ++ skipn (Datatypes.S (length l)) a) as -> by (apply skipn_app_exact; rewrite firstn_length; lia).
  change (e :: skipn n l ++ skipn (Datatypes.S (length l)) a) with ((e :: skipn n l) ++ skipn (Datatypes.S (length l)) a). rewrite app_assoc. apply firstn_app_exact. lia.
Qed.

Lemma get_ok s l i : rep s l -> get s i = match at_ l i with Some n => Some (nth n l None) | None => None end.
Proof.
  intros [S R]. unfold get, at_. rewrite S. destruct ((0 <=? i) && (i <? Z.of_nat (length l))) eqn:E; [|reflexivity].
  apply andb_true_iff in E. rewrite Z.leb_le, Z.ltb_lt in E. destruct (array s) as [a|]; [|subst l; cbn in E; lia].
  destruct R as [R1 R2]. rewrite <- (firstn_skipn (length l) a), R2. rewrite nth_error_app1 by lia. apply nth_error_nth'. lia.
Qed.
Lemma at_spec (l : list elem) i n : at_ l i = Some n -> i = Z.of_nat n /\ (n < length l)%nat.
Proof. unfold at_. destruct ((0 <=? i) && (i <? Z.of_nat (length l))) eqn:E; [|discriminate]. apply andb_true_iff in E. rewrite Z.leb_le, Z.ltb_lt in E. intros [= <-]. lia. Qed.
Lemma rep_array s l n : rep s l -> (n < length l)%nat -> exists a, array s = Some a /\ (length l <= length a)%nat /\ firstn (length l) a = l.
Proof. intros [S R] H. destruct (array s) as [a|]; [exists a; auto|]. subst l. cbn in H. lia. Qed.

Lemma setAt_ok s l i e : rep s l -> let '(l', r) := spec eqA (SetAt i e) l in exists s', setAt s i e = (s', r) /\ rep s' l'.
Proof.
  intro R. cbn. unfold setAt. rewrite (get_ok s l i R). destruct (at_ l i) as [n|] eqn:E; [|exists s; auto].
  apply at_spec in E. destruct E as [-> N]. destruct (rep_array s l n R N) as (a & EA & R1 & R2). rewrite EA, Nat2Z.id. eexists. split; [reflexivity|].
  assert (length (putAt n e l) = length l) as L by (unfold putAt; rewrite app_length; cbn [length]; rewrite firstn_length, skipn_length; lia).
  split; cbn [size_ array]; rewrite L; [apply (repSize _ _ R)|]. rewrite store_length by lia. split; [lia|]. unfold store, putAt.
  assert (a = l ++ skipn (length l) a) as Q by (rewrite <- R2 at 1; symmetry; apply firstn_skipn). set (q := skipn (length l) a) in *. clearbody q. subst a.
  rewrite (firstn_app n), (skipn_app (Datatypes.S n)). replace (n - length l)%nat with 0%nat by lia. replace (Datatypes.S n - length l)%nat with 0%nat by lia. rewrite firstn_O, app_nil_r, (skipn_O q).
  change (e :: skipn (Datatypes.S n) l ++ q) with ((e :: skipn (Datatypes.S n) l) ++ q). rewrite app_assoc. apply firstn_app_exact. unfold putAt in L. symmetry. exact L.
Qed.

(** Shrinking keeps the first elements. *)
Lemma shrink_ok (b : list elem) (l l' : list elem) : (length l = Datatypes.S (length l'))%nat -> (length l <= length b)%nat -> firstn (length l') b = l' ->
  exists s1, shrink {| array := Some b; size_ := Z.of_nat (length l) |} (Z.of_nat (length l')) = Some s1 /\ rep {| array := array s1; size_ := Z.of_nat (length l') |} l'.
Proof.
  intros L B F. unfold shrink. cbn [array]. destruct ((16 <=? capacity b / 2) && (Z.of_nat (length l') <=? capacity b / 3)) eqn:E.
  - apply andb_true_iff in E. rewrite !Z.leb_le in E. assert (0 <= capacity b) as CP by (unfold capacity; lia).
    pose proof (Z.div_mod (capacity b) 2 ltac:(lia)). pose proof (Z.mod_pos_bound (capacity b) 2 ltac:(lia)). pose proof (Z.div_mod (capacity b) 3 ltac:(lia)). pose proof (Z.mod_pos_bound (capacity b) 3 ltac:(lia)).
    assert (rep {| array := Some b; size_ := Z.of_nat (length l) |} (firstn (length l) b)) as R.
    { assert (length (firstn (length l) b) = length l) as Q by (rewrite firstn_length; lia). split; cbn [size_ array]; rewrite Q; auto. }
    assert (length (firstn (length l) b) = length l) as Q by (rewrite firstn_length; lia).
    destruct (resize_ok _ _ (capacity b / 2) R ltac:(rewrite Q; lia) ltac:(lia)) as (s1 & -> & R1 & a & EA & CA). exists s1. split; [reflexivity|]. split; [reflexivity|]. cbn [array]. pose proof (repArray _ _ R1) as Z. rewrite EA in *. rewrite Q in Z. destruct Z as [Z1 Z2]. split; [lia|].
    rewrite <- F at 2. transitivity (firstn (length l') (firstn (length l) a)); [rewrite firstn_firstn; f_equal; lia|]. rewrite Z2, firstn_firstn. f_equal. lia.
  - eexists. split; [reflexivity|]. split; cbn; [reflexivity|]. split; [lia|exact F].
Qed.
Lemma removeAt_ok s l i : rep s l -> let '(l', r) := spec eqA (RemoveAt i) l in exists s', removeAt s i = (s', r) /\ rep s' l'.
Proof.
  intro R. cbn. unfold removeAt. rewrite (get_ok s l i R). destruct (at_ l i) as [n|] eqn:E; [|exists s; auto].
  apply at_spec in E. destruct E as [-> N]. destruct (rep_array s l n R N) as (a & EA & R1 & R2). rewrite EA, Nat2Z.id. pose proof (repSize _ _ R) as SZ. rewrite SZ.
  assert (a = l ++ skipn (length l) a) as Q by (rewrite <- R2 at 1; symmetry; apply firstn_skipn). set (q := skipn (length l) a) in *. clearbody q.
  assert (length (dropAt n l) = length l - 1)%nat as LD by (unfold dropAt; rewrite app_length, firstn_length, skipn_length; lia).
  assert (exists b, (if Z.of_nat n =? Z.of_nat (length l) - 1 then Some (store a n None) else arraycopy a (Z.of_nat n + 1) a (Z.of_nat n) (Z.of_nat (length l) - 1 - Z.of_nat n)) = Some b /\ (length l <= length b)%nat /\ firstn (length (dropAt n l)) b = dropAt n l) as (b & -> & B1 & B2).
  { destruct (Z.eqb_spec (Z.of_nat n) (Z.of_nat (length l) - 1)) as [P|P].
    - eexists. split; [reflexivity|]. rewrite store_length by lia. split; [lia|]. rewrite LD. unfold store, dropAt. subst a. rewrite (firstn_app n). replace (n - length l)%nat with 0%nat by lia. rewrite firstn_O, app_nil_r.
      replace (skipn (Datatypes.S n) l) with (@nil elem) by (symmetry; apply skipn_all2; lia). rewrite app_nil_r. apply firstn_app_exact. rewrite firstn_length. lia.
    - unfold arraycopy. assert (length a = length l + length q)%nat as LA by (subst a; apply app_length). unfold capacity.
      replace ((Z.of_nat n + 1 <? 0) || (Z.of_nat n <? 0) || (Z.of_nat (length l) - 1 - Z.of_nat n <? 0) || (Z.of_nat (length a) <? Z.of_nat n + 1 + (Z.of_nat (length l) - 1 - Z.of_nat n)) || (Z.of_nat (length a) <? Z.of_nat n + (Z.of_nat (length l) - 1 - Z.of_nat n))) with false
        by (symmetry; rewrite !orb_false_iff, !Z.ltb_ge; lia).
      eexists. split; [reflexivity|]. rewrite Nat2Z.id. replace (Z.to_nat (Z.of_nat n + 1)) with (Datatypes.S n) by lia. replace (Z.to_nat (Z.of_nat (length l) - 1 - Z.of_nat n)) with (length l - 1 - n)%nat by lia. replace (Z.to_nat (Z.of_nat n + (Z.of_nat (length l) - 1 - Z.of_nat n))) with (length l - 1)%nat by lia.
      assert (firstn n a = firstn n l) as -> by (subst a; rewrite firstn_app; replace (n - length l)%nat with 0%nat by lia; apply app_nil_r).
      assert (firstn (length l - 1 - n) (skipn (Datatypes.S n) a) = skipn (Datatypes.S n) l) as ->.
      { subst a. rewrite skipn_app. apply firstn_app_exact. rewrite skipn_length. lia. }
      split; [rewrite !app_length, firstn_length, !skipn_length; lia|]. rewrite app_assoc. apply firstn_app_exact. reflexivity. }
  replace (Z.of_nat (length l) - 1) with (Z.of_nat (length (dropAt n l))) by lia.
  destruct (shrink_ok b l (dropAt n l) ltac:(lia) B1 B2) as (s1 & -> & R'). eexists. split; [reflexivity|exact R'].
Qed.

Lemma firstFrom_ok e (l : list elem) : forall i, 0 <= i -> firstFrom eqA e l i = match firstPlace eqA e l with Some n => i + Z.of_nat n | None => -1 end.
Proof.
  induction l as [|x r IH]; intros i H; cbn [firstFrom firstPlace]; [reflexivity|]. destruct (equal eqA e x); [lia|]. rewrite IH by lia. destruct (firstPlace eqA e r); cbn [option_map]; [lia|reflexivity].
Qed.
Lemma lastFrom_ok e (l : list elem) : forall i, lastFrom eqA e l i = match firstPlace eqA e l with Some n => i - Z.of_nat n | None => -1 end.
Proof.
  induction l as [|x r IH]; intros i; cbn [lastFrom firstPlace]; [reflexivity|]. destruct (equal eqA e x); [lia|]. rewrite IH. destruct (firstPlace eqA e r); cbn [option_map]; [lia|reflexivity].
Qed.
Lemma firstPlace_bound e (l : list elem) n : firstPlace eqA e l = Some n -> (n < length l)%nat.
Proof. revert n. induction l as [|x r IH]; intros n; cbn; [discriminate|]. destruct (equal eqA e x); [intros [= <-]; lia|]. destruct (firstPlace eqA e r); cbn; [|discriminate]. intros [= <-]. specialize (IH _ eq_refl). lia. Qed.
Lemma indexOf_ok s l e : rep s l -> indexOf eqA s e = intOf (firstPlace eqA e l).
Proof. intro R. unfold indexOf. rewrite (rep_elements s l R), firstFrom_ok by lia. unfold intOf. destruct (firstPlace eqA e l); lia. Qed.
Lemma lastIndexOf_ok s l e : rep s l -> lastIndexOf eqA s e = intOf (lastPlace eqA e l).
Proof.
  intro R. unfold lastIndexOf, lastPlace. rewrite (rep_elements s l R), lastFrom_ok, (repSize _ _ R). destruct (firstPlace eqA e (rev l)) as [n|] eqn:E; [|reflexivity].
  apply firstPlace_bound in E. rewrite rev_length in E. cbn. lia.
Qed.

Lemma exec_ok o s l : rep s l -> Z.of_nat (length l) < 2 ^ 31 -> fine o l -> let '(l', r) := spec eqA o l in exists s', exec eqA o s = (s', r) /\ rep s' l'.
Proof.
  intros R BD F. destruct o; cbn [spec exec].
  - cbn in F. rewrite (repSize _ _ R). destruct (addAt_ok s l (Z.of_nat (length l)) e R F ltac:(lia)) as (s' & -> & R'). rewrite Nat2Z.id, firstn_all, skipn_all in R'. eauto.
  - destruct F as [F1 F2]. replace ((0 <=? i) && (i <=? Z.of_nat (length l))) with true by (symmetry; rewrite andb_true_iff, !Z.leb_le; lia). apply addAt_ok; auto.
  - rewrite (get_ok s l i R). destruct (at_ l i); eauto.
  - pose proof (setAt_ok s l i e R) as H. cbn [spec] in H. exact H.
  - pose proof (removeAt_ok s l i R) as H. cbn [spec] in H. exact H.
  - rewrite (indexOf_ok s l e R). destruct (firstPlace eqA e l) as [n|] eqn:E; cbn [intOf]; [|cbn; eauto]. destruct (Z.eqb_spec (Z.of_nat n) (-1)); [lia|].
    pose proof (removeAt_ok s l (Z.of_nat n) R) as H. cbn [spec] in H. unfold at_ in H. apply firstPlace_bound in E.
    replace ((0 <=? Z.of_nat n) && (Z.of_nat n <? Z.of_nat (length l))) with true in H by (symmetry; rewrite andb_true_iff, Z.leb_le, Z.ltb_lt; lia). rewrite Nat2Z.id in H. destruct H as (s' & -> & R'). eauto.
  - rewrite (indexOf_ok s l e R). eauto.
  - rewrite (lastIndexOf_ok s l e R). eauto.
  - rewrite (indexOf_ok s l e R). destruct (firstPlace eqA e l) as [n|]; cbn [intOf]; [destruct (Z.eqb_spec (Z.of_nat n) (-1)); [lia|]|]; cbn; eauto.
  - rewrite (repSize _ _ R). eauto.
  - exists new. split; [reflexivity|apply rep_new].
  - destruct (grow_ok s l c R BD) as (s' & -> & R' & _). eauto.
  - rewrite (rep_elements s l R). replace (existsb _ l) with false; [eauto|]. symmetry. apply not_true_iff_false. intro H. apply existsb_exists in H. destruct H as ([x|] & I & H); [discriminate|]. exact (F I).
  - rewrite (rep_elements s l R). eauto.
Qed.
Lemma fine_bound o (l : list elem) : Z.of_nat (length l) < 2 ^ 31 -> fine o l -> Z.of_nat (length (fst (spec eqA o l))) < 2 ^ 31.
Proof.
  intros B F. assert (forall n, (length (dropAt n l) <= length l)%nat) as D by (intro n; unfold dropAt; rewrite app_length, firstn_length, skipn_length; lia).
  destruct o; cbn [spec fst]; try exact B; try (cbn in *; lia).
  - cbn in F. rewrite app_length. cbn. lia.
  - destruct F. destruct ((0 <=? i) && (i <=? Z.of_nat (length l))); cbn [fst]; [|lia]. rewrite app_length. cbn [length]. rewrite firstn_length, skipn_length. lia.
  - destruct (at_ l i) as [n|] eqn:E; cbn [fst]; [|lia]. apply at_spec in E. unfold putAt. rewrite app_length. cbn [length]. rewrite firstn_length, skipn_length. lia.
  - destruct (at_ l i) as [n|]; cbn [fst]; [|lia]. specialize (D n). lia.
  - destruct (firstPlace eqA e l) as [n|]; cbn [fst]; [|lia]. specialize (D n). lia.
Qed.
Lemma answers_ok os : forall s l, rep s l -> Z.of_nat (length l) < 2 ^ 31 -> allFine eqA os l -> answers (exec eqA) os s = answers (spec eqA) os l.
Proof.
  induction os as [|o os IH]; intros s l R B F; [reflexivity|]. destruct F as [F1 F2]. cbn [answers]. pose proof (exec_ok o s l R B F1) as H. pose proof (fine_bound o l B F1) as B'.
  destruct (spec eqA o l) as [l' r]. destruct H as (s' & -> & R'). f_equal. apply IH; auto.
Qed.
Lemma final_ok os : forall s l, rep s l -> Z.of_nat (length l) < 2 ^ 31 -> allFine eqA os l -> rep (final (exec eqA) os s) (final (spec eqA) os l) /\ Z.of_nat (length (final (spec eqA) os l)) < 2 ^ 31.
Proof.
  induction os as [|o os IH]; intros s l R B F; [auto|]. destruct F as [F1 F2]. cbn [final]. pose proof (exec_ok o s l R B F1) as H. pose proof (fine_bound o l B F1) as B'.
  destruct (spec eqA o l) as [l' r]. destruct H as (s' & -> & R'). apply IH; auto.
Qed.

(** *** The iterator *)
Record irep (t : iter A) (c : cursor A) : Prop := {
  irList : rep (list_ t) (items c);
  irPos : index t = Z.of_nat (pos c) - 1 /\ (pos c <= length (items c))%nat;
  irLast : match lastRet c with None => toRemove t = -1 | Some n => toRemove t = Z.of_nat n /\ (n < length (items c))%nat end }.
Lemma dropAt_length n (l : list elem) : (n < length l)%nat -> length (dropAt n l) = (length l - 1)%nat.
Proof. intro H. unfold dropAt. rewrite app_length, firstn_length, skipn_length. lia. Qed.
Lemma at_nat (l : list elem) n : (n < length l)%nat -> at_ l (Z.of_nat n) = Some n.
Proof. intro H. unfold at_. replace ((0 <=? Z.of_nat n) && (Z.of_nat n <? Z.of_nat (length l))) with true by (symmetry; rewrite andb_true_iff, Z.leb_le, Z.ltb_lt; lia). rewrite Nat2Z.id. reflexivity. Qed.
Lemma execIter_ok o t c : irep t c -> irep (fst (execIter o t)) (fst (specIter o c)) /\ snd (execIter o t) = snd (specIter o c).
Proof.
  intros I. pose proof I as [R [P PB] L]. pose proof (repSize _ _ R) as S. destruct o; cbn [execIter specIter].
  - cbn [fst snd]. split; [exact I|]. rewrite P, S. f_equal. apply eq_true_iff_eq. rewrite Z.ltb_lt, Nat.ltb_lt. lia.
  - rewrite P, S. replace (Z.of_nat (pos c) - 1 + 1) with (Z.of_nat (pos c)) by lia. destruct (Z.ltb_spec (Z.of_nat (pos c)) (Z.of_nat (length (items c)))) as [B|B].
    + rewrite (get_ok _ _ _ R), at_nat by lia. rewrite (nth_error_nth' (items c) (None : elem)) by (change (@length elem) with (@length (option A)) in *; lia). cbn [fst snd]. split; [|reflexivity]. split; cbn [list_ items index toRemove pos lastRet]; [exact R|lia|lia].
    + replace (nth_error (items c) (pos c)) with (@None elem) by (symmetry; apply nth_error_None; lia). cbn. auto.
  - cbn [fst snd]. split; [exact I|]. rewrite P. f_equal. apply eq_true_iff_eq. rewrite Z.leb_le, Nat.ltb_lt. lia.
  - rewrite P. destruct (pos c) as [|n] eqn:E; cbn [Z.of_nat]. { cbn. auto. }
    destruct (Z.leb_spec 0 (Z.pos (Pos.of_succ_nat n) - 1)); [|lia]. replace (Z.pos (Pos.of_succ_nat n) - 1) with (Z.of_nat n) by lia. rewrite (get_ok _ _ _ R), at_nat by lia. cbn [fst snd]. split; [|reflexivity]. split; cbn [list_ items index toRemove pos lastRet]; [exact R|lia|lia].
  - destruct (lastRet c) as [n|].
    + destruct L as [L1 L2]. rewrite L1. destruct (Z.eqb_spec (Z.of_nat n) (-1)); [lia|]. pose proof (removeAt_ok (list_ t) (items c) (Z.of_nat n) R) as H. cbn [spec] in H. rewrite at_nat in H by lia. destruct H as (s' & -> & R'). cbn [fst snd]. split; [|reflexivity].
      split; cbn [list_ items index toRemove pos lastRet]; [exact R'| |reflexivity]. rewrite dropAt_length by lia. lia.
    + rewrite L. cbn. auto.
Qed.
Lemma runIter_ok its : forall t c, irep t c -> irep (fst (runIter execIter its t)) (fst (runIter specIter its c)) /\ snd (runIter execIter its t) = snd (runIter specIter its c).
Proof.
  induction its as [|o its IH]; intros t c I; [auto|]. cbn [runIter]. destruct (execIter_ok o t c I) as [I' E]. destruct (execIter o t) as [t1 a]. destruct (specIter o c) as [c1 a1]. cbn [fst snd] in *. subst a1.
  specialize (IH t1 c1 I'). destruct (runIter execIter its t1). destruct (runIter specIter its c1). cbn [fst snd] in *. destruct IH as [? ->]. auto.
Qed.
Lemma specIter_bound o (c : cursor A) : (length (items (fst (specIter o c))) <= length (items c))%nat.
Proof.
  destruct o; cbn; try lia.
  - destruct (nth_error (items c) (pos c)); cbn; lia.
  - destruct (pos c); cbn; lia.
  - destruct (lastRet c); cbn; [|lia]. unfold dropAt. rewrite app_length, firstn_length, skipn_length. lia.
Qed.
Lemma runIter_bound its : forall (c : cursor A), (length (items (fst (runIter specIter its c))) <= length (items c))%nat.
Proof.
  induction its as [|o its IH]; intros c; cbn [runIter]; [cbn; lia|]. pose proof (specIter_bound o c) as H. destruct (specIter o c) as [c1 a]. specialize (IH c1). destruct (runIter specIter its c1). cbn [fst] in *. lia.
Qed.

Lemma addAllOfItself_ok fuel : forall t l p, rep (list_ t) l -> index t = Z.of_nat p - 1 -> (p < length l)%nat -> Z.of_nat (length l) + Z.of_nat fuel < 2 ^ 31 - 1 -> addAllOfItself eqA fuel t = None.
Proof.
  induction fuel as [|f IH]; intros t l p R P PB B; [reflexivity|]. cbn [addAllOfItself]. rewrite P, (repSize _ _ R). replace (Z.of_nat p - 1 + 1) with (Z.of_nat p) by lia.
  destruct (Z.ltb_spec (Z.of_nat p) (Z.of_nat (length l))); [|lia]. rewrite (get_ok _ _ _ R), at_nat by lia.
  pose proof (exec_ok (Add (nth p l None)) (list_ t) l R ltac:(lia) ltac:(cbn; lia)) as H'. cbn [spec] in H'. destruct H' as (s' & -> & R').
  apply (IH _ (l ++ [nth p l None]) (Datatypes.S p)); cbn [list_ index]; [exact R'|lia| |]; rewrite app_length; cbn [length]; lia.
Qed.
End Proofs.
