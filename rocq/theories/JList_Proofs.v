(** Proofs about LinkedList. *)
From Coq Require Import ZArith Lia Bool List.
Import ListNotations.
From Verif Require Import JList_Model JList_Spec.

Section P.
Context {A : Type}.
Variable eqA : A -> A -> bool.
Notation elem := (@elem A).
Notation state := (state A).

Definition prevOf (ids : list nat) (i : nat) : option nat := match i with O => None | S j => nth_error ids j end.
(** The cells [ids] hold [l]. *)
Record rep (s : state) (ids : list nat) (l : list elem) : Prop := {
  rNoDup : NoDup ids;
  rLen : length ids = length l;
  rOld : forall x, In x ids -> x < made s;
  rCells : forall i x v, nth_error ids i = Some x -> nth_error l i = Some v -> cells s x = Cell v (prevOf ids i) (nth_error ids (S i));
  rFront : front s = nth_error ids 0;
  rRear : rear s = prevOf ids (length ids);
  rSize : size s = Z.of_nat (length l) }.

Lemma skip_mid {B} (a : list B) x b : skipn (length a) (a ++ x :: b) = x :: b.
Proof. induction a; [reflexivity|assumption]. Qed.
Lemma skip_mid1 {B} (a : list B) x b : skipn (S (length a)) (a ++ x :: b) = b.
Proof. induction a; [reflexivity|assumption]. Qed.
Lemma first_mid {B} (a : list B) x b : firstn (length a) (a ++ x :: b) = a.
Proof. induction a as [|y a IH]; [reflexivity|]. cbn. rewrite IH. reflexivity. Qed.
Lemma first_mid1 {B} (a : list B) x b : firstn (S (length a)) (a ++ x :: b) = a ++ [x].
Proof. induction a as [|y a IH]; [reflexivity|]. cbn [length app]. change (firstn (S (S (length a))) (y :: a ++ x :: b)) with (y :: firstn (S (length a)) (a ++ x :: b)). rewrite IH. reflexivity. Qed.
Lemma nodup_le (ids : list nat) n : NoDup ids -> (forall x, In x ids -> x < n) -> length ids <= n.
Proof.
  intros N B. rewrite <- (seq_length n 0). apply NoDup_incl_length; [exact N|]. intros x I. apply in_seq. specialize (B x I). lia.
Qed.
Lemma nth_same_index (ids : list nat) i j x : NoDup ids -> nth_error ids i = Some x -> nth_error ids j = Some x -> i = j.
Proof.
  intros N H1 H2. apply (proj1 (NoDup_nth_error ids) N); [apply nth_error_Some; congruence|congruence].
Qed.
Lemma nth_pair (ids : list nat) (l : list elem) i x : length ids = length l -> nth_error ids i = Some x -> exists v, nth_error l i = Some v.
Proof.
  intros L H. assert (i < length ids) by (apply nth_error_Some; congruence). destruct (nth_error l i) as [v|] eqn:E; [eauto|]. apply nth_error_None in E. lia.
Qed.

Lemma walk_next s ids l : rep s ids l -> forall n i, length ids - i <= n -> walk n next (cells s) (nth_error ids i) = skipn i ids.
Proof.
  intros R. induction n as [|n IH]; intros i L.
  - cbn. rewrite skipn_all2 by lia. reflexivity.
  - cbn [walk]. destruct (nth_error ids i) as [x|] eqn:E.
    + destruct (nth_pair ids l i x (rLen _ _ _ R) E) as [v V]. rewrite (rCells _ _ _ R i x v E V). cbn [next].
      assert (i < length ids) by (apply nth_error_Some; congruence). rewrite IH by lia.
      apply nth_error_split in E. destruct E as [a [b [-> <-]]]. rewrite skip_mid, skip_mid1. reflexivity.
    + apply nth_error_None in E. rewrite skipn_all2 by lia. reflexivity.
Qed.
Lemma walk_prev s ids l : rep s ids l -> forall n i, i <= n -> i <= length ids -> walk n prev (cells s) (prevOf ids i) = rev (firstn i ids).
Proof.
  intros R. induction n as [|n IH]; intros i L1 L2.
  - assert (i = 0) as -> by lia. reflexivity.
  - destruct i as [|i]; [reflexivity|]. cbn [prevOf walk]. destruct (nth_error ids i) as [x|] eqn:E; [|apply nth_error_None in E; lia].
    destruct (nth_pair ids l i x (rLen _ _ _ R) E) as [v V]. rewrite (rCells _ _ _ R i x v E V). cbn [prev]. rewrite IH by lia.
    apply nth_error_split in E. destruct E as [a [b [-> <-]]].
    rewrite first_mid, first_mid1, rev_app_distr. reflexivity.
Qed.
Lemma forward_ok s ids l : rep s ids l -> forward s = ids.
Proof.
  intro R. unfold forward. rewrite (rFront _ _ _ R), (walk_next s ids l R); [reflexivity|].
  pose proof (nodup_le ids (made s) (rNoDup _ _ _ R) (rOld _ _ _ R)). lia.
Qed.
Lemma backward_ok s ids l : rep s ids l -> backward s = rev ids.
Proof.
  intro R. unfold backward. rewrite (rRear _ _ _ R), (walk_prev s ids l R); [rewrite firstn_all; reflexivity| |lia].
  pose proof (nodup_le ids (made s) (rNoDup _ _ _ R) (rOld _ _ _ R)). lia.
Qed.
Lemma nth_ext_error {B} : forall a b : list B, (forall i, nth_error a i = nth_error b i) -> a = b.
Proof.
  induction a as [|x a IH]; intros [|y b] H; [reflexivity|discriminate (H 0)|discriminate (H 0)|].
  pose proof (H 0) as H0. injection H0 as ->. f_equal. apply IH. intro i. apply (H (S i)).
Qed.
Lemma values_ok s ids l : rep s ids l -> map (fun x => value (cells s x)) ids = l.
Proof.
  intro R. apply nth_ext_error. intro i. rewrite nth_error_map. destruct (nth_error ids i) as [x|] eqn:E; cbn.
  - destruct (nth_pair ids l i x (rLen _ _ _ R) E) as [v V]. rewrite (rCells _ _ _ R i x v E V), V. reflexivity.
  - symmetry. apply nth_error_None. apply nth_error_None in E. rewrite <- (rLen _ _ _ R). exact E.
Qed.
Lemma place_ok s e : forall ids, place eqA s e ids = firstPlace eqA e (map (fun x => value (cells s x)) ids).
Proof. induction ids as [|x ids IH]; [reflexivity|]. cbn. rewrite IH. reflexivity. Qed.

(** *** Lists *)
Lemma nth_dropAt {B} (l : list B) i j : nth_error (firstn i l ++ skipn (S i) l) j = if j <? i then nth_error l j else nth_error l (S j).
Proof.
  revert i j. induction l as [|x l IH]; intros i j.
  - rewrite firstn_nil, skipn_nil. cbn [app]. destruct (j <? i); [reflexivity|]. destruct j; reflexivity.
  - destruct i as [|i]; [destruct j; reflexivity|]. destruct j as [|j]; [reflexivity|]. cbn [firstn app nth_error skipn]. rewrite IH. reflexivity.
Qed.
Lemma length_dropAt {B} (l : list B) i : i < length l -> S (length (firstn i l ++ skipn (S i) l)) = length l.
Proof. intro H. rewrite app_length, firstn_length, skipn_length. lia. Qed.
Lemma prevOf_drop ids i j : prevOf (firstn i ids ++ skipn (S i) ids) j = if j <=? i then prevOf ids j else prevOf ids (S j).
Proof.
  destruct j as [|j]; [reflexivity|]. cbn [prevOf]. rewrite nth_dropAt. destruct (Nat.ltb_spec j i), (Nat.leb_spec (S j) i); try lia; reflexivity.
Qed.

Lemma upd_same f i c : upd (A:=A) f i c i = c.
Proof. unfold upd. rewrite Nat.eqb_refl. reflexivity. Qed.
Lemma upd_other f i c j : j <> i -> upd (A:=A) f i c j = f j.
Proof. intro H. unfold upd. destruct (Nat.eqb_spec j i); [congruence|reflexivity]. Qed.

(** *** Removing *)
Lemma remove_rep s ids l i x : rep s ids l -> nth_error ids i = Some x -> rep (removeCell x s) (firstn i ids ++ skipn (S i) ids) (dropAt i l).
Proof.
  intros R E. pose proof (rNoDup _ _ _ R) as ND. pose proof (rLen _ _ _ R) as LN.
  assert (LI : i < length ids) by (apply nth_error_Some; congruence).
  destruct (nth_pair ids l i x LN E) as [v V]. pose proof (rCells _ _ _ R i x v E V) as CX.
  assert (SUB : forall y, In y (firstn i ids ++ skipn (S i) ids) -> In y ids).
  { intros y I. apply in_app_or in I. rewrite <- (firstn_skipn i ids). apply in_or_app. destruct I as [I|I]; [auto|right].
    apply nth_error_split in E. destruct E as [a [b [-> <-]]]. rewrite skip_mid1 in I. rewrite skip_mid. right. exact I. }
  unfold removeCell. rewrite CX. cbn [prev next].
  split; cbn [made cells front rear size].
  - apply nth_error_split in E. destruct E as [a [b [-> <-]]].
    rewrite first_mid, skip_mid1. apply NoDup_remove_1 in ND. exact ND.
  - unfold dropAt. pose proof (length_dropAt ids i LI). pose proof (length_dropAt l i ltac:(lia)). lia.
  - intros y I. apply (rOld _ _ _ R). apply SUB. exact I.
  - intros j y w Hy Hw. assert (Hw' : (if j <? i then nth_error l j else nth_error l (S j)) = Some w) by (rewrite <- nth_dropAt; exact Hw).
    clear Hw. rename Hw' into Hw. rewrite nth_dropAt in Hy. rewrite prevOf_drop, nth_dropAt.
    set (j0 := if j <? i then j else S j).
    assert (Hy0 : nth_error ids j0 = Some y) by (unfold j0; destruct (j <? i); exact Hy).
    assert (Hw0 : nth_error l j0 = Some w) by (unfold j0; destruct (j <? i); exact Hw).
    pose proof (rCells _ _ _ R j0 y w Hy0 Hw0) as CY.
    assert (JN : j0 <> i) by (unfold j0; destruct (Nat.ltb_spec j i); lia).
    assert (P1 : forall z, prevOf ids i = Some z -> (y = z <-> S j0 = i)).
    { intros z Z. destruct i as [|i']; [discriminate|]. cbn [prevOf] in Z. split; [|intro Q; injection Q as ->; congruence].
      intros ->. f_equal. apply (nth_same_index ids j0 i' z ND Hy0 Z). }
    assert (P2 : forall z, nth_error ids (S i) = Some z -> (y = z <-> j0 = S i)).
    { intros z Z. split; [intros ->; apply (nth_same_index ids j0 (S i) z ND Hy0 Z)|intros Q; rewrite Q in Hy0; congruence]. }
    assert (F1 : (match prevOf ids i with Some z => setNext (cells s) z (nth_error ids (S i)) | None => cells s end) y =
                 Cell w (prevOf ids j0) (if S j0 =? i then nth_error ids (S i) else nth_error ids (S j0))).
    { destruct (prevOf ids i) as [z|] eqn:Z.
      - unfold setNext. destruct (Nat.eqb_spec (S j0) i) as [Q|Q].
        + assert (y = z) by (apply (P1 z eq_refl); exact Q). subst z. rewrite upd_same, CY. reflexivity.
        + rewrite upd_other; [exact CY|]. intro Y. apply Q. apply (P1 z eq_refl). exact Y.
      - destruct (Nat.eqb_spec (S j0) i) as [Q|Q]; [|exact CY]. rewrite <- Q in Z. cbn [prevOf] in Z. congruence. }
    assert (F2 : (match nth_error ids (S i) with Some z => setPrev (match prevOf ids i with Some z => setNext (cells s) z (nth_error ids (S i)) | None => cells s end) z (prevOf ids i) | None => match prevOf ids i with Some z => setNext (cells s) z (nth_error ids (S i)) | None => cells s end end) y =
                 Cell w (if j0 =? S i then prevOf ids i else prevOf ids j0) (if S j0 =? i then nth_error ids (S i) else nth_error ids (S j0))).
    { destruct (nth_error ids (S i)) as [z|] eqn:Z.
      - unfold setPrev. destruct (Nat.eqb_spec j0 (S i)) as [Q|Q].
        + assert (y = z) by (apply (P2 z eq_refl); exact Q). subst z. rewrite upd_same, F1. reflexivity.
        + rewrite upd_other; [exact F1|]. intro Y. apply Q. apply (P2 z eq_refl). exact Y.
      - destruct (Nat.eqb_spec j0 (S i)) as [Q|Q]; [|exact F1]. rewrite Q in Hy0. congruence. }
    rewrite F2. f_equal; unfold j0 in *; clear - JN.
    + destruct (Nat.ltb_spec j i), (Nat.leb_spec j i); try lia.
      * destruct (Nat.eqb_spec j (S i)); [lia|reflexivity].
      * assert (j = i) as -> by lia. rewrite Nat.eqb_refl. reflexivity.
      * destruct (Nat.eqb_spec (S j) (S i)); [lia|reflexivity].
    + destruct (Nat.ltb_spec j i).
      * destruct (Nat.eqb_spec (S j) i) as [Q|Q]; destruct (Nat.ltb_spec (S j) i); try lia; [subst i|]; reflexivity.
      * destruct (Nat.eqb_spec (S (S j)) i); [lia|]. destruct (Nat.ltb_spec (S j) i); [lia|reflexivity].
  - rewrite nth_dropAt. destruct i as [|i]; [reflexivity|]. cbn [prevOf]. destruct (nth_error ids i) as [z|] eqn:Z; [apply (rFront _ _ _ R)|].
    apply nth_error_None in Z. lia.
  - rewrite prevOf_drop. pose proof (length_dropAt ids i LI) as LD. set (n := length (firstn i ids ++ skipn (S i) ids)) in *. rewrite (rRear _ _ _ R), <- LD.
    destruct (nth_error ids (S i)) as [z|] eqn:Z.
    + assert (S i < length ids) by (apply nth_error_Some; congruence). destruct (Nat.leb_spec n i); [lia|reflexivity].
    + apply nth_error_None in Z. assert (n = i) as -> by lia. rewrite Nat.leb_refl. reflexivity.
  - rewrite (rSize _ _ _ R). pose proof (length_dropAt l i ltac:(lia)). unfold dropAt. lia.
Qed.

(** *** Adding *)
Lemma addFirst_rep s ids l e : rep s ids l -> rep (addFirst e s) (made s :: ids) (e :: l).
Proof.
  intro R. pose proof (rLen _ _ _ R) as LN. pose proof (rFront _ _ _ R) as F.
  assert (NI : ~ In (made s) ids) by (intro I; apply (rOld _ _ _ R) in I; lia).
  unfold addFirst. destruct ids as [|x ids]; cbn in F; rewrite F.
  - destruct l; [|discriminate]. split; cbn [made cells front rear size length nth_error prevOf]; auto.
    + constructor; [intros []|constructor].
    + intros y [<-|[]]. lia.
    + intros [|i] y v Y V; [|destruct i; discriminate]. injection Y as <-. injection V as <-. apply upd_same.
    + rewrite (rSize _ _ _ R). reflexivity.
  - destruct l as [|v0 l]; [discriminate|]. assert (XM : x <> made s) by (intros ->; apply NI; left; reflexivity).
    split; cbn [made cells front rear size].
    + constructor; [exact NI|apply R].
    + cbn in *. lia.
    + intros y [<-|I]; [lia|]. apply (rOld _ _ _ R) in I. lia.
    + intros [|i] y v Y V; cbn [nth_error] in Y, V.
      * injection Y as <-. injection V as <-. unfold setPrev. rewrite upd_other by congruence. apply upd_same.
      * pose proof (rCells _ _ _ R i y v Y V) as C. unfold setPrev. destruct i as [|i].
        -- cbn in Y, V. injection Y as <-. injection V as <-. rewrite upd_same, !upd_other by exact XM. rewrite C. reflexivity.
        -- assert (y <> x). { intros ->. pose proof (nth_same_index (x :: ids) (S i) 0 x (rNoDup _ _ _ R) Y eq_refl). discriminate. }
           rewrite !upd_other; [exact C| |assumption]. intros ->. apply NI. eapply nth_error_In. exact Y.
    + reflexivity.
    + rewrite (rRear _ _ _ R). reflexivity.
    + rewrite (rSize _ _ _ R). cbn [length]. lia.
Qed.
Lemma addLast_rep s ids l e : rep s ids l -> exists s', addLast e s = Some s' /\ rep s' (ids ++ [made s]) (l ++ [e]).
Proof.
  intro R. pose proof (rLen _ _ _ R) as LN. pose proof (rFront _ _ _ R) as F. pose proof (rRear _ _ _ R) as RR.
  assert (NI : ~ In (made s) ids) by (intro I; apply (rOld _ _ _ R) in I; lia).
  unfold addLast. destruct ids as [|x ids]; cbn in F; rewrite F.
  - destruct l; [|discriminate]. eexists. split; [reflexivity|]. split; cbn [made cells front rear size length nth_error prevOf app]; auto.
    + constructor; [intros []|constructor].
    + intros y [<-|[]]. lia.
    + intros [|i] y v Y V; [|destruct i; discriminate]. injection Y as <-. injection V as <-. apply upd_same.
    + rewrite (rSize _ _ _ R). reflexivity.
  - assert (LI : exists ids0, ids0 = x :: ids /\ length ids0 = S (length ids) /\ nth_error ids0 0 = Some x) by (eexists; split; [reflexivity|split; reflexivity]).
    destruct LI as [ids0 [EI [LI N0]]]. rewrite <- EI in *. rewrite LI in RR. cbn [prevOf] in RR.
    assert (LL : length ids < length ids0) by lia.
    destruct (nth_error ids0 (length ids)) as [z|] eqn:Z; [|apply nth_error_None in Z; lia]. rewrite RR. eexists. split; [reflexivity|].
    assert (ZM : z <> made s) by (intros ->; apply NI; eapply nth_error_In; exact Z).
    split; cbn [made cells front rear size].
    + pose proof (rNoDup _ _ _ R) as ND. rewrite <- (rev_involutive (ids0 ++ [made s])). apply NoDup_rev. rewrite rev_app_distr. change (rev [made s] ++ rev ids0) with (made s :: rev ids0).
      constructor; [rewrite <- in_rev; exact NI|apply NoDup_rev; exact ND].
    + rewrite !app_length. cbn. lia.
    + intros y I. apply in_app_or in I. destruct I as [I|[<-|[]]]; [|lia]. apply (rOld _ _ _ R) in I. lia.
    + intros i y v Y V. destruct (Nat.lt_ge_cases i (length ids0)) as [H|H].
      * rewrite nth_error_app1 in Y by exact H. rewrite nth_error_app1 in V by lia. pose proof (rCells _ _ _ R i y v Y V) as C.
        assert (YM : y <> made s) by (intros ->; apply NI; eapply nth_error_In; exact Y).
        assert (PV : prevOf (ids0 ++ [made s]) i = prevOf ids0 i) by (destruct i; [reflexivity|cbn [prevOf]; apply nth_error_app1; lia]).
        rewrite PV. unfold setNext. destruct (Nat.eq_dec y z) as [->|N].
        -- assert (i = length ids) as -> by (apply (nth_same_index ids0 _ _ z (rNoDup _ _ _ R) Y Z)).
           rewrite upd_same, !upd_other by exact ZM. rewrite C. cbn [value prev]. f_equal.
           rewrite nth_error_app2 by lia. rewrite LI, Nat.sub_diag. reflexivity.
        -- rewrite !upd_other by assumption. rewrite C. f_equal.
           destruct (Nat.lt_ge_cases (S i) (length ids0)); [rewrite nth_error_app1 by assumption; reflexivity|].
           exfalso. apply N. assert (i = length ids) as -> by lia. congruence.
      * assert (i < length (ids0 ++ [made s])) by (apply nth_error_Some; congruence). rewrite app_length in H0. cbn in H0.
        assert (i = length ids0) as -> by lia. rewrite nth_error_app2, Nat.sub_diag in Y by lia. rewrite LN, nth_error_app2, Nat.sub_diag in V by lia.
        injection Y as <-. injection V as <-. unfold setNext. rewrite upd_other by congruence. rewrite upd_same. f_equal.
        -- rewrite LI. cbn [prevOf]. rewrite nth_error_app1 by exact LL. congruence.
        -- symmetry. apply nth_error_None. rewrite app_length. cbn. lia.
    + rewrite nth_error_app1 by lia. congruence.
    + rewrite app_length. cbn [length]. rewrite Nat.add_1_r. cbn [prevOf]. rewrite nth_error_app2, Nat.sub_diag by lia. reflexivity.
    + rewrite (rSize _ _ _ R), app_length. cbn [length]. lia.
Qed.

(** *** Calls *)
Lemma rep_new : rep new [] [].
Proof. split; cbn; auto; try constructor; try contradiction. intros [|i] x v H; discriminate. Qed.
Lemma value_ok s ids l i x : rep s ids l -> nth_error ids i = Some x -> value (cells s x) = nth i l None.
Proof.
  intros R E. destruct (nth_pair ids l i x (rLen _ _ _ R) E) as [v V]. rewrite (rCells _ _ _ R i x v E V). cbn. symmetry. apply nth_error_nth. exact V.
Qed.
Lemma findAt_ok s ids l i : rep s ids l ->
  match at_ l i with
  | Some n => n = Z.to_nat i /\ n < length l /\ exists x, findAt s i = Some x /\ nth_error ids n = Some x /\ value (cells s x) = nth n l None
  | None => findAt s i = None
  end.
Proof.
  intro R. unfold at_, findAt. rewrite (forward_ok s ids l R). pose proof (rLen _ _ _ R) as LN.
  destruct (Z.leb_spec 0 i), (Z.ltb_spec i (Z.of_nat (length l))), (Z.ltb_spec i 0); cbn [andb]; try lia; auto.
  - split; [reflexivity|]. split; [lia|]. destruct (nth_error ids (Z.to_nat i)) as [x|] eqn:E; [|apply nth_error_None in E; lia].
    exists x. split; [reflexivity|]. split; [reflexivity|]. apply (value_ok s ids l _ x R E).
  - apply nth_error_None. lia.
Qed.
Lemma firstPlace_lt e : forall l : list elem, match firstPlace eqA e l with Some n => n < length l | None => True end.
Proof. induction l as [|x l IH]; [exact I|]. cbn. destruct (equal eqA x e); [lia|]. destruct (firstPlace eqA e l); cbn; [lia|exact I]. Qed.
Lemma findElem_ok s ids l e : rep s ids l ->
  match firstPlace eqA e l with
  | Some n => exists x, findElem eqA s e = Some x /\ nth_error ids n = Some x
  | None => findElem eqA s e = None
  end.
Proof.
  intro R. unfold findElem. rewrite (forward_ok s ids l R). rewrite <- (values_ok s ids l R). clear R.
  induction ids as [|x ids IH]; [reflexivity|]. cbn. destruct (equal eqA (value (cells s x)) e); [exists x; auto|].
  destruct (firstPlace eqA e (map (fun x0 : nat => value (cells s x0)) ids)); cbn; exact IH.
Qed.
Lemma indexOf_ok s ids l e : rep s ids l -> indexOf eqA s e = intOf (firstPlace eqA e l).
Proof. intro R. unfold indexOf. rewrite (forward_ok s ids l R), place_ok, (values_ok s ids l R). reflexivity. Qed.
Lemma lastIndexOf_ok s ids l e : rep s ids l -> lastIndexOf eqA s e = intOf (lastPlace eqA e l).
Proof.
  intro R. unfold lastIndexOf, lastPlace. rewrite (backward_ok s ids l R), place_ok, map_rev, (values_ok s ids l R).
  pose proof (firstPlace_lt e (rev l)) as L. destruct (firstPlace eqA e (rev l)); [|reflexivity]. cbn. rewrite (rSize _ _ _ R). rewrite rev_length in L. lia.
Qed.
Lemma lastPlace_lt e (l : list elem) n : lastPlace eqA e l = Some n -> n < length l.
Proof.
  unfold lastPlace. pose proof (firstPlace_lt e (rev l)) as L. destruct (firstPlace eqA e (rev l)); [|discriminate]. rewrite rev_length in L. cbn. intro H. injection H as <-. lia.
Qed.

Lemma set_rep s ids l i x e : rep s ids l -> nth_error ids i = Some x ->
  rep {| front := front s; rear := rear s; size := size s; made := made s; cells := upd (cells s) x (Cell e (prev (cells s x)) (next (cells s x))) |} ids (putAt i e l).
Proof.
  intros R E. assert (LI : i < length l) by (rewrite <- (rLen _ _ _ R); apply nth_error_Some; congruence).
  assert (LP : length (putAt i e l) = length l) by (unfold putAt; rewrite app_length, firstn_length; cbn [length]; rewrite skipn_length; lia).
  assert (NP : forall j, nth_error (putAt i e l) j = if j =? i then Some e else nth_error l j).
  { intro j. unfold putAt. destruct (nth_error l i) as [v|] eqn:V; [|apply nth_error_None in V; lia]. apply nth_error_split in V. destruct V as [a [b [-> <-]]].
    change (@JList_Model.elem A) with (option A) in *. rewrite first_mid, skip_mid1. destruct (Nat.eqb_spec j (length a)) as [->|N].
    - rewrite nth_error_app2, Nat.sub_diag by lia. reflexivity.
    - destruct (Nat.lt_ge_cases j (length a)); [rewrite !nth_error_app1 by assumption; reflexivity|]. rewrite !nth_error_app2 by assumption.
      destruct (j - length a) eqn:D; [lia|]. reflexivity. }
  split; cbn [front rear size made cells]; try apply R.
  - rewrite LP. apply R.
  - intros j y v Y V. rewrite NP in V. destruct (Nat.eqb_spec j i) as [->|N].
    + injection V as <-. assert (y = x) by congruence. subst y. rewrite upd_same. destruct (nth_pair ids l i x (rLen _ _ _ R) E) as [w W].
      rewrite (rCells _ _ _ R i x w E W). reflexivity.
    + rewrite upd_other; [apply (rCells _ _ _ R); assumption|]. intros ->. apply N. apply (nth_same_index ids j i x (rNoDup _ _ _ R) Y E).
  - rewrite LP. apply R.
Qed.

Lemma rear_ok s ids l : rep s ids l ->
  match lastOf l with
  | Some v => exists x, rear s = Some x /\ nth_error ids (length l - 1) = Some x /\ value (cells s x) = v
  | None => rear s = None /\ l = []
  end.
Proof.
  intro R. unfold lastOf. pose proof (rLen _ _ _ R) as LN. rewrite (rRear _ _ _ R), LN. destruct (nth_error l (length l - 1)) as [v|] eqn:V.
  - assert (L : length l - 1 < length l) by (apply nth_error_Some; congruence). destruct (length l) as [|n] eqn:EL; [lia|]. cbn [prevOf]. replace (S n - 1) with n in * by lia.
    destruct (nth_error ids n) as [x|] eqn:E; [|apply nth_error_None in E; lia]. exists x. split; [reflexivity|]. split; [reflexivity|].
    rewrite (rCells _ _ _ R n x v E V). reflexivity.
  - apply nth_error_None in V. destruct l; [split; reflexivity|cbn in V; lia].
Qed.
Lemma front_ok s ids l : rep s ids l ->
  match l with
  | v :: _ => exists x, front s = Some x /\ nth_error ids 0 = Some x /\ value (cells s x) = v
  | [] => front s = None
  end.
Proof.
  intro R. rewrite (rFront _ _ _ R). pose proof (rLen _ _ _ R) as LN. destruct l as [|v l], ids as [|x ids]; try discriminate; [reflexivity|].
  exists x. split; [reflexivity|]. split; [reflexivity|]. rewrite (rCells _ _ _ R 0 x v eq_refl eq_refl). reflexivity.
Qed.

Lemma exec_ok o s ids l : rep s ids l -> fine eqA o l -> (exists ids', rep (fst (exec eqA o s)) ids' (fst (spec eqA o l))) /\ snd (exec eqA o s) = snd (spec eqA o l).
Proof.
  intros R F. pose proof (front_ok s ids l R) as FR. pose proof (rear_ok s ids l R) as RE. pose proof (rLen _ _ _ R) as LN.
  assert (CLR : rep {| front := None; rear := None; size := 0; made := made s; cells := cells s |} [] []).
  { split; cbn; auto; try constructor; try contradiction. intros [|i] x v H; discriminate. }
  destruct o as [e|e|i e|i|i e| | | | | | | | | |i|e|e|e|e| | |e|e| ]; cbn [exec spec fine fst snd] in *.
  - split; [eexists; apply addFirst_rep; exact R|reflexivity].
  - destruct (addLast_rep s ids l e R) as [s' [-> R']]. cbn. split; [eexists; exact R'|reflexivity].
  - destruct (Z.eqb_spec i 0) as [->|N].
    + cbn. replace (0 <=? Z.of_nat (length l))%Z with true by (symmetry; apply Z.leb_le; lia). cbn. split; [eexists; apply addFirst_rep; exact R|reflexivity].
    + replace ((0 <=? i) && (i <=? Z.of_nat (length l)))%Z with false.
      * unfold addAt. pose proof (findAt_ok s ids l i R) as Q. unfold at_ in Q. replace ((0 <=? i) && (i <? Z.of_nat (length l)))%Z with false in Q.
        -- rewrite Q. cbn. split; [eauto|reflexivity].
        -- destruct (Z.leb_spec 0 i), (Z.ltb_spec i (Z.of_nat (length l))); cbn; lia.
      * destruct (Z.leb_spec 0 i), (Z.leb_spec i (Z.of_nat (length l))); cbn; lia.
  - split; [eauto|]. pose proof (findAt_ok s ids l i R) as Q. destruct (at_ l i) as [n|]; [|rewrite Q; reflexivity]. destruct Q as [_ [_ [x [-> [_ ->]]]]]. reflexivity.
  - pose proof (findAt_ok s ids l i R) as Q. destruct (at_ l i) as [n|]; [|rewrite Q; cbn; eauto]. destruct Q as [_ [_ [x [-> [E ->]]]]]. cbn. split; [|reflexivity].
    eexists. apply (set_rep s ids l n x e R E).
  - split; [eauto|]. destruct l as [|v l]; [rewrite FR; reflexivity|]. destruct FR as [x [-> [_ V]]]. cbn. rewrite V. reflexivity.
  - split; [eauto|]. destruct (lastOf l) as [v|]; [|destruct RE as [-> _]; reflexivity]. destruct RE as [x [-> [_ V]]]. cbn. rewrite V. reflexivity.
  - split; [eauto|]. destruct l as [|v l]; [rewrite FR; reflexivity|]. destruct FR as [x [-> [_ V]]]. cbn. rewrite V. reflexivity.
  - split; [eauto|]. destruct (lastOf l) as [v|]; [|destruct RE as [-> _]; reflexivity]. destruct RE as [x [-> [_ V]]]. cbn. rewrite V. reflexivity.
  - split; [eauto|]. destruct l as [|v l]; [rewrite FR; reflexivity|]. destruct FR as [x [-> [_ V]]]. cbn. rewrite V. destruct v; [reflexivity|exfalso; apply F; reflexivity].
  - unfold pollFirst. destruct l as [|v l]; [rewrite FR; cbn; eauto|]. destruct FR as [x [-> [E V]]]. cbn [fst snd hd tl]. rewrite V. split; [|reflexivity].
    eexists. apply (remove_rep s ids (v :: l) 0 x R E).
  - unfold pollLast. destruct (lastOf l) as [v|]; [|destruct RE as [_ ->]; congruence]. destruct RE as [x [-> [E V]]]. cbn [fst snd]. rewrite V. split; [|reflexivity].
    eexists. apply (remove_rep s ids l _ x R E).
  - unfold pollFirst. destruct l as [|v l]; [rewrite FR; cbn; eauto|]. destruct FR as [x [-> [E V]]]. cbn [fst snd hd tl]. rewrite V. split; [|destruct v; [reflexivity|exfalso; apply F; reflexivity]].
    eexists. apply (remove_rep s ids (v :: l) 0 x R E).
  - unfold pollLast. destruct (lastOf l) as [v|].
    + destruct RE as [x [-> [E V]]]. cbn [fst snd]. rewrite V. split; [|destruct v; [reflexivity|exfalso; apply F; reflexivity]]. eexists. apply (remove_rep s ids l _ x R E).
    + destruct RE as [-> ->]. cbn. eauto.
  - pose proof (findAt_ok s ids l i R) as Q. destruct (at_ l i) as [n|]; [|rewrite Q; cbn; eauto]. destruct Q as [_ [_ [x [-> [E ->]]]]]. cbn. split; [|reflexivity].
    eexists. apply (remove_rep s ids l n x R E).
  - pose proof (findElem_ok s ids l e R) as Q. destruct (firstPlace eqA e l) as [n|]; [|rewrite Q; cbn; eauto]. destruct Q as [x [-> E]]. cbn. split; [|reflexivity].
    eexists. apply (remove_rep s ids l n x R E).
  - split; [eauto|]. pose proof (findElem_ok s ids l e R) as Q. destruct (firstPlace eqA e l) as [n|]; [|rewrite Q; reflexivity]. destruct Q as [x [-> E]]. reflexivity.
  - split; [eauto|]. rewrite (indexOf_ok s ids l e R). reflexivity.
  - split; [eauto|]. rewrite (lastIndexOf_ok s ids l e R). reflexivity.
  - split; [eauto|]. rewrite (rSize _ _ _ R). reflexivity.
  - split; [eauto|reflexivity].
  - rewrite (indexOf_ok s ids l e R). pose proof (firstPlace_lt e l) as L. destruct (firstPlace eqA e l) as [[|n]|]; cbn [intOf]; [congruence| |cbn; eauto].
    destruct (Z.ltb_spec 0 (Z.of_nat (S n))); [|lia].
    pose proof (findAt_ok s ids l (Z.of_nat (S n)) R) as Q. unfold at_ in Q. replace ((0 <=? Z.of_nat (S n)) && (Z.of_nat (S n) <? Z.of_nat (length l)))%Z with true in Q.
    + destruct Q as [_ [_ [x [-> [E _]]]]]. rewrite Nat2Z.id in E. cbn. split; [|reflexivity]. eexists. apply (remove_rep s ids l (S n) x R E).
    + symmetry. apply andb_true_iff. split; [apply Z.leb_le|apply Z.ltb_lt]; lia.
  - rewrite (lastIndexOf_ok s ids l e R). pose proof (lastPlace_lt e l) as L. destruct (lastPlace eqA e l) as [[|n]|]; cbn [intOf]; [congruence| |cbn; eauto].
    specialize (L _ eq_refl). destruct (Z.ltb_spec 0 (Z.of_nat (S n))); [|lia].
    pose proof (findAt_ok s ids l (Z.of_nat (S n)) R) as Q. unfold at_ in Q. replace ((0 <=? Z.of_nat (S n)) && (Z.of_nat (S n) <? Z.of_nat (length l)))%Z with true in Q.
    + destruct Q as [_ [_ [x [-> [E _]]]]]. rewrite Nat2Z.id in E. cbn. split; [|reflexivity]. eexists. apply (remove_rep s ids l (S n) x R E).
    + symmetry. apply andb_true_iff. split; [apply Z.leb_le|apply Z.ltb_lt]; lia.
  - split; [eauto|]. rewrite (forward_ok s ids l R), (values_ok s ids l R). reflexivity.
Qed.
Lemma answers_ok : forall os s ids l, rep s ids l -> allFine eqA os l -> answers (exec eqA) os s = answers (spec eqA) os l.
Proof.
  induction os as [|o os IH]; intros s ids l R F; [reflexivity|]. cbn [answers allFine] in *. destruct F as [F1 F2].
  destruct (exec_ok o s ids l R F1) as [[ids' R'] E]. destruct (exec eqA o s), (spec eqA o l). cbn [fst snd] in *. rewrite E, (IH _ _ _ R' F2). reflexivity.
Qed.

(** *** Iterators *)
Record irep (i : iter A) (ids : list nat) (c : cursor A) : Prop := {
  irList : rep (list_ i) ids (items c);
  irPos : pos c <= length ids;
  irCur : current i = prevOf ids (pos c);
  irRem : match lastRet c with Some n => toRemove i = nth_error ids n /\ n < length ids | None => toRemove i = None end }.
Lemma iter_ok o i ids c : irep i ids c -> (exists ids', irep (fst (execIter o i)) ids' (fst (specIter o c))) /\ snd (execIter o i) = snd (specIter o c).
Proof.
  intros [R P C T]. pose proof (rLen _ _ _ R) as LN.
  assert (FO : following i = nth_error ids (pos c)).
  { unfold following. rewrite C. destruct (pos c) as [|n]; cbn [prevOf]; [apply (rFront _ _ _ R)|].
    destruct (nth_error ids n) as [x|] eqn:E; [|apply nth_error_None in E; lia]. destruct (nth_pair ids (items c) n x LN E) as [v V].
    rewrite (rCells _ _ _ R n x v E V). reflexivity. }
  destruct o; cbn [execIter specIter].
  - split; [exists ids; split; assumption|]. cbn. rewrite FO. f_equal. destruct (nth_error ids (pos c)) eqn:E.
    + assert (pos c < length ids) by (apply nth_error_Some; congruence). symmetry. apply Nat.ltb_lt. lia.
    + apply nth_error_None in E. symmetry. apply Nat.ltb_ge. lia.
  - split; [exists ids; split; assumption|]. cbn [fst snd]. rewrite C. f_equal. destruct (pos c) as [|n]; [reflexivity|]. cbn [prevOf].
    destruct (nth_error ids n) eqn:E; [reflexivity|apply nth_error_None in E; lia].
  - rewrite FO. destruct (nth_error ids (pos c)) as [x|] eqn:E.
    + destruct (nth_pair ids (items c) (pos c) x LN E) as [v V]. rewrite V. cbn [fst snd]. rewrite (rCells _ _ _ R _ x v E V). split; [|reflexivity].
      assert (pos c < length ids) by (apply nth_error_Some; congruence). exists ids. split; cbn; auto.
    + apply nth_error_None in E. replace (nth_error (items c) (pos c)) with (@None elem) by (symmetry; apply nth_error_None; lia). cbn. split; [exists ids; split; assumption|reflexivity].
  - rewrite C. destruct (pos c) as [|n] eqn:PC; cbn [prevOf].
    + cbn [fst snd]. split; [exists ids; split; rewrite ?PC; try assumption; try exact C|reflexivity].
    + destruct (nth_error ids n) as [x|] eqn:E; [|apply nth_error_None in E; lia]. destruct (nth_pair ids (items c) n x LN E) as [v V].
      rewrite (rCells _ _ _ R _ x v E V). cbn [fst snd value prev]. split; [|f_equal; symmetry; apply nth_error_nth; exact V].
      exists ids. split; cbn; auto; lia.
  - destruct (lastRet c) as [n|] eqn:Q.
    + destruct T as [T1 T2]. destruct (nth_error ids n) as [x|] eqn:E; [|apply nth_error_None in E; lia]. rewrite T1. cbn [fst snd]. split; [|reflexivity].
      destruct (nth_pair ids (items c) n x LN E) as [v V]. exists (firstn n ids ++ skipn (Datatypes.S n) ids). split; cbn [list_ items pos current toRemove lastRet].
      * apply (remove_rep (list_ i) ids (items c) n x R E).
      * pose proof (length_dropAt ids n T2). lia.
      * rewrite (rCells _ _ _ R n x v E V). cbn [prev]. destruct n as [|n]; [reflexivity|]. cbn [prevOf]. rewrite nth_dropAt. destruct (Nat.ltb_spec n (Datatypes.S n)); [reflexivity|lia].
      * reflexivity.
    + rewrite T. cbn. split; [exists ids; split; auto|reflexivity]. rewrite Q. exact T.
Qed.
Lemma runIter_ok : forall os i ids c, irep i ids c ->
  (exists ids', irep (fst (runIter execIter os i)) ids' (fst (runIter specIter os c))) /\ snd (runIter execIter os i) = snd (runIter specIter os c).
Proof.
  induction os as [|o os IH]; intros i ids c R; [cbn; eauto|]. cbn [runIter].
  destruct (iter_ok o i ids c R) as [[ids' R'] E]. destruct (execIter o i) as [i1 a], (specIter o c) as [c1 b]. cbn [fst snd] in *.
  destruct (IH _ _ _ R') as [W V]. destruct (runIter execIter os i1), (runIter specIter os c1). cbn [fst snd] in *. split; [exact W|congruence].
Qed.
Lemma final_ok : forall os s ids l, rep s ids l -> allFine eqA os l -> exists ids', rep (final (exec eqA) os s) ids' (final (spec eqA) os l).
Proof.
  induction os as [|o os IH]; intros s ids l R F; [cbn; eauto|]. cbn [final allFine] in *. destruct F as [F1 F2].
  destruct (exec_ok o s ids l R F1) as [[ids' R'] _]. exact (IH _ _ _ R' F2).
Qed.
End P.
