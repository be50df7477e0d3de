(** Proofs about StringBuilder. *)
From Coq Require Import List NArith ZArith Arith Bool Lia.
From Verif Require Import JBuilder_Model JBuilder_Spec.
Import ListNotations.
Local Open Scope Z_scope.

(** The characters of a chain, and of a builder *)
Definition content (cs : list jstring) : jstring := concat (rev cs).
Definition pending (b : builder) : jstring := match buffer b with Some t => t | None => [] end.
Definition whole (b : builder) : jstring := content (chain b) ++ pending b.

Lemma content_cons : forall c r, content (c :: r) = content r ++ c.
Proof. intros; unfold content; cbn. rewrite concat_app; cbn. rewrite app_nil_r. reflexivity. Qed.

Lemma content_app : forall a b, content (a ++ b) = content b ++ content a.
Proof. intros; unfold content; rewrite rev_app_distr, concat_app; reflexivity. Qed.

Lemma len_app : forall a b, len (a ++ b) = len a + len b.
Proof. intros; unfold len; rewrite app_length; lia. Qed.

Lemma len_nonneg : forall a, 0 <= len a.
Proof. intros; unfold len; lia. Qed.

(** The text of a builder is the end of what its cells hold; before it, there may be something left over *)
Definition holds (b : builder) (t : text) : Prop :=
  blen b = size t /\ exists pre, whole b = pre ++ t.

Lemma flush_whole : forall b, whole (flush b) = whole b /\ blen (flush b) = blen b /\
  whole (flush b) = content (chain (flush b)) /\ pending (flush b) = [].
Proof.
  intros [cs n o]. unfold flush, whole, pending; cbn [buffer]. destruct o as [[|c t]|]; cbn [buffer chain blen].
  - rewrite app_nil_r; repeat split.
  - rewrite content_cons, app_nil_r; repeat split.
  - rewrite app_nil_r; repeat split.
Qed.

Lemma flush_holds : forall b t, holds b t -> holds (flush b) t.
Proof.
  intros b t [L [pre E]]. destruct (flush_whole b) as [W [B _]]. split; [congruence|]. exists pre; congruence.
Qed.

Lemma holds_len : forall b t, holds b t -> blen b = size t /\ exists off, 0 <= off /\ len (whole b) = size t + off /\
  forall pre, whole b = pre ++ t -> len pre = off.
Proof.
  intros b t [L [pre E]]. split; [exact L|]. exists (len pre). split; [apply len_nonneg|]. rewrite E, len_app.
  split; [unfold size, len; lia|]. intros pre' E'. apply app_inv_tail in E'. congruence.
Qed.

Lemma appendText_holds : forall s b t, holds b t -> holds (appendText s b) (t ++ s).
Proof.
  intros s b t H. unfold appendText. destruct (0 <? len s) eqn:Q.
  2:{ apply Z.ltb_ge in Q. assert (s = []) by (destruct s; [reflexivity|unfold len in Q; cbn in Q; lia]).
      subst s. rewrite app_nil_r. exact H. }
  assert (X : forall b1, (whole b1 = whole b ++ s /\ blen b1 = blen b) ->
            holds (mkB (chain b1) (blen b1 + len s) (buffer b1)) (t ++ s)).
  { intros b1 [W B]. destruct H as [L [pre E]]. split.
    - cbn. rewrite B, L. unfold size, len. rewrite app_length. lia.
    - exists pre. transitivity (whole b1); [reflexivity|]. rewrite W, E, app_assoc. reflexivity. }
  assert (F : whole (let f := flush b in mkB (s :: chain f) (blen f) (buffer f)) = whole b ++ s /\
              blen (let f := flush b in mkB (s :: chain f) (blen f) (buffer f)) = blen b).
  { destruct (flush_whole b) as [W [B [C P]]]. cbv zeta. split; [|exact B].
    unfold whole at 1. cbn [chain]. rewrite content_cons. unfold pending; cbn [buffer].
    unfold pending in P. rewrite P, app_nil_r. rewrite <- C, W. reflexivity. }
  destruct (buffer b) as [u|] eqn:U.
  - destruct (len s <=? BufferSize - len u).
    + apply X. unfold whole, pending; cbn [chain buffer blen]. rewrite U. rewrite app_assoc. split; reflexivity.
    + apply X. exact F.
  - apply X. exact F.
Qed.

Lemma appendChar_holds : forall c b t, holds b t -> holds (appendChar c b) (t ++ [c]).
Proof.
  intros c b t H. unfold appendChar.
  assert (X : forall b1 u, whole b1 = whole b -> blen b1 = blen b -> buffer b1 = Some u ->
            holds (mkB (chain b1) (blen b1 + 1) (Some (u ++ [c]))) (t ++ [c])).
  { intros b1 u W B U. destruct H as [L [pre E]]. split.
    - cbn. rewrite B, L. unfold size. rewrite app_length; cbn. lia.
    - exists pre. unfold whole, pending; cbn [chain buffer blen]. unfold whole, pending in W. rewrite U in W.
      rewrite app_assoc, W. fold (pending b). fold (whole b). rewrite E, app_assoc. reflexivity. }
  destruct (buffer b) as [u|] eqn:U.
  - destruct (BufferSize <=? len u).
    + cbn [buffer chain blen]. apply (X (mkB (chain (flush b)) (blen (flush b)) (Some [])) []); try reflexivity.
      * destruct (flush_whole b) as [W [B [C P]]]. rewrite <- W, C. unfold whole, pending; cbn [chain buffer blen]. apply app_nil_r.
      * destruct (flush_whole b) as [W [B [C P]]]. exact B.
    + rewrite U. apply X; try reflexivity. exact U.
  - cbn [buffer chain blen]. apply (X (mkB (chain b) (blen b) (Some [])) []); try reflexivity.
    unfold whole, pending; cbn [chain buffer blen]. rewrite U. reflexivity.
Qed.

(** ** The loops *)

Lemma charAtLoop_ok : forall cs index i, 0 <= i < index -> 0 <= len (content cs) - index ->
  charAtLoop cs index i = nth_error (content cs) (Z.to_nat (i + (len (content cs) - index))).
Proof.
  induction cs as [|c r IH]; intros index i I O.
  - exfalso. unfold content, len in O; cbn in O. lia.
  - cbn [charAtLoop]. rewrite content_cons, len_app in *.
    replace (i + (len (content r) + len c - index)) with (i + (len (content r) - (index - len c))) by lia.
    destruct (index - len c <=? i) eqn:Q.
    + apply Z.leb_le in Q. unfold charOf.
      assert (C1 : (i - (index - len c) <? 0) = false) by (apply Z.ltb_ge; lia).
      assert (C2 : (len c <? i - (index - len c)) = false) by (apply Z.ltb_ge; lia).
      rewrite C1, C2. cbn [orb]. rewrite nth_error_app2 by (unfold len in *; lia).
      f_equal. unfold len in *; lia.
    + apply Z.leb_gt in Q. rewrite nth_error_app1 by (unfold len in *; lia).
      apply IH; lia.
Qed.

Lemma firstn_app_le : forall (A : Type) n (a b : list A), (n <= length a)%nat -> firstn n (a ++ b) = firstn n a.
Proof.
  intros A n a b L. rewrite firstn_app. replace (n - length a)%nat with 0%nat by lia. rewrite firstn_O, app_nil_r. reflexivity.
Qed.
Lemma skipn_app_le : forall (A : Type) n (a b : list A), (n <= length a)%nat -> skipn n (a ++ b) = skipn n a ++ b.
Proof.
  intros A n a b L. rewrite skipn_app. replace (n - length a)%nat with 0%nat by lia. reflexivity.
Qed.
Lemma firstn_app_ge : forall (A : Type) n (a b : list A), (length a <= n)%nat ->
  firstn n (a ++ b) = a ++ firstn (n - length a) b.
Proof. intros A n a b L. rewrite firstn_app, firstn_all2 by lia. reflexivity. Qed.
Lemma skipn_app_ge : forall (A : Type) n (a b : list A), (length a <= n)%nat ->
  skipn n (a ++ b) = skipn (n - length a) b.
Proof. intros A n a b L. rewrite skipn_app, skipn_all2 by lia. reflexivity. Qed.

Lemma substring_ok : forall s a b, 0 <= a <= b -> b <= len s ->
  substring s a b = Some (firstn (Z.to_nat (b - a)) (skipn (Z.to_nat a) s)).
Proof.
  intros s a b A B. unfold substring.
  assert (Q1 : (a <? 0) = false) by (apply Z.ltb_ge; lia). assert (Q2 : (len s <? b) = false) by (apply Z.ltb_ge; lia).
  assert (Q3 : (b - a <? 0) = false) by (apply Z.ltb_ge; lia). rewrite Q1, Q2, Q3. reflexivity.
Qed.

Lemma substring_head : forall s b, 0 <= b <= len s -> substring s 0 b = Some (firstn (Z.to_nat b) s).
Proof. intros s b B. rewrite substring_ok by lia. rewrite Z.sub_0_r. reflexivity. Qed.

Lemma substring_tail : forall s a, 0 <= a <= len s -> substring s a (len s) = Some (skipn (Z.to_nat a) s).
Proof.
  intros s a A. rewrite substring_ok by lia. f_equal. apply firstn_all2. rewrite skipn_length. unfold len in *. lia.
Qed.

Lemma insertLoop_ok : forall cs index i s, 0 <= i < index -> 0 <= len (content cs) - index ->
  exists cs', insertLoop cs index i s = Some cs' /\
    let k := Z.to_nat (i + (len (content cs) - index)) in
    content cs' = firstn k (content cs) ++ s ++ skipn k (content cs).
Proof.
  induction cs as [|c r IH]; intros index i s I O.
  - exfalso. unfold content, len in O; cbn in O. lia.
  - cbn [insertLoop]. rewrite content_cons, len_app in *. cbv zeta.
    replace (i + (len (content r) + len c - index)) with (i + (len (content r) - (index - len c))) by lia.
    destruct (index - len c <=? i) eqn:Q.
    + apply Z.leb_le in Q. destruct (Z.eqb_spec i (index - len c)) as [EQ|NE].
      * exists (c :: s :: r). split; [reflexivity|]. rewrite !content_cons.
        replace (Z.to_nat (i + (len (content r) - (index - len c)))) with (length (content r)) by (unfold len in *; lia).
        rewrite firstn_app_le, skipn_app_le by lia. rewrite firstn_all, skipn_all, app_assoc. reflexivity.
      * rewrite substring_tail, substring_head by lia. eexists. split; [reflexivity|]. rewrite !content_cons.
        rewrite firstn_app_ge, skipn_app_ge by (unfold len in *; lia).
        replace (Z.to_nat (i + (len (content r) - (index - len c))) - length (content r))%nat
          with (Z.to_nat (i - (index - len c))) by (unfold len in *; lia).
        rewrite <- !app_assoc. reflexivity.
    + apply Z.leb_gt in Q. destruct (IH (index - len c) i s) as [cs' [E C]]; [lia|lia|].
      rewrite E. exists (c :: cs'). split; [reflexivity|]. rewrite content_cons, C. cbv zeta.
      rewrite firstn_app_le, skipn_app_le by (unfold len in *; lia). rewrite <- !app_assoc. reflexivity.
Qed.

Lemma setLengthLoop_ok : forall cs index v, 0 < v <= index -> 0 <= len (content cs) - index ->
  exists cs', setLengthLoop cs index v = Some cs' /\
    content cs' = firstn (Z.to_nat (v + (len (content cs) - index))) (content cs).
Proof.
  induction cs as [|c r IH]; intros index v I O.
  - exfalso. unfold content, len in O; cbn in O. lia.
  - cbn [setLengthLoop]. rewrite content_cons, len_app in *.
    replace (v + (len (content r) + len c - index)) with (v + (len (content r) - (index - len c))) by lia.
    destruct (index - len c <? v) eqn:Q.
    + apply Z.ltb_lt in Q. destruct (v <? index) eqn:V.
      * apply Z.ltb_lt in V. rewrite substring_head by lia. eexists; split; [reflexivity|]. rewrite content_cons.
        rewrite firstn_app_ge by (unfold len in *; lia). do 2 f_equal. unfold len in *; lia.
      * apply Z.ltb_ge in V. eexists; split; [reflexivity|]. rewrite content_cons.
        rewrite firstn_all2; [reflexivity|]. rewrite app_length. unfold len in *; lia.
    + apply Z.ltb_ge in Q. destruct (IH (index - len c) v) as [cs' [E C]]; [lia|lia|].
      exists cs'. split; [exact E|]. rewrite C. rewrite firstn_app_le by (unfold len in *; lia). reflexivity.
Qed.

Lemma deleteLoop_suffix : forall cs index start end_, 0 <= start -> start <= index -> index <= end_ ->
  0 <= len (content cs) - index ->
  exists cs', deleteLoop [] cs index start end_ = (true, cs') /\
    content cs' = firstn (Z.to_nat (start + (len (content cs) - index))) (content cs).
Proof.
  induction cs as [|c r IH]; intros index start end_ S0 SI IE O.
  - exists []. split; [reflexivity|]. cbn. rewrite firstn_nil. reflexivity.
  - cbn [deleteLoop]. rewrite content_cons, len_app in *.
    replace (start + (len (content r) + len c - index)) with (start + (len (content r) - (index - len c))) by lia.
    assert (Q : (index <=? end_) = true) by (apply Z.leb_le; lia). rewrite Q.
    pose proof (len_nonneg c).
    destruct (start <=? index - len c) eqn:P.
    + apply Z.leb_le in P. destruct (IH (index - len c) start end_) as [cs' [E C]]; [lia|lia|lia|lia|].
      exists cs'. split; [exact E|]. rewrite C. rewrite firstn_app_le by (unfold len in *; lia). reflexivity.
    + apply Z.leb_gt in P. rewrite substring_head by lia. eexists; split; [reflexivity|].
      cbn [app]. rewrite content_cons. rewrite firstn_app_ge by (unfold len in *; lia).
      do 2 f_equal. unfold len in *; lia.
Qed.

(** characters [x] up to [y] of a list *)
Definition slice (x y : Z) (l : jstring) : jstring := firstn (Z.to_nat (y - x)) (skipn (Z.to_nat x) l).

Lemma slice_app : forall x y z l, 0 <= x <= y -> y <= z -> slice x y l ++ slice y z l = slice x z l.
Proof.
  intros x y z l A B. unfold slice.
  replace (Z.to_nat y) with (Z.to_nat (y - x) + Z.to_nat x)%nat by lia.
  replace (Z.to_nat (z - x)) with (Z.to_nat (y - x) + Z.to_nat (z - y))%nat by lia.
  generalize (Z.to_nat (y - x)) as a, (Z.to_nat (z - y)) as b, (Z.to_nat x) as c. clear.
  intros a b c. replace (skipn (a + c) l) with (skipn a (skipn c l)).
  - generalize (skipn c l) as m. clear. induction a as [|a IH]; intros [|x m]; cbn; try reflexivity.
    + rewrite firstn_nil; reflexivity.
    + f_equal. apply IH.
  - revert l. induction c as [|c IH]; intro l.
    + rewrite Nat.add_0_r. reflexivity.
    + destruct l as [|x l]; [cbn; rewrite !skipn_nil; reflexivity|].
      replace (a + Datatypes.S c)%nat with (Datatypes.S (a + c)) by lia. cbn [skipn]. apply IH.
Qed.

Lemma slice_len : forall x y l, 0 <= x <= y -> y <= len l -> len (slice x y l) = y - x.
Proof.
  intros x y l A B. unfold slice, len in *. rewrite firstn_length, skipn_length. lia.
Qed.

Lemma slice_app_l : forall x y a b, 0 <= x <= y -> y <= len a -> slice x y (a ++ b) = slice x y a.
Proof.
  intros x y a b A B. unfold slice, len in *. rewrite skipn_app_le by lia. rewrite firstn_app_le; [reflexivity|].
  rewrite skipn_length. lia.
Qed.

Lemma slice_app_r : forall x y a b, len a <= x <= y -> slice x y (a ++ b) = slice (x - len a) (y - len a) b.
Proof.
  intros x y a b A. unfold slice, len in *. rewrite skipn_app_ge by lia.
  replace (y - Z.of_nat (length a) - (x - Z.of_nat (length a))) with (y - x) by lia.
  do 2 f_equal. lia.
Qed.

Lemma getCharsLoop_ok : forall cs index a b later off dst,
  0 <= a <= b -> 0 <= off -> len (content cs) = index + off ->
  let C := content cs ++ later in
  let g := Z.max a (Z.min b index) in
  b + off <= len C ->
  dst = repeat 0%N (Z.to_nat (g - a)) ++ slice (g + off) (b + off) C ->
  getCharsLoop cs index a b dst = Some (slice (a + off) (b + off) C).
Proof.
  induction cs as [|c r IH]; intros index a b later off dst AB OF L C g BC D.
  - cbn [getCharsLoop]. f_equal. rewrite D. unfold content in L; cbn in L. unfold len in L; cbn in L.
    assert (g = a) by (unfold g; lia). rewrite H. rewrite Z.sub_diag. reflexivity.
  - cbn [getCharsLoop]. pose proof (len_nonneg c) as LC.
    unfold C in *. clear C. rewrite content_cons in *. rewrite len_app in L.
    rewrite <- app_assoc in *.
    set (index' := index - len c) in *.
    set (start := if index' <? a then a else index').
    set (end_ := if b <? index then b else index).
    assert (ES : start = Z.max a index').
    { unfold start. destruct (index' <? a) eqn:Q; [apply Z.ltb_lt in Q|apply Z.ltb_ge in Q]; lia. }
    assert (EE : end_ = Z.min b index).
    { unfold end_. destruct (b <? index) eqn:Q; [apply Z.ltb_lt in Q|apply Z.ltb_ge in Q]; lia. }
    clearbody start end_.
    destruct (start <? end_) eqn:Q.
    + apply Z.ltb_lt in Q.
      assert (G : g = end_) by (unfold g; lia). rewrite G in D. clear g G.
      rewrite substring_ok by (unfold index' in *; lia). fold (slice (start - index') (end_ - index') c).
      assert (SEG : slice (start - index') (end_ - index') c = slice (start + off) (end_ + off) (content r ++ c ++ later)).
      { rewrite slice_app_r by lia. rewrite slice_app_l by (unfold index' in *; lia).
        f_equal; unfold index' in *; lia. }
      rewrite SEG.
      assert (SL : len (slice (start + off) (end_ + off) (content r ++ c ++ later)) = end_ - start).
      { rewrite slice_len; [lia|lia|]. rewrite !len_app. pose proof (len_nonneg later). unfold index' in *; lia. }
      assert (DL : len dst = b - a).
      { rewrite D, len_app, slice_len by lia. unfold len. rewrite repeat_length. lia. }
      unfold blit. rewrite Z.add_0_l.
      assert (B1 : (start - a <? 0) = false) by (apply Z.ltb_ge; lia).
      assert (B2 : (len dst <? start - a + len (slice (start + off) (end_ + off) (content r ++ c ++ later))) = false)
        by (apply Z.ltb_ge; lia).
      rewrite B1, B2. cbn [orb].
      apply (IH index' a b (c ++ later) off); [exact AB|exact OF|unfold index'; lia|exact BC|].
      replace (Z.max a (Z.min b index')) with start by lia.
      rewrite D at 1 2.
      rewrite firstn_app_le by (rewrite repeat_length; lia).
      assert (LS : length (slice (start + off) (end_ + off) (content r ++ c ++ later)) = Z.to_nat (end_ - start)).
      { unfold len in SL. lia. }
      rewrite skipn_app_ge by (rewrite repeat_length; lia). rewrite repeat_length, LS.
      replace (Z.to_nat (start - a) + Z.to_nat (end_ - start) - Z.to_nat (end_ - a))%nat with 0%nat by lia.
      rewrite skipn_O, slice_app by lia. f_equal.
      replace (Z.to_nat (end_ - a)) with (Z.to_nat (start - a) + Z.to_nat (end_ - start))%nat by lia.
      rewrite repeat_app, firstn_app_le by (rewrite repeat_length; lia). apply firstn_all2. rewrite repeat_length; lia.
    + apply Z.ltb_ge in Q.
      apply (IH index' a b (c ++ later) off); [exact AB|exact OF|unfold index'; lia|exact BC|].
      replace (Z.max a (Z.min b index')) with g by (unfold g, index' in *; lia). exact D.
Qed.

(** ** The calls *)

Lemma first_part : forall i (pre t : jstring), 0 <= i -> firstn (Z.to_nat (i + len pre)) (pre ++ t) = pre ++ upTo i t.
Proof.
  intros i pre t I. rewrite firstn_app_ge by (unfold len; lia). unfold upTo. do 2 f_equal. unfold len; lia.
Qed.
Lemma last_part : forall i (pre t : jstring), 0 <= i -> skipn (Z.to_nat (i + len pre)) (pre ++ t) = from i t.
Proof.
  intros i pre t I. rewrite skipn_app_ge by (unfold len; lia). unfold from. f_equal. unfold len; lia.
Qed.

Lemma flushed : forall b t, holds b t -> exists pre,
  content (chain (flush b)) = pre ++ t /\ blen (flush b) = size t /\ pending (flush b) = [] /\
  len (content (chain (flush b))) - size t = len pre.
Proof.
  intros b t H. destruct (flush_holds b t H) as [L [pre E]]. destruct (flush_whole b) as [_ [_ [C P]]].
  exists pre. rewrite <- C, E. split; [reflexivity|]. split; [exact L|]. split; [exact P|].
  rewrite len_app. unfold size, len. lia.
Qed.

Lemma rebuilt : forall cs n o pre t, match o with Some u => u = [] | None => True end ->
  content cs = pre ++ t -> n = size t -> holds (mkB cs n o) t.
Proof.
  intros cs n o pre t O C N. split; [exact N|]. exists pre. unfold whole, pending; cbn [chain buffer].
  destruct o as [u|]; [subst u|]; rewrite app_nil_r; exact C.
Qed.

Lemma pending_none : forall b, pending b = [] -> match buffer b with Some u => u = [] | None => True end.
Proof. intros b P. unfold pending in P. destruct (buffer b); [exact P|exact I]. Qed.

Lemma size_upTo : forall i t, 0 <= i <= size t -> size (upTo i t) = i.
Proof. intros i t I. unfold size, upTo in *. rewrite firstn_length. lia. Qed.
Lemma size_from : forall i t, 0 <= i <= size t -> size (from i t) = size t - i.
Proof. intros i t I. unfold size, from in *. rewrite skipn_length. lia. Qed.
Lemma upTo_from : forall i t, upTo i t ++ from i t = t.
Proof. intros; apply firstn_skipn. Qed.
Lemma upTo_all : forall t, upTo (size t) t = t.
Proof. intros; unfold upTo, size. rewrite Nat2Z.id. apply firstn_all. Qed.
Lemma from_all : forall t, from (size t) t = [].
Proof. intros; unfold from, size. rewrite Nat2Z.id. apply skipn_all. Qed.


Lemma charAt_ok : forall i b t, holds b t -> 0 <= i < size t ->
  exists b', charAt i b = Returns b' (nth (Z.to_nat i) t 0%N) /\ holds b' t.
Proof.
  intros i b t H I. unfold charAt. destruct (flushed b t H) as [pre [C [L [P O]]]].
  destruct H as [L0 H0]. 
  assert (Q1 : (i <? 0) = false) by (apply Z.ltb_ge; lia).
  assert (Q2 : (blen b <=? i) = false) by (apply Z.leb_gt; lia). rewrite Q1, Q2. cbn [orb]. cbv zeta.
  rewrite charAtLoop_ok; rewrite ?L, ?O; [|lia|apply len_nonneg].
  rewrite C, nth_error_app2 by (unfold len; lia).
  replace (Z.to_nat (i + len pre) - length pre)%nat with (Z.to_nat i) by (unfold len; lia).
  rewrite (nth_error_nth' t 0%N) by (unfold size in *; lia).
  exists (flush b). split; [reflexivity|]. apply flush_holds. split; assumption.
Qed.

Lemma insert_ok : forall i o b t, holds b t -> 0 <= i <= size t -> (o <> None \/ i = size t) ->
  exists b', insert i o b = Returns b' tt /\ holds b' (upTo i t ++ orNull o ++ from i t).
Proof.
  intros i o b t H I NN. unfold insert. pose proof H as [L0 _].
  assert (Q1 : (i <? 0) = false) by (apply Z.ltb_ge; lia).
  assert (Q2 : (blen b <? i) = false) by (apply Z.ltb_ge; lia). rewrite Q1, Q2. cbn [orb].
  destruct (Z.eqb_spec i (blen b)) as [EQ|NE].
  - exists (append o b). split; [reflexivity|]. assert (i = size t) by lia. subst i.
    rewrite H0, upTo_all, from_all, app_nil_r. apply appendText_holds. exact H.
  - destruct o as [s|]; [|destruct NN as [NN|NN]; [congruence|lia]].
    destruct (flushed b t H) as [pre [C [L [P O]]]]. cbv zeta.
    destruct (insertLoop_ok (chain (flush b)) (blen (flush b)) i s) as [cs [E D]]; rewrite ?L, ?O; [lia|apply len_nonneg|].
    rewrite L in E. rewrite E. eexists. split; [reflexivity|].
    cbv zeta in D. rewrite L, O, C, first_part, last_part in D by lia.
    apply (rebuilt _ _ _ pre); [apply pending_none; exact P|rewrite D, <- app_assoc; reflexivity|].
    unfold size at 2. rewrite !app_length. cbn [orNull].
    pose proof (upTo_from i t) as U. apply (f_equal (@length N)) in U. rewrite app_length in U.
    unfold size, len in *. unfold text in *. lia.
Qed.

Lemma delete_ok : forall i b t, holds b t -> 0 <= i < size t ->
  exists b', delete i (size t) b = Returns b' tt /\ holds b' (upTo i t).
Proof.
  intros i b t H I. unfold delete. pose proof H as [L0 _].
  assert (Q0 : (size t <=? i) = false) by (apply Z.leb_gt; lia). rewrite Q0.
  assert (Q1 : (i <? 0) = false) by (apply Z.ltb_ge; lia).
  assert (Q2 : (blen b <? size t) = false) by (apply Z.ltb_ge; lia). rewrite Q1, Q2. cbn [orb].
  destruct (flushed b t H) as [pre [C [L [P O]]]]. cbv zeta.
  destruct (deleteLoop_suffix (chain (flush b)) (blen (flush b)) i (size t)) as [cs [E D]];
    rewrite ?L, ?O; [lia|lia|lia|apply len_nonneg|].
  rewrite L in E. rewrite E. eexists. split; [reflexivity|].
  rewrite L, O, C, first_part in D by lia.
  apply (rebuilt _ _ _ pre); [apply pending_none; exact P|exact D|]. rewrite size_upTo by lia. lia.
Qed.

Lemma setLength_ok : forall n b t, holds b t -> 0 <= n <= size t ->
  exists b', setLength n b = Returns b' tt /\ holds b' (upTo n t).
Proof.
  intros n b t H I. unfold setLength. pose proof H as [L0 _].
  assert (Q1 : (n <? 0) = false) by (apply Z.ltb_ge; lia). rewrite Q1.
  destruct (Z.eqb_spec n 0) as [EQ|NE].
  - subst n. eexists. split; [reflexivity|]. split; [reflexivity|]. exists (pending b). unfold whole, pending, upTo; cbn.
    rewrite app_nil_r. reflexivity.
  - destruct (flushed b t H) as [pre [C [L [P O]]]]. cbv zeta.
    destruct (setLengthLoop_ok (chain (flush b)) (blen (flush b)) n) as [cs [E D]]; rewrite ?L, ?O; [lia|apply len_nonneg|].
    rewrite L in E. rewrite E. eexists. split; [reflexivity|].
    rewrite L, O, C, first_part in D by lia.
    apply (rebuilt _ _ _ pre); [apply pending_none; exact P|exact D|]. rewrite size_upTo by lia. reflexivity.
Qed.

Lemma substringOf_ok : forall i j b t, holds b t -> 0 <= i <= j -> j <= size t ->
  exists b', substringOf i j b = Returns b' (upTo (j - i) (from i t)) /\ holds b' t.
Proof.
  intros i j b t H I J. unfold substringOf. pose proof H as [L0 _].
  assert (Q0 : (j - i <? 0) = false) by (apply Z.ltb_ge; lia). rewrite Q0.
  assert (Q1 : (i <? 0) = false) by (apply Z.ltb_ge; lia).
  assert (Q2 : (blen b <? j) = false) by (apply Z.ltb_ge; lia). rewrite Q1, Q2. cbn [orb].
  destruct (flushed b t H) as [pre [C [L [P O]]]]. cbv zeta.
  rewrite (getCharsLoop_ok _ _ i j [] (len pre)); rewrite ?app_nil_r.
  - exists (flush b). split; [|apply flush_holds; exact H]. f_equal. rewrite C. unfold slice.
    rewrite last_part by lia. unfold upTo. do 2 f_equal. lia.
  - lia.
  - apply len_nonneg.
  - lia.
  - lia.
  - replace (Z.max i (Z.min j (blen (flush b)))) with j by lia. unfold slice. rewrite Z.sub_diag. cbn [Z.to_nat firstn].
    rewrite app_nil_r. reflexivity.
Qed.

(** The method each call calls *)
Definition ignore {A} (r : outcome A) (f : A -> answer) : builder * answer :=
  match r with Returns b x => (b, f x) | Throws b => (b, Refused) end.
Definition step (c : call) (b : builder) : builder * answer :=
  match c with
  | Append s => (append s b, Nothing)
  | AppendChar c => (appendChar c b, Nothing)
  | CharAt i => ignore (charAt i b) Char
  | Insert i s => ignore (insert i s b) (fun _ => Nothing)
  | Delete i j => ignore (delete i j b) (fun _ => Nothing)
  | Replace i j s => ignore (replace i j (Some s) b) (fun _ => Nothing)
  | SetCharAt i c => ignore (setCharAt i c b) (fun _ => Nothing)
  | SetLength n => ignore (setLength n b) (fun _ => Nothing)
  | Substring i j => ignore (substringOf i j b) Text
  | ToString => ignore (toString b) Text
  | Length => (b, Number (blen b))
  end.

(** The calls this class is good for: those that remove characters must remove the end of the text *)
Definition fine (c : call) (t : text) : Prop :=
  match c with
  | Insert i None => i < 0 \/ size t <= i
  | Delete i j => (0 <= i /\ i <= j /\ j = size t) \/ (0 <= i /\ i = j /\ j <= size t) \/ (i < 0 /\ i < j)
  | Replace i j _ => (0 <= i /\ i <= j /\ j = size t) \/ (0 <= i /\ i = j /\ j <= size t) \/ (i < 0 /\ i < j)
  | SetCharAt i _ => i < 0 \/ size t - 1 <= i
  | SetLength n => n <= size t
  | _ => True
  end.

Ltac zb := repeat match goal with
  | |- context [?a <? ?b] => destruct (Z.ltb_spec a b)
  | |- context [?a <=? ?b] => destruct (Z.leb_spec a b)
  end; cbn [andb orb]; try lia.

Lemma delete_step : forall i j b t, holds b t ->
  (0 <= i /\ i <= j /\ j = size t) \/ (0 <= i /\ i = j /\ j <= size t) ->
  exists b', delete i j b = Returns b' tt /\ holds b' (upTo i t ++ from j t).
Proof.
  intros i j b t H F. destruct (Z.eq_dec i j) as [EQ|NE].
  - subst j. exists b. split; [|rewrite upTo_from; exact H]. unfold delete. zb; reflexivity.
  - assert (j = size t) by lia. subst j. rewrite from_all, app_nil_r. apply delete_ok; [exact H|lia].
Qed.

Theorem step_ok : forall c b t, holds b t -> fine c t ->
  let '(t', a) := documented c t in exists b', step c b = (b', a) /\ holds b' t'.
Proof.
  intros c b t H F. pose proof H as [L _]. destruct c as [s|v|i|i s|i j|i j s|i v|n|i j| |]; cbn [documented step fine] in *.
  - eexists. split; [reflexivity|]. apply appendText_holds; exact H.
  - eexists. split; [reflexivity|]. apply appendChar_holds; exact H.
  - destruct ((0 <=? i) && (i <? size t))%bool eqn:Q.
    + apply andb_prop in Q as [Q1 Q2]. apply Z.leb_le in Q1. apply Z.ltb_lt in Q2.
      destruct (charAt_ok i b t H ltac:(lia)) as [b' [E H']]. exists b'. rewrite E. split; [reflexivity|exact H'].
    + exists b. split; [|exact H]. unfold charAt. rewrite L.
      replace ((i <? 0) || (size t <=? i))%bool with true; [reflexivity|].
      revert Q. zb; intro Q; congruence.
  - destruct ((0 <=? i) && (i <=? size t))%bool eqn:Q.
    + apply andb_prop in Q as [Q1 Q2]. apply Z.leb_le in Q1. apply Z.leb_le in Q2.
      destruct (insert_ok i s b t H ltac:(lia)) as [b' [E H']].
      * destruct s; [left; congruence|right; lia].
      * exists b'. rewrite E. split; [reflexivity|exact H'].
    + exists b. split; [|exact H]. unfold insert. rewrite L.
      replace ((i <? 0) || (size t <? i))%bool with true; [reflexivity|].
      revert Q. zb; intro Q; congruence.
  - destruct F as [F|[F|F]].
    1,2: replace (Z.min j (size t)) with j by lia;
      replace ((0 <=? i) && (i <=? j))%bool with true by (zb; reflexivity);
      destruct (delete_step i j b t H ltac:(lia)) as [b' [E H']]; exists b'; rewrite E; split; [reflexivity|exact H'].
    replace ((0 <=? i) && _)%bool with false by (zb; reflexivity). exists b. split; [|exact H].
    unfold delete. zb; reflexivity.
  - destruct F as [F|[F|F]].
    3:{ replace ((0 <=? i) && _)%bool with false by (zb; reflexivity). exists b. split; [|exact H].
        unfold replace, delete. zb; reflexivity. }
    1,2: replace (Z.min j (size t)) with j by lia;
      replace ((0 <=? i) && (i <=? j))%bool with true by (zb; reflexivity);
      destruct (delete_step i j b t H ltac:(lia)) as [b1 [E1 H1]];
      destruct (insert_ok i (Some s) b1 _ H1) as [b2 [E2 H2]];
      [ unfold size in *; rewrite app_length; unfold upTo, from; rewrite firstn_length, skipn_length; lia
      | left; congruence | ];
      exists b2; unfold replace; rewrite E1, E2; split; [reflexivity|];
      replace (upTo i (upTo i t ++ from j t)) with (upTo i t) in H2;
      [replace (from i (upTo i t ++ from j t)) with (from j t) in H2; [exact H2|]|].
    1,3: unfold from at 2; rewrite skipn_app_ge;
      [ unfold upTo; rewrite firstn_length; unfold size in *;
        replace (Z.to_nat i - Nat.min (Z.to_nat i) (length t))%nat with 0%nat by lia; reflexivity
      | unfold upTo; rewrite firstn_length; unfold size in *; lia ].
    1,2: unfold upTo at 2; rewrite firstn_app_le by (unfold upTo; rewrite firstn_length; unfold size in *; lia);
      unfold upTo; rewrite firstn_firstn, Nat.min_id; reflexivity.
  - destruct ((0 <=? i) && (i <? size t))%bool eqn:Q.
    + apply andb_prop in Q as [Q1 Q2]. apply Z.leb_le in Q1. apply Z.ltb_lt in Q2. assert (i + 1 = size t) by lia.
      unfold setCharAt. rewrite L.
      replace ((i <? 0) || (size t <=? i))%bool with false by (zb; reflexivity).
      unfold deleteCharAt. rewrite H0. destruct (delete_ok i b t H ltac:(lia)) as [b1 [E1 H1]]. rewrite E1.
      destruct (insert_ok i (Some [v]) b1 _ H1) as [b2 [E2 H2]]; [rewrite size_upTo; lia|left; congruence|].
      exists b2. rewrite E2. split; [reflexivity|]. rewrite from_all.
      rewrite <- (size_upTo i t) in H2 at 1 3 by lia. rewrite upTo_all, from_all in H2. exact H2.
    + exists b. split; [|exact H]. unfold setCharAt. rewrite L.
      replace ((i <? 0) || (size t <=? i))%bool with true; [reflexivity|].
      revert Q. zb; intro Q; congruence.
  - destruct (Z.leb_spec 0 n) as [N|N].
    + destruct (setLength_ok n b t H ltac:(lia)) as [b' [E H']]. exists b'. rewrite E. split; [reflexivity|].
      replace (Z.to_nat (n - size t)) with 0%nat by lia. cbn [repeat]. rewrite app_nil_r. exact H'.
    + exists b. split; [|exact H]. unfold setLength. zb; reflexivity.
  - destruct ((0 <=? i) && (i <=? j) && (j <=? size t))%bool eqn:Q.
    + apply andb_prop in Q as [Q Q3]. apply andb_prop in Q as [Q1 Q2]. apply Z.leb_le in Q1, Q2, Q3.
      destruct (substringOf_ok i j b t H ltac:(lia) Q3) as [b' [E H']]. exists b'. rewrite E. split; [reflexivity|exact H'].
    + exists b. split; [|exact H]. unfold substringOf. rewrite L.
      destruct (j - i <? 0) eqn:Q4; [reflexivity|]. apply Z.ltb_ge in Q4.
      replace ((i <? 0) || (size t <? j))%bool with true; [reflexivity|].
      revert Q. zb; intro Q; congruence.
  - unfold toString. rewrite L.
    destruct (substringOf_ok 0 (size t) b t H) as [b' [E H']]; [unfold size; lia|lia|].
    exists b'. rewrite E. split; [|exact H']. cbn [ignore]. do 2 f_equal. rewrite Z.sub_0_r. unfold from. apply upTo_all.
  - exists b. rewrite L. split; [reflexivity|exact H].
Qed.

Lemma empty_holds : holds empty [].
Proof. split; [reflexivity|]. exists []. reflexivity. Qed.
