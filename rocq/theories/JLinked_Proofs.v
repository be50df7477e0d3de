From Coq Require Import List Bool Arith Lia.
From Verif Require Import JLinked_Model JLinked_Spec.
Import ListNotations.

Lemma dget_remove : forall {V} (d : dict V) k k', dget k' (dremove k d) = if k' =? k then None else dget k' d.
Proof.
  induction d as [|[a v] d IH]; intros k k'; cbn; [now destruct (k' =? k)|].
  fold (dremove k d). destruct (Nat.eqb_spec k a); cbn.
  - subst a. rewrite IH. destruct (Nat.eqb_spec k' k); auto.
  - rewrite IH. destruct (Nat.eqb_spec k' a), (Nat.eqb_spec k' k); subst; congruence.
Qed.
Lemma dget_put : forall {V} (d : dict V) k v k', dget k' (dput k v d) = if k' =? k then Some v else dget k' d.
Proof. intros. unfold dput. cbn. destruct (Nat.eqb_spec k' k); auto. rewrite dget_remove. destruct (Nat.eqb_spec k' k); congruence. Qed.

Lemma upd_same : forall h i f c, nth_error h i = Some c -> nth_error (upd h i f) i = Some (f c).
Proof.
  intros h i f c H. unfold upd. rewrite H. assert (i < length h) by (apply nth_error_Some; congruence).
  rewrite nth_error_app2 by (rewrite firstn_length; lia). rewrite firstn_length. replace (i - min i (length h)) with 0 by lia. reflexivity.
Qed.
Lemma upd_length : forall h i f, length (upd h i f) = length h.
Proof.
  intros. unfold upd. destruct (nth_error h i) eqn:H; auto. assert (i < length h) by (apply nth_error_Some; congruence).
  rewrite app_length, firstn_length. cbn [length]. rewrite skipn_length. lia.
Qed.
Lemma upd_other : forall h i f j, j <> i -> nth_error (upd h i f) j = nth_error h j.
Proof.
  intros h i f j N. unfold upd. destruct (nth_error h i) eqn:H; auto. assert (L : i < length h) by (apply nth_error_Some; congruence).
  rewrite <- (firstn_skipn i h) at 3. destruct (Nat.lt_ge_cases j i).
  - rewrite !nth_error_app1 by (rewrite firstn_length; lia). reflexivity.
  - rewrite !nth_error_app2 by (rewrite firstn_length; lia). rewrite firstn_length. replace (min i (length h)) with i by lia.
    destruct (j - i) as [|d] eqn:E; [lia|]. cbn [nth_error].
    assert (X : skipn i h = c :: skipn (S i) h).
    { clear - H. revert h H. induction i; intros [|x h] H; cbn in *; try discriminate; [congruence|]. now apply IHi. }
    rewrite X. reflexivity.
Qed.

Definition chain := list (nat * key).
Definition hd_or (b : chain) (n : option nat) : option nat := match b with [] => n | (i, _) :: _ => Some i end.
Fixpoint last_or (a : chain) (p : option nat) : option nat := match a with [] => p | (i, _) :: r => last_or r (Some i) end.
Fixpoint seg (h : list cell) (p : option nat) (ch : chain) (n : option nat) : Prop :=
  match ch with
  | [] => True
  | (i, k) :: r => nth_error h i = Some {| ckey := k; previous := p; next := hd_or r n |} /\ seg h (Some i) r n
  end.
Lemma hd_or_app : forall a b n, hd_or (a ++ b) n = hd_or a (hd_or b n).
Proof. intros [|[i k] a] b n; reflexivity. Qed.
Lemma last_or_app : forall a b p, last_or (a ++ b) p = last_or b (last_or a p).
Proof. induction a as [|[i k] a IH]; intros; cbn; auto. Qed.
Lemma seg_app : forall h a p b n, seg h p (a ++ b) n <-> seg h p a (hd_or b n) /\ seg h (last_or a p) b n.
Proof.
  induction a as [|[i k] a IH]; intros p b n; cbn; [tauto|]. rewrite hd_or_app, IH. tauto.
Qed.
Lemma seg_frame : forall h h' ch p n, (forall i, In i (map fst ch) -> nth_error h' i = nth_error h i) -> seg h p ch n -> seg h' p ch n.
Proof.
  induction ch as [|[i k] ch IH]; intros p n F S; cbn in *; auto. destruct S as [E S]. split; [rewrite F; auto|]. apply IH; auto.
Qed.
Definition linkNext (h : list cell) (o n' : option nat) : list cell := match o with None => h | Some j => upd h j (setNext n') end.
Definition linkPrev (h : list cell) (o p' : option nat) : list cell := match o with None => h | Some j => upd h j (setPrev p') end.
Lemma linkNext_other : forall h o n' i, o <> Some i -> nth_error (linkNext h o n') i = nth_error h i.
Proof. intros h [j|] n' i N; cbn; auto. apply upd_other. congruence. Qed.
Lemma linkPrev_other : forall h o n' i, o <> Some i -> nth_error (linkPrev h o n') i = nth_error h i.
Proof. intros h [j|] n' i N; cbn; auto. apply upd_other. congruence. Qed.
Lemma last_in : forall a i, last_or a None = Some i -> In i (map fst a).
Proof.
  intros a i. destruct (rev a) as [|[j k] r] eqn:E.
  - apply (f_equal (@rev _)) in E. rewrite rev_involutive in E. subst a. discriminate.
  - apply (f_equal (@rev _)) in E. rewrite rev_involutive in E. subst a. cbn. rewrite last_or_app. cbn. intro H. injection H as <-.
    rewrite map_app. apply in_or_app. right. now left.
Qed.
Lemma hd_in : forall a i, hd_or a None = Some i -> In i (map fst a).
Proof. intros [|[j k] a] i H; cbn in *; [discriminate|]. left. congruence. Qed.
Lemma relink_next : forall a h p n n', seg h p a n -> NoDup (map fst a) -> seg (linkNext h (last_or a None) n') p a n'.
Proof.
  intros a h p n n' S D. destruct (rev a) as [|[j k] r] eqn:E.
  - apply (f_equal (@rev _)) in E. rewrite rev_involutive in E. subst a. exact Logic.I.
  - apply (f_equal (@rev _)) in E. rewrite rev_involutive in E. subst a. cbn [rev] in *. set (a := rev r) in *. clearbody a.
    rewrite last_or_app. cbn [last_or linkNext]. apply seg_app in S. destruct S as [S1 [S2 _]]. rewrite map_app in D. cbn in D.
    apply seg_app. split.
    + cbn [hd_or] in *. eapply seg_frame; [|exact S1]. intros i Hi. apply upd_other. intro; subst i.
      apply NoDup_remove_2 in D. apply D. apply in_or_app. now left.
    + cbn. split; auto. erewrite upd_same by exact S2. reflexivity.
Qed.
Lemma relink_prev : forall b h p p' n, seg h p b n -> NoDup (map fst b) -> seg (linkPrev h (hd_or b None) p') p' b n.
Proof.
  intros [|[j k] b] h p p' n S D; cbn in *; auto. destruct S as [E S]. split.
  - erewrite upd_same by exact E. reflexivity.
  - eapply seg_frame; [|exact S]. intros i Hi. apply upd_other. intro; subst. now inversion D.
Qed.
Lemma unlink : forall h a i k b, seg h None (a ++ (i, k) :: b) None -> NoDup (map fst (a ++ (i, k) :: b)) ->
  seg (linkPrev (linkNext h (last_or a None) (hd_or b None)) (hd_or b None) (last_or a None)) None (a ++ b) None.
Proof.
  intros h a i k b S D. apply seg_app in S. destruct S as [S1 [E S2]]. rewrite map_app in D. cbn in D.
  assert (DA : NoDup (map fst a)) by (clear - D; induction a as [|[x y] a IH]; cbn in *; constructor; inversion D; subst; [intro; apply H1; apply in_or_app; now left | auto]).
  apply NoDup_remove in D. destruct D as [D N].
  assert (DB : NoDup (map fst b)) by (clear - D; induction a as [|[x y] a IH]; cbn in *; [auto|inversion D; auto]).
  assert (X : forall j, In j (map fst a) -> In j (map fst b) -> False).
  { clear - D. induction a as [|[x y] a IH]; cbn in *; [tauto|]. inversion D; subst. intros j [->|J] B; [apply H1; apply in_or_app; now right | eauto]. }
  apply seg_app. split.
  - eapply seg_frame; [|eapply relink_next; [exact S1|exact DA]]. intros j J. apply linkPrev_other. intro H. apply hd_in in H. eauto.
  - eapply relink_prev; [|exact DB]. eapply seg_frame; [|exact S2]. intros j J. apply linkNext_other. intro H. apply last_in in H. eauto.
Qed.

Section Inv.
Context {V : Type}.
Lemma valueOf_cons : forall k k' (v : V) l, valueOf k ((k', v) :: l) = if k =? k' then Some v else valueOf k l.
Proof. intros. unfold valueOf. cbn. now destruct (k =? k'). Qed.
Lemma valueOf_app : forall k (a b : list (key * V)), valueOf k (a ++ b) = match valueOf k a with Some v => Some v | None => valueOf k b end.
Proof. induction a as [|[x y] a IH]; intro b; [reflexivity|]. cbn [app]. rewrite !valueOf_cons. destruct (k =? x); auto. Qed.
Lemma valueOf_remove : forall k k' (l : list (key * V)), valueOf k' (removeFrom k l) = if k' =? k then None else valueOf k' l.
Proof.
  induction l as [|[a v] l IH]; [cbn; now destruct (k' =? k)|]. cbn [removeFrom filter fst]. fold (removeFrom k l).
  destruct (Nat.eqb_spec k a); cbn [negb]; rewrite ?valueOf_cons, IH.
  - subst. destruct (Nat.eqb_spec k' a); auto.
  - destruct (Nat.eqb_spec k' a), (Nat.eqb_spec k' k); subst; congruence.
Qed.
Lemma present_in : forall k (l : list (key * V)), present k l = true <-> In k (map fst l).
Proof.
  intros. unfold present. rewrite existsb_exists, in_map_iff. split.
  - intros ([a v] & H & E). apply Nat.eqb_eq in E. exists (a, v). split; auto.
  - intros ([a v] & E & H). exists (a, v). split; auto. apply Nat.eqb_eq. auto.
Qed.
Lemma valueOf_none : forall k (l : list (key * V)), valueOf k l = None <-> ~ In k (map fst l).
Proof.
  induction l as [|[a v] l IH]; [cbn; tauto|]. rewrite valueOf_cons. cbn. destruct (Nat.eqb_spec k a).
  - split; [discriminate|]. intro H. exfalso. apply H. auto.
  - rewrite IH. split; [intros H [X|X]; [congruence|auto] | tauto].
Qed.
Lemma valueOf_update : forall k (v : V) k' l, In k (map fst l) ->
  valueOf k' (map (fun e => if k =? fst e then (k, v) else e) l) = if k' =? k then Some v else valueOf k' l.
Proof.
  intros k v k' l. induction l as [|[a w] l IH]; [cbn; tauto|]. intro H. cbn [map fst].
  destruct (in_dec Nat.eq_dec k (map fst l)) as [J|J].
  - destruct (Nat.eqb_spec k a); rewrite !valueOf_cons, IH by auto; repeat match goal with |- context [?x =? ?y] => destruct (Nat.eqb_spec x y) end; congruence.
  - assert (a = k) by (cbn in H; tauto). subst a. rewrite Nat.eqb_refl, !valueOf_cons. destruct (k' =? k) eqn:Q; auto.
    f_equal. clear - J. induction l as [|[b x] l IH]; cbn in *; auto. destruct (Nat.eqb_spec k b); [subst; tauto|]. f_equal. tauto.
Qed.
Lemma keys_update : forall k (v : V) l, map fst (map (fun e => if k =? fst e then (k, v) else e) l) = map fst l.
Proof. intros. rewrite map_map. apply map_ext. intros [a w]. cbn. destruct (Nat.eqb_spec k a); auto. Qed.

Definition inv (m : lmap V) (seen : list key) (l : list (key * V)) : Prop := exists ch : chain,
  seg (heap m) None ch None /\ first m = hd_or ch None /\ last m = last_or ch None /\ NoDup (map fst ch) /\
  map snd ch = map fst l /\ NoDup (map fst l) /\
  (forall k, dget k (table m) = valueOf k l) /\
  (forall i k, In (i, k) ch -> dget k (lookup m) = Some i) /\
  (forall k, ~ In k seen -> dget k (lookup m) = None) /\
  (forall k, In k (map fst l) -> In k seen).

Lemma seg_lt : forall h ch p n i, seg h p ch n -> In i (map fst ch) -> i < length h.
Proof.
  induction ch as [|[j k] ch IH]; cbn; [tauto|]. intros p n i [E S] [<-|H]; [apply nth_error_Some; congruence | eauto].
Qed.
Lemma walk_ok : forall (m : lmap V) ch p fuel, seg (heap m) p ch None -> length ch <= fuel ->
  walk fuel m (hd_or ch None) = Some (map (fun e => (snd e, dget (snd e) (table m))) ch).
Proof.
  induction ch as [|[i k] ch IH]; intros p fuel S L; [destruct fuel; reflexivity|].
  destruct fuel as [|fuel]; [cbn in L; lia|]. destruct S as [E S]. cbn [hd_or walk]. rewrite E. cbn [next ckey].
  erewrite IH; eauto. cbn in L. lia.
Qed.
Lemma chain_short : forall h (ch : chain) p n, seg h p ch n -> NoDup (map fst ch) -> length ch <= length h.
Proof.
  intros h ch p n S D. rewrite <- (map_length fst ch). rewrite <- (seq_length (length h) 0). apply NoDup_incl_length; auto.
  intros i Hi. apply in_seq. pose proof (seg_lt _ _ _ _ _ S Hi). lia.
Qed.
Lemma entries_ok : forall (m : lmap V) seen l, inv m seen l -> entries m = Some (map (fun e => (fst e, Some (snd e))) l).
Proof.
  intros m seen l (ch & S & F & L & D & K & DK & T & _). unfold entries. rewrite F.
  rewrite (walk_ok m ch None) by (auto; eapply chain_short; eauto). f_equal.
  transitivity (map (fun k => (k, dget k (table m))) (map snd ch)); [now rewrite map_map|]. rewrite K, map_map. apply map_ext_in.
  intros [k v] H. cbn. rewrite T. f_equal. clear - H DK. induction l as [|[a w] l IH]; [destruct H|].
  rewrite valueOf_cons. cbn in DK. inversion DK; subst. destruct H as [H|H].
  - injection H as -> ->. now rewrite Nat.eqb_refl.
  - destruct (Nat.eqb_spec k a); [subst; exfalso; apply H2; change a with (fst (a, v)); now apply in_map|]. auto.
Qed.
Lemma put_ok : forall k v (m : lmap V) seen l, inv m seen l -> exists m', put k v m = Some (m', valueOf k l) /\ inv m' (k :: seen) (putIn k v l).
Proof.
  intros k v m seen l (ch & S & F & L & D & K & DK & T & LK & NS & SN). unfold put, putIn. rewrite T.
  destruct (valueOf k l) as [w|] eqn:E.
  - assert (J : In k (map fst l)).
    { destruct (in_dec Nat.eq_dec k (map fst l)) as [J|J]; auto. apply valueOf_none in J. congruence. }
    assert (J' := J). apply present_in in J'. rewrite J'. eexists. split; [reflexivity|]. exists ch. cbn [heap first last lookup table]. rewrite keys_update. repeat split; auto; [|intros k' H'; apply NS; cbn in H'; tauto|intros k' H'; right; auto].
    + intro k'. rewrite dget_put, valueOf_update by auto. destruct (k' =? k); auto.
  - assert (J := E). apply valueOf_none in J.
    assert (present k l = false) as -> by (destruct (present k l) eqn:Q; auto; apply present_in in Q; tauto).
    set (i := length (heap m)).
    assert (IN : ~ In i (map fst ch)) by (intro H; pose proof (seg_lt _ _ _ _ _ S H); unfold i in *; lia).
    assert (G : forall m', first m' = hd_or (ch ++ [(i, k)]) None -> last m' = Some i ->
              heap m' = linkNext (heap m) (last_or ch None) (Some i) ++ [{| ckey := k; previous := last_or ch None; next := None |}] ->
              lookup m' = dput k i (lookup m) -> table m' = dput k v (table m) -> inv m' (k :: seen) (l ++ [(k, v)])).
    { intros m' F' L' H' LK' T'. exists (ch ++ [(i, k)]). rewrite F', L', H', LK', T', last_or_app, !map_app. cbn [last_or map fst snd].
      assert (LL : length (linkNext (heap m) (last_or ch None) (Some i)) = i).
      { unfold linkNext. destruct (last_or ch None); auto. apply upd_length. }
      split; [apply seg_app; split|].
      - cbn [hd_or]. eapply seg_frame; [|eapply relink_next; eauto]. intros j Hj. apply nth_error_app1. rewrite LL.
        eapply seg_lt; eauto.
      - cbn. split; auto. rewrite nth_error_app2 by lia. rewrite LL, Nat.sub_diag. reflexivity.
      - split; [reflexivity|]. split; [reflexivity|]. split; [|split; [|split; [|split; [|split; [|split]]]]].
        + clear - D IN. induction ch as [|[a b] ch IH]; cbn in *; [repeat constructor; auto|].
          inversion D; subst. constructor; [|apply IH; auto]. intro H. apply in_app_or in H. cbn in H. destruct H as [H|[H|[]]]; [auto|]. subst. auto.
        + rewrite K. reflexivity.
        + clear - DK J. induction l as [|[a b] l IH]; cbn in *; [repeat constructor; auto|].
          inversion DK; subst. constructor; [|apply IH; auto]. intro H. apply in_app_or in H. cbn in H. destruct H as [H|[H|[]]]; [auto|]. subst. auto.
        + intro k'. rewrite dget_put, T, valueOf_app, valueOf_cons. destruct (Nat.eqb_spec k' k); [subst; now rewrite E|]. now destruct (valueOf k' l).
        + intros j k' H. rewrite dget_put. apply in_app_or in H. destruct H as [H|[H|[]]].
          * destruct (Nat.eqb_spec k' k); [|auto]. subst. exfalso. apply J. rewrite <- K. change k with (snd (j, k)). now apply in_map.
          * injection H as -> ->. now rewrite Nat.eqb_refl.
        + intros k' H. rewrite dget_put. cbn in H. destruct (Nat.eqb_spec k' k); [subst; tauto|]. apply NS. tauto.
        + intros k' H. apply in_app_or in H. cbn in *. destruct H as [H|[H|[]]]; auto. }
    destruct (rev ch) as [|[j kj] r] eqn:R; apply (f_equal (@rev _)) in R; rewrite rev_involutive in R.
    + subst ch. cbn in F. rewrite F. eexists. split; [reflexivity|]. apply G; reflexivity.
    + assert (L' : last_or ch None = Some j) by (subst ch; cbn; now rewrite last_or_app). rewrite L, L'.
      assert (exists f, first m = Some f /\ hd_or (ch ++ [(i, k)]) None = Some f) as (f & Ff & Hf).
      { rewrite F. destruct ch as [|[a b] ch]; [discriminate|]. exists a. split; reflexivity. }
      rewrite Ff. eexists. split; [reflexivity|]. apply G; cbn; rewrite ?L'; auto.
Qed.
Lemma keys_removeFrom : forall k (l : list (key * V)), map fst (removeFrom k l) = filter (fun x => negb (k =? x)) (map fst l).
Proof. induction l as [|[a v] l IH]; cbn; auto. fold (removeFrom k l). destruct (k =? a); cbn; rewrite ?IH; auto. Qed.
Lemma filter_absent : forall k (a : list key), ~ In k a -> filter (fun x => negb (k =? x)) a = a.
Proof. induction a as [|x a IH]; cbn; intros; auto. destruct (Nat.eqb_spec k x); [subst; tauto|]. cbn. f_equal. tauto. Qed.
Lemma remove_ok : forall k (m : lmap V) seen l, inv m seen l -> present k l = true \/ ~ In k seen ->
  snd (remove k m) = valueOf k l /\ inv (fst (remove k m)) seen (removeFrom k l).
Proof.
  intros k m seen l I0 H. assert (I1 := I0). destruct I0 as (ch & S & F & L & D & K & DK & T & LK & NS & SN).
  destruct (in_dec Nat.eq_dec k (map fst l)) as [J|J].
  - assert (J' := J). rewrite <- K in J'. apply in_map_iff in J'. destruct J' as ([i k'] & E & J'). cbn in E. subst k'.
    apply in_split in J'. destruct J' as (a & b & E). unfold remove. rewrite (LK i k) by (subst ch; apply in_or_app; right; now left).
    assert (S0 := S). rewrite E in S0. apply seg_app in S0. destruct S0 as [_ [Ei _]]. rewrite Ei. cbn [previous next fst snd].
    split; [apply T|]. pose proof (unlink (heap m) a i k b) as U. rewrite <- E in U. specialize (U S D).
    assert (KN : ~ In k (map snd a) /\ ~ In k (map snd b)).
    { rewrite <- K, E, map_app in DK. cbn in DK. apply NoDup_remove_2 in DK. split; intro; apply DK; apply in_or_app; auto. }
    exists (a ++ b). cbn [heap first last lookup table]. repeat split.
    + exact U.
    + rewrite F, E, !hd_or_app. destruct a as [|[x y] a]; cbn; auto.
      assert (X : last_or a (Some x) <> None) by (clear; revert x; induction a as [|[u v] a IH]; intro x; cbn; [discriminate|auto]). destruct (last_or a (Some x)); congruence.
    + rewrite L, E, !last_or_app. destruct b as [|[x y] b]; cbn; auto.
    + rewrite E, map_app in D. cbn in D. apply NoDup_remove_1 in D. now rewrite map_app.
    + rewrite keys_removeFrom, <- K, E, !map_app, filter_app. cbn. rewrite Nat.eqb_refl. cbn. rewrite !filter_absent by tauto. reflexivity.
    + rewrite keys_removeFrom. apply NoDup_filter. exact DK.
    + intro k'. rewrite dget_remove, valueOf_remove, T. reflexivity.
    + intros j k' HI. apply LK. rewrite E. apply in_app_or in HI. apply in_or_app. cbn. tauto.
    + exact NS.
    + intros k' HI. apply SN. rewrite keys_removeFrom in HI. apply filter_In in HI. apply HI.
  - destruct H as [H|H]; [apply present_in in H; tauto|]. unfold remove. rewrite (NS k H). cbn.
    assert (removeFrom k l = l) as ->.
    { clear - J. induction l as [|[a v] l IH]; cbn in *; auto. destruct (Nat.eqb_spec k a); [subst; tauto|]. cbn. f_equal. tauto. }
    split; [symmetry; now apply valueOf_none|exact I1].
Qed.
Lemma clear_ok : forall (m : lmap V) seen l, inv m seen l -> inv (clear m) seen [].
Proof.
  intros m seen l (ch & S & F & L & D & K & DK & T & LK & NS & SN). exists []. cbn. repeat split; auto; try constructor; tauto.
Qed.
Lemma run_ok : forall cs (m : lmap V) seen l, inv m seen l -> tame cs seen l -> run cs m = expected cs l.
Proof.
  induction cs as [|c cs IH]; intros m seen l I0 T; [reflexivity|]. destruct c as [k v|k| |k| ]; cbn [run exec expected tame] in *.
  - destruct (put_ok k v m seen l I0) as (m' & -> & I'). f_equal. eapply IH; eauto.
  - destruct T as [T1 T]. pose proof (remove_ok k m seen l I0 T1) as [A B]. destruct (remove k m) as [m' o]. cbn in *. subst o. f_equal. eapply IH; eauto.
  - f_equal. eapply IH; [eapply clear_ok; eauto|exact T].
  - f_equal; [|eapply IH; eauto]. destruct I0 as (ch & _ & _ & _ & _ & _ & _ & X & _). unfold get. now rewrite X.
  - f_equal; [|eapply IH; eauto]. erewrite entries_ok; eauto.
Qed.
Lemma fresh_ok : inv fresh [] [].
Proof. exists []. cbn. repeat split; auto; try apply NoDup_nil; tauto. Qed.

(** The iterator. *)
Lemma after_ok : forall (m : lmap V) a b p, seg (heap m) p (a ++ b) None -> after (length a) m (hd_or (a ++ b) None) = hd_or b None.
Proof.
  induction a as [|[i k] a IH]; intros b p S; [reflexivity|]. destruct S as [E S]. cbn [length after app hd_or] in *. rewrite E. cbn [next]. eapply IH; eauto.
Qed.
Lemma iterator_remove_ok : forall (m : lmap V) seen l n e, inv m seen l -> nth_error l n = Some e ->
  iteratorRemoves m (after (S n) m (first m)) = Some (fst e).
Proof.
  intros m seen l n e (ch & S & F & L & D & K & _) E.
  assert (X : nth_error (map snd ch) n = Some (fst e)) by (rewrite K; now apply map_nth_error).
  apply nth_error_split in X. destruct X as (a' & b' & X & LA). 
  apply map_eq_app in X. destruct X as (a & c & -> & Ea & Ec). destruct c as [|[i k] b]; [discriminate|]. cbn in Ec. injection Ec as Ek Eb.
  assert (LA' : length (a ++ [(i, k)]) = Datatypes.S n) by (rewrite app_length; cbn; rewrite <- LA, <- Ea, map_length; lia).
  replace (a ++ (i, k) :: b) with ((a ++ [(i, k)]) ++ b) in * by now rewrite <- app_assoc.
  rewrite F, <- LA', (after_ok m (a ++ [(i, k)]) b None S).
  apply seg_app in S. destruct S as [S1 S2]. apply seg_app in S1. destruct S1 as [_ [Ei _]]. rewrite last_or_app in S2. rewrite !last_or_app in L. cbn [last_or] in *.
  destruct b as [|[j kj] b]; cbn [hd_or iteratorRemoves].
  - rewrite L. cbn [last_or]. rewrite Ei. cbn. congruence.
  - destruct S2 as [Ej _]. rewrite Ej. cbn [previous]. rewrite Ei. cbn. congruence.
Qed.
End Inv.
