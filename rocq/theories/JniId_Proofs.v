(** Proofs about JNI ids. *)
From Coq Require Import List Arith Bool Lia.
From Verif Require Import JniId_Model.
Import ListNotations.

Lemma upd_same : forall A (g : nat -> A) k x, upd g k x k = x.
Proof. intros. unfold upd. rewrite Nat.eqb_refl. reflexivity. Qed.
Lemma upd_other : forall A (g : nat -> A) k x j, j <> k -> upd g k x j = g j.
Proof. intros. unfold upd. destruct (Nat.eqb_spec j k); congruence. Qed.
Lemma setNth_length : forall {A} (l : list A) i x, length (setNth l i x) = length l.
Proof. induction l as [|y l IH]; intros [|i] x; cbn; auto. Qed.
Lemma setNth_same : forall {A} (l : list A) i x, (i < length l)%nat -> nth_error (setNth l i x) i = Some x.
Proof. induction l as [|y l IH]; intros [|i] x H; cbn in *; try lia; [reflexivity|]. apply IH. lia. Qed.
Lemma setNth_other : forall {A} (l : list A) i j x, i <> j -> nth_error (setNth l i x) j = nth_error l j.
Proof. induction l as [|y l IH]; intros [|i] [|j] x H; cbn; try congruence; auto. Qed.
Lemma nth_set : forall {A} (l : list A) i x j d, nth j (setNth l i x) d = if (j =? i) && (i <? length l) then x else nth j l d.
Proof.
  intros A l. induction l as [|y l IH]; intros i x j d.
  - cbn. rewrite andb_false_r. destruct i, j; reflexivity.
  - destruct i as [|i], j as [|j]; cbn [setNth nth length]; try reflexivity. rewrite IH.
    change (S j =? S i) with (j =? i). change (S i <? S (length l)) with (i <? length l). reflexivity.
Qed.

(** The vector [w] answers the id [S k] with [f]. *)
Definition answers (w : vec) (k f : nat) : Prop := k < vsize w /\ nth_error (body w) k = Some (Some f).
Definition valid (s : state) (w : vec) : Prop := forall g k, nid s g = S k -> answers w k g.
Definition below (s : state) (n : nat) : Prop := forall g k, nid s g = S k -> k < n.

(** Whether a thread is between acquiring and releasing the lock. *)
Definition inside (p : pc) : bool :=
  match p with Check _ | Grow _ | Store _ _ | Size _ _ | Publish _ _ | Write _ | Unlock _ => true | _ => false end.

Definition okPc (s : state) (p : pc) : Prop :=
  match p with
  | Grow f => nid s f = 0
  | Store f v => v < length (vecs s) /\ nid s f = 0 /\ valid s (vecAt s v) /\ vsize (vecAt s v) < length (body (vecAt s v))
  | Size f v => v < length (vecs s) /\ nid s f = 0 /\ valid s (vecAt s v) /\ nth_error (body (vecAt s v)) (vsize (vecAt s v)) = Some (Some f)
  | Publish f v => v < length (vecs s) /\ nid s f = 0 /\ valid s (vecAt s v)
      /\ exists n, vsize (vecAt s v) = S n /\ nth_error (body (vecAt s v)) n = Some (Some f) /\ below s n
  | Write f => nid s f = 0
      /\ exists n, vsize (vecAt s (table s)) = S n /\ nth_error (body (vecAt s (table s))) n = Some (Some f) /\ below s n
  | Unlock f | Return f => nid s f <> 0
  | Use f id => In (f, id) (issued s)
  | Index f id v => v < length (vecs s) /\ exists k, id = S k /\ answers (vecAt s v) k f
  | _ => True
  end.

Record good (s : state) : Prop := {
  gTable : table s < length (vecs s);
  gValid : valid s (vecAt s (table s));
  gWide : forall v, v < length (vecs s) -> vsize (vecAt s v) <= length (body (vecAt s v));
  gLock : forall t, inside (at_ s t) = true <-> lock s = Some t;
  gPc : forall t, okPc s (at_ s t);
  gIssued : forall f id, In (f, id) (issued s) -> id <> 0 /\ nid s f = id;
  gUsed : forall f x, In (f, x) (used s) -> x = Some (Some f) }.

Lemma good_initial : good initial.
Proof.
  constructor; cbn; auto; try tauto.
  - intros g k H. discriminate.
  - intros [|[|v]] H; cbn; lia.
  - intros t. split; discriminate.
Qed.

Lemma valid_inj : forall s w f g k, valid s w -> nid s f = S k -> nid s g = S k -> f = g.
Proof. intros s w f g k V A B. destruct (V _ _ A) as (_ & X). destruct (V _ _ B) as (_ & Y). congruence. Qed.

Lemma vecAt_set : forall s v w, v < length (vecs s) -> vecAt (withVecs s (setNth (vecs s) v w)) v = w.
Proof.
  intros s v w H. unfold vecAt. cbn [withVecs vecs]. rewrite nth_set, Nat.eqb_refl.
  replace (v <? length (vecs s)) with true by (symmetry; apply Nat.ltb_lt; lia). reflexivity.
Qed.

(** A step of [t] that leaves vectors, table and ids alone. *)
Lemma good_go : forall s t p lk, good s -> okPc s p ->
  (forall u, inside (if u =? t then p else at_ s u) = true <-> lk = Some u) ->
  good (go (withLock s lk) t p).
Proof.
  intros s t p lk [A B C D E F G] H L. constructor; cbn [go withLock vecs table nid lock at_ issued used]; auto.
  intros u. unfold upd. specialize (E u). destruct (u =? t).
  - destruct p; exact H.
  - destruct (at_ s u); exact E.
Qed.
Lemma lock_same : forall s t p, good s -> inside p = inside (at_ s t) ->
  forall u, inside (if u =? t then p else at_ s u) = true <-> lock s = Some u.
Proof. intros s t p G H u. destruct (Nat.eqb_spec u t) as [->|N]; [rewrite H|]; apply (gLock s G). Qed.
Lemma good_move : forall s t p, good s -> okPc s p -> inside p = inside (at_ s t) -> good (go s t p).
Proof.
  intros s t p G H I. pose proof (good_go s t p (lock s) G H (lock_same s t p G I)) as X.
  destruct s; exact X.
Qed.

(** Others are outside while [t] is inside. *)
Lemma others : forall s t u, good s -> inside (at_ s t) = true -> u <> t -> inside (at_ s u) = false.
Proof.
  intros s t u G I N. destruct (inside (at_ s u)) eqn:E; [|reflexivity].
  apply (gLock s G) in I. apply (gLock s G) in E. congruence.
Qed.

(** A step of [t] inside that changes vectors and keeps what they answer. *)
Lemma good_vecs : forall s t p l, good s -> inside (at_ s t) = true -> inside p = true ->
  length (vecs s) <= length l ->
  (forall v k f, v < length (vecs s) -> answers (vecAt s v) k f -> answers (nth v l {| body := []; vsize := 0 |}) k f) ->
  (forall v, v < length l -> vsize (nth v l {| body := []; vsize := 0 |}) <= length (body (nth v l {| body := []; vsize := 0 |}))) ->
  okPc (withVecs s l) p -> good (go (withVecs s l) t p).
Proof.
  intros s t p l G I J LL K W H. pose proof G as [A B C D E F U].
  constructor; cbn [go withVecs vecs table nid lock at_ issued used]; auto.
  - lia.
  - intros g k Hg. unfold vecAt; cbn [vecs table]. apply K; [assumption|]. apply B. exact Hg.
  - intros u. unfold upd. destruct (Nat.eqb_spec u t) as [->|N]; [|apply D].
    rewrite J. split; [|reflexivity]. intros _. apply D. exact I.
  - intros u. unfold upd. destruct (Nat.eqb_spec u t) as [->|N].
    + destruct p; exact H.
    + pose proof (others s t u G I N) as O. pose proof (E u) as X. destruct (at_ s u); try discriminate O; try exact X.
      cbn [okPc] in *. cbn [go withVecs vecs]. destruct X as (X1 & k & X2 & X3). split; [lia|]. exists k. split; [assumption|].
      apply (K v); assumption.
Qed.

Lemma good_step : forall t s s', good s -> step t s = Some s' -> good s'.
Proof.
  intros t s s' G H. pose proof (gPc s G t) as P. unfold step in H.
  destruct (at_ s t) eqn:E; cbn [okPc] in P.
  - discriminate.
  - injection H as <-. apply good_move; [assumption| |rewrite E; destruct (_ =? _); reflexivity].
    destruct (Nat.eqb_spec (nid s f) 0); cbn [okPc]; auto.
  - destruct (lock s) eqn:L; [discriminate|]. injection H as <-. apply good_go; cbn [okPc]; auto.
    intros u. destruct (Nat.eqb_spec u t) as [->|N]; [tauto|].
    split; [|congruence]. intros X. apply (gLock s G) in X. congruence.
  - injection H as <-. apply good_move; [assumption| |rewrite E; destruct (_ =? _); reflexivity].
    destruct (Nat.eqb_spec (nid s f) 0); cbn [okPc]; auto.
  - (* Grow *)
    pose proof (gTable s G) as T. pose proof (gValid s G) as V. pose proof (gWide s G _ T) as W.
    set (w := vecAt s (table s)) in *.
    assert (IN : inside (at_ s t) = true) by (rewrite E; reflexivity).
    destruct (Nat.eqb_spec (length (body w)) (vsize w)) as [F|F]; injection H as <-.
    + assert (GA : forall k g, answers w k g -> answers (grown w) k g).
      { intros k g (X & Y). split; [exact X|]. cbn [grown body]. rewrite nth_error_app1.
        - rewrite <- Y. clear -X. revert k X. generalize (vsize w). induction (body w) as [|y l IH]; intros n k X; [destruct n; reflexivity|].
          destruct n; [lia|]. destruct k; [reflexivity|]. cbn. apply IH. lia.
        - rewrite firstn_length. lia. }
      apply good_vecs; auto.
      * rewrite app_length. lia.
      * intros v k g Hv X. rewrite app_nth1 by assumption. exact X.
      * intros v Hv. rewrite app_length in Hv. cbn [length] in Hv.
        destruct (Nat.eq_dec v (length (vecs s))) as [->|N].
        -- rewrite app_nth2, Nat.sub_diag by lia. cbn [nth grown vsize body]. rewrite app_length, repeat_length, firstn_length. lia.
        -- rewrite app_nth1 by lia. apply (gWide s G). lia.
      * cbn [okPc]. unfold vecAt. cbn [withVecs vecs nid]. rewrite app_nth2, Nat.sub_diag, app_length by lia. cbn [nth length].
        split; [lia|]. split; [assumption|]. split.
        -- intros g k Hg. apply GA, V. exact Hg.
        -- cbn [grown vsize body]. rewrite app_length, repeat_length, firstn_length. lia.
    + apply good_move; [assumption| |rewrite E; reflexivity]. cbn [okPc]. fold w. split; [assumption|]. split; [assumption|]. split; [exact V|lia].
  - (* Store *)
    destruct P as (P1 & P2 & P3 & P4). injection H as <-.
    assert (IN : inside (at_ s t) = true) by (rewrite E; reflexivity).
    assert (KEEP : forall k g, answers (vecAt s v) k g ->
      answers {| body := setNth (body (vecAt s v)) (vsize (vecAt s v)) (Some f); vsize := vsize (vecAt s v) |} k g).
    { intros k g (X & Y). split; [exact X|]. cbn [body]. rewrite setNth_other by lia. exact Y. }
    apply good_vecs; auto.
    + rewrite setNth_length. lia.
    + intros u k g Hu X. rewrite nth_set. replace (v <? length (vecs s)) with true by (symmetry; apply Nat.ltb_lt; lia).
      rewrite andb_true_r. destruct (Nat.eqb_spec u v) as [->|N]; [apply KEEP, X|exact X].
    + intros u Hu. rewrite setNth_length in Hu. rewrite nth_set. destruct (_ && _); [cbn [vsize body]; rewrite setNth_length; lia|].
      apply (gWide s G). assumption.
    + cbn [okPc]. rewrite vecAt_set by assumption. cbn [withVecs vecs nid vsize body]. rewrite setNth_length.
      split; [assumption|]. split; [assumption|]. split; [intros g k Hg; apply KEEP, P3, Hg|]. apply setNth_same. assumption.
  - (* Size *)
    destruct P as (P1 & P2 & P3 & P4). injection H as <-.
    assert (IN : inside (at_ s t) = true) by (rewrite E; reflexivity).
    assert (KEEP : forall k g, answers (vecAt s v) k g -> answers {| body := body (vecAt s v); vsize := S (vsize (vecAt s v)) |} k g).
    { intros k g (X & Y). split; [cbn [vsize]; lia|exact Y]. }
    assert (LT : vsize (vecAt s v) < length (body (vecAt s v))) by (apply nth_error_Some; congruence).
    apply good_vecs; auto.
    + rewrite setNth_length. lia.
    + intros u k g Hu X. rewrite nth_set. replace (v <? length (vecs s)) with true by (symmetry; apply Nat.ltb_lt; lia).
      rewrite andb_true_r. destruct (Nat.eqb_spec u v) as [->|N]; [apply KEEP, X|exact X].
    + intros u Hu. rewrite setNth_length in Hu. rewrite nth_set. destruct (_ && _); [cbn [vsize body]; lia|].
      apply (gWide s G). assumption.
    + cbn [okPc]. rewrite vecAt_set by assumption. cbn [withVecs vecs nid vsize body]. rewrite setNth_length.
      split; [assumption|]. split; [assumption|]. split; [intros g k Hg; apply KEEP, P3, Hg|].
      exists (vsize (vecAt s v)). split; [reflexivity|]. split; [assumption|]. intros g k Hg. apply (P3 g k Hg).
  - (* Publish *)
    destruct P as (P1 & P2 & P3 & n & P4 & P5 & P6). injection H as <-.
    assert (IN : inside (at_ s t) = true) by (rewrite E; reflexivity).
    pose proof G as [A B C D EE F U].
    constructor; cbn [go withTable vecs table nid lock at_ issued used]; auto.
    + intros u. unfold upd. destruct (Nat.eqb_spec u t) as [->|N]; [|apply D]. cbn [inside]. split; [|reflexivity]. intros _. apply D, IN.
    + intros u. unfold upd. destruct (Nat.eqb_spec u t) as [->|N].
      * cbn [okPc]. split; [exact P2|]. exists n. auto.
      * pose proof (others s t u G IN N) as O. pose proof (EE u) as X. destruct (at_ s u); try discriminate O; exact X.
  - (* Write *)
    destruct P as (P1 & n & P2 & P3 & P4). injection H as <-. rewrite P2.
    assert (IN : inside (at_ s t) = true) by (rewrite E; reflexivity).
    pose proof G as [A B C D EE F U].
    constructor; cbn [go withNid vecs table nid lock at_ issued used]; auto.
    + intros g k Hg. cbn [go withNid nid] in Hg. unfold upd in Hg. unfold vecAt; cbn [vecs table].
      destruct (Nat.eqb_spec g f) as [->|N]; [|apply B, Hg]. injection Hg as <-. split; [|exact P3]. change (n < vsize (vecAt s (table s))). lia.
    + intros u. unfold upd. destruct (Nat.eqb_spec u t) as [->|N]; [|apply D]. cbn [inside]. split; [|reflexivity]. intros _. apply D, IN.
    + intros u. unfold upd at 1. destruct (Nat.eqb_spec u t) as [->|N].
      * cbn [okPc nid go withNid]. rewrite upd_same. discriminate.
      * pose proof (others s t u G IN N) as O. pose proof (EE u) as X. destruct (at_ s u) as [| | | | | | | | | |f0| |]; try discriminate O; try exact X.
        cbn [okPc nid go withNid] in *. unfold upd. destruct (f0 =? f); [discriminate|exact X].
    + intros g id Hg. destruct (F g id Hg) as (F1 & F2). split; [assumption|]. rewrite upd_other; [assumption|]. congruence.
  - (* Unlock *)
    injection H as <-. apply good_go; auto. intros u. destruct (Nat.eqb_spec u t) as [->|N]; [split; discriminate|].
    split; [|discriminate]. intros X. rewrite (others s t u G) in X; [discriminate|rewrite E; reflexivity|assumption].
  - (* Return *)
    injection H as <-. pose proof G as [A B C D EE F U].
    constructor; cbn [go issue vecs table nid lock at_ issued used]; auto.
    + intros u. unfold upd. destruct (Nat.eqb_spec u t) as [->|N]; [|apply D]. cbn [inside]. rewrite <- D, E. reflexivity.
    + intros u. unfold upd. destruct (Nat.eqb_spec u t) as [->|N]; [exact Logic.I|].
      pose proof (EE u) as X. destruct (at_ s u); try exact X. cbn [okPc issued go issue] in *. right. exact X.
    + intros g id [Hg|Hg]; [injection Hg as <- <-; auto|apply F, Hg].
  - (* Use *)
    injection H as <-. apply good_move; [assumption| |rewrite E; reflexivity]. cbn [okPc].
    destruct (gIssued s G _ _ P) as (Z & NI). split; [apply (gTable s G)|]. destruct id as [|k]; [congruence|].
    exists k. split; [reflexivity|]. apply (gValid s G). exact NI.
  - (* Index *)
    injection H as <-. destruct P as (P1 & k & -> & P2 & P3). pose proof G as [A B C D EE F U].
    constructor; cbn [go look vecs table nid lock at_ issued used]; auto.
    + intros u. unfold upd. destruct (Nat.eqb_spec u t) as [->|N]; [|apply D]. cbn [inside]. rewrite <- D, E. reflexivity.
    + intros u. unfold upd. destruct (Nat.eqb_spec u t) as [->|N]; [exact Logic.I|].
      pose proof (EE u) as X. destruct (at_ s u); exact X.
    + intros g x [Hg|Hg]; [|apply U, Hg]. injection Hg as <- <-. rewrite Nat.sub_0_r. exact P3.
Qed.

Lemma good_do : forall a s s', good s -> do_ a s = Some s' -> good s'.
Proof.
  intros a s s' G H. destruct a as [t f|t f id|t]; cbn [do_] in H.
  - destruct (at_ s t) eqn:E; try discriminate. injection H as <-. apply good_move; [assumption|exact Logic.I|rewrite E; reflexivity].
  - destruct (at_ s t) eqn:E; try discriminate. destruct (existsb _ _) eqn:X; [|discriminate]. injection H as <-.
    apply good_move; [assumption| |rewrite E; reflexivity]. cbn [okPc]. apply existsb_exists in X as ((f' & id') & X1 & X2).
    cbn [fst snd] in X2. apply andb_true_iff in X2 as (X2 & X3). apply Nat.eqb_eq in X2, X3. subst. exact X1.
  - eapply good_step; eassumption.
Qed.
Lemma good_run : forall l s, good s -> good (run l s).
Proof.
  induction l as [|a l IH]; intros s G; [exact G|]. cbn [run]. apply IH.
  destruct (do_ a s) eqn:E; [eapply good_do; eassumption|exact G].
Qed.
