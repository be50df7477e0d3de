(** Properties of references and finalizers (C47, C83-C86). *)
From Coq Require Import List Bool Arith Permutation Lia.
From Verif Require Import Weak_Model Weak_Spec Weak_Proofs.
Import ListNotations.

(** ** Histories *)

Lemma heapOk_whole : forall h major s, NoDup (registeredRefs s) -> NoDup (registeredFins s) ->
  heapOk h s ->
  exists mid kept enq cl a b,
    whole (hReaches h) (hHasFinalizer h) (hFinTarget h) (hFinFunction h) (hIsCleaner h)
      major s (collect h major s) mid kept enq cl a b.
Proof.
  intros h major s N NF [H1 [H2 [H3 [H4 H5]]]]. unfold collect.
  apply postVisit_whole; auto. split; auto.
Qed.

Record inv (s : state) (rs fs : list nat) : Prop := {
  i_refs : NoDup (registeredRefs s); i_incl : incl (registeredRefs s) rs;
  i_fins : Permutation fs (registeredFins s ++ finalizeQueue s ++ toFinalize s);
  i_nodup : NoDup rs; i_nodupf : NoDup fs;
  i_enq : NoDup (map snd (enqueued s));
  i_enqn : forall r, In r (map snd (enqueued s)) -> In r rs /\ queue s r = None;
  i_clean : NoDup (toClean s);
  i_cleann : forall r, In r (toClean s) -> In r rs /\ ~ In r (registeredRefs s) }.

Lemma inv_fins : forall s rs fs, inv s rs fs -> NoDup (registeredFins s).
Proof.
  intros s rs fs I. pose proof (i_nodupf _ _ _ I) as N.
  apply (Permutation_NoDup (i_fins _ _ _ I)) in N. apply nodup_parts in N. tauto.
Qed.

Lemma whole_examined : forall (major : bool) s r,
  In r (weakRefs s ++ if major then tenuredRefs s else []) <-> examined major s r.
Proof.
  intros major s r. unfold examined. rewrite in_app_iff. destruct major; simpl.
  - tauto.
  - split; [tauto|]. intros [H|[H _]]; [auto|discriminate].
Qed.

Lemma inv_collect : forall h major s rs fs, inv s rs fs -> heapOk h s ->
  inv (collect h major s) rs fs.
Proof.
  intros h major s rs fs I Hh. pose proof (inv_fins _ _ _ I) as NF.
  destruct I as [I1 I2 I3 I4 I5 I6 I7 I8 I9].
  destruct (heapOk_whole h major s I1 NF Hh) as [mid [kept [enq [cl [a [b W]]]]]].
  set (s' := collect h major s) in *. clearbody s'.
  destruct W as [L C1 C2 Q E T R S FQ FT FA FB F G G1 FM FQd J].
  destruct (nodup_parts _ _ _ I1) as [N1 [N2 N3]].
  assert (Hk : forall x, In x kept -> examined major s x).
  { intros x Hx. apply (sc_kept _ _ _ _ _ _ _ _ S) in Hx. apply whole_examined. tauto. }
  assert (Hm : forall x, examined major s x -> In x (registeredRefs s)).
  { intros x [H|[_ H]]; unfold registeredRefs; apply in_or_app; auto. }
  assert (Hd : forall x, In x (if major then [] else tenuredRefs s) ->
     ~ examined major s x /\ In x (registeredRefs s)).
  { intros x Hx. destruct major; [destruct Hx|]. split.
    - intros [H|[H _]]; [exact (N3 x H Hx)|discriminate].
    - unfold registeredRefs. apply in_or_app; auto. }
  assert (Hr : forall x, In x (registeredRefs s') -> In x (registeredRefs s)).
  { intros x Hx. apply (Permutation_in _ R) in Hx. apply in_app_or in Hx.
    destruct Hx as [Hx|Hx]; [auto|]. apply (Hd x Hx). }
  split.
  - apply (Permutation_NoDup (Permutation_sym R)). apply nodup_app.
    + exact (sc_nodup _ _ _ _ _ _ _ _ S).
    + destruct major; [constructor|exact N2].
    + intros x Hx H. exact (proj1 (Hd x H) (Hk x Hx)).
  - intros x Hx. apply I2. auto.
  - rewrite I3, F, FQ, FT. rewrite <- !app_assoc. apply Permutation_app_head.
    apply Permutation_app_head. rewrite !app_assoc. apply Permutation_app_tail.
    apply Permutation_app_comm.
  - exact I4.
  - exact I5.
  - rewrite (sc_enq _ _ _ _ _ _ _ _ S), E, map_app. apply nodup_app.
    + exact (sc_nodup_e _ _ _ _ _ _ _ _ S).
    + exact I6.
    + intros x Hx H. apply enq_in in Hx. destruct Hx as [q Hx].
      apply (sc_enqd _ _ _ _ _ _ _ _ S) in Hx. destruct Hx as [_ [_ [_ [_ [Hq _]]]]].
      rewrite Q in Hq. apply I7 in H. destruct H. congruence.
  - intros r Hr'. rewrite (sc_enq _ _ _ _ _ _ _ _ S), E, map_app, in_app_iff in Hr'.
    destruct Hr' as [Hx|Hx].
    + apply enq_in in Hx. destruct Hx as [q Hx].
      apply (sc_enqd _ _ _ _ _ _ _ _ S) in Hx. destruct Hx as [A1 [_ [_ [_ [_ [A6 _]]]]]].
      split; [|exact A6]. apply I2, Hm, whole_examined, A1.
    + destruct (I7 r Hx) as [A1 A2]. split; [exact A1|].
      destruct (queue s' r) as [q|] eqn:Eq; [|reflexivity].
      apply (sc_qsub _ _ _ _ _ _ _ _ S) in Eq. rewrite Q in Eq. congruence.
  - rewrite (sc_clean _ _ _ _ _ _ _ _ S), T. apply nodup_app.
    + exact (sc_nodup_c _ _ _ _ _ _ _ _ S).
    + exact I8.
    + intros x Hx H. apply (sc_cleaned _ _ _ _ _ _ _ _ S) in Hx. destruct Hx as [A1 _].
      apply I9 in H. destruct H as [_ H]. apply H, Hm, whole_examined, A1.
  - intros r Hr'. rewrite (sc_clean _ _ _ _ _ _ _ _ S), T, in_app_iff in Hr'.
    destruct Hr' as [Hx|Hx].
    + pose proof (sc_cleaned _ _ _ _ _ _ _ _ S r Hx) as [A1 _]. split.
      * apply I2, Hm, whole_examined, A1.
      * intro H. apply (Permutation_in _ R) in H. apply in_app_or in H. destruct H as [H|H].
        -- apply (sc_kept _ _ _ _ _ _ _ _ S) in H. tauto.
        -- apply (proj1 (Hd r H)). apply whole_examined, A1.
    + destruct (I9 r Hx) as [A1 A2]. split; [exact A1|]. intro H. apply A2. auto.
Qed.

Lemma inv_live : forall s rs fs l, inv s rs fs -> inv (setLive s l) rs fs.
Proof. intros s rs fs l I. destruct I; split; auto. Qed.

Lemma history_inv : forall s rs fs, history s rs fs -> inv s rs fs.
Proof.
  intros s rs fs H. induction H as [| s rs fs r t q H IH Hr | s rs fs f H IH Hf
    | s rs fs r H IH Hr | s rs fs r H IH Hr | s rs fs j H IH | s rs fs h major l H IH Hh Hm].
  - split; simpl; try constructor; simpl; try tauto. intros x [].
  - destruct IH as [I1 I2 I3 I4 I5 I6 I7 I8 I9].
    assert (Hn : ~ In r (registeredRefs s)) by (intro E; apply Hr, I2, E).
    split; auto.
    + simpl. constructor; auto.
    + intros x [<-|Hx]; [left; reflexivity|right; apply I2, Hx].
    + constructor; auto.
    + simpl. intros x Hx. apply I7 in Hx. destruct Hx as [A B]. split; [auto|].
      destruct (Nat.eqb_spec x r); [subst; tauto|exact B].
    + simpl. intros x Hx. apply I9 in Hx. destruct Hx as [A B]. split; [auto|].
      intros [E|E]; [subst; tauto|exact (B E)].
  - destruct IH as [I1 I2 I3 I4 I5 I6 I7 I8 I9]. split; auto.
    + simpl. constructor. exact I3.
    + constructor; auto.
  - destruct IH; split; auto.
  - destruct IH as [I1 I2 I3 I4 I5 I6 I7 I8 I9]. unfold javaEnqueue.
    destruct (queue s r) as [q|] eqn:Eq; [|split; auto].
    split; auto; simpl.
    + constructor; [|exact I6]. intro E. apply I7 in E. destruct E. congruence.
    + intros x [<-|Hx].
      * rewrite Nat.eqb_refl. auto.
      * destruct (I7 x Hx) as [A B]. split; [exact A|]. destruct (x =? r); auto.
  - destruct IH; split; auto.
  - apply inv_collect; [apply inv_live, IH|exact Hh].
Qed.

Lemma collection_whole : forall h major s s', collection h major s s' ->
  (exists rs fs, inv s rs fs) /\ NoDup (registeredRefs s) /\
  exists mid kept enq cl a b,
    whole (hReaches h) (hHasFinalizer h) (hFinTarget h) (hFinFunction h) (hIsCleaner h)
      major s s' mid kept enq cl a b.
Proof.
  intros h major s s' [[s0 [rs [fs [l [H ->]]]]] [Hh [Hm ->]]].
  apply history_inv in H. apply (inv_live _ _ _ l) in H.
  split; [eauto|]. split; [exact (i_refs _ _ _ H)|].
  apply heapOk_whole; [exact (i_refs _ _ _ H)|exact (inv_fins _ _ _ H)|exact Hh].
Qed.

(** ** References (C83) *)

Section Refs.
Variables (h : heap) (major : bool) (s s' : state).
Hypothesis HC : collection h major s s'.

(** A reference that is reachable and whose target is strongly reachable is left alone: it keeps
    its target, stays registered, and is neither enqueued nor handed to the cleaners. *)
Theorem C83_kept : forall r o, In r (registeredRefs s) -> live s r = true ->
  target s r = Some o -> live s o = true ->
  target s' r = Some o /\ In r (registeredRefs s') /\ live s' r = true /\ live s' o = true /\
  exists new newc, added (enqueued s) (enqueued s') new /\ added (toClean s) (toClean s') newc /\
    ~ In r (map snd new) /\ ~ In r newc.
Proof.
  intros r o Hr Hl Ht Ho.
  destruct (collection_whole h major s s' HC) as [_ [N [mid [kept [enq [cl [a [b W]]]]]]]].
  destruct W as [[L1 [L2 L3]] C1 C2 Q E T R S _ _ _ _ _ _ _ _ _ _].
  assert (Tm : target mid r = Some o).
  { destruct (C1 r) as [H|[_ [_ [o' [H1 [H2 _]]]]]]; [congruence|]. congruence. }
  destruct (in_dec Nat.eq_dec r (weakRefs s ++ if major then tenuredRefs s else [])) as [Hi|Hi].
  - assert (Hk : In r kept).
    { apply (sc_stays _ _ _ _ _ _ _ _ S); auto. intros o' Ho'. rewrite Tm in Ho'.
      inversion Ho'; subst. auto. }
    destruct (sc_kept _ _ _ _ _ _ _ _ S r Hk) as [A1 [A2 [A3 [A4 [A5 [A6 [A7 A8]]]]]]].
    split; [congruence|]. split. { apply (Permutation_in _ (Permutation_sym R)), in_or_app; auto. }
    split; [exact A2|]. split; [auto|]. exists enq, cl.
    split. { unfold added. rewrite (sc_enq _ _ _ _ _ _ _ _ S), E. reflexivity. }
    split. { unfold added. rewrite (sc_clean _ _ _ _ _ _ _ _ S), T. reflexivity. }
    auto.
  - destruct (sc_other _ _ _ _ _ _ _ _ S r Hi) as [A1 A2].
    split; [congruence|]. split.
    { apply (Permutation_in _ (Permutation_sym R)), in_or_app. right.
      unfold registeredRefs in Hr. rewrite in_app_iff in Hi, Hr. destruct major; tauto. }
    split; [auto|]. split; [auto|]. exists enq, cl.
    split. { unfold added. rewrite (sc_enq _ _ _ _ _ _ _ _ S), E. reflexivity. }
    split. { unfold added. rewrite (sc_clean _ _ _ _ _ _ _ _ S), T. reflexivity. }
    split.
    + intro H. apply enq_in in H. destruct H as [q H]. apply (sc_enqd _ _ _ _ _ _ _ _ S) in H. tauto.
    + intro H. apply (sc_cleaned _ _ _ _ _ _ _ _ S) in H. tauto.
Qed.

(** After a collection, a registered reference has no target or one that survived, and its queue
    is null or survived. *)
Theorem C83_no_dangling : forall r, In r (registeredRefs s') ->
  (forall o, target s' r = Some o -> live s' o = true) /\
  (forall q, queue s' r = Some q -> live s' q = true).
Proof.
  intros r Hr.
  destruct (collection_whole h major s s' HC) as [_ [N [mid [kept [enq [cl [a [b W]]]]]]]].
  destruct W as [[L1 [L2 L3]] C1 C2 Q E T R S _ _ _ _ _ _ _ _ _ _].
  destruct (nodup_parts _ _ _ N) as [_ [_ N3]].
  apply (Permutation_in _ R) in Hr. apply in_app_or in Hr. destruct Hr as [Hk|Hk].
  - destruct (sc_kept _ _ _ _ _ _ _ _ S r Hk) as [A1 [A2 [A3 [A4 [A5 _]]]]].
    split; intros x Hx.
    + apply A4. congruence.
    + apply (A5 x Hx).
  - destruct HC as [_ [_ [Hm _]]]. destruct major; [destruct Hk|].
    destruct (Hm eq_refl) as [_ [M2 M3]].
    assert (Hi : ~ In r (weakRefs s ++ [])).
    { rewrite app_nil_r. intro H. exact (N3 r H Hk). }
    destruct (sc_other _ _ _ _ _ _ _ _ S r Hi) as [A1 A2].
    split; intros x Hx.
    + apply L2, L1. apply (M2 r); [exact Hk|].
      destruct (C1 r) as [H|[_ [H _]]]; congruence.
    + apply L2, L1. apply (M3 r); [exact Hk|]. congruence.
Qed.

(** A reachable reference loses a target that does not survive the collection. *)
Theorem C83_cleared : forall r o, examined major s r -> live s r = true ->
  target s r = Some o -> live s' o = false -> target s' r = None.
Proof.
  intros r o Hx Hl Ht Ho.
  destruct (collection_whole h major s s' HC) as [_ [N [mid [kept [enq [cl [a [b W]]]]]]]].
  destruct W as [[L1 [L2 L3]] C1 C2 Q E T R S _ _ _ _ _ _ _ _ _ _].
  apply whole_examined in Hx.
  destruct (in_dec Nat.eq_dec r kept) as [Hk|Hk].
  - destruct (sc_kept _ _ _ _ _ _ _ _ S r Hk) as [A1 [A2 [A3 [A4 _]]]]. rewrite A3.
    destruct (C1 r) as [H|[_ [H _]]]; [|exact H]. rewrite Ht in H.
    apply A4 in H. congruence.
  - destruct (sc_gone _ _ _ _ _ _ _ _ S r Hx Hk) as [[A _]|[A _]]; [exact A|].
    apply L1 in Hl. congruence.
Qed.

(** If, besides, the object has no finalizer and the reference has a reachable queue, it is put on
    that queue (unless it is a cleaner, which is handed to the cleaners instead). *)
Theorem C83_enqueued : forall r o q, examined major s r -> live s r = true ->
  target s r = Some o -> live s' o = false -> hHasFinalizer h o = false ->
  queue s r = Some q -> live s q = true ->
  exists new newc, added (enqueued s) (enqueued s') new /\ added (toClean s) (toClean s') newc /\
    (hIsCleaner h r = false -> In (q, r) new /\ queue s' r = None) /\
    (hIsCleaner h r = true -> In r newc).
Proof.
  intros r o q Hx Hl Ht Ho Hf Hq Hlq.
  destruct (collection_whole h major s s' HC) as [_ [N [mid [kept [enq [cl [a [b W]]]]]]]].
  destruct W as [[L1 [L2 L3]] C1 C2 Q E T R S _ _ _ _ _ _ _ _ _ _].
  apply whole_examined in Hx.
  assert (Tm : target mid r = Some o).
  { destruct (C1 r) as [H|[_ [_ [o' [H1 [H2 H3]]]]]]; [congruence|]. congruence. }
  assert (Hk : ~ In r kept).
  { intro Hk. destruct (sc_kept _ _ _ _ _ _ _ _ S r Hk) as [_ [_ [_ [A4 _]]]].
    apply A4 in Tm. congruence. }
  exists enq, cl.
  split. { unfold added. rewrite (sc_enq _ _ _ _ _ _ _ _ S), E. reflexivity. }
  split. { unfold added. rewrite (sc_clean _ _ _ _ _ _ _ _ S), T. reflexivity. }
  split; intro Hc.
  - assert (In (q, r) enq).
    { apply (sc_unreach _ _ _ _ _ _ _ _ S); auto. congruence. }
    split; [assumption|]. apply (sc_enqd _ _ _ _ _ _ _ _ S) in H. tauto.
  - apply (sc_mustc _ _ _ _ _ _ _ _ S); auto.
Qed.

(** Whatever a collection puts on a queue is a reference it examined, on the queue it was created
    with; its target is null by then and it has no queue any more; reference and queue survive. *)
Theorem C83_only : exists new, added (enqueued s) (enqueued s') new /\
  forall q r, In (q, r) new -> examined major s r /\ queue s r = Some q /\ queue s' r = None /\
    target s' r = None /\ live s' r = true /\ live s' q = true /\
    (live s r = false \/ exists o, target s r = Some o /\ live s o = false).
Proof.
  destruct (collection_whole h major s s' HC) as [_ [N [mid [kept [enq [cl [a [b W]]]]]]]].
  destruct W as [[L1 [L2 L3]] C1 C2 Q E T R S _ _ _ _ _ _ _ _ _ _].
  exists enq. split. { unfold added. rewrite (sc_enq _ _ _ _ _ _ _ _ S), E. reflexivity. }
  intros q r H.
  destruct (sc_enqd _ _ _ _ _ _ _ _ S q r H) as [A1 [A2 [A3 [A4 [A5 [A6 [A7 [A8 A9]]]]]]]].
  split; [apply whole_examined, A1|]. split; [congruence|]. split; [exact A6|]. split; [exact A4|].
  split; [exact A2|]. split; [exact A3|].
  destruct A9 as [[o [B1 B2]]|B].
  - right. exists o. split; [|eapply grow_false; eauto].
    destruct (C1 r) as [B|[_ [B _]]]; congruence.
  - left. eapply grow_false; eauto.
Qed.

(** A target is taken away only if it is not strongly reachable — or the reference is not. *)
Theorem C83_clears : forall r o, target s r = Some o -> target s' r <> Some o ->
  target s' r = None /\ examined major s r /\ (live s o = false \/ live s r = false).
Proof.
  intros r o Ht Hn.
  destruct (collection_whole h major s s' HC) as [_ [N [mid [kept [enq [cl [a [b W]]]]]]]].
  destruct W as [[L1 [L2 L3]] C1 C2 Q E T R S _ _ _ _ _ _ _ _ _ _].
  destruct (in_dec Nat.eq_dec r (weakRefs s ++ if major then tenuredRefs s else [])) as [Hi|Hi].
  - pose proof (proj1 (whole_examined _ _ _) Hi) as Hx.
    destruct (C1 r) as [H|[_ [H [o' [H1 [H2 _]]]]]].
    + destruct (in_dec Nat.eq_dec r kept) as [Hk|Hk].
      * destruct (sc_kept _ _ _ _ _ _ _ _ S r Hk) as [A1 [A2 [A3 _]]]. congruence.
      * destruct (sc_gone _ _ _ _ _ _ _ _ S r Hi Hk) as [[A1 [A2 A3]]|[A1 [A2 _]]]; [|congruence].
        split; [exact A1|]. split; [exact Hx|].
        destruct A3 as [[o' [B1 B2]]|B].
        -- left. eapply grow_false; [exact L1|]. congruence.
        -- right. eapply grow_false; eauto.
    + assert (o' = o) by congruence. subst o'. split; [|auto].
      destruct (in_dec Nat.eq_dec r kept) as [Hk|Hk].
      * destruct (sc_kept _ _ _ _ _ _ _ _ S r Hk) as [A1 [A2 [A3 _]]]. congruence.
      * destruct (sc_gone _ _ _ _ _ _ _ _ S r Hi Hk) as [[A1 _]|[A1 [A2 _]]]; congruence.
  - destruct (sc_other _ _ _ _ _ _ _ _ S r Hi) as [A1 A2].
    destruct (C1 r) as [H|[H _]]; [congruence|]. exfalso. apply Hi, whole_examined, H.
Qed.

(** A reachable reference leaves the machine's lists only with its target cleared. *)
Theorem C83_dropped : forall r, In r (registeredRefs s) -> ~ In r (registeredRefs s') ->
  live s r = true -> target s' r = None.
Proof.
  intros r Hr Hn Hl.
  destruct (collection_whole h major s s' HC) as [_ [N [mid [kept [enq [cl [a [b W]]]]]]]].
  destruct W as [[L1 [L2 L3]] C1 C2 Q E T R S _ _ _ _ _ _ _ _ _ _].
  destruct (in_dec Nat.eq_dec r (weakRefs s ++ if major then tenuredRefs s else [])) as [Hi|Hi].
  - destruct (in_dec Nat.eq_dec r kept) as [Hk|Hk].
    + exfalso. apply Hn, (Permutation_in _ (Permutation_sym R)), in_or_app; auto.
    + destruct (sc_gone _ _ _ _ _ _ _ _ S r Hi Hk) as [[A1 _]|[A1 _]]; [exact A1|].
      apply L1 in Hl. congruence.
  - exfalso. apply Hn, (Permutation_in _ (Permutation_sym R)), in_or_app. right.
    unfold registeredRefs in Hr. rewrite in_app_iff in Hi, Hr. destruct major; tauto.
Qed.

(** JNI weak references: cleared if the object did not survive, or is about to be finalized. *)
Theorem C83_jni : jniWeak s' = map (fun x => match x with
    | Some o => if negb (live s o) && hHasFinalizer h o then None
                else if live s' o then Some o else None
    | None => None end) (jniWeak s).
Proof.
  destruct (collection_whole h major s s' HC) as [_ [N [mid [kept [enq [cl [a [b W]]]]]]]].
  exact (w_jni _ _ _ _ _ _ _ _ _ _ _ _ _ _ W).
Qed.

(** ** Finalizers (C84) *)

(** A collection queues finalizers only of objects that are not strongly reachable; the object
    survives for its finalizer to run; native finalizers and Java ones go to their own queues. *)
Theorem C84_queued : exists nat_ java, added (finalizeQueue s) (finalizeQueue s') nat_ /\
  added (toFinalize s) (toFinalize s') java /\
  Permutation (registeredFins s) (registeredFins s' ++ nat_ ++ java) /\
  (forall f, In f nat_ -> hFinFunction h f = true) /\
  (forall f, In f java -> hFinFunction h f = false) /\
  (forall f, In f (nat_ ++ java) -> examinedFin major s f /\ live s (hFinTarget h f) = false /\
     live s' (hFinTarget h f) = true /\ live s' f = true).
Proof.
  destruct (collection_whole h major s s' HC) as [_ [N [mid [kept [enq [cl [a [b W]]]]]]]].
  destruct W as [_ _ _ _ _ _ _ _ FQ FT FA FB F G G1 FM FQd J].
  exists a, b. unfold added. split; [exact FQ|]. split; [exact FT|]. split; [exact F|].
  split; [exact FA|]. split; [exact FB|].
  intros f Hf. destruct (FQd f Hf) as [A [B C]]. auto.
Qed.

(** No finalizer is missed: after the collection every finalizer still registered has an object
    that survived, and a young one has an object that was strongly reachable. *)
Theorem C84_not_missed : forall f, In f (registeredFins s') ->
  live s' (hFinTarget h f) = true /\
  (In f (finalizers s) -> live s (hFinTarget h f) = true).
Proof.
  intros f Hf.
  destruct (collection_whole h major s s' HC) as [[rs [fs I]] [N [mid [kept [enq [cl [a [b W]]]]]]]].
  destruct W as [[L1 [L2 L3]] _ _ _ _ _ _ _ FQ FT FA FB F G G1 FM FQd J].
  split; [|auto].
  assert (Hin : In f (registeredFins s)).
  { apply (Permutation_in _ (Permutation_sym F)), in_or_app; auto. }
  unfold registeredFins in Hin. apply in_app_or in Hin. destruct Hin as [Hin|Hin].
  - apply (G f Hf). left. exact Hin.
  - destruct HC as [_ [_ [Hm _]]]. destruct major.
    + apply (G f Hf). right. auto.
    + destruct (Hm eq_refl) as [M _]. auto.
Qed.

End Refs.

(** Over a whole history every finalizer is queued at most once, and is registered exactly until
    then. *)
Theorem C84_once : forall s rs fs, history s rs fs ->
  Permutation fs (registeredFins s ++ finalizeQueue s ++ toFinalize s) /\
  NoDup (registeredFins s ++ finalizeQueue s ++ toFinalize s).
Proof.
  intros s rs fs H. apply history_inv in H. split; [exact (i_fins _ _ _ H)|].
  exact (Permutation_NoDup (i_fins _ _ _ H) (i_nodupf _ _ _ H)).
Qed.

(** Over a whole history every reference is enqueued at most once, by the collector or the
    program, and is handed to the cleaners at most once. *)
Theorem C83_once : forall s rs fs, history s rs fs ->
  NoDup (map snd (enqueued s)) /\ NoDup (toClean s) /\ NoDup (registeredRefs s) /\
  (forall r, In r (map snd (enqueued s)) -> queue s r = None).
Proof.
  intros s rs fs H. apply history_inv in H. destruct H as [I1 I2 I3 I4 I5 I6 I7 I8 I9].
  repeat split; auto. intros r Hr. apply (I7 r Hr).
Qed.

(** A null target stays null. *)
Lemma target_none : forall h major s s' r, collection h major s s' -> target s r = None ->
  target s' r = None.
Proof.
  intros h major s s' r HC Ht.
  destruct (collection_whole h major s s' HC) as [_ [N [mid [kept [enq [cl [a [b W]]]]]]]].
  destruct W as [[L1 [L2 L3]] C1 C2 Q E T R S _ _ _ _ _ _ _ _ _ _].
  assert (Tm : target mid r = None) by (destruct (C1 r) as [H|[_ [H _]]]; congruence).
  destruct (in_dec Nat.eq_dec r (weakRefs s ++ if major then tenuredRefs s else [])) as [Hi|Hi].
  - destruct (in_dec Nat.eq_dec r kept) as [Hk|Hk].
    + destruct (sc_kept _ _ _ _ _ _ _ _ S r Hk) as [A1 [A2 [A3 _]]]. congruence.
    + destruct (sc_gone _ _ _ _ _ _ _ _ S r Hi Hk) as [[A1 _]|[A1 [A2 _]]]; congruence.
  - destruct (sc_other _ _ _ _ _ _ _ _ S r Hi) as [A1 A2]. congruence.
Qed.

(** ** Witnesses *)

(** Reference 1 to object 2, with queue 3; finalizer 10 of object 6, finalizer 11 of object 2; 6 points to 1. *)
Definition exReaches (x y : nat) : bool := (x =? y) || ((x =? 6) && (y =? 1)).
Definition exHeap (fin : bool) : heap :=
  Heap exReaches (fun o => (o =? 6) || (fin && (o =? 2))) (fun x => x =? 10)
       (fun f => if f =? 10 then 6 else if f =? 11 then 2 else 0) (fun _ => false) (fun _ => false).
Definition among (l : list nat) (x : nat) : bool := existsb (Nat.eqb x) l.

Lemma exReaches_refl : forall x, exReaches x x = true.
Proof. intro x. unfold exReaches. rewrite Nat.eqb_refl. reflexivity. Qed.
Lemma exReaches_inv : forall x y, exReaches x y = true -> x = y \/ (x = 6 /\ y = 1).
Proof.
  intros x y H. unfold exReaches in H. apply orb_true_iff in H. destruct H as [H|H].
  - left. apply Nat.eqb_eq, H.
  - right. apply andb_true_iff in H. destruct H as [A B].
    apply Nat.eqb_eq in A. apply Nat.eqb_eq in B. auto.
Qed.
Lemma exReaches_trans : forall x y z, exReaches x y = true -> exReaches y z = true ->
  exReaches x z = true.
Proof.
  intros x y z H1 H2. apply exReaches_inv in H1. destruct H1 as [->|[-> ->]]; [exact H2|].
  apply exReaches_inv in H2. destruct H2 as [<-|[E _]]; [reflexivity|discriminate].
Qed.

Lemma exHeap_ok : forall fin s l, registeredFins s = [] \/ registeredFins s = [10] \/
    registeredFins s = [11] ->
  (l 6 = true -> l 1 = true) -> heapOk (exHeap fin) (setLive s l).
Proof.
  intros fin s l Hf H6.
  split; [exact exReaches_refl|]. split; [exact exReaches_trans|]. split.
  - intros x y Hx Hy. apply exReaches_inv in Hy. simpl in *. destruct Hy as [<-|[-> ->]]; auto.
  - unfold registeredFins in *. simpl. split.
    + intros f y Hin Hy. apply exReaches_inv in Hy. destruct Hy as [<-|[-> ->]]; [auto|].
      destruct Hf as [E|[E|E]]; rewrite E in Hin; simpl in Hin; lia.
    + intros f g Hin. assert (f = 10 \/ f = 11) by
        (destruct Hf as [E|[E|E]]; rewrite E in Hin; simpl in Hin; lia).
      destruct (g =? 10); [lia|]. destruct (g =? 11); lia.
Qed.

(** C47, refuted: reference 1 is no longer reachable itself but its queue 3 is; the collector
    clears it and puts it on the queue although its target 2 is strongly reachable. *)
Theorem C47_early_refuted : exists h s s' r o q, collection h false s s' /\
  target s r = Some o /\ live s o = true /\
  target s' r = None /\ enqueued s' = [(q, r)] /\ live s' r = true /\ live s' o = true.
Proof.
  exists (exHeap false), (setLive (newReference initial 1 (Some 2) (Some 3)) (among [2; 3])).
  eexists. exists 1, 2, 3. split.
  - split; [|split; [|split; [|reflexivity]]].
    + exists (newReference initial 1 (Some 2) (Some 3)), [1], [], (among [2; 3]).
      split; [|reflexivity]. apply h_ref; [constructor|simpl; tauto].
    + apply exHeap_ok; [left; reflexivity|discriminate].
    + intros _. split; [|split]; simpl; tauto.
  - repeat split; vm_compute; reflexivity.
Qed.

(** C85, refuted: later collections, in all of which reference [r] is reachable. *)
Inductive later (r : nat) : state -> state -> Prop :=
| later_refl : forall s, later r s s
| later_step : forall s s1 l h major s2, later r s s1 -> l r = true ->
    collection h major (setLive s1 l) s2 -> later r s s2.

Lemma later_none : forall r s s', later r s s' -> target s r = None ->
  ~ In r (map snd (enqueued s)) -> target s' r = None /\ ~ In r (map snd (enqueued s')).
Proof.
  intros r s s' H Ht He. induction H as [|s s1 l h major s2 H IH Hl HC]; [auto|].
  destruct (IH Ht He) as [A B]. split; [exact (target_none _ _ _ _ r HC A)|].
  destruct (C83_only _ _ _ _ HC) as [new [E N]]. unfold added in E. rewrite E.
  rewrite map_app, in_app_iff. intros [H1|H1]; [|exact (B H1)].
  apply enq_in in H1. destruct H1 as [q H1]. apply N in H1.
  destruct H1 as [_ [_ [_ [_ [_ [_ [H1|[o [H1 _]]]]]]]]]; simpl in H1; congruence.
Qed.

(** Reference 1, reachable, with a reachable queue 3, refers to object 2, which has a finalizer:
    when 2 becomes unreachable the reference is cleared, but neither this collection nor any later
    one puts it on its queue. *)
Theorem C85_finalizable_refuted : exists h s s' r o q, collection h true s s' /\
  examined true s r /\ live s r = true /\ target s r = Some o /\ live s o = false /\
  queue s r = Some q /\ live s q = true /\ hIsCleaner h r = false /\
  target s' r = None /\ queue s' r = Some q /\ toFinalize s' = [11] /\ hFinTarget h 11 = o /\
  forall s'', later r s' s'' -> ~ In r (map snd (enqueued s'')).
Proof.
  set (s0 := newFinalizer (newReference initial 1 (Some 2) (Some 3)) 11).
  exists (exHeap true), (setLive s0 (among [1; 3])).
  eexists. exists 1, 2, 3. split.
  - split; [|split; [|split; [|reflexivity]]].
    + exists s0, [1], [11], (among [1; 3]).
      split; [|reflexivity]. apply h_fin; [|simpl; tauto].
      apply h_ref; [constructor|simpl; tauto].
    + apply exHeap_ok; [right; right; reflexivity|reflexivity].
    + discriminate.
  - split; [left; simpl; auto|]. do 10 (split; [vm_compute; reflexivity|]).
    intros s'' H. apply (later_none 1) in H; [apply H|vm_compute; reflexivity|].
    vm_compute. tauto.
Qed.

(** C86, refuted: object 6 has a finalizer and a reference 1 in one of its fields.  6 is tenured,
    1 is not and has no queue.  When both become unreachable, a major collection drops 1 without
    visiting it, then queues 6 for finalization, which brings 1 back to life — with a pointer to
    its target 2, which is gone: in 6's finalizer, 1.get() returns freed memory. *)
Theorem C86_dangling_refuted : exists h s s' r o f, collection h true s s' /\
  In r (registeredRefs s) /\ In f (toFinalize s') /\ hReaches h (hFinTarget h f) r = true /\
  live s' r = true /\ target s' r = Some o /\ live s' o = false.
Proof.
  set (s1 := newFinalizer initial 10).
  assert (H1 : history s1 [] [10]) by (apply h_fin; [constructor|simpl; tauto]).
  (* a first collection makes the finalizer tenured *)
  set (s2 := collect (exHeap false) true (setLive s1 (among [6; 1]))).
  assert (H2 : history s2 [] [10]).
  { apply h_collect; [exact H1| |discriminate].
    apply exHeap_ok; [right; left; reflexivity|reflexivity]. }
  set (s3 := newReference s2 1 (Some 2) None).
  assert (H3 : history s3 [1] [10]) by (apply h_ref; [exact H2|simpl; tauto]).
  exists (exHeap false), (setLive s3 (among [3])).
  eexists. exists 1, 2, 10. split.
  - split; [|split; [|split; [|reflexivity]]].
    + exists s3, [1], [10], (among [3]). split; [exact H3|reflexivity].
    + apply exHeap_ok; [right; left; reflexivity|discriminate].
    + discriminate.
  - split; [vm_compute; auto|]. split; [vm_compute; auto|].
    repeat split; vm_compute; reflexivity.
Qed.

(** ** The hypotheses of the theorems above are met *)

(** Two references to object 2, one (1) with queue 3, and one (5) to object 4, which stays. *)
Definition ex0 : state :=
  newReference (newReference (newReference initial 5 (Some 4) None) 7 (Some 2) None)
               1 (Some 2) (Some 3).
Definition ex1 : state := setLive ex0 (among [1; 3; 4; 5; 7]).
Example ex_collection : collection (exHeap false) false ex1 (collect (exHeap false) false ex1).
Proof.
  split; [|split; [|split; [|reflexivity]]].
  - exists ex0, [1; 7; 5], [], (among [1; 3; 4; 5; 7]). split; [|reflexivity].
    unfold ex0. repeat (apply h_ref; [|simpl; lia]). constructor.
  - apply exHeap_ok; [left; reflexivity|discriminate].
  - intros _. split; [|split]; simpl; tauto.
Qed.
Example ex_outcome : let s' := collect (exHeap false) false ex1 in
  map (target s') [1; 5; 7] = [None; Some 4; None] /\ enqueued s' = [(3, 1)] /\
  registeredRefs s' = [5] /\ live s' 2 = false.
Proof. repeat split; vm_compute; reflexivity. Qed.

(** An object whose finalizer is queued by a minor collection. *)
Definition ex2 : state := setLive (newFinalizer ex0 10) (among [1; 3; 4; 5; 7]).
Example ex_collection2 : collection (exHeap false) false ex2 (collect (exHeap false) false ex2).
Proof.
  split; [|split; [|split; [|reflexivity]]].
  - exists (newFinalizer ex0 10), [1; 7; 5], [10], (among [1; 3; 4; 5; 7]). split; [|reflexivity].
    apply h_fin; [|simpl; tauto].
    unfold ex0. repeat (apply h_ref; [|simpl; lia]). constructor.
  - apply exHeap_ok; [right; left; reflexivity|discriminate].
  - intros _. split; [|split]; simpl; tauto.
Qed.
Example ex_outcome2 : let s' := collect (exHeap false) false ex2 in
  toFinalize s' = [10] /\ registeredFins s' = [] /\ live s' 6 = true.
Proof. repeat split; vm_compute; reflexivity. Qed.

Definition Weak_theorems := (C83_kept, C83_no_dangling, C83_cleared, C83_enqueued, C83_only,
  C83_clears, C83_dropped, C83_jni, C83_once, C84_queued, C84_not_missed, C84_once,
  C47_early_refuted, C85_finalizable_refuted, C86_dangling_refuted).
Print Assumptions Weak_theorems.
