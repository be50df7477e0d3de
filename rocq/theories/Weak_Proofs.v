(** Proofs about references and finalizers. *)
From Coq Require Import List Bool Arith Permutation Lia.
From Verif Require Import Weak_Model Weak_Spec.
Import ListNotations.

Section P.
Variable reaches : nat -> nat -> bool.
Variable hasFinalizer tenured : nat -> bool.
Variable finTarget : nat -> nat.
Variable finFunction isCleaner : nat -> bool.
Hypothesis reach_refl : forall x, reaches x x = true.
Hypothesis reach_trans : forall x y z,
  reaches x y = true -> reaches y z = true -> reaches x z = true.

Notation visit := (visit reaches).

Definition closed (l : nat -> bool) := forall x y, l x = true -> reaches x y = true -> l y = true.
Definition grow (l l' : nat -> bool) := forall x, l x = true -> l' x = true.

Lemma grow_refl : forall l, grow l l. Proof. intros l x H; exact H. Qed.
Lemma grow_trans : forall a b c, grow a b -> grow b c -> grow a c.
Proof. intros a b c H H1 x Hx. apply H1, H, Hx. Qed.

Lemma grow_false : forall l l' x, grow l l' -> l' x = false -> l x = false.
Proof. intros l l' x H Hx. destruct (l x) eqn:E; [apply H in E; congruence|reflexivity]. Qed.

Lemma visit_grow : forall s x, grow (live s) (live (visit s x)).
Proof. intros s x y H. simpl. rewrite H. reflexivity. Qed.

Lemma visit_closed : forall s x, closed (live s) -> closed (live (visit s x)).
Proof.
  intros s x H y z Hy Hz. simpl in *. apply orb_true_iff in Hy. apply orb_true_iff.
  destruct Hy as [Hy|Hy]; [left; exact (H y z Hy Hz)|right; exact (reach_trans x y z Hy Hz)].
Qed.

Lemma visit_self : forall s x, live (visit s x) x = true.
Proof. intros s x. simpl. rewrite reach_refl. apply orb_true_r. Qed.

(** visiting something already found adds nothing *)
Lemma visit_live : forall s x, closed (live s) -> live s x = true ->
  forall y, live (visit s x) y = live s y.
Proof.
  intros s x H Hx y. simpl. destruct (live s y) eqn:E; [reflexivity|]. simpl.
  destruct (reaches x y) eqn:E1; [|reflexivity]. rewrite (H x y Hx E1) in E. discriminate.
Qed.

(** ** References *)

Record refsame (s s' : state) : Prop := {
  rs_fins : finalizers s' = finalizers s; rs_tfins : tenuredFinalizers s' = tenuredFinalizers s;
  rs_w : weakRefs s' = weakRefs s; rs_t : tenuredRefs s' = tenuredRefs s;
  rs_fq : finalizeQueue s' = finalizeQueue s; rs_tf : toFinalize s' = toFinalize s;
  rs_j : jniWeak s' = jniWeak s }.

Lemma refsame_refl : forall s, refsame s s. Proof. intros; split; reflexivity. Qed.
Lemma refsame_trans : forall a b c, refsame a b -> refsame b c -> refsame a c.
Proof. intros a b c H1 H2. destruct H1, H2. split; congruence. Qed.

(** what happened to one reference *)
Inductive fate := Kept | Cleared | Enqueued (q : nat) | Cleaned | Dropped.

Record did (s : state) (r : nat) (f : fate) (s' : state) : Prop := {
  d_grow : grow (live s) (live s');
  d_closed : closed (live s) -> closed (live s');
  d_other : forall x, x <> r -> target s' x = target s x /\ queue s' x = queue s x;
  d_same : refsame s s';
  d_qsub : forall q, queue s' r = Some q -> queue s r = Some q;
  d_enq : enqueued s' = match f with Enqueued q => [(q, r)] | _ => [] end ++ enqueued s;
  d_clean : toClean s' = match f with Cleaned => [r] | _ => [] end ++ toClean s;
  d_fate : match f with
    | Kept => live s r = true /\ target s' r = target s r /\
              (forall o, target s r = Some o -> live s o = true /\ live s' o = true) /\
              (forall q, queue s' r = Some q -> queue s r = Some q /\ live s' q = true) /\
              (forall q, queue s r = Some q -> live s q = true -> queue s' r = Some q)
    | Cleared => live s r = true /\ live s' r = true /\ target s' r = None /\
              (exists o, target s r = Some o /\ live s o = false) /\
              queue s' r = queue s r /\ isCleaner r = false /\
              (forall q, queue s r = Some q -> live s q = false)
    | Enqueued q => live s' r = true /\ target s' r = None /\ queue s r = Some q /\
              queue s' r = None /\ live s' q = true /\ isCleaner r = false /\
              (live s r = true -> exists o, target s r = Some o /\ live s o = false) /\
              (live s r = false -> live s q = true)
    | Cleaned => live s' r = true /\ target s' r = None /\ isCleaner r = true /\
              (live s r = true -> exists o, target s r = Some o /\ live s o = false) /\
              (live s r = false -> exists q, queue s r = Some q /\ live s q = true)
    | Dropped => live s r = false /\ s' = s /\ (forall q, queue s r = Some q -> live s q = false)
    end }.

Lemma rtu_did : forall s r,
  (live s r = true -> exists o, target s r = Some o /\ live s o = false) ->
  (live s r = false -> exists q, queue s r = Some q /\ live s q = true) ->
  exists f, did s r f (referenceTargetUnreachable reaches isCleaner s r) /\ f <> Kept /\ f <> Dropped.
Proof.
  intros s r H1 H2. unfold referenceTargetUnreachable. cbv zeta.
  destruct (isCleaner r) eqn:Ec.
  - exists Cleaned. split; [|split; discriminate]. split; simpl; try reflexivity.
    + apply (visit_grow s r).
    + apply (visit_closed s r).
    + intros x Hx. destruct (Nat.eqb_spec x r); [congruence|]. split; reflexivity.
    + split; reflexivity.
    + auto.
    + rewrite reach_refl, orb_true_r, Nat.eqb_refl. auto.
  - destruct (queue _ r) as [q|] eqn:Eq; simpl in Eq.
    + destruct (live _ q) eqn:El; simpl in El.
      * exists (Enqueued q). split; [|split; discriminate]. split; simpl; try reflexivity.
        -- intros x Hx. rewrite Hx. reflexivity.
        -- intro Hc. apply (visit_closed (visit s r) q). apply visit_closed, Hc.
        -- intros x Hx. destruct (Nat.eqb_spec x r); [congruence|]. split; reflexivity.
        -- split; reflexivity.
        -- rewrite Nat.eqb_refl. discriminate.
        -- rewrite (reach_refl r), (reach_refl q), !orb_true_r, Nat.eqb_refl. simpl.
           repeat split; auto. intro Hl. destruct (H2 Hl) as [q' [E E']]. congruence.
      * assert (Hq : live s q = false) by (apply orb_false_iff in El; tauto).
        exists Cleared. split; [|split; discriminate]. split; simpl; try reflexivity.
        -- apply (visit_grow s r).
        -- apply (visit_closed s r).
        -- intros x Hx. destruct (Nat.eqb_spec x r); [congruence|]. split; reflexivity.
        -- split; reflexivity.
        -- auto.
        -- rewrite (reach_refl r), orb_true_r, Nat.eqb_refl.
           destruct (live s r) eqn:Er.
           ++ repeat split; auto. intros q' E'. congruence.
           ++ destruct (H2 eq_refl) as [q' [E E']]. congruence.
    + exists Cleared. split; [|split; discriminate]. split; simpl; try reflexivity.
      * apply (visit_grow s r).
      * apply (visit_closed s r).
      * intros x Hx. destruct (Nat.eqb_spec x r); [congruence|]. split; reflexivity.
      * split; reflexivity.
      * auto.
      * rewrite (reach_refl r), orb_true_r, Nat.eqb_refl.
        destruct (live s r) eqn:Er.
        -- repeat split; auto. intros q' E'. congruence.
        -- destruct (H2 eq_refl) as [q' [E E']]. congruence.
Qed.

Lemma ru_did : forall s r, live s r = false ->
  exists f, did s r f (referenceUnreachable reaches isCleaner s r) /\ f <> Kept.
Proof.
  intros s r H. unfold referenceUnreachable.
  assert (Hdrop : (forall q, queue s r = Some q -> live s q = false) ->
     exists f, did s r f s /\ f <> Kept).
  { intro Hq. exists Dropped. split; [|discriminate]. split; simpl; auto using grow_refl, refsame_refl. }
  destruct (queue s r) as [q|] eqn:Eq.
  - destruct (live s q) eqn:El.
    + destruct (rtu_did s r) as [f [Hf [Hk _]]]; [congruence|eauto|]. eauto.
    + apply Hdrop. intros q' E. congruence.
  - apply Hdrop. discriminate.
Qed.

Lemma rtr_did : forall s r, live s r = true -> unreachable s (target s r) = false ->
  did s r Kept (referenceTargetReachable reaches s r).
Proof.
  intros s r Hr Ht. unfold referenceTargetReachable. cbv zeta. simpl target.
  assert (G : let s2 := match target s r with Some o => visit (visit s r) o | None => visit s r end in
     grow (live s) (live s2) /\ (closed (live s) -> closed (live s2)) /\
     target s2 = target s /\ queue s2 = queue s /\ refsame s s2 /\ enqueued s2 = enqueued s /\
     toClean s2 = toClean s /\
     (forall o, target s r = Some o -> live s o = true /\ live s2 o = true)).
  { destruct (target s r) as [o|] eqn:E; cbv zeta.
    - split. { eapply grow_trans; apply visit_grow. }
      split. { intro Hc. apply visit_closed, visit_closed, Hc. }
      repeat split; inversion H; subst.
      + simpl in Ht. apply negb_false_iff in Ht. exact Ht.
      + apply visit_self.
    - split. { apply visit_grow. }
      split. { intro Hc. apply visit_closed, Hc. }
      repeat split; discriminate. }
  set (s2 := match target s r with Some o => _ | None => _ end) in *. clearbody s2.
  destruct G as [G1 [G2 [G3 [G4 [G5 [G6 [G7 G8]]]]]]]. rewrite G4.
  destruct (queue s r) as [q|] eqn:Eq.
  - destruct (live s2 q) eqn:El.
    + split; simpl.
      * eapply grow_trans; [exact G1|apply (visit_grow s2)].
      * intro Hc. apply (visit_closed s2), G2, Hc.
      * rewrite G3, G4. auto.
      * destruct G5; split; simpl; auto.
      * intros q' E. rewrite G4 in E. exact E.
      * exact G6.
      * exact G7.
      * rewrite G3, G4. repeat split; auto.
        -- apply (G8 o H).
        -- rewrite (proj2 (G8 o H)). reflexivity.
        -- rewrite Eq in H. inversion H; subst. rewrite El. reflexivity.
    + split; simpl; auto.
      * intros x Hx. rewrite G3, G4. destruct (Nat.eqb_spec x r); [congruence|auto].
      * destruct G5; split; simpl; auto.
      * rewrite Nat.eqb_refl. discriminate.
      * rewrite G3, Nat.eqb_refl. repeat split; auto; try discriminate.
        -- apply (G8 o H).
        -- apply (G8 o H).
        -- intros q' E Hl. rewrite Eq in E. inversion E; subst. apply G1 in Hl. congruence.
  - split; simpl; auto.
    + rewrite G3, G4. auto.
    + intros q' E. rewrite G4 in E. exact E.
    + rewrite G3, G4. repeat split; auto.
      * apply (G8 o H).
      * apply (G8 o H).
      * intros; congruence.
Qed.

(** the reference stays registered exactly when its fate is [Kept] *)
Lemma step_did : forall move s r rest new s2 stay n,
  scanRefs reaches tenured isCleaner move s (r :: rest) new = (s2, stay, n) ->
  exists f s1, did s r f s1 /\
   ((f = Kept /\ move && tenured r = true /\
       scanRefs reaches tenured isCleaner move s1 rest (r :: new) = (s2, stay, n)) \/
    (f = Kept /\ exists stay', scanRefs reaches tenured isCleaner move s1 rest new = (s2, stay', n)
       /\ stay = r :: stay') \/
    (f <> Kept /\ scanRefs reaches tenured isCleaner move s1 rest new = (s2, stay, n))).
Proof.
  intros move s r rest new s2 stay n H. simpl in H.
  destruct (live s r) eqn:Er; simpl in H.
  - destruct (unreachable s (target s r)) eqn:Eu.
    + destruct (rtu_did s r) as [f [Hf [Hk _]]].
      * intros _. destruct (target s r) as [o|] eqn:E; [|discriminate]. simpl in Eu.
        apply negb_true_iff in Eu. eauto.
      * congruence.
      * eauto 7.
    + exists Kept, (referenceTargetReachable reaches s r).
      split; [apply rtr_did; auto|].
      destruct (move && tenured r) eqn:Em.
      * left. auto.
      * right; left. split; auto. destruct (scanRefs _ _ _ _ _ _ _) as [[s3 st] n3].
        inversion H; subst. eauto.
  - destruct (ru_did s r Er) as [f [Hf Hk]]. eauto 7.
Qed.

(** the whole list *)
Record scanned (s : state) (rs : list nat) (s2 : state) (kept : list nat)
    (enq : list (nat * nat)) (cl : list nat) : Prop := {
  sc_grow : grow (live s) (live s2);
  sc_closed : closed (live s) -> closed (live s2);
  sc_other : forall x, ~ In x rs -> target s2 x = target s x /\ queue s2 x = queue s x;
  sc_qsub : forall x q, queue s2 x = Some q -> queue s x = Some q;
  sc_enq : enqueued s2 = enq ++ enqueued s;
  sc_clean : toClean s2 = cl ++ toClean s;
  sc_nodup : NoDup kept; sc_nodup_e : NoDup (map snd enq); sc_nodup_c : NoDup cl;
  sc_kept : forall r, In r kept -> In r rs /\ live s2 r = true /\ target s2 r = target s r /\
     (forall o, target s r = Some o -> live s2 o = true) /\
     (forall q, queue s2 r = Some q -> queue s r = Some q /\ live s2 q = true) /\
     (forall q, queue s r = Some q -> live s q = true -> queue s2 r = Some q) /\
     ~ In r (map snd enq) /\ ~ In r cl;
  sc_enqd : forall q r, In (q, r) enq -> In r rs /\ live s2 r = true /\ live s2 q = true /\
     target s2 r = None /\ queue s r = Some q /\ queue s2 r = None /\ isCleaner r = false /\
     ~ In r cl /\
     ((exists o, target s r = Some o /\ live s o = false) \/ live s r = false);
  sc_cleaned : forall r, In r cl -> In r rs /\ live s2 r = true /\ target s2 r = None /\
     isCleaner r = true /\
     ((exists o, target s r = Some o /\ live s o = false) \/
      (live s r = false));
  sc_gone : forall r, In r rs -> ~ In r kept ->
     (target s2 r = None /\ live s2 r = true /\
        ((exists o, target s r = Some o /\ live s o = false) \/ live s r = false)) \/
     (live s r = false /\ target s2 r = target s r /\ queue s2 r = queue s r /\
        ~ In r (map snd enq) /\ ~ In r cl /\ (forall q, queue s r = Some q -> live s q = false));
  sc_stays : forall r, In r rs -> live s r = true ->
     (forall o, target s r = Some o -> live s o = true) -> In r kept;
  sc_mustc : forall r, In r rs -> ~ In r kept -> live s r = true -> isCleaner r = true ->
     In r cl;
  sc_unreach : forall r q, In r rs -> isCleaner r = false -> ~ In r kept ->
     queue s r = Some q -> live s q = true -> In (q, r) enq }.

Lemma scanned_cons : forall s r rs f s1 s2 kept enq cl,
  ~ In r rs -> did s r f s1 -> scanned s1 rs s2 kept enq cl ->
  scanned s (r :: rs) s2 (match f with Kept => r :: kept | _ => kept end)
    (enq ++ match f with Enqueued q => [(q, r)] | _ => [] end)
    (cl ++ match f with Cleaned => [r] | _ => [] end).
Proof.
  intros s r rs f s1 s2 kept enq cl Hr D S. destruct D as [D1 D2 D3 D4 Dq D5 D6 D7].
  destruct S as [S1 S2 S4 Sq S5 S6 S7 S8 S8c S9 S10 S11 S12 S13 S15 S16].
  pose proof (S4 r Hr) as [Tr Qr].
  assert (Hke : ~ In r kept) by (intro H; apply S9 in H; tauto).
  assert (Hee : ~ In r (map snd enq)).
  { intro H. apply in_map_iff in H. destruct H as [[q r'] [E H]]. simpl in E; subst.
    apply S10 in H. tauto. }
  assert (Hce : ~ In r cl) by (intro H; apply S11 in H; tauto).
  assert (Hne : forall x, In x rs -> x <> r) by (intros x H E; subst; tauto).
  assert (Rev : forall x, In x rs ->
     (exists o, target s1 x = Some o /\ live s1 o = false) \/ live s1 x = false ->
     (exists o, target s x = Some o /\ live s o = false) \/ live s x = false).
  { intros x Hx [[o [E E']]|E].
    - left. exists o. destruct (D3 x (Hne x Hx)) as [T _]. rewrite <- T. split; [exact E|].
      eapply grow_false; eauto.
    - right. eapply grow_false; eauto. }
  assert (InK : forall x, x <> r -> In x (match f with Kept => r :: kept | _ => kept end) <-> In x kept).
  { intros x Hx. destruct f; simpl; try tauto. split; [intros [E|H]; [congruence|exact H]|tauto]. }
  assert (InE : forall x, x <> r ->
     In x (map snd (enq ++ match f with Enqueued q => [(q, r)] | _ => [] end)) <-> In x (map snd enq)).
  { intros x Hx. rewrite map_app, in_app_iff. destruct f; simpl; try tauto.
    split; [intros [H|[E|[]]]; [exact H|congruence]|tauto]. }
  assert (InEp : forall q x, x <> r ->
     In (q, x) (enq ++ match f with Enqueued q => [(q, r)] | _ => [] end) <-> In (q, x) enq).
  { intros q x Hx. rewrite in_app_iff. destruct f; simpl; try tauto.
    split; [intros [H|[E|[]]]; [exact H|congruence]|tauto]. }
  assert (InC : forall x, x <> r ->
     In x (cl ++ match f with Cleaned => [r] | _ => [] end) <-> In x cl).
  { intros x Hx. rewrite in_app_iff. destruct f; simpl; try tauto.
    split; [intros [H|[E|[]]]; [exact H|congruence]|tauto]. }
  assert (Kr : In r (match f with Kept => r :: kept | _ => kept end) <-> f = Kept).
  { destruct f; simpl; split; intro H; try discriminate; try tauto; try (contradiction Hke). }
  assert (Er : forall q, In (q, r) (enq ++ match f with Enqueued q => [(q, r)] | _ => [] end) <->
     f = Enqueued q).
  { intro q. rewrite in_app_iff. split.
    - intros [H|H]; [exfalso; apply Hee; apply in_map_iff; exists (q, r); auto|].
      destruct f; simpl in H; try tauto. destruct H as [H|[]]. congruence.
    - intro; subst f. right. left. reflexivity. }
  assert (Cr : In r (cl ++ match f with Cleaned => [r] | _ => [] end) <-> f = Cleaned).
  { rewrite in_app_iff. destruct f; simpl; split; intro H; try discriminate; try tauto. }
  assert (Er' : In r (map snd (enq ++ match f with Enqueued q => [(q, r)] | _ => [] end)) ->
     exists q, f = Enqueued q).
  { intro H. apply in_map_iff in H. destruct H as [[q x] [E H]]. simpl in E. subst x.
    exists q. apply Er, H. }
  split.
  - eapply grow_trans; eauto.
  - auto.
  - intros x Hx. simpl in Hx. destruct (S4 x) as [T Q]; [tauto|].
    destruct (D3 x) as [T' Q']; [intro; subst; tauto|]. split; congruence.
  - intros x q Hx. apply Sq in Hx. destruct (Nat.eq_dec x r) as [->|Hn]; [auto|].
    rewrite <- (proj2 (D3 x Hn)). exact Hx.
  - rewrite S5, D5, app_assoc. reflexivity.
  - rewrite S6, D6, app_assoc. reflexivity.
  - destruct f; auto. constructor; auto.
  - rewrite map_app. destruct f; simpl; rewrite ?app_nil_r; auto.
    apply NoDup_rev in S8. rewrite <- (rev_involutive (map snd enq ++ [r])).
    apply NoDup_rev. rewrite rev_app_distr. simpl. constructor; [|exact S8].
    rewrite <- in_rev. exact Hee.
  - destruct f; simpl; rewrite ?app_nil_r; auto.
    rewrite <- (rev_involutive (cl ++ [r])). apply NoDup_rev. rewrite rev_app_distr. simpl.
    constructor; [rewrite <- in_rev; exact Hce|apply NoDup_rev, S8c].
  - intros x Hx. destruct (Nat.eq_dec x r) as [->|Hn].
    + apply Kr in Hx. subst f. destruct D7 as [F1 [F2 [F3 [F4 F5]]]].
      split; [left; reflexivity|].
      split. { apply S1, D1, F1. }
      split. { congruence. }
      split. { intros o Ho. apply S1. apply (F3 o Ho). }
      split. { intros q Hq. rewrite Qr in Hq. destruct (F4 q Hq). auto. }
      split. { intros q Hq Hl. rewrite Qr. auto. }
      split; [|rewrite Cr; discriminate].
      intro H. apply Er' in H. destruct H; discriminate.
    + apply (InK x Hn) in Hx. destruct (S9 x Hx) as [A1 [A2 [A3 [A4 [A5 [A6 [A7 A8]]]]]]].
      destruct (D3 x Hn) as [T Q].
      split; [right; exact A1|]. split; [exact A2|]. split; [congruence|].
      rewrite <- T, <- Q. split; [exact A4|]. split; [exact A5|].
      split. { intros q Hq Hl. auto. }
      split; [rewrite (InE x Hn); exact A7|rewrite (InC x Hn); exact A8].
  - intros q x Hx. destruct (Nat.eq_dec x r) as [->|Hn].
    + apply Er in Hx. subst f. destruct D7 as [F1 [F2 [F3 [F4 [F5 [F6 [F7 F8]]]]]]].
      split; [left; reflexivity|].
      split; [auto|]. split; [auto|]. split; [congruence|]. split; [auto|].
      split; [congruence|]. split; [auto|]. split; [rewrite Cr; discriminate|].
      destruct (live s r); auto.
    + apply (InEp q x Hn) in Hx. destruct (S10 q x Hx) as [A1 [A2 [A3 [A4 [A5 [A6 [A7 [A8 A9]]]]]]]].
      destruct (D3 x Hn) as [T Q].
      split; [right; exact A1|]. split; [exact A2|]. split; [exact A3|]. split; [exact A4|].
      split; [congruence|]. split; [exact A6|]. split; [exact A7|].
      split; [rewrite (InC x Hn); exact A8|]. apply Rev; auto.
  - intros x Hx. destruct (Nat.eq_dec x r) as [->|Hn].
    + apply Cr in Hx. subst f. destruct D7 as [F1 [F2 [F3 [F4 F5]]]].
      split; [left; reflexivity|]. split; [auto|]. split; [congruence|]. split; [auto|].
      destruct (live s r); auto.
    + apply (InC x Hn) in Hx. destruct (S11 x Hx) as [A1 [A2 [A3 [A4 A5]]]].
      split; [right; exact A1|]. split; [exact A2|]. split; [exact A3|]. split; [exact A4|].
      apply Rev; auto.
  - intros x Hx Hk. destruct (Nat.eq_dec x r) as [->|Hn].
    + rewrite Kr in Hk. rewrite Tr, Qr. destruct f; [congruence| | | |].
      * destruct D7 as [F1 [F2 [F3 [F4 _]]]]. left. auto.
      * destruct D7 as [F1 [F2 [F3 [F4 [F5 [F6 [F7 F8]]]]]]]. left.
        split; [auto|]. split; [auto|]. destruct (live s r); auto.
      * destruct D7 as [F1 [F2 [F3 [F4 F5]]]]. left.
        split; [auto|]. split; [auto|]. destruct (live s r); auto.
      * destruct D7 as [F1 [F2 F3]]. subst s1. right.
        split; [auto|]. split; [auto|]. split; [auto|].
        split. { intro H. apply Er' in H. destruct H; discriminate. }
        split. { rewrite Cr. discriminate. } exact F3.
    + rewrite (InK x Hn) in Hk. destruct Hx as [Hx|Hx]; [congruence|].
      destruct (D3 x Hn) as [T Q].
      destruct (S12 x Hx Hk) as [[A1 [A2 A3]]|[A1 [A2 [A3 [A4 [A5 A6]]]]]].
      * left. split; [exact A1|]. split; [exact A2|]. apply Rev; auto.
      * right. split; [eapply grow_false; eauto|]. split; [congruence|]. split; [congruence|].
        split; [rewrite (InE x Hn); exact A4|]. split; [rewrite (InC x Hn); exact A5|].
        intros q Hq. rewrite <- Q in Hq. eapply grow_false; [exact D1|]. auto.
  - intros x Hx Hl Ht. destruct (Nat.eq_dec x r) as [->|Hn].
    + apply Kr. destruct f; auto; exfalso.
      * destruct D7 as [_ [_ [_ [[o [E E']] _]]]]. apply Ht in E. congruence.
      * destruct D7 as [_ [_ [_ [_ [_ [_ [F _]]]]]]]. destruct (F Hl) as [o [E E']].
        apply Ht in E. congruence.
      * destruct D7 as [_ [_ [_ [F _]]]]. destruct (F Hl) as [o [E E']].
        apply Ht in E. congruence.
      * destruct D7. congruence.
    + apply (InK x Hn). destruct Hx as [Hx|Hx]; [congruence|].
      destruct (D3 x Hn) as [T Q]. apply S13; auto. intros o Ho. rewrite T in Ho. auto.
  - intros x Hx Hk Hl Hc. destruct (Nat.eq_dec x r) as [->|Hn].
    + apply Cr. rewrite Kr in Hk. destruct f; [congruence| | | |].
      * destruct D7 as [_ [_ [_ [_ [_ [F _]]]]]]. congruence.
      * destruct D7 as [_ [_ [_ [_ [_ [F _]]]]]]. congruence.
      * reflexivity.
      * destruct D7. congruence.
    + apply (InC x Hn). rewrite (InK x Hn) in Hk. destruct Hx as [Hx|Hx]; [congruence|].
      apply S15; auto.
  - intros x q Hx Hc Hk Hq Hl. destruct (Nat.eq_dec x r) as [->|Hn].
    + apply Er. rewrite Kr in Hk. destruct f; [congruence| | | |].
      * destruct D7 as [_ [_ [_ [_ [_ [_ F]]]]]]. rewrite (F q Hq) in Hl. discriminate.
      * destruct D7 as [_ [_ [F _]]]. congruence.
      * destruct D7 as [_ [_ [F _]]]. congruence.
      * destruct D7 as [_ [_ F]]. rewrite (F q Hq) in Hl. discriminate.
    + apply (InEp q x Hn). rewrite (InK x Hn) in Hk. destruct Hx as [Hx|Hx]; [congruence|].
      destruct (D3 x Hn) as [T Q]. apply S16; auto. congruence.
Qed.

Lemma scanned_nil : forall s, scanned s [] s [] [] [].
Proof.
  intro s. split; simpl; try tauto; auto using grow_refl; try constructor.
Qed.

Lemma scan_scanned : forall move rs s new s2 stay n, NoDup rs ->
  scanRefs reaches tenured isCleaner move s rs new = (s2, stay, n) ->
  exists moved kept enq cl, n = moved ++ new /\ Permutation kept (stay ++ moved) /\
    (move = false -> moved = []) /\
    scanned s rs s2 kept enq cl.
Proof.
  intros move rs. induction rs as [|r rest IH]; intros s new s2 stay n Hn H.
  - simpl in H. inversion H; subst. exists [], [], [], []. 
    split; [reflexivity|]. split; [constructor|]. split; [reflexivity|]. apply scanned_nil.
  - inversion Hn as [|? ? Hr Hn']; subst.
    destruct (step_did move s r rest new s2 stay n H) as [f [s1 [D C]]].
    destruct C as [[-> [Hm C]]|[[-> [stay' [C ->]]]|[Hf C]]].
    + destruct (IH s1 (r :: new) s2 stay n Hn' C) as [moved [kept [enq [cl [E [P [M S]]]]]]].
      exists (moved ++ [r]), (r :: kept), (enq ++ []), (cl ++ []).
      split. { rewrite <- app_assoc. exact E. }
      split. { rewrite app_assoc. rewrite <- Permutation_cons_append. constructor. exact P. }
      split. { intros ->. discriminate. }
      exact (scanned_cons s r rest Kept s1 s2 kept enq cl Hr D S).
    + destruct (IH s1 new s2 stay' n Hn' C) as [moved [kept [enq [cl [E [P [M S]]]]]]].
      exists moved, (r :: kept), (enq ++ []), (cl ++ []).
      split; [exact E|]. split; [simpl; constructor; exact P|]. split; [exact M|].
      exact (scanned_cons s r rest Kept s1 s2 kept enq cl Hr D S).
    + destruct (IH s1 new s2 stay n Hn' C) as [moved [kept [enq [cl [E [P [M S]]]]]]].
      exists moved, kept, (enq ++ match f with Enqueued q => [(q, r)] | _ => [] end),
        (cl ++ match f with Cleaned => [r] | _ => [] end).
      split; [exact E|]. split; [exact P|]. split; [exact M|].
      pose proof (scanned_cons s r rest f s1 s2 kept enq cl Hr D S) as G.
      destruct f; try exact G. congruence.
Qed.

Lemma scan_same : forall move rs s new s2 stay n,
  scanRefs reaches tenured isCleaner move s rs new = (s2, stay, n) -> refsame s s2.
Proof.
  intros move rs. induction rs as [|r rest IH]; intros s new s2 stay n H.
  - simpl in H. inversion H; subst. apply refsame_refl.
  - destruct (step_did move s r rest new s2 stay n H) as [f [s1 [D C]]].
    eapply refsame_trans; [exact (d_same _ _ _ _ D)|].
    destruct C as [[-> [Hm C]]|[[-> [stay' [C ->]]]|[Hf C]]]; eauto.
Qed.

(** one scan after another, on disjoint lists; in between only more objects are found *)
Record between (s s' : state) : Prop := {
  b_grow : grow (live s) (live s'); b_closed : closed (live s) -> closed (live s');
  b_target : target s' = target s; b_queue : queue s' = queue s;
  b_enq : enqueued s' = enqueued s; b_clean : toClean s' = toClean s }.

Lemma between_refl : forall s, between s s.
Proof. intro s; split; auto using grow_refl. Qed.
Lemma between_trans : forall a b c, between a b -> between b c -> between a c.
Proof.
  intros a b c [A1 A2 A3 A4 A5 A6] [B1 B2 B3 B4 B5 B6].
  split; try congruence; auto. eapply grow_trans; eauto.
Qed.

Lemma nodup_app : forall (A : Type) (a b : list A), NoDup a -> NoDup b ->
  (forall x, In x a -> ~ In x b) -> NoDup (a ++ b).
Proof.
  intros A a b Ha Hb H. induction Ha as [|x l Hx Hl IH]; simpl; [exact Hb|].
  constructor.
  - rewrite in_app_iff. intros [E|E]; [tauto|]. exact (H x (or_introl eq_refl) E).
  - apply IH. intros y Hy. apply H. right. exact Hy.
Qed.

Lemma enq_in : forall (e : list (nat * nat)) r, In r (map snd e) -> exists q, In (q, r) e.
Proof.
  intros e r H. apply in_map_iff in H. destruct H as [[q x] [E H]]. simpl in E; subst. eauto.
Qed.

Lemma scanned_app : forall s A s1 k1 e1 c1 s1' B s2 k2 e2 c2,
  scanned s A s1 k1 e1 c1 -> between s1 s1' -> scanned s1' B s2 k2 e2 c2 ->
  (forall x, In x A -> ~ In x B) ->
  scanned s (A ++ B) s2 (k1 ++ k2) (e2 ++ e1) (c2 ++ c1).
Proof.
  intros s A s1 k1 e1 c1 s1' B s2 k2 e2 c2 S [B1 B2 B3 B4 B5 B6] T Hd.
  assert (G1 : grow (live s) (live s1')).
  { eapply grow_trans; [exact (sc_grow _ _ _ _ _ _ S)|exact B1]. }
  assert (G2 : grow (live s1) (live s2)).
  { eapply grow_trans; [exact B1|exact (sc_grow _ _ _ _ _ _ T)]. }
  destruct S as [S1 S2 S4 Sq S5 S6 S7 S8 S8c S9 S10 S11 S12 S13 S15 S16].
  destruct T as [T1 T2 T4 Tq T5 T6 T7 T8 T8c T9 T10 T11 T12 T13 T15 T16].
  rewrite B3, B4 in *. 
  assert (Hd' : forall x, In x B -> ~ In x A) by (intros x H H1; exact (Hd x H1 H)).
  assert (KA : forall x, In x A -> ~ In x k2) by (intros x H H1; apply T9 in H1; exact (Hd x H (proj1 H1))).
  assert (KB : forall x, In x B -> ~ In x k1) by (intros x H H1; apply S9 in H1; exact (Hd' x H (proj1 H1))).
  assert (EA : forall x, In x A -> ~ In x (map snd e2)).
  { intros x H H1. apply enq_in in H1. destruct H1 as [q H1]. apply T10 in H1.
    exact (Hd x H (proj1 H1)). }
  assert (EB : forall x, In x B -> ~ In x (map snd e1)).
  { intros x H H1. apply enq_in in H1. destruct H1 as [q H1]. apply S10 in H1.
    exact (Hd' x H (proj1 H1)). }
  assert (CA : forall x, In x A -> ~ In x c2) by (intros x H H1; apply T11 in H1; exact (Hd x H (proj1 H1))).
  assert (CB : forall x, In x B -> ~ In x c1) by (intros x H H1; apply S11 in H1; exact (Hd' x H (proj1 H1))).
  assert (Tb : forall x, In x B -> target s1 x = target s x /\ queue s1 x = queue s x) by auto.
  assert (Ta : forall x, In x A -> target s2 x = target s1 x /\ queue s2 x = queue s1 x) by auto.
  assert (Rev : forall x, In x B ->
     (exists o, target s1 x = Some o /\ live s1' o = false) \/ live s1' x = false ->
     (exists o, target s x = Some o /\ live s o = false) \/ live s x = false).
  { intros x Hx [[o [E E']]|E].
    - left. exists o. rewrite <- (proj1 (Tb x Hx)). split; [exact E|]. eapply grow_false; eauto.
    - right. eapply grow_false; eauto. }
  split.
  - eapply grow_trans; eauto.
  - auto.
  - intros x Hx. rewrite in_app_iff in Hx. destruct (T4 x) as [a b]; [tauto|].
    destruct (S4 x) as [c d]; [tauto|]. split; congruence.
  - intros x q Hx. auto.
  - rewrite T5, B5, S5. apply app_assoc.
  - rewrite T6, B6, S6. apply app_assoc.
  - apply nodup_app; auto. intros x H1 H2. apply T9 in H2. exact (KB x (proj1 H2) H1).
  - rewrite map_app. apply nodup_app; auto. intros x H1 H2. apply enq_in in H1. destruct H1 as [q H1].
    apply T10 in H1. exact (EB x (proj1 H1) H2).
  - apply nodup_app; auto. intros x H1 H2. apply T11 in H1. exact (CB x (proj1 H1) H2).
  - intros r Hr. rewrite map_app, !in_app_iff in *. destruct Hr as [Hr|Hr].
    + destruct (S9 r Hr) as [a1 [a2 [a3 [a4 [a5 [a6 [a7 a8]]]]]]].
      destruct (Ta r a1) as [t q0].
      split; [auto|]. split; [auto|]. split; [congruence|]. split; [eauto|].
      split. { intros q Hq. rewrite q0 in Hq. destruct (a5 q Hq). auto. }
      split. { intros q Hq Hl. rewrite q0. auto. }
      pose proof (EA r a1). pose proof (CA r a1). tauto.
    + destruct (T9 r Hr) as [a1 [a2 [a3 [a4 [a5 [a6 [a7 a8]]]]]]].
      destruct (Tb r a1) as [t q0]. rewrite <- t, <- q0.
      split; [auto|]. split; [auto|]. split; [congruence|]. split; [eauto|].
      split; [auto|]. split; [auto|].
      pose proof (EB r a1). pose proof (CB r a1). tauto.
  - intros q r Hr. rewrite !in_app_iff in *. destruct Hr as [Hr|Hr].
    + destruct (T10 q r Hr) as [a1 [a2 [a3 [a4 [a5 [a6 [a7 [a8 a9]]]]]]]].
      destruct (Tb r a1) as [t q0]. pose proof (CB r a1). pose proof (Rev r a1 a9).
      rewrite <- q0. tauto.
    + destruct (S10 q r Hr) as [a1 [a2 [a3 [a4 [a5 [a6 [a7 [a8 a9]]]]]]]].
      destruct (Ta r a1) as [t q0]. pose proof (CA r a1). rewrite t, q0.
      split; [auto|]. split; [auto|]. split; [auto|]. tauto.
  - intros r Hr. rewrite !in_app_iff in *. destruct Hr as [Hr|Hr].
    + destruct (T11 r Hr) as [a1 [a2 [a3 [a4 a5]]]]. pose proof (Rev r a1 a5). tauto.
    + destruct (S11 r Hr) as [a1 [a2 [a3 [a4 a5]]]]. destruct (Ta r a1) as [t q0]. rewrite t.
      split; [auto|]. split; [auto|]. tauto.
  - intros r Hr Hk. rewrite map_app, !in_app_iff in *. destruct Hr as [Hr|Hr].
    + destruct (Ta r Hr) as [t q0]. rewrite t, q0. pose proof (EA r Hr). pose proof (CA r Hr).
      destruct (S12 r Hr) as [[a1 [a2 a3]]|[a1 [a2 [a3 [a4 [a5 a6]]]]]]; [tauto| |].
      * left. split; [auto|]. split; [auto|]. exact a3.
      * right. tauto.
    + destruct (Tb r Hr) as [t q0]. pose proof (EB r Hr). pose proof (CB r Hr).
      destruct (T12 r Hr) as [[a1 [a2 a3]]|[a1 [a2 [a3 [a4 [a5 a6]]]]]]; [tauto| |].
      * left. pose proof (Rev r Hr a3). tauto.
      * right. rewrite <- t, <- q0.
        split. { eapply grow_false; eauto. }
        split; [auto|]. split; [auto|]. split; [tauto|]. split; [tauto|].
        intros q Hq. eapply grow_false; [exact G1|]. auto.
  - intros r Hr Hl Ht. rewrite in_app_iff in *. destruct Hr as [Hr|Hr].
    + left. auto.
    + right. apply T13; auto. intros o Ho. rewrite (proj1 (Tb r Hr)) in Ho. auto.
  - intros r Hr Hk Hl Hc. rewrite in_app_iff in *. destruct Hr as [Hr|Hr].
    + right. apply S15; auto.
    + left. apply T15; auto.
  - intros r q Hr Hc Hk Hq Hl. rewrite in_app_iff in *. destruct Hr as [Hr|Hr].
    + right. apply S16; auto.
    + left. apply T16; auto. rewrite (proj2 (Tb r Hr)). exact Hq.
Qed.

(** ** Finalizers *)

Record finsame (s s' : state) : Prop := {
  fs_b : between s s'; fs_f : finalizers s' = finalizers s;
  fs_tf : tenuredFinalizers s' = tenuredFinalizers s;
  fs_w : weakRefs s' = weakRefs s; fs_t : tenuredRefs s' = tenuredRefs s;
  fs_j : jniWeak s' = jniWeak s }.

Lemma finsame_refl : forall s, finsame s s.
Proof. intro s; split; auto using between_refl. Qed.
Lemma finsame_trans : forall a b c, finsame a b -> finsame b c -> finsame a c.
Proof.
  intros a b c [A1 A2 A3 A4 A5 A6] [B1 B2 B3 B4 B5 B6].
  split; try congruence. eapply between_trans; eauto.
Qed.
Lemma visit_finsame : forall s x, finsame s (visit s x).
Proof.
  intros s x. split; try reflexivity.
  split; try reflexivity; [apply visit_grow|apply visit_closed].
Qed.

(** the machine's own records lead nowhere, and are nobody's target *)
Definition records (s : state) (fs : list nat) : Prop :=
  (forall f y, In f fs -> reaches f y = true -> y = f \/ live s y = true) /\
  (forall f g, In f fs -> finTarget g <> f).

Lemma records_grow : forall s s' fs fs', grow (live s) (live s') -> incl fs' fs ->
  records s fs -> records s' fs'.
Proof.
  intros s s' fs fs' G I [H1 H2]. split.
  - intros f y Hf Hy. destruct (H1 f y (I f Hf) Hy); auto.
  - intros f g Hf. apply H2. auto.
Qed.

Lemma split_spec : forall fs s unr s' keep u, records s fs -> closed (live s) ->
  splitFinalizers reaches finTarget s fs unr = (s', keep, u) ->
  finsame s s' /\ finalizeQueue s' = finalizeQueue s /\ toFinalize s' = toFinalize s /\
  (exists u', u = u' ++ unr /\ Permutation fs (keep ++ u') /\
     (forall f, In f u' -> live s (finTarget f) = false)) /\
  (forall f, In f keep -> live s (finTarget f) = true) /\
  (forall f, In f fs -> live s' f = true) /\
  (forall g, live s' (finTarget g) = live s (finTarget g)).
Proof.
  induction fs as [|f r IH]; intros s unr s' keep u R C H; simpl in H.
  - inversion H; subst. split; [apply finsame_refl|]. split; [reflexivity|]. split; [reflexivity|].
    split. { exists []. repeat split; auto. intros f []. }
    split; [intros f []|]. split; [intros f []|reflexivity].
  - assert (Hv : forall g, live (visit s f) (finTarget g) = live s (finTarget g)).
    { intro g. simpl. destruct (live s (finTarget g)) eqn:E; [reflexivity|]. simpl.
      destruct (reaches f (finTarget g)) eqn:E1; [|reflexivity]. destruct R as [R1 R2].
      destruct (R1 f (finTarget g) (or_introl eq_refl) E1) as [E2|E2]; [|congruence].
      exfalso. exact (R2 f g (or_introl eq_refl) E2). }
    assert (R' : records (visit s f) r).
    { eapply records_grow; [apply visit_grow| |exact R]. intros x Hx; right; exact Hx. }
    assert (C' : closed (live (visit s f))) by (apply visit_closed, C).
    change (fun y : nat => live s y || reaches f y) with (live (visit s f)) in H.
    destruct (live (visit s f) (finTarget f)) eqn:El;
      [|change ((live s (finTarget f) || reaches f (finTarget f)) = false) in El].
    + change (live s (finTarget f) || reaches f (finTarget f) = true) in El.
      rewrite El in H.
      destruct (splitFinalizers reaches finTarget (visit s f) r unr) as [[s2 k2] u2] eqn:Es.
      inversion H; subst. destruct (IH _ _ _ _ _ R' C' Es) as [F [Q1 [Q2 [[u' [E [P U]]] [K [L V]]]]]].
      split. { eapply finsame_trans; [apply visit_finsame|exact F]. }
      split; [exact Q1|]. split; [exact Q2|].
      split. { exists u'. split; [exact E|]. split; [simpl; constructor; exact P|].
               intros g Hg. rewrite <- Hv. auto. }
      split. { intros g [<-|Hg]; [rewrite <- Hv; exact El|rewrite <- Hv; auto]. }
      split. { intros g [<-|Hg]; [|auto]. apply (b_grow _ _ (fs_b _ _ F)), visit_self. }
      intro g. rewrite V. apply Hv.
    + rewrite El in H. destruct (IH _ _ _ _ _ R' C' H) as [F [Q1 [Q2 [[u' [E [P U]]] [K [L V]]]]]].
      split. { eapply finsame_trans; [apply visit_finsame|exact F]. }
      split; [exact Q1|]. split; [exact Q2|].
      split. { exists (u' ++ [f]). split; [rewrite <- app_assoc; exact E|].
               split. { rewrite app_assoc, <- Permutation_cons_append. constructor. exact P. }
               intros g Hg. rewrite <- Hv. rewrite in_app_iff in Hg. destruct Hg as [Hg|[<-|[]]]; auto. }
      split. { intros g Hg. rewrite <- Hv; auto. }
      split. { intros g [<-|Hg]; [|auto]. apply (b_grow _ _ (fs_b _ _ F)), visit_self. }
      intro g. rewrite V. apply Hv.
Qed.

Lemma keep_spec : forall fs s new s' stay n,
  keepFinalizers reaches tenured finTarget s fs new = (s', stay, n) ->
  finsame s s' /\ finalizeQueue s' = finalizeQueue s /\ toFinalize s' = toFinalize s /\
  (exists n', n = n' ++ new /\ Permutation fs (stay ++ n')) /\
  (forall f, In f fs -> live s' (finTarget f) = true).
Proof.
  induction fs as [|f r IH]; intros s new s' stay n H.
  - simpl in H. inversion H; subst. split; [apply finsame_refl|]. split; [reflexivity|].
    split; [reflexivity|]. split; [exists []; auto|intros f []].
  - cbn [keepFinalizers] in H. cbv zeta in H.
    destruct (live (visit s (finTarget f)) f && tenured f) eqn:El.
    + destruct (IH _ _ _ _ _ H) as [F [Q1 [Q2 [[n' [E P]] L]]]].
      split. { eapply finsame_trans; [apply visit_finsame|exact F]. }
      split; [exact Q1|]. split; [exact Q2|].
      split. { exists (n' ++ [f]). split; [rewrite <- app_assoc; exact E|].
               rewrite app_assoc, <- Permutation_cons_append. constructor. exact P. }
      intros g [<-|Hg]; [|auto]. apply (b_grow _ _ (fs_b _ _ F)), visit_self.
    + destruct (keepFinalizers reaches tenured finTarget (visit s (finTarget f)) r new)
        as [[s2 st] n2] eqn:Ek.
      inversion H; subst. destruct (IH _ _ _ _ _ Ek) as [F [Q1 [Q2 [[n' [E P]] L]]]].
      split. { eapply finsame_trans; [apply visit_finsame|exact F]. }
      split; [exact Q1|]. split; [exact Q2|].
      split. { exists n'. split; [exact E|]. simpl. constructor. exact P. }
      intros g [<-|Hg]; [|auto]. apply (b_grow _ _ (fs_b _ _ F)), visit_self.
Qed.

Lemma fold_visit_spec : forall fs s,
  let s' := fold_left (fun s f => visit s (finTarget f)) fs s in
  finsame s s' /\ finalizeQueue s' = finalizeQueue s /\ toFinalize s' = toFinalize s /\
  (forall f, In f fs -> live s' (finTarget f) = true).
Proof.
  induction fs as [|f r IH]; intro s; cbv zeta; simpl.
  - split; [apply finsame_refl|]. split; [reflexivity|]. split; [reflexivity|intros f []].
  - destruct (IH (visit s (finTarget f))) as [F [Q1 [Q2 L]]].
    split. { eapply finsame_trans; [apply visit_finsame|exact F]. }
    split; [exact Q1|]. split; [exact Q2|].
    intros g [<-|Hg]; [|auto]. apply (b_grow _ _ (fs_b _ _ F)), visit_self.
Qed.

Lemma queue_spec : forall fs s,
  let s' := fold_left (finalizerTargetUnreachable reaches finTarget finFunction) fs s in
  finsame s s' /\
  (exists a b, finalizeQueue s' = a ++ finalizeQueue s /\ toFinalize s' = b ++ toFinalize s /\
     Permutation fs (a ++ b) /\ (forall f, In f a -> finFunction f = true) /\
     (forall f, In f b -> finFunction f = false)) /\
  (forall f, In f fs -> live s' (finTarget f) = true).
Proof.
  induction fs as [|f r IH]; intro s; cbv zeta; simpl.
  - split; [apply finsame_refl|]. split; [|intros f []].
    exists [], []. repeat split; auto; intros f [].
  - destruct (IH (finalizerTargetUnreachable reaches finTarget finFunction s f))
      as [F [[a [b [E1 [E2 [P [A B]]]]]] L]].
    assert (F0 : finsame s (finalizerTargetUnreachable reaches finTarget finFunction s f) /\
       live (finalizerTargetUnreachable reaches finTarget finFunction s f) (finTarget f) = true).
    { unfold finalizerTargetUnreachable. cbv zeta. destruct (finFunction f).
      - split; [|apply visit_self]. destruct (visit_finsame s (finTarget f)) as [[]].
        split; auto. split; auto.
      - split; [|apply visit_self]. destruct (visit_finsame s (finTarget f)) as [[]].
        split; auto. split; auto. }
    split. { eapply finsame_trans; [exact (proj1 F0)|exact F]. }
    split.
    + assert (Fq : finalizeQueue (finalizerTargetUnreachable reaches finTarget finFunction s f) =
         if finFunction f then f :: finalizeQueue s else finalizeQueue s)
        by (unfold finalizerTargetUnreachable; destruct (finFunction f); reflexivity).
      assert (Ft : toFinalize (finalizerTargetUnreachable reaches finTarget finFunction s f) =
         if finFunction f then toFinalize s else f :: toFinalize s)
        by (unfold finalizerTargetUnreachable; destruct (finFunction f); reflexivity).
      rewrite Fq in E1. rewrite Ft in E2.
      destruct (finFunction f) eqn:Ef.
      * exists (a ++ [f]), b. split; [rewrite <- app_assoc; exact E1|]. split; [exact E2|].
        split. { rewrite <- app_assoc. simpl. rewrite <- Permutation_middle. constructor. exact P. }
        split; [|exact B]. intros g Hg. rewrite in_app_iff in Hg.
        destruct Hg as [Hg|[<-|[]]]; auto.
      * exists a, (b ++ [f]). split; [exact E1|]. split; [rewrite <- app_assoc; exact E2|].
        split. { rewrite app_assoc, <- Permutation_cons_append. constructor. exact P. }
        split; [exact A|]. intros g Hg. rewrite in_app_iff in Hg.
        destruct Hg as [Hg|[<-|[]]]; auto.
    + intros g [<-|Hg]; [|auto]. apply (b_grow _ _ (fs_b _ _ F)), (proj2 F0).
Qed.

(** ** References to objects that will be finalized, and JNI weak references *)

Lemma clear_spec : forall rs s,
  let s' := fold_left (clearTargetIfFinalizable hasFinalizer) rs s in
  live s' = live s /\ queue s' = queue s /\ enqueued s' = enqueued s /\ toClean s' = toClean s /\
  refsame s s' /\
  (forall r, target s' r = target s r \/
     (In r rs /\ target s' r = None /\
      exists o, target s r = Some o /\ live s o = false /\ hasFinalizer o = true)) /\
  (forall r o, In r rs -> target s r = Some o -> live s o = false -> hasFinalizer o = true ->
     target s' r = None).
Proof.
  induction rs as [|x rest IH]; intro s; cbv zeta; simpl.
  - repeat split; auto. intros r o [].
  - destruct (IH (clearTargetIfFinalizable hasFinalizer s x)) as [A [B [C [D [E [F G]]]]]].
    assert (H : let t := clearTargetIfFinalizable hasFinalizer s x in
      live t = live s /\ queue t = queue s /\ enqueued t = enqueued s /\ toClean t = toClean s /\
      refsame s t /\ (forall r, r <> x -> target t r = target s r) /\
      (target t x = target s x \/
        (target t x = None /\
         exists o, target s x = Some o /\ live s o = false /\ hasFinalizer o = true)) /\
      (forall o, target s x = Some o -> live s o = false -> hasFinalizer o = true -> target t x = None)).
    { cbv zeta. unfold clearTargetIfFinalizable, isFinalizable. destruct (target s x) as [o|] eqn:Et.
      - destruct (negb (live s o) && hasFinalizer o) eqn:Ef.
        + apply andb_true_iff in Ef. destruct Ef as [E1 E2]. apply negb_true_iff in E1.
          repeat split; simpl; auto.
          * intros r Hr. destruct (Nat.eqb_spec r x); [congruence|reflexivity].
          * right. rewrite Nat.eqb_refl. split; [reflexivity|]. exists o. auto.
          * intros. rewrite Nat.eqb_refl. reflexivity.
        + repeat split; auto. intros o' H1 H2 H3. inversion H1; subst.
          rewrite H2, H3 in Ef. discriminate.
      - repeat split; auto; try discriminate. }
    cbv zeta in H. destruct H as [A' [B' [C' [D' [E' [N [X Y]]]]]]].
    rewrite A' in *.
    split; [exact A|]. split; [congruence|]. split; [congruence|]. split; [congruence|].
    split; [eapply refsame_trans; eauto|]. split.
    + intro r. destruct (F r) as [F1|[F1 [F2 F3]]].
      * rewrite F1. destruct (Nat.eq_dec r x) as [->|Hn].
        -- destruct X as [X|[X1 X2]]; [left; exact X|right; auto].
        -- left. auto.
      * destruct (Nat.eq_dec r x) as [->|Hn].
        -- right. split; [auto|]. split; [exact F2|]. destruct F3 as [o [F3 F4]].
           destruct X as [X|[X _]]; [|congruence]. exists o. split; [congruence|exact F4].
        -- right. rewrite <- (N r Hn). auto.
    + intros r o Hr Ht Hl Hf. destruct (Nat.eq_dec r x) as [->|Hn].
      * destruct (F x) as [F1|[F1 [F2 F3]]]; [|exact F2]. rewrite F1. eapply Y; eauto.
      * destruct Hr as [Hr|Hr]; [congruence|]. eapply G; eauto. rewrite (N r Hn). exact Ht.
Qed.

Lemma jni_spec : forall l s s' l', closed (live s) -> jniScan reaches s l = (s', l') ->
  (forall x, live s' x = live s x) /\
  l' = map (fun x => match x with Some o => if live s o then Some o else None | None => None end) l /\
  target s' = target s /\ queue s' = queue s /\ enqueued s' = enqueued s /\
  toClean s' = toClean s /\ finalizers s' = finalizers s /\
  tenuredFinalizers s' = tenuredFinalizers s /\ weakRefs s' = weakRefs s /\
  tenuredRefs s' = tenuredRefs s /\ finalizeQueue s' = finalizeQueue s /\
  toFinalize s' = toFinalize s.
Proof.
  induction l as [|[o|] r IH]; intros s s' l' C H; simpl in H.
  - inversion H; subst. repeat split; reflexivity.
  - destruct (live s o) eqn:El.
    + destruct (jniScan reaches (visit s o) r) as [s1 l1] eqn:Ej. inversion H; subst.
      destruct (IH _ _ _ (visit_closed _ _ C) Ej) as [A [B D]].
      split. { intro x. rewrite A. apply visit_live; auto. }
      split; [|exact D]. simpl. rewrite El. f_equal. rewrite B. apply map_ext.
      intros [p|]; [|reflexivity]. rewrite (visit_live s o C El). reflexivity.
    + destruct (jniScan reaches s r) as [s1 l1] eqn:Ej. inversion H; subst.
      destruct (IH _ _ _ C Ej) as [A [B D]]. split; [exact A|]. split; [|exact D].
      simpl. rewrite El. f_equal. exact B.
  - destruct (jniScan reaches s r) as [s1 l1] eqn:Ej. inversion H; subst.
    destruct (IH _ _ _ C Ej) as [A [B D]]. split; [exact A|]. split; [|exact D].
    simpl. f_equal. exact B.
Qed.

(** ** The whole of [postVisit] *)

Record whole (major : bool) (s s' : state) (mid : state) (kept : list nat)
    (enq : list (nat * nat)) (cl a b : list nat) : Prop := {
  w_live : grow (live s) (live mid) /\ grow (live mid) (live s') /\ closed (live s');
  w_clear : forall r, target mid r = target s r \/
     (examined major s r /\ target mid r = None /\
      exists o, target s r = Some o /\ live s o = false /\ hasFinalizer o = true);
  w_clear2 : forall r o, examined major s r -> target s r = Some o -> live s o = false ->
     hasFinalizer o = true -> target mid r = None;
  w_queue : queue mid = queue s; w_enq : enqueued mid = enqueued s;
  w_clean : toClean mid = toClean s;
  w_refs : Permutation (registeredRefs s') (kept ++ if major then [] else tenuredRefs s);
  w_scan : scanned mid (weakRefs s ++ if major then tenuredRefs s else []) s' kept enq cl;
  w_fq : finalizeQueue s' = a ++ finalizeQueue s; w_tf : toFinalize s' = b ++ toFinalize s;
  w_fa : forall f, In f a -> finFunction f = true;
  w_fb : forall f, In f b -> finFunction f = false;
  w_fins : Permutation (registeredFins s) (registeredFins s' ++ a ++ b);
  w_reg : forall f, In f (registeredFins s') -> examinedFin major s f ->
     live s' (finTarget f) = true /\ live s' f = true;
  w_regf : forall f, In f (registeredFins s') -> In f (finalizers s) ->
     live s (finTarget f) = true;
  w_min : forall f, In f (a ++ b) -> examinedFin major s f;
  w_queued : forall f, In f (a ++ b) -> live s (finTarget f) = false /\
     live s' (finTarget f) = true /\ live s' f = true;
  w_jni : jniWeak s' = map (fun x => match x with
     | Some o => if negb (live s o) && hasFinalizer o then None
                 else if live s' o then Some o else None
     | None => None end) (jniWeak s) }.

Lemma nodup_parts : forall (A : Type) (a b : list A), NoDup (a ++ b) ->
  NoDup a /\ NoDup b /\ (forall x, In x a -> ~ In x b).
Proof.
  induction a as [|x a IH]; intros b H; simpl in H.
  - repeat split; auto. constructor.
  - inversion H; subst. destruct (IH b H3) as [A1 [A2 A3]]. rewrite in_app_iff in H2.
    repeat split; auto.
    + constructor; tauto.
    + intros y [<-|Hy]; [tauto|auto].
Qed.

(** the part of a major collection about the tenured lists *)
Definition tenuredPart (s9 : state) : state :=
  let '(t1, keepT, unrT) := splitFinalizers reaches finTarget s9 (tenuredFinalizers s9) [] in
  let t2 := fold_left (fun s f => visit s (finTarget f)) keepT t1 in
  let t3 := fold_left (finalizerTargetUnreachable reaches finTarget finFunction) unrT t2 in
  let t4 := setFins t3 (finalizers t3) keepT in
  let '(t5, stayT, _) := scanRefs reaches tenured isCleaner false t4 (tenuredRefs t4) [] in
  setRefs t5 (weakRefs t5) stayT.

(** the part about the young lists *)
Definition youngPart (s3 : state) : state * list nat * list nat :=
  let '(s4, keep, unr) := splitFinalizers reaches finTarget s3 (finalizers s3) [] in
  let '(s5, stay, newT) := keepFinalizers reaches tenured finTarget s4 keep [] in
  let s6 := fold_left (finalizerTargetUnreachable reaches finTarget finFunction) unr s5 in
  let s7 := setFins s6 stay (tenuredFinalizers s6) in
  let '(s8, stayR, newR) := scanRefs reaches tenured isCleaner true s7 (weakRefs s7) [] in
  (setRefs s8 stayR (tenuredRefs s8), newT, newR).

Lemma postVisit_parts : forall major s0,
  postVisit reaches hasFinalizer tenured finTarget finFunction isCleaner major s0 =
  let s1 := fold_left (clearTargetIfFinalizable hasFinalizer) (weakRefs s0) s0 in
  let s2 := if major then fold_left (clearTargetIfFinalizable hasFinalizer) (tenuredRefs s1) s1
            else s1 in
  let s3 := setJni s2 (map (fun x => match x with
              | Some o => if isFinalizable hasFinalizer s2 o then None else Some o
              | None => None end) (jniWeak s2)) in
  let '(s9, newT, newR) := youngPart s3 in
  let s10 := if major then tenuredPart s9 else s9 in
  let s11 := setRefs (setFins s10 (finalizers s10) (newT ++ tenuredFinalizers s10))
                     (weakRefs s10) (newR ++ tenuredRefs s10) in
  let '(s12, j) := jniScan reaches s11 (jniWeak s11) in
  setJni s12 j.
Proof.
  intros major s0. unfold postVisit, youngPart, tenuredPart. cbv zeta.
  destruct (splitFinalizers _ _ _ _ _) as [[s4 keep] unr].
  destruct (keepFinalizers _ _ _ _ _ _) as [[s5 stay] newT].
  destruct (scanRefs _ _ _ _ _ _ _) as [[s8 stayR] newR]. reflexivity.
Qed.

(** finalizers and references, one generation *)
Record part (s s' : state) (fs fkeep : list nat) (rs kept : list nat) (enq : list (nat * nat))
    (cl a b : list nat) : Prop := {
  p_mid : exists mid, between s mid /\ scanned mid rs s' kept enq cl;
  p_fq : finalizeQueue s' = a ++ finalizeQueue s; p_tf : toFinalize s' = b ++ toFinalize s;
  p_fa : forall f, In f a -> finFunction f = true;
  p_fb : forall f, In f b -> finFunction f = false;
  p_perm : Permutation fs (fkeep ++ a ++ b);
  p_keep : forall f, In f fkeep -> live s' (finTarget f) = true /\ live s' f = true;
  p_keep0 : forall f, In f fkeep -> live s (finTarget f) = true;
  p_queued : forall f, In f (a ++ b) -> live s (finTarget f) = false /\
     live s' (finTarget f) = true /\ live s' f = true;
  p_jni : jniWeak s' = jniWeak s }.

Lemma young_spec : forall s s' newT newR, closed (live s) -> records s (finalizers s) ->
  NoDup (weakRefs s) -> youngPart s = (s', newT, newR) ->
  tenuredRefs s' = tenuredRefs s /\ tenuredFinalizers s' = tenuredFinalizers s /\
  exists kept enq cl a b fkeep, part s s' (finalizers s) fkeep (weakRefs s) kept enq cl a b /\
    Permutation kept (weakRefs s' ++ newR) /\ Permutation fkeep (finalizers s' ++ newT).
Proof.
  intros s s' newT newR C R N H. unfold youngPart in H.
  destruct (splitFinalizers reaches finTarget s (finalizers s) []) as [[s4 keep] unr] eqn:E1.
  destruct (split_spec _ _ _ _ _ _ R C E1) as [F1 [Q1 [T1 [[u' [Eu [P1 U1]]] [K1 [L1 V1]]]]]].
  rewrite app_nil_r in Eu. subst u'.
  destruct (keepFinalizers reaches tenured finTarget s4 keep []) as [[s5 stay] nT] eqn:E2.
  destruct (keep_spec _ _ _ _ _ _ E2) as [F2 [Q2 [T2 [[n' [En P2]] L2]]]].
  rewrite app_nil_r in En. subst n'.
  destruct (queue_spec unr s5) as [F3 [[a [b [Q3 [T3 [P3 [A3 B3]]]]]] L3]].
  set (s6 := fold_left (finalizerTargetUnreachable reaches finTarget finFunction) unr s5) in *.
  clearbody s6. cbv zeta in H.
  assert (F : finsame s s6) by (eapply finsame_trans; [exact F1|eapply finsame_trans; eauto]).
  destruct (scanRefs reaches tenured isCleaner true (setFins s6 stay (tenuredFinalizers s6))
     (weakRefs (setFins s6 stay (tenuredFinalizers s6))) []) as [[s8 stayR] nR] eqn:E4.
  inversion H; subst s' newT newR. clear H.
  simpl weakRefs in E4. rewrite (fs_w _ _ F) in E4.
  destruct (scan_scanned _ _ _ _ _ _ _ N E4) as [moved [kept [enq [cl [Em [Pm [_ S]]]]]]].
  rewrite app_nil_r in Em. subst moved.
  pose proof (scan_same _ _ _ _ _ _ _ E4) as Sm.
  assert (B7 : between s (setFins s6 stay (tenuredFinalizers s6))).
  { eapply between_trans; [exact (fs_b _ _ F)|]. split; auto using grow_refl. }
  simpl. split. { rewrite (rs_t _ _ Sm). simpl. apply (fs_t _ _ F). }
  split. { rewrite (rs_tfins _ _ Sm). simpl. apply (fs_tf _ _ F). }
  assert (G6 : grow (live s6) (live s8)) by exact (sc_grow _ _ _ _ _ _ S).
  assert (G5 : grow (live s5) (live s8)).
  { eapply grow_trans; [exact (b_grow _ _ (fs_b _ _ F3))|exact G6]. }
  assert (G4 : grow (live s4) (live s8)).
  { eapply grow_trans; [exact (b_grow _ _ (fs_b _ _ F2))|exact G5]. }
  exists kept, enq, cl, a, b, keep. split; [split; simpl|].
  - exists (setFins s6 stay (tenuredFinalizers s6)). split; [exact B7|].
    destruct S; split; auto.
  - rewrite (rs_fq _ _ Sm). simpl. rewrite Q3, Q2, Q1. reflexivity.
  - rewrite (rs_tf _ _ Sm). simpl. rewrite T3, T2, T1. reflexivity.
  - exact A3.
  - exact B3.
  - rewrite P1. apply Permutation_app_head. exact P3.
  - intros f Hf. split; [apply G5; auto|]. apply G4, L1.
    apply Permutation_in with (keep ++ unr); [symmetry; exact P1|]. apply in_or_app. auto.
  - exact K1.
  - intros f Hf. assert (Hu : In f unr) by (eapply Permutation_in; [symmetry; exact P3|exact Hf]).
    split; [auto|]. split; [auto|]. apply G4, L1.
    apply Permutation_in with (keep ++ unr); [symmetry; exact P1|]. apply in_or_app. auto.
  - rewrite (rs_j _ _ Sm). simpl. apply (fs_j _ _ F).
  - split; [exact Pm|]. rewrite (rs_fins _ _ Sm). simpl. exact P2.
Qed.

Lemma tenured_spec : forall s, closed (live s) -> records s (tenuredFinalizers s) ->
  NoDup (tenuredRefs s) ->
  let s' := tenuredPart s in
  weakRefs s' = weakRefs s /\ finalizers s' = finalizers s /\
  exists kept enq cl a b,
    part s s' (tenuredFinalizers s) (tenuredFinalizers s') (tenuredRefs s) kept enq cl a b /\
    Permutation kept (tenuredRefs s').
Proof.
  intros s C R N s'. unfold s', tenuredPart. clear s'.
  destruct (splitFinalizers reaches finTarget s (tenuredFinalizers s) []) as [[s4 keep] unr] eqn:E1.
  destruct (split_spec _ _ _ _ _ _ R C E1) as [F1 [Q1 [T1 [[u' [Eu [P1 U1]]] [K1 [L1 V1]]]]]].
  rewrite app_nil_r in Eu. subst u'.
  destruct (fold_visit_spec keep s4) as [F2 [Q2 [T2 L2]]].
  set (s5 := fold_left _ keep s4) in *. clearbody s5.
  destruct (queue_spec unr s5) as [F3 [[a [b [Q3 [T3 [P3 [A3 B3]]]]]] L3]].
  set (s6 := fold_left (finalizerTargetUnreachable reaches finTarget finFunction) unr s5) in *.
  clearbody s6. cbv zeta.
  assert (F : finsame s s6) by (eapply finsame_trans; [exact F1|eapply finsame_trans; eauto]).
  destruct (scanRefs reaches tenured isCleaner false (setFins s6 (finalizers s6) keep)
     (tenuredRefs (setFins s6 (finalizers s6) keep)) []) as [[s8 stayR] nR] eqn:E4.
  simpl tenuredRefs in E4. rewrite (fs_t _ _ F) in E4.
  destruct (scan_scanned _ _ _ _ _ _ _ N E4) as [moved [kept [enq [cl [Em [Pm [M S]]]]]]].
  rewrite (M eq_refl), app_nil_r in Pm.
  pose proof (scan_same _ _ _ _ _ _ _ E4) as Sm.
  assert (B7 : between s (setFins s6 (finalizers s6) keep)).
  { eapply between_trans; [exact (fs_b _ _ F)|]. split; auto using grow_refl. }
  simpl. split. { rewrite (rs_w _ _ Sm). simpl. apply (fs_w _ _ F). }
  split. { rewrite (rs_fins _ _ Sm). simpl. apply (fs_f _ _ F). }
  rewrite (rs_tfins _ _ Sm). simpl.
  assert (G6 : grow (live s6) (live s8)) by exact (sc_grow _ _ _ _ _ _ S).
  assert (G5 : grow (live s5) (live s8)).
  { eapply grow_trans; [exact (b_grow _ _ (fs_b _ _ F3))|exact G6]. }
  assert (G4 : grow (live s4) (live s8)).
  { eapply grow_trans; [exact (b_grow _ _ (fs_b _ _ F2))|exact G5]. }
  exists kept, enq, cl, a, b. split; [split; simpl|exact Pm].
  - exists (setFins s6 (finalizers s6) keep). split; [exact B7|].
    destruct S; split; auto.
  - rewrite (rs_fq _ _ Sm). simpl. rewrite Q3, Q2, Q1. reflexivity.
  - rewrite (rs_tf _ _ Sm). simpl. rewrite T3, T2, T1. reflexivity.
  - exact A3.
  - exact B3.
  - rewrite P1. apply Permutation_app_head. exact P3.
  - intros f Hf. split; [apply G5; auto|]. apply G4, L1.
    apply Permutation_in with (keep ++ unr); [symmetry; exact P1|]. apply in_or_app. auto.
  - exact K1.
  - intros f Hf. assert (Hu : In f unr) by (eapply Permutation_in; [symmetry; exact P3|exact Hf]).
    split; [auto|]. split; [auto|]. apply G4, L1.
    apply Permutation_in with (keep ++ unr); [symmetry; exact P1|]. apply in_or_app. auto.
  - rewrite (rs_j _ _ Sm). simpl. apply (fs_j _ _ F).
Qed.

Lemma scanned_ext : forall s rs s2 s3 k e c, scanned s rs s2 k e c ->
  (forall x, live s3 x = live s2 x) -> target s3 = target s2 -> queue s3 = queue s2 ->
  enqueued s3 = enqueued s2 -> toClean s3 = toClean s2 -> scanned s rs s3 k e c.
Proof.
  intros s rs s2 s3 k e c [S1 S2 S4 Sq S5 S6 S7 S8 S8c S9 S10 S11 S12 S13 S15 S16] L T Q E C.
  split; rewrite ?T, ?Q, ?E, ?C; auto.
  - intros x Hx. rewrite L. auto.
  - intros Hc x y Hx Hr. rewrite L in *. eapply S2; eauto.
  - intros r Hr. rewrite L. destruct (S9 r Hr) as [a1 [a2 [a3 [a4 [a5 [a6 [a7 a8]]]]]]].
    split; [auto|]. split; [auto|]. split; [auto|].
    split. { intros o Ho. rewrite L. auto. }
    split. { intros q Hq. rewrite L. auto. }
    auto.
  - intros q r Hr. rewrite !L. auto.
  - intros r Hr. rewrite !L. auto.
  - intros r Hr Hk. rewrite !L. auto.
Qed.

Theorem postVisit_whole : forall major s, closed (live s) -> NoDup (registeredRefs s) ->
  NoDup (registeredFins s) -> records s (registeredFins s) ->
  exists mid kept enq cl a b,
    whole major s (postVisit reaches hasFinalizer tenured finTarget finFunction isCleaner major s)
      mid kept enq cl a b.
Proof.
  intros major s C N NF R. rewrite postVisit_parts.
  destruct (nodup_parts _ _ _ NF) as [NF1 [NF2 NF3]]. cbv zeta.
  unfold registeredRefs in N. destruct (nodup_parts _ _ _ N) as [N1 [N2 N3]].
  destruct (clear_spec (weakRefs s) s) as [A1 [A2 [A3 [A4 [A5 [A6 A7]]]]]].
  set (s1 := fold_left _ (weakRefs s) s) in *. clearbody s1.
  assert (X : let s2 := if major then fold_left (clearTargetIfFinalizable hasFinalizer) (tenuredRefs s1) s1
       else s1 in
     live s2 = live s /\ queue s2 = queue s /\ enqueued s2 = enqueued s /\ toClean s2 = toClean s /\
     refsame s s2 /\
     (forall r, target s2 r = target s r \/
       (examined major s r /\ target s2 r = None /\
        exists o, target s r = Some o /\ live s o = false /\ hasFinalizer o = true)) /\
     (forall r o, examined major s r -> target s r = Some o -> live s o = false ->
        hasFinalizer o = true -> target s2 r = None)).
  { unfold examined. destruct major; cbv zeta.
    - destruct (clear_spec (tenuredRefs s1) s1) as [B1 [B2 [B3 [B4 [B5 [B6 B7]]]]]].
      set (s2 := fold_left _ (tenuredRefs s1) s1) in *. clearbody s2.
      rewrite A1 in *. rewrite (rs_t _ _ A5) in *.
      split; [exact B1|]. split; [congruence|]. split; [congruence|]. split; [congruence|].
      split; [eapply refsame_trans; eauto|]. split.
      + intro r. destruct (B6 r) as [H|[H1 [H2 [o [H3 H4]]]]].
        * rewrite H. destruct (A6 r) as [H'|[H1 [H2 H3]]]; auto 7.
        * right. split; [auto|]. split; [exact H2|]. exists o. split; [|exact H4].
          destruct (A6 r) as [H'|[_ [H5 _]]]; congruence.
      + intros r o Hr Ht Hl Hf. destruct (B6 r) as [H|[H1 [H2 H3]]]; [|exact H2].
        destruct Hr as [Hr|[_ Hr]].
        * rewrite H. eapply A7; eauto.
        * destruct (A6 r) as [H'|[H1 [H2 H3]]]; [|congruence].
          apply (B7 r o); auto. congruence.
    - split; [exact A1|]. split; [exact A2|]. split; [exact A3|]. split; [exact A4|].
      split; [exact A5|]. split.
      + intro r. destruct (A6 r) as [H|[H1 [H2 H3]]]; auto 7.
      + intros r o [Hr|[Hr _]]; [|discriminate]. intros. eapply A7; eauto. }
  cbv zeta in X. set (s2 := if major then _ else s1) in *. clearbody s2.
  clear s1 A1 A2 A3 A4 A5 A6 A7. destruct X as [A1 [A2 [A3 [A4 [A5 [A6 A7]]]]]].
  set (s3 := setJni s2 _).
  assert (J3 : jniWeak s3 = map (fun x => match x with
     | Some o => if negb (live s o) && hasFinalizer o then None else Some o
     | None => None end) (jniWeak s)).
  { unfold s3, isFinalizable. simpl. rewrite A1, (rs_j _ _ A5). reflexivity. }
  assert (Y : live s3 = live s /\ queue s3 = queue s /\ enqueued s3 = enqueued s /\
     toClean s3 = toClean s /\ target s3 = target s2 /\ finalizers s3 = finalizers s /\
     tenuredFinalizers s3 = tenuredFinalizers s /\ weakRefs s3 = weakRefs s /\
     tenuredRefs s3 = tenuredRefs s /\ finalizeQueue s3 = finalizeQueue s /\
     toFinalize s3 = toFinalize s).
  { destruct A5. unfold s3. simpl. repeat split; auto. }
  clearbody s3. destruct Y as [Y1 [Y2 [Y3 [Y4 [Y5 [Y6 [Y7 [Y8 [Y9 [Y10 Y11]]]]]]]]]].
  rewrite <- Y5 in A6, A7. clear s2 A1 A2 A3 A4 A5 Y5.
  assert (C3 : closed (live s3)) by (rewrite Y1; exact C).
  assert (R3 : records s3 (finalizers s3)).
  { eapply records_grow with (s := s); [rewrite Y1; apply grow_refl| |exact R]. rewrite Y6. intros x Hx.
    unfold registeredFins. apply in_or_app; auto. }
  destruct (youngPart s3) as [[s9 newT] newR] eqn:Ey.
  destruct (young_spec s3 s9 newT newR C3 R3) as
    [Z1 [Z2 [kept [enq [cl [a [b [fkeep [Pt [Pk Pf]]]]]]]]]]; [rewrite Y8; exact N1|exact Ey|].
  destruct (p_mid _ _ _ _ _ _ _ _ _ _ Pt) as [mid [Bm Sm]].
  rewrite Y8 in Sm.
  assert (C9 : closed (live s9)) by (apply (sc_closed _ _ _ _ _ _ Sm), (b_closed _ _ Bm), C3).
  assert (G39 : grow (live s3) (live s9)).
  { eapply grow_trans; [exact (b_grow _ _ Bm)|exact (sc_grow _ _ _ _ _ _ Sm)]. }
  (* the second half *)
  assert (W : let s10 := if major then tenuredPart s9 else s9 in
    exists kept2 enq2 cl2 a2 b2,
      grow (live s9) (live s10) /\ closed (live s10) /\
      weakRefs s10 = weakRefs s9 /\ finalizers s10 = finalizers s9 /\
      jniWeak s10 = jniWeak s9 /\
      Permutation (tenuredRefs s10) (kept2 ++ if major then [] else tenuredRefs s) /\
      scanned mid (weakRefs s ++ if major then tenuredRefs s else []) s10
        (kept ++ kept2) (enq2 ++ enq) (cl2 ++ cl) /\
      finalizeQueue s10 = a2 ++ finalizeQueue s9 /\ toFinalize s10 = b2 ++ toFinalize s9 /\
      (forall f, In f a2 -> finFunction f = true) /\ (forall f, In f b2 -> finFunction f = false) /\
      Permutation (tenuredFinalizers s) (tenuredFinalizers s10 ++ a2 ++ b2) /\
      (major = true -> forall f, In f (tenuredFinalizers s10) ->
         live s10 (finTarget f) = true /\ live s10 f = true) /\
      (major = false -> a2 = [] /\ b2 = []) /\
      (forall f, In f (a2 ++ b2) -> live s9 (finTarget f) = false /\
         live s10 (finTarget f) = true /\ live s10 f = true)).
  { destruct major; cbv zeta iota.
    - assert (R9 : records s9 (tenuredFinalizers s9)).
      { eapply records_grow with (s := s); [rewrite <- Y1; exact G39| |exact R].
        rewrite Z2, Y7. intros x Hx. unfold registeredFins. apply in_or_app; auto. }
      destruct (tenured_spec s9 C9 R9) as [W1 [W2 [kept2 [enq2 [cl2 [a2 [b2 [Pt2 Pk2]]]]]]]];
        [rewrite Z1, Y9; exact N2|].
      destruct (p_mid _ _ _ _ _ _ _ _ _ _ Pt2) as [mid2 [Bm2 Sm2]].
      rewrite Z1, Y9 in Sm2.
      exists kept2, enq2, cl2, a2, b2.
      split. { eapply grow_trans; [exact (b_grow _ _ Bm2)|exact (sc_grow _ _ _ _ _ _ Sm2)]. }
      split. { apply (sc_closed _ _ _ _ _ _ Sm2), (b_closed _ _ Bm2), C9. }
      split; [exact W1|]. split; [exact W2|].
      split; [exact (p_jni _ _ _ _ _ _ _ _ _ _ Pt2)|].
      split; [rewrite app_nil_r; symmetry; exact Pk2|].
      split. { eapply scanned_app; eauto. }
      split; [exact (p_fq _ _ _ _ _ _ _ _ _ _ Pt2)|]. split; [exact (p_tf _ _ _ _ _ _ _ _ _ _ Pt2)|].
      split; [exact (p_fa _ _ _ _ _ _ _ _ _ _ Pt2)|]. split; [exact (p_fb _ _ _ _ _ _ _ _ _ _ Pt2)|].
      split. { rewrite <- Y7, <- Z2. exact (p_perm _ _ _ _ _ _ _ _ _ _ Pt2). }
      split; [intros _; exact (p_keep _ _ _ _ _ _ _ _ _ _ Pt2)|].
      split; [discriminate|]. exact (p_queued _ _ _ _ _ _ _ _ _ _ Pt2).
    - exists [], [], [], [], []. rewrite !app_nil_r. simpl.
      split; [apply grow_refl|]. split; [exact C9|]. split; [reflexivity|]. split; [reflexivity|].
      split; [reflexivity|]. split; [rewrite Z1, Y9; reflexivity|]. split; [exact Sm|].
      split; [reflexivity|]. split; [reflexivity|]. split; [tauto|]. split; [tauto|].
      split. { rewrite Z2, Y7. reflexivity. }
      split; [discriminate|]. split; [auto|]. tauto. }
  cbv zeta in W. set (s10 := if major then tenuredPart s9 else s9) in *. clearbody s10.
  destruct W as [kept2 [enq2 [cl2 [a2 [b2 [W1 [W2 [W3 [W4 [W5 [W6 [W7 [W8 [W9 [W10 [W11 [W12 [W13
    [W14 W15]]]]]]]]]]]]]]]]]]].
  set (s11 := setRefs _ _ _). 
  destruct (jniScan reaches s11 (jniWeak s11)) as [s12 j] eqn:Ej.
  assert (C11 : closed (live s11)) by exact W2.
  destruct (jni_spec _ _ _ _ C11 Ej) as [U1 [U2 [U3 [U4 [U5 [U6 [U7 [U8 [U9 [U10 [U11 U12]]]]]]]]]]].
  unfold s11 in *. simpl in U1, U2, U3, U4, U5, U6, U7, U8, U9, U10, U11, U12.
  clear s11 Ej C11.
  assert (L12 : forall x, live (setJni s12 j) x = live s10 x) by exact U1.
  exists mid, (kept ++ kept2), (enq2 ++ enq), (cl2 ++ cl), (a2 ++ a), (b2 ++ b).
  assert (Reg : Permutation (registeredFins (setJni s12 j)) (fkeep ++ tenuredFinalizers s10)).
  { unfold registeredFins. simpl. rewrite U7, U8, W4. rewrite app_assoc.
    apply Permutation_app_tail. symmetry. exact Pf. }
  assert (Pq : Permutation ((a2 ++ a) ++ b2 ++ b) ((a ++ b) ++ a2 ++ b2)).
  { rewrite <- !app_assoc.
    apply Permutation_trans with (a ++ a2 ++ b2 ++ b).
    - rewrite !app_assoc. do 2 apply Permutation_app_tail. apply Permutation_app_comm.
    - apply Permutation_app_head. rewrite (app_assoc a2 b2 b).
      rewrite (Permutation_app_comm (a2 ++ b2) b). reflexivity. }
  assert (G9 : grow (live s9) (live (setJni s12 j))).
  { intros x Hx. rewrite L12. auto. }
  split.
  - split. { rewrite <- Y1. exact (b_grow _ _ Bm). }
    split. { intros x Hx. rewrite L12. apply W1. apply (sc_grow _ _ _ _ _ _ Sm), Hx. }
    intros x y Hx Hr. rewrite L12 in *. exact (W2 x y Hx Hr).
  - rewrite (b_target _ _ Bm). exact A6.
  - rewrite (b_target _ _ Bm). exact A7.
  - rewrite (b_queue _ _ Bm). exact Y2.
  - rewrite (b_enq _ _ Bm). exact Y3.
  - rewrite (b_clean _ _ Bm). exact Y4.
  - unfold registeredRefs. simpl. rewrite U9, U10, W3. rewrite Pk, W6.
    rewrite !app_assoc. reflexivity.
  - eapply scanned_ext; [exact W7|exact L12|exact U3|exact U4|exact U5|exact U6].
  - simpl. rewrite U11, W8, (p_fq _ _ _ _ _ _ _ _ _ _ Pt), Y10, app_assoc. reflexivity.
  - simpl. rewrite U12, W9, (p_tf _ _ _ _ _ _ _ _ _ _ Pt), Y11, app_assoc. reflexivity.
  - intros f Hf. apply in_app_or in Hf. destruct Hf as [Hf|Hf]; [auto|].
    exact (p_fa _ _ _ _ _ _ _ _ _ _ Pt f Hf).
  - intros f Hf. apply in_app_or in Hf. destruct Hf as [Hf|Hf]; [auto|].
    exact (p_fb _ _ _ _ _ _ _ _ _ _ Pt f Hf).
  - rewrite Reg, Pq. unfold registeredFins at 1.
    rewrite <- Y6 at 1. rewrite (p_perm _ _ _ _ _ _ _ _ _ _ Pt), W12.
    rewrite <- !app_assoc. apply Permutation_app_head.
    rewrite (app_assoc a b (tenuredFinalizers s10 ++ a2 ++ b2)).
    rewrite (Permutation_app_comm (a ++ b) (tenuredFinalizers s10 ++ a2 ++ b2)).
    rewrite <- !app_assoc. apply Permutation_app_head.
    rewrite (app_assoc a2 b2 (a ++ b)), (Permutation_app_comm (a2 ++ b2) (a ++ b)).
    rewrite <- !app_assoc. reflexivity.
  - intros f Hf Hx. apply (Permutation_in _ Reg) in Hf. apply in_app_or in Hf.
    destruct Hf as [Hf|Hf].
    + destruct (p_keep _ _ _ _ _ _ _ _ _ _ Pt f Hf). auto.
    + rewrite !L12. destruct major; [auto|].
      destruct Hx as [Hx|[Hx _]]; [|discriminate]. exfalso.
      apply (NF3 f Hx). apply Permutation_in with (tenuredFinalizers s10 ++ a2 ++ b2);
        [symmetry; exact W12|]. apply in_or_app; auto.
  - intros f Hf Hx. apply (Permutation_in _ Reg) in Hf. apply in_app_or in Hf.
    destruct Hf as [Hf|Hf].
    + rewrite <- Y1. exact (p_keep0 _ _ _ _ _ _ _ _ _ _ Pt f Hf).
    + exfalso. apply (NF3 f Hx). apply Permutation_in with (tenuredFinalizers s10 ++ a2 ++ b2);
        [symmetry; exact W12|]. apply in_or_app; auto.
  - intros f Hf. apply (Permutation_in _ Pq) in Hf. apply in_app_or in Hf.
    destruct Hf as [Hf|Hf].
    + left. rewrite <- Y6. apply Permutation_in with (fkeep ++ a ++ b);
        [symmetry; exact (p_perm _ _ _ _ _ _ _ _ _ _ Pt)|]. apply in_or_app; auto.
    + destruct major; [|destruct (W14 eq_refl); subst; destruct Hf].
      right. split; [reflexivity|]. apply Permutation_in with (tenuredFinalizers s10 ++ a2 ++ b2);
        [symmetry; exact W12|]. apply in_or_app; auto.
  - intros f Hf. apply (Permutation_in _ Pq) in Hf. apply in_app_or in Hf.
    destruct Hf as [Hf|Hf].
    + destruct (p_queued _ _ _ _ _ _ _ _ _ _ Pt f Hf) as [H1 [H2 H3]].
      rewrite <- Y1. auto.
    + destruct (W15 f Hf) as [H1 [H2 H3]]. rewrite !L12.
      split; [|auto]. eapply grow_false; [rewrite <- Y1; exact G39|exact H1].
  - simpl. rewrite U2, W5, (p_jni _ _ _ _ _ _ _ _ _ _ Pt), J3, map_map. apply map_ext.
    intros [o|]; [|reflexivity]. destruct (negb (live s o) && hasFinalizer o); [reflexivity|].
    rewrite U1. reflexivity.
Qed.

End P.
