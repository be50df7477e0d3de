(** Proofs about FutureTask. *)
From Coq Require Import ZArith Lia Bool List.
Import ListNotations.
From Verif Require Import JFuture_Model.

Definition stored (o : outcome) (s : shared) : Prop :=
  match o with Gives v => result s = v /\ failure s = None | Fails f => failure s = Some f end.
Definition hasStored (s : shared) : Prop := exists o, results s = [o] /\ stored o s.
Definition mid (s : shared) : Prop := st s <> New /\ st s <> Done.
Definition timely (c : operation) (s : shared) (b : Z) (r : option Z) : Prop :=
  match c with
  | Get (Some t) => exists x, r = Some x /\ (t - (now s - b) <= x)%Z
  | Get None => r = None
  | _ => False
  end.

(** What call [i] may rely on. *)
Definition cinv (s : shared) (i : nat) (c : operation) (p : place) : Prop :=
  match p with
  | RStart => c = Run
  | RThread | RCall => c = Run /\ owner s = Some i /\ runs s = [] /\ results s = [] /\ failure s = None /\ mid s
  | RCalling => c = Run /\ owner s = Some i /\ runs s = [i] /\ results s = [] /\ failure s = None /\ mid s
  | RStore o => c = Run /\ owner s = Some i /\ runs s = [i] /\ results s = [o] /\ failure s = None /\ mid s
  | RDone => c = Run /\ owner s = Some i /\ runs s = [i] /\ hasStored s /\ mid s
  | RTest | RSleep => c = Run /\ owner s = Some i /\ runs s = [i] /\ hasStored s /\ mid s /\ st s <> Running
  | RClear | RNotify | RNull => c = Run /\ owner s = Some i /\ runs s = [i] /\ hasStored s /\ st s <> New /\ st s <> Running
  | CNew => exists b, c = Cancel b
  | CNotify => (exists b, c = Cancel b) /\ st s = Canceled /\ owner s = None
  | CRunning => c = Cancel true /\ st s <> New
  | CThread | CInterrupt _ | CSet _ => c = Cancel true /\ (st s = Canceling \/ st s = Canceled) /\ owner s <> None
  | GStart | GBackInt => exists l, c = Get l
  | GEnter b => (exists l, c = Get l) /\ (b <= now s)%Z
  | GDone b r | GCanc b r | GWait b r => timely c s b r
  | GSleep b r u => (exists l, c = Get l)
  | GBack b => exists l, c = Get l
  | GState => (exists l, c = Get l) /\ (st s = Done \/ st s = Canceled)
  | GFailure => (exists l, c = Get l) /\ st s = Done
  | GResult => (exists l, c = Get l) /\ st s = Done /\ failure s = None
  | Ended a =>
      match c, a with
      | Run, Void => st s <> New
      | Cancel m, Is r => st s <> New /\ (r = true -> st s = Canceled \/ st s = Canceling) /\ (m = false -> r = true -> st s = Canceled /\ owner s = None)
      | Get l, Value v => st s = Done /\ results s = [Gives v]
      | Get l, Failure f => st s = Done /\ results s = [Fails f]
      | Get l, WasCanceled => st s = Canceled
      | Get l, TimedOut b => exists t, l = Some t /\ (t <= now s - b)%Z
      | Get l, WasInterrupted => True
      | _, _ => False
      end
  end.

(** What a step of one call may change as seen from another, [j]. *)
Record chg (j : nat) (s s' : shared) : Prop := {
  kOwner : owner s = Some j -> owner s' = Some j /\ runs s' = runs s /\ results s' = results s /\ result s' = result s /\ failure s' = failure s;
  kMid : owner s = Some j -> st s <> Done -> st s' <> Done;
  kNone : owner s = None -> st s <> New -> owner s' = None;
  kSome : owner s <> None -> owner s' <> None;
  kDone : st s = Done -> st s' = Done /\ results s' = results s /\ result s' = result s /\ failure s' = failure s;
  kCanceled : st s = Canceled -> st s' = Canceled;
  kCanceling : st s = Canceling -> st s' = Canceling \/ st s' = Canceled;
  kNew : st s <> New -> st s' <> New;
  kRunning : st s <> Running -> st s <> New -> st s' <> Running;
  kNow : (now s <= now s')%Z }.

Lemma timely_chg c j s s' b r : chg j s s' -> timely c s b r -> timely c s' b r.
Proof.
  intros K. pose proof (kNow _ _ _ K). unfold timely. destruct c; auto. destruct limit; auto.
  intros [x [H1 H2]]. exists x. split; [exact H1|lia].
Qed.

Lemma cinv_chg s s' j c p : chg j s s' -> cinv s j c p -> cinv s' j c p.
Proof.
  intros K H. pose proof (fun b r => timely_chg c j s s' b r K) as T. destruct K as [K1 K2 K3 K4 K5 K6 K7 K8 K9 K10].
  assert (ST : owner s = Some j -> hasStored s -> hasStored s').
  { intros O [o [H1 H2]]. destruct (K1 O) as [_ [_ [E1 [E2 E3]]]]. exists o. rewrite E1. split; [exact H1|].
    destruct o; unfold stored in *; rewrite ?E2, E3; exact H2. }
  assert (MI : owner s = Some j -> mid s -> mid s').
  { intros O [M1 M2]. split; [apply K8; exact M1|apply K2; assumption]. }
  destruct p; cbn [cinv] in *; auto;
    try (destruct H as [H1 [H2 [H3 [H4 [H5 H6]]]]]; destruct (K1 H2) as [E1 [E2 [E3 [E4 E5]]]]; rewrite ?E1, ?E2, ?E3, ?E5;
         repeat match goal with |- _ /\ _ => split end; solve [auto | apply MI; assumption | apply K9; [assumption|destruct H5; assumption] | apply K9; assumption | apply K8; assumption | apply ST; assumption]);
    try (destruct H as [H1 [H2 [H3 [H4 H5]]]]; destruct (K1 H2) as [E1 [E2 [E3 [E4 E5]]]]; rewrite ?E1, ?E2; auto 8).
  - destruct H as [H1 [H2 H3]]. split; [exact H1|]. split; [apply K6; exact H2|]. apply K3; [exact H3|rewrite H2; discriminate].
  - destruct H. split; auto.
  - destruct H as [H1 [H2 H3]]. split; [exact H1|]. split; [destruct H2; auto|auto].
  - destruct H as [H1 [H2 H3]]. split; [exact H1|]. split; [destruct H2; auto|auto].
  - destruct H as [H1 [H2 H3]]. split; [exact H1|]. split; [destruct H2; auto|auto].
  - destruct H as [H1 H2]. split; [exact H1|lia].
  - destruct H as [H1 H2]. split; [exact H1|]. destruct H2 as [H2|H2]; [left; apply (K5 H2)|right; auto].
  - destruct H as [H1 H2]. split; [exact H1|apply (K5 H2)].
  - destruct H as [H1 [H2 H3]]. split; [exact H1|]. destruct (K5 H2) as [E1 [_ [_ E2]]]. rewrite E2. auto.
  - destruct c as [|m|l]; destruct a as [|r|v|f| |bb|]; auto.
    + destruct H as [H1 [H2 H3]]. split; [auto|]. split.
      * intro R. destruct (H2 R); [left; auto|]. destruct (K7 H); auto.
      * intros M R. destruct (H3 M R) as [H4 H5]. split; [auto|]. apply K3; [exact H5|exact H1].
    + destruct H as [H1 H2]. destruct (K5 H1) as [E1 [E2 _]]. rewrite E2. auto.
    + destruct H as [H1 H2]. destruct (K5 H1) as [E1 [E2 _]]. rewrite E2. auto.
    + destruct H as [t [H1 H2]]. exists t. split; [exact H1|lia].
Qed.

(** What holds of the fields. *)
Record ginv (s : shared) : Prop := {
  gNew : st s = New -> owner s = None;
  gNone : owner s = None -> runs s = [] /\ results s = [] /\ failure s = None;
  gRuns : length (runs s) <= 1;
  gResults : length (results s) <= 1;
  gDone : st s = Done -> hasStored s;
  gSome : owner s = None -> st s = New \/ st s = Canceled }.

Lemma step_ok i c o p s s' p' : ginv s -> cinv s i c p -> step i c o p s = Some (s', p') ->
  ginv s' /\ cinv s' i c p' /\ forall j, j <> i -> chg j s s'.
Proof.
  intros G H E. destruct G as [G1 G2 G3 G4 G5 G6].
  assert (SAME : forall t, st t = st s -> owner t = owner s -> runs t = runs s -> results t = results s -> result t = result s ->
                   failure t = failure s -> now t = now s -> ginv t /\ forall j, j <> i -> chg j s t).
  { intros t A B C D F I J. split.
    - constructor; rewrite ?A, ?B, ?C, ?D, ?I; auto. intro Q. destruct (G5 Q) as [x [Q1 Q2]]. exists x. rewrite D. split; [exact Q1|].
      destruct x; unfold stored in *; rewrite ?F, ?I; exact Q2.
    - intros j _. constructor; rewrite ?A, ?B, ?C, ?D, ?F, ?I, ?J; auto. lia. }
  assert (TIMELY : forall t b r, now t = now s -> timely c s b r -> timely c t b r).
  { intros t b r J. unfold timely. rewrite J. auto. }
  assert (LOOP : forall t b r, now t = now s -> timely c s b r -> (left_ r = true -> st t = Done \/ st t = Canceled) -> cinv t i c (afterLoop b r)).
  { intros t b r J T K. unfold afterLoop. destruct (left_ r) eqn:El.
    - cbn [cinv]. split; [|auto]. unfold timely in T. destruct c; try contradiction. eauto.
    - unfold timely in T. cbn [cinv]. destruct c as [| |[l|]]; try contradiction.
      + destruct T as [x [-> T]]. cbn in El. exists l. split; [reflexivity|]. rewrite J. apply Z.ltb_ge in El. lia.
      + subst r. discriminate. }
  destruct p; cbn [step] in E; cbn [cinv] in H.
  - (* RStart *)
    subst c. destruct (st s) eqn:Es; injection E as <- <-; try (destruct (SAME s) as [S1 S2]; auto; split; [exact S1|]; split; [|exact S2]; cbn; rewrite Es; discriminate).
    destruct (G2 (G1 eq_refl)) as [A1 [A2 A3]]. split; [|split].
    + constructor; cbn; auto; try discriminate; try (rewrite A2; cbn; lia).
    + cbn. repeat split; auto; discriminate.
    + intros j Hj. pose proof (G1 eq_refl) as ON. constructor; cbn; try discriminate; auto; try congruence; try lia; try (intros; congruence).
  - (* RThread *) injection E as <- <-. destruct (SAME (setThread (Some i) s)) as [S1 S2]; auto.
  - (* RCall *) injection E as <- <-. destruct H as [H1 [H2 [H3 [H4 [H5 H6]]]]]. split; [|split].
    + constructor; cbn; auto; try congruence; try (rewrite H3; cbn; lia); try (intro D; destruct H6; congruence).
    + cbn. rewrite H3. repeat split; auto; apply H6.
    + intros j Hj. constructor; cbn; auto; try congruence; try lia.
  - (* RCalling *) injection E as <- <-. destruct H as [H1 [H2 [H3 [H4 [H5 H6]]]]]. split; [|split].
    + constructor; cbn; auto; try congruence; try (rewrite H4; cbn; lia); try (intro D; destruct H6; congruence).
    + cbn. rewrite H4. repeat split; auto; apply H6.
    + intros j Hj. constructor; cbn; auto; try congruence; try (intro D; destruct H6; congruence); try lia.
  - (* RStore *) rename o0 into x. injection E as <- <-. destruct H as [H1 [H2 [H3 [H4 [H5 H6]]]]]. split; [|split].
    + constructor; cbn; auto; try congruence; try (intro D; destruct H6; congruence).
    + cbn. split; [exact H1|]. split; [exact H2|]. split; [exact H3|]. split; [|exact H6]. exists x. split; [exact H4|]. unfold stored. destruct x; cbn; auto.
    + intros j Hj. constructor; cbn; auto; try congruence; try (intro D; destruct H6; congruence); try lia.
  - (* RDone *) destruct H as [H1 [H2 [H3 [H4 H5]]]].
    destruct (st s) eqn:Es; injection E as <- <-;
      try (destruct (SAME s) as [S1 S2]; auto; split; [exact S1|]; split; [|exact S2]; cbn; rewrite ?Es; repeat match goal with |- _ /\ _ => split end; auto; discriminate).
    split; [|split].
    + constructor; cbn; auto; try congruence.
    + cbn. repeat match goal with |- _ /\ _ => split end; auto; discriminate.
    + intros j Hj. constructor; cbn; auto; try congruence; try lia.
  - (* RTest *) destruct H as [H1 [H2 [H3 [H4 [H5 H6]]]]]. injection E as <- <-. destruct (SAME s) as [S1 S2]; auto. split; [exact S1|]. split; [|exact S2].
    destruct (st s) eqn:Es; cbn; rewrite ?Es; repeat match goal with |- _ /\ _ => split end; auto; discriminate.
  - (* RSleep *) destruct (mem i (interrupted s)); [|discriminate]. injection E as <- <-.
    destruct (SAME (setInterrupted (del i (interrupted s)) s)) as [S1 S2]; auto. split; [exact S1|]. split; [|exact S2].
    destruct H as [H1 [H2 [H3 [H4 [H5 H6]]]]]. cbn. destruct H5. auto 8.
  - (* RClear *) injection E as <- <-. destruct (SAME (setInterrupted (del i (interrupted s)) s)) as [S1 S2]; auto.
  - (* RNotify *) destruct (lock s); [discriminate|]. injection E as <- <-. destruct (SAME (setLock None [] s)) as [S1 S2]; auto.
  - (* RNull *) injection E as <- <-. destruct (SAME (setThread None s)) as [S1 S2]; auto. split; [exact S1|]. split; [|exact S2].
    destruct H as [H1 [H2 [H3 [H4 [H5 H6]]]]]. subst c. cbn. auto.
  - (* CNew *) destruct H as [b ->].
    destruct (st s) eqn:Es; injection E as <- <-;
      try (destruct (SAME s) as [S1 S2]; auto; split; [exact S1|]; split; [|exact S2]; destruct b; cbn; rewrite ?Es;
           repeat match goal with |- _ /\ _ => split end; auto; intros; discriminate).
    split; [|split].
    + constructor; cbn; auto; try discriminate.
    + cbn. eauto.
    + intros j Hj. pose proof (G1 eq_refl) as ON. constructor; cbn; try discriminate; auto; try congruence; try lia; try (intros; congruence).
  - (* CNotify *) destruct (lock s); [discriminate|]. injection E as <- <-. destruct (SAME (setLock None [] s)) as [S1 S2]; auto. split; [exact S1|]. split; [|exact S2].
    destruct H as [[b ->] [H2 H3]]. cbn. rewrite H2. repeat split; auto; try discriminate.
  - (* CRunning *) destruct H as [-> H2].
    destruct (st s) eqn:Es; injection E as <- <-;
      try (destruct (SAME s) as [S1 S2]; auto; split; [exact S1|]; split; [|exact S2]; cbn; rewrite ?Es; repeat match goal with |- _ /\ _ => split end; auto; intros; discriminate).
    assert (O : owner s <> None) by (intro O; destruct (G6 O); discriminate).
    split; [|split].
    + constructor; cbn; auto; try discriminate. congruence.
    + cbn. repeat match goal with |- _ /\ _ => split end; auto.
    + intros j Hj. constructor; cbn; auto; try congruence; try lia; try (intros; discriminate).
  - (* CThread *) injection E as <- <-. destruct (SAME s) as [S1 S2]; auto. split; [exact S1|]. split; [|exact S2]. destruct (thread s); exact H.
  - (* CInterrupt *) injection E as <- <-. destruct (SAME (setInterrupted (t :: interrupted s) s)) as [S1 S2]; auto.
  - (* CSet *) injection E as <- <-. destruct H as [-> [H2 H3]]. split; [|split].
    + constructor; cbn; auto; try discriminate.
    + cbn. repeat match goal with |- _ /\ _ => split end; auto; discriminate.
    + intros j Hj. constructor; cbn; auto; try congruence; try lia; try (intros; discriminate); try (intro D; destruct H2; congruence).
  - (* GStart *) injection E as <- <-. destruct (SAME s) as [S1 S2]; auto. split; [exact S1|]. split; [|exact S2]. cbn. split; [exact H|lia].
  - (* GEnter *) rename s0 into b. destruct (lock s); [discriminate|]. injection E as <- <-. destruct (SAME (setLock (Some i) (waiting s) s)) as [S1 S2]; auto. split; [exact S1|]. split; [|exact S2].
    destruct H as [[l ->] H]. cbn. destruct l as [t|]; auto. exists t. split; [reflexivity|]. lia.
  - (* GDone *) destruct (st s) eqn:Es; injection E as <- <-;
      try (destruct (SAME s) as [S1 S2]; auto; fail).
    destruct (SAME (setLock None (waiting s) s)) as [S1 S2]; auto.
  - (* GCanc *) rename s0 into b.
    assert (U : forall x, (left_ r = true -> st s = Done \/ st s = Canceled) -> Some x = Some (s', p') -> x = (setLock None (waiting s) s, afterLoop b r) ->
       ginv s' /\ cinv s' i c p' /\ forall j, j <> i -> chg j s s').
    { intros x L X Y. rewrite Y in X. injection X as <- <-. destruct (SAME (setLock None (waiting s) s)) as [S1 S2]; auto. }
    assert (V : forall x, Some x = Some (s', p') -> x = (s, GWait b r) -> ginv s' /\ cinv s' i c p' /\ forall j, j <> i -> chg j s s').
    { intros x X Y. rewrite Y in X. injection X as <- <-. destruct (SAME s) as [S1 S2]; auto. }
    destruct (st s) eqn:Es; try (destruct (left_ r) eqn:El; [eapply V; [exact E|reflexivity]|eapply U; [discriminate|exact E|reflexivity]]).
    eapply U; [auto|exact E|reflexivity].
  - (* GWait *) assert (X : exists l, c = Get l) by (unfold timely in H; destruct c; try contradiction; eauto).
    destruct (mem i (interrupted s)); injection E as <- <-.
    + destruct (SAME (setLock None (waiting s) (setInterrupted (del i (interrupted s)) s))) as [S1 S2]; auto. split; [exact S1|]. split; [|exact S2]. destruct X as [l ->]. exact I.
    + destruct (SAME (setLock None (i :: waiting s) s)) as [S1 S2]; auto.
  - (* GSleep *) destruct (mem i (interrupted s)); [|destruct (mem i (waiting s)); cbn [negb] in E; [destruct u as [u|]; [|discriminate]; destruct (Z.leb u (now s)); [|discriminate]|]];
      injection E as <- <-.
    + destruct (SAME (setLock (lock s) (del i (waiting s)) (setInterrupted (del i (interrupted s)) s))) as [S1 S2]; auto.
    + destruct (SAME (setLock (lock s) (del i (waiting s)) s)) as [S1 S2]; auto.
    + destruct (SAME s) as [S1 S2]; auto.
  - (* GBack *) rename s0 into b. destruct (lock s); [discriminate|]. injection E as <- <-. destruct (SAME (setLock (Some i) (waiting s) s)) as [S1 S2]; auto. split; [exact S1|]. split; [|exact S2].
    destruct H as [l ->]. cbn. destruct l as [t|]; auto. eexists. split; [reflexivity|]. lia.
  - (* GBackInt *) destruct (lock s); [discriminate|]. injection E as <- <-. destruct (SAME s) as [S1 S2]; auto. split; [exact S1|]. split; [|exact S2]. destruct H as [l ->]. exact I.
  - (* GState *) injection E as <- <-. destruct (SAME s) as [S1 S2]; auto. split; [exact S1|]. split; [|exact S2].
    destruct H as [[l ->] H2]. destruct (st s) eqn:Es; cbn; destruct H2 as [H2|H2]; try discriminate; eauto.
  - (* GFailure *) injection E as <- <-. destruct (SAME s) as [S1 S2]; auto. split; [exact S1|]. split; [|exact S2].
    destruct H as [[l ->] H2]. destruct (G5 H2) as [o' [R1 R2]]. destruct (failure s) eqn:Ef; cbn; eauto.
    split; [exact H2|]. rewrite R1. destruct o'; cbn in R2; rewrite Ef in R2; [destruct R2; discriminate|congruence].
  - (* GResult *) injection E as <- <-. destruct (SAME s) as [S1 S2]; auto. split; [exact S1|]. split; [|exact S2].
    destruct H as [[l ->] [H2 H3]]. destruct (G5 H2) as [o' [R1 R2]]. cbn. split; [exact H2|]. rewrite R1. destruct o'; cbn in R2; rewrite H3 in R2; [|discriminate].
    destruct R2 as [<- _]. reflexivity.
  - discriminate.
Qed.

(** ** All calls together *)

Definition upd (i : nat) (x : operation * place) (l : list (operation * place)) := firstn i l ++ x :: skipn (S i) l.
Lemma nth_upd i x l j : i < length l -> nth_error (upd i x l) j = if Nat.eqb j i then Some x else nth_error l j.
Proof.
  intro H. unfold upd. assert (L : length (firstn i l) = i) by (rewrite firstn_length; lia).
  destruct (Nat.eqb_spec j i).
  - subst j. rewrite nth_error_app2 by lia. rewrite L, Nat.sub_diag. reflexivity.
  - destruct (Nat.lt_ge_cases j i).
    + rewrite nth_error_app1 by lia. rewrite <- (firstn_skipn i l) at 2. rewrite nth_error_app1 by lia. reflexivity.
    + rewrite nth_error_app2 by lia. rewrite L. replace (j - i) with (S (j - S i)) by lia. cbn [nth_error].
      rewrite <- (firstn_skipn (S i) l) at 2. rewrite nth_error_app2 by (rewrite firstn_length; lia). rewrite firstn_length.
      f_equal. lia.
Qed.

Definition holds (p : place) : bool := match p with GDone _ _ | GCanc _ _ | GWait _ _ => true | _ => false end.
Definition working (p : place) : bool := match p with RThread | RCall | RCalling | RStore _ | RDone => true | _ => false end.
Definition notifying (p : place) : bool := match p with RClear | RNotify | CNotify => true | _ => false end.
Definition some (f : place -> bool) (l : list (operation * place)) : Prop := exists j c p, nth_error l j = Some (c, p) /\ f p = true.
Definition fin (s : shared) : Prop := st s = Done \/ st s = Canceled.
Definition awaits (s : shared) (i : nat) (p : place) : Prop :=
  match p with
  | GCanc _ _ => st s = Done
  | GWait _ _ => fin s
  | GSleep _ _ _ => In i (waiting s) /\ fin s
  | _ => False
  end.
Definition soft (l : list (operation * place)) : Prop := forall c p, In (c, p) l -> c <> Cancel true.

Lemma some_upd f i c p c' p' l : nth_error l i = Some (c, p) -> some f l -> (f p = true -> f p' = true) -> some f (upd i (c', p') l).
Proof.
  intros E [j [cj [pj [Ej Fj]]]] K. assert (Hi : i < length l) by (apply nth_error_Some; rewrite E; discriminate).
  destruct (Nat.eq_dec j i) as [->|N].
  - exists i, c', p'. rewrite nth_upd, Nat.eqb_refl by exact Hi. split; [reflexivity|]. rewrite E in Ej. injection Ej as <- <-. auto.
  - exists j, cj, pj. rewrite nth_upd by exact Hi. destruct (Nat.eqb_spec j i); [contradiction|]. auto.
Qed.
Lemma some_here f i c' p' l : i < length l -> f p' = true -> some f (upd i (c', p') l).
Proof. intros H F. exists i, c', p'. rewrite nth_upd, Nat.eqb_refl by exact H. auto. Qed.

Ltac cases E := repeat match type of E with
  | context [match ?x with _ => _ end] => destruct x eqn:?; try discriminate
  end; try discriminate; injection E as <- <-.

Lemma step_fin i c o p s s' p' : step i c o p s = Some (s', p') -> fin s' -> fin s \/ notifying p' = true \/ exists r, p = CSet r.
Proof. intros E F. unfold fin in *. destruct p; cbn [step] in E; cases E; cbn in *; auto; eauto; try (destruct F; congruence). Qed.
Lemma step_done i c o p s s' p' : step i c o p s = Some (s', p') -> st s' = Done -> st s = Done \/ notifying p' = true.
Proof. intros E F. destruct p; cbn [step] in E; cases E; cbn in *; auto; try discriminate; try congruence. Qed.
Lemma step_waiting i c o p s s' p' j : step i c o p s = Some (s', p') -> j <> i -> In j (waiting s') -> In j (waiting s).
Proof.
  intros E N F. destruct p; cbn [step] in E; cases E; cbn in *; auto; try contradiction;
  try (unfold del in F; apply filter_In in F; apply F); destruct F; try congruence; auto.
Qed.
Lemma step_notified i c o p s s' p' : step i c o p s = Some (s', p') -> notifying p = true -> notifying p' = false -> waiting s' = [] /\ lock s = None.
Proof. intros E A B. destruct p; try discriminate A; cbn [step] in E; cases E; cbn in *; auto; discriminate. Qed.
Lemma step_lock i c o p s s' p' : step i c o p s = Some (s', p') -> (holds p = true -> lock s = Some i) ->
  (lock s' = lock s /\ holds p' = holds p) \/ (lock s = None /\ lock s' = Some i /\ holds p' = true /\ holds p = false) \/
  (lock s' = None /\ lock s = Some i /\ holds p = true /\ holds p' = false).
Proof.
  assert (AL : forall b r, holds (afterLoop b r) = false) by (intros b r; unfold afterLoop; destruct (left_ r); reflexivity).
  intros E H. destruct p; cbn [holds] in H; cbn [step] in E; cases E; cbn in *; auto 6; try congruence; try (right; right; rewrite ?AL; auto; fail).
Qed.
Lemma step_running i c o p s s' p' : step i c o p s = Some (s', p') -> st s' = Running ->
  (st s = Running /\ (working p = true -> working p' = true)) \/ working p' = true.
Proof. intros E F. destruct p; cbn [step] in E; cases E; cbn in *; auto; try discriminate; try congruence; left; split; auto; discriminate. Qed.
Lemma step_soft i c o p s s' p' : ginv s -> cinv s i c p -> c <> Cancel true -> step i c o p s = Some (s', p') ->
  st s <> Canceling -> (st s = Canceled -> owner s = None) -> st s' <> Canceling /\ (st s' = Canceled -> owner s' = None).
Proof.
  intros G H N E A B. pose proof (gNew s G) as GN. destruct p; cbn [step] in E; cbn [cinv] in H;
    try (exfalso; apply N; apply H); cases E; cbn in *; try (split; [congruence|]); auto; try congruence; try discriminate.
Qed.

Record inv (y : system) : Prop := {
  vG : ginv (sh y);
  vC : forall i c p, nth_error (calls y) i = Some (c, p) -> cinv (sh y) i c p;
  vL : forall i, lock (sh y) = Some i <-> exists c p, nth_error (calls y) i = Some (c, p) /\ holds p = true;
  vR : st (sh y) = Running -> some working (calls y);
  vS : soft (calls y) -> st (sh y) <> Canceling /\ (st (sh y) = Canceled -> owner (sh y) = None);
  vP : soft (calls y) -> forall i c p, nth_error (calls y) i = Some (c, p) -> awaits (sh y) i p -> some notifying (calls y) }.

Lemma inv_go i o y : inv y -> inv (next_ (Go i o) y).
Proof.
  intros V. cbn [next_]. destruct (nth_error (calls y) i) as [[c p]|] eqn:E; [|exact V].
  destruct (step i c o p (sh y)) as [[s' p']|] eqn:Es; [|exact V].
  destruct V as [G C L R S P]. destruct (step_ok i c o p (sh y) s' p' G (C _ _ _ E) Es) as [G' [C' K]].
  assert (Hi : i < length (calls y)) by (apply nth_error_Some; rewrite E; discriminate).
  change (firstn i (calls y) ++ (c, p') :: skipn (Datatypes.S i) (calls y)) with (upd i (c, p') (calls y)).
  assert (SO : soft (upd i (c, p') (calls y)) -> soft (calls y)).
  { intros H c0 p0 I. apply In_nth_error in I. destruct I as [j Ej]. destruct (Nat.eq_dec j i) as [->|N].
    - rewrite E in Ej. injection Ej as <- <-. apply (H c p'). apply nth_error_In with i. rewrite nth_upd, Nat.eqb_refl by exact Hi. reflexivity.
    - apply (H c0 p0). apply nth_error_In with j. rewrite nth_upd by exact Hi. destruct (Nat.eqb_spec j i); [contradiction|exact Ej]. }
  assert (HL : holds p = true -> lock (sh y) = Some i) by (intro H; apply L; eauto).
  constructor; cbn [sh calls].
  - exact G'.
  - intros j c0 p0. rewrite nth_upd by exact Hi. destruct (Nat.eqb_spec j i) as [->|N].
    + intro X. injection X as <- <-. exact C'.
    + intro X. apply (cinv_chg (sh y) s' j c0 p0 (K j N)). apply C. exact X.
  - intro j. rewrite nth_upd by exact Hi.
    destruct (step_lock _ _ _ _ _ _ _ Es HL) as [[A B]|[[A [B [D F]]]|[A [B [D F]]]]].
    + rewrite A, (L j). destruct (Nat.eqb_spec j i) as [->|N]; [|reflexivity]. split; intros [c0 [p0 [X Y]]].
      * exists c, p'. rewrite E in X. injection X as <- <-. rewrite B. auto.
      * injection X as <- <-. exists c, p. rewrite <- B. auto.
    + rewrite B. destruct (Nat.eqb_spec j i) as [->|N].
      * split; intros _; [eauto|reflexivity].
      * split; [congruence|]. intro X. apply L in X. congruence.
    + rewrite A. destruct (Nat.eqb_spec j i) as [->|N].
      * split; [discriminate|]. intros [c0 [p0 [X Y]]]. injection X as <- <-. congruence.
      * split; [discriminate|]. intro X. apply L in X. congruence.
  - intro Z0. destruct (step_running _ _ _ _ _ _ _ Es Z0) as [[A B]|A].
    + apply some_upd with (c := c) (p := p); auto.
    + apply some_here; auto.
  - intro Z0. specialize (SO Z0). destruct (S SO) as [S1 S2].
    apply (step_soft i c o p (sh y) s' p' G (C _ _ _ E)); auto. apply (SO c p). apply nth_error_In with i. exact E.
  - intros Z0 j c0 p0 X W. specialize (SO Z0).
    assert (NC : c <> Cancel true) by (apply (SO c p); apply nth_error_In with i; exact E).
    assert (NS : forall r, p <> CSet r) by (intros r ->; pose proof (C _ _ _ E) as H; cbn in H; destruct H as [H _]; contradiction).
    destruct (notifying p') eqn:Np; [apply some_here; auto|].
    assert (OLD : forall k ck pk, nth_error (calls y) k = Some (ck, pk) -> awaits (sh y) k pk ->
                  (notifying p = true -> awaits s' k pk -> k = i) -> k = i \/ awaits s' k pk -> some notifying (upd i (c, p') (calls y))).
    { intros k ck pk Xk Wk F OR. apply some_upd with (c := c) (p := p); [exact E|apply (P SO k ck pk Xk Wk)|].
      intro Np'. exfalso. destruct (step_notified _ _ _ _ _ _ _ Es Np' Np) as [Q1 Q2].
      destruct OR as [->|OR].
      - rewrite E in Xk. injection Xk as <- <-. destruct p; try discriminate Np'; exact Wk.
      - pose proof (F Np' OR) as ->. rewrite E in Xk. injection Xk as <- <-. destruct p; try discriminate Np'; exact Wk. }
    rewrite nth_upd in X by exact Hi. destruct (Nat.eqb_spec j i) as [->|N].
    + injection X as <- <-.
      assert (AP : awaits (sh y) i p).
      { clear -Es W. destruct p; cbn [step] in Es; unfold afterLoop in Es; cases Es; cbn in *; unfold fin in *; try contradiction; try congruence; try tauto; try (destruct W; congruence); try (destruct W; contradiction);
          try (split; [tauto|]); try tauto. }
      apply (OLD i c p E AP); auto.
    + assert (AP : awaits (sh y) j p0).
      { destruct p0; cbn in *; try contradiction.
        - destruct (step_done _ _ _ _ _ _ _ Es W); [assumption|congruence].
        - destruct (step_fin _ _ _ _ _ _ _ Es W) as [A|[A|[rr A]]]; [assumption|congruence|exfalso; apply (NS rr A)].
        - destruct W as [W1 W2]. split; [apply (step_waiting _ _ _ _ _ _ _ _ Es N W1)|].
          destruct (step_fin _ _ _ _ _ _ _ Es W2) as [A|[A|[rr A]]]; [assumption|congruence|exfalso; apply (NS rr A)]. }
      apply (OLD j c0 p0 X AP); [|auto]. intros Np' _. exfalso. destruct (step_notified _ _ _ _ _ _ _ Es Np' Np) as [Q1 Q2].
      assert (HJ : holds p0 = true -> lock (sh y) = Some j) by (intro H; apply L; eauto).
      destruct p0; cbn in *; try contradiction; try (specialize (HJ eq_refl); congruence).
      destruct W as [W _]. rewrite Q1 in W. exact W.
Qed.

Lemma inv_other y s' : inv y -> ginv s' -> (forall j, chg j (sh y) s') -> st s' = st (sh y) -> lock s' = lock (sh y) -> owner s' = owner (sh y) ->
  waiting s' = waiting (sh y) -> inv {| sh := s'; calls := calls y |}.
Proof.
  intros [G C L R S P] G' K A B D W. constructor; cbn [sh calls].
  - exact G'.
  - intros i c p E. apply (cinv_chg (sh y)); auto.
  - intro i. rewrite B. apply L.
  - rewrite A. exact R.
  - rewrite A, D. exact S.
  - intros Z0 i c p E X. apply (P Z0 i c p E). destruct p; cbn in *; unfold fin in *; rewrite ?A, ?W in X; exact X.
Qed.

Lemma inv_next e y : inv y -> inv (next_ e y).
Proof.
  intro V. destruct e as [c|i o|i|i|d].
  - cbn [next_]. destruct V as [G C L R S P]. 
    assert (A : forall i x, nth_error (calls y ++ [(c, start c)]) i = Some x -> nth_error (calls y) i = Some x \/ x = (c, start c)).
    { intros i x H. destruct (Nat.lt_ge_cases i (length (calls y))); [left; rewrite nth_error_app1 in H by lia; exact H|].
      right. rewrite nth_error_app2 in H by lia. destruct (i - length (calls y)); cbn in H; [congruence|]. destruct n; discriminate. }
    assert (B : forall i x, nth_error (calls y) i = Some x -> nth_error (calls y ++ [(c, start c)]) i = Some x).
    { intros i x H. rewrite nth_error_app1; [exact H|]. apply nth_error_Some. rewrite H. discriminate. }
    assert (SO : soft (calls y ++ [(c, start c)]) -> soft (calls y)).
    { intros H c0 p0 I. apply (H c0 p0). apply in_or_app. left. exact I. }
    assert (UP : forall f, some f (calls y) -> some f (calls y ++ [(c, start c)])).
    { intros f [j [cj [pj [X Y]]]]. exists j, cj, pj. split; [apply B; exact X|exact Y]. }
    constructor; cbn [sh calls].
    + exact G.
    + intros i c0 p0 H. destruct (A i _ H) as [H'|H']; [apply C; exact H'|]. injection H' as -> ->. destruct c; cbn; eauto.
    + intro i. rewrite L. split; intros [c0 [p0 [X Y]]]; [exists c0, p0; split; [apply B; exact X|exact Y]|].
      destruct (A i _ X) as [H'|H']; [eauto|]. injection H' as -> ->. destruct c; discriminate.
    + intro H. apply UP. apply R. exact H.
    + intro H. apply S. apply SO. exact H.
    + intros H i c0 p0 X W. apply UP. destruct (A i _ X) as [H'|H']; [apply (P (SO H) i c0 p0 H' W)|]. injection H' as -> ->. destruct c; destruct W.
  - apply inv_go. exact V.
  - cbn [next_]. apply inv_other; auto; [destruct (vG y V); constructor; assumption|]. intro j. constructor; cbn; auto. lia.
  - cbn [next_]. destruct (nth_error (calls y) i) as [[c []]|]; try exact V.
    apply inv_other; auto; [destruct (vG y V); constructor; assumption|]. intro j. constructor; cbn; auto. lia.
  - cbn [next_]. apply inv_other; auto; [destruct (vG y V); constructor; assumption|]. intro j. constructor; cbn; auto. lia.
Qed.

Lemma inv_run es : inv (run es).
Proof.
  unfold run. assert (I : inv {| sh := initial; calls := [] |}).
  { constructor; cbn [sh calls]; try discriminate; try (intros; discriminate); try (intros _ i; destruct i; discriminate).
    - constructor; cbn; auto; try discriminate.
    - intros i c p H. destruct i; discriminate.
    - intro i. cbn. split; [discriminate|]. intros [c [p [H _]]]. destruct i; discriminate.
    - intros _. cbn. split; [discriminate|auto]. }
  revert I. generalize {| sh := initial; calls := [] |}. induction es as [|e es IH]; intros y I; cbn; [exact I|].
  apply IH. apply inv_next. exact I.
Qed.
