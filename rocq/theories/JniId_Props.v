(** C157: the ids JNI hands out for fields and methods. *)
From Coq Require Import List Arith Bool Lia.
From Verif Require Import JniId_Model JniId_Proofs.
Import ListNotations.

(** In every schedule of any number of threads that ask for ids and use ids they were given:
    an id that was issued is not 0; *)
Theorem C157_ids_not_null : forall l f id, In (f, id) (issued (run l initial)) -> id <> 0.
Proof. intros l f id H. exact (proj1 (gIssued _ (good_run l _ good_initial) _ _ H)). Qed.
(** a field has one id, however often and by whomever it is asked for; *)
Theorem C157_one_id : forall l f id id', In (f, id) (issued (run l initial)) -> In (f, id') (issued (run l initial)) -> id = id'.
Proof.
  intros l f id id' H H'. destruct (gIssued _ (good_run l _ good_initial) _ _ H) as (_ & E).
  destruct (gIssued _ (good_run l _ good_initial) _ _ H') as (_ & E'). congruence.
Qed.
(** different fields have different ids; *)
Theorem C157_ids_differ : forall l f g id, In (f, id) (issued (run l initial)) -> In (g, id) (issued (run l initial)) -> f = g.
Proof.
  intros l f g id H H'. pose proof (good_run l _ good_initial) as G.
  destruct (gIssued _ G _ _ H) as (Z & E). destruct (gIssued _ G _ _ H') as (_ & E'). destruct id as [|k]; [congruence|].
  exact (valid_inj _ _ _ _ _ (gValid _ G) E E').
Qed.
(** and whoever uses an id, while others make the table grow, finds the field it was issued
    for, and reads nothing outside the table. *)
Theorem C157_id_finds_field : forall l f x, In (f, x) (used (run l initial)) -> x = Some (Some f).
Proof. intros l f x H. exact (gUsed _ (good_run l _ good_initial) _ _ H). Qed.
(** An id stays what it was: what is issued later agrees. *)
Theorem C157_ids_stay : forall l m f id, In (f, id) (issued (run l initial)) -> nid (run (l ++ m) initial) f = id.
Proof.
  intros l m f id H. assert (E : run (l ++ m) initial = run m (run l initial)).
  { clear H. generalize initial. induction l as [|a l IH]; intros s; [reflexivity|]. cbn [app run]. apply IH. }
  assert (K : forall m s, In (f, id) (issued s) -> In (f, id) (issued (run m s))).
  { clear. induction m as [|a m IH]; intros s H; [exact H|]. cbn [run]. apply IH.
    destruct (do_ a s) as [s'|] eqn:E; [|exact H].
    destruct a as [t g|t g i|t]; cbn [do_] in E.
    - destruct (at_ s t); try discriminate. injection E as <-. exact H.
    - destruct (at_ s t); try discriminate. destruct (existsb _ _); [|discriminate]. injection E as <-. exact H.
    - unfold step in E. destruct (at_ s t); try discriminate; try (injection E as <-; exact H); try (injection E as <-; right; exact H).
      + destruct (lock s); [discriminate|]. injection E as <-. exact H.
      + destruct (_ =? _); injection E as <-; exact H. }
  pose proof (K m _ H) as H'. rewrite <- E in H'.
  exact (proj2 (gIssued _ (good_run (l ++ m) _ good_initial) _ _ H')).
Qed.
(** Nobody is stuck: a thread that is not idle can go on, or waits for one that can. *)
Theorem C157_no_deadlock : forall l t, at_ (run l initial) t <> Idle ->
  step t (run l initial) <> None \/ exists u, lock (run l initial) = Some u /\ step u (run l initial) <> None.
Proof.
  intros l t H. pose proof (good_run l _ good_initial) as G. set (s := run l initial) in *. clearbody s.
  assert (X : forall u, at_ s u <> Idle -> (forall f, at_ s u <> Lock f) -> step u s <> None).
  { intros u A B. unfold step. destruct (at_ s u) eqn:E; try congruence; try discriminate.
    destruct (_ =? _); discriminate. }
  destruct (at_ s t) eqn:E; try (left; apply X; [congruence|intros; congruence]); try congruence.
  destruct (lock s) as [u|] eqn:L.
  - right. exists u. split; [reflexivity|]. apply (gLock s G) in L. apply X; destruct (at_ s u); discriminate || congruence.
  - left. unfold step. rewrite E, L. discriminate.
Qed.

(** Two threads ask for the same field at once, a third for another; then they use the ids. *)
Example C157_demo :
  let l := [Ask 0 7; Ask 1 7; Ask 2 9; Step 0; Step 1; Step 2; Step 1; Step 0]
             ++ repeat (Step 1) 8 ++ [Step 0; Step 0; Step 0; Step 0] ++ repeat (Step 2) 9
             ++ [UseId 0 7 1; UseId 1 9 2; Step 0; Step 1; Step 0; Step 1] in
  issued (run l initial) = [(9, 2); (7, 1); (7, 1)] /\ used (run l initial) = [(9, Some (Some 9)); (7, Some (Some 7))].
Proof. vm_compute. auto. Qed.

Definition JniId_theorems := (C157_ids_not_null, C157_one_id, C157_ids_differ, C157_id_finds_field, C157_ids_stay, C157_no_deadlock).
Print Assumptions JniId_theorems.
