(** C20, C21, C77: identity hash codes and clones. *)
From Verif Require Import Base Hash_Model Hash_Spec Hash_Proofs.
Local Open Scope Z_scope.

(** C20: in any history of allocations, writes, hash requests, clones and collections (with arbitrary moves), all hash
    codes reported for an object are equal. Clones of movable arrays with marked headers are left out, see C21. *)
Theorem C20_hash_stable : forall cl m s outs i h h',
  classes cl -> history cl (noMarkedArrayClone cl) m s outs -> In (i, h) outs -> In (i, h') outs -> h = h'.
Proof. intros cl m s outs i h h' C H A B. destruct (history_inv cl C m s outs H) as [K [_ [Co _]]]. pose proof (Co i h A). pose proof (Co i h' B). congruence. Qed.

(** In such histories objects never overlap and never outgrow the words they were given. *)
Theorem C20_objects_apart : forall cl m s outs i j p q,
  classes cl -> history cl (noMarkedArrayClone cl) m s outs -> i <> j -> addr s i = Some p -> addr s j = Some q ->
  extendedSize cl (mem s) p = ext s i /\ apart p (extendedSize cl (mem s) p) q (extendedSize cl (mem s) q).
Proof.
  intros cl m s outs i j p q C H N A B. destruct (history_inv cl C m s outs H) as [K [I _]].
  destruct (i_good cl _ _ I i p A) as [_ [_ [_ [E1 _]]]]. destruct (i_good cl _ _ I j q B) as [_ [_ [_ [E2 _]]]]. rewrite <- E1, <- E2. split; [reflexivity|]. exact (i_apart cl _ _ I i j p q N A B).
Qed.

(** C77: a clone put into memory of its own has the class and the contents of the original, everything else (the original
    included) stays as it was; the clone of an instance has a clean header whatever the header of the original, and its
    hash code is that of its own address. For arrays the same holds if the original's header is clean. *)
Theorem C77_clone : forall cl m fixed p a,
  classes cl -> (0 < elt (cl (classOf m p)) -> 0 <= m (p + words (cl (classOf m p)) - 1)) ->
  apart a (baseSize cl m p) p (baseSize cl m p) ->
  let m' := clone cl m fixed p a in
  classOf m' a = classOf m p /\ baseSize cl m' a = baseSize cl m p /\
  (forall i, 0 < i < baseSize cl m p -> m' (a + i) = m (p + i)) /\
  (forall x, ~ (a <= x < a + baseSize cl m p) -> m' x = m x) /\
  (elt (cl (classOf m p)) <= 0 \/ mark m p = (if fixed then FixedMark else 0) -> mark m' a = (if fixed then FixedMark else 0) /\ snd (objectHash cl m' a) = takeHash a).
Proof.
  intros cl m fixed p a C GL AP m'. pose proof (base_ge cl m p GL) as BW. pose proof (base_pos cl C m p GL) as BP. destruct (C (classOf m p)) as [C1 C2].
  assert (HASH : forall m1, mark m1 a = (if fixed then FixedMark else 0) -> snd (objectHash cl m1 a) = takeHash a).
  { intros m1 M. unfold objectHash, objectExtended. rewrite M. destruct fixed; reflexivity. }
  unfold m', clone. destruct (Z.ltb_spec 0 (elt (cl (classOf m p)))) as [Lt | Lt].
  - specialize (C2 Lt). set (m1 := memcpy (allocate m fixed a (baseSize cl m p)) a p (baseSize cl m p)).
    assert (OUT : forall y, ~ (a <= y < a + baseSize cl m p) -> m1 y = m y).
    { intros y Hy. unfold m1, memcpy, allocate, put, fill. destruct (Z.leb_spec a y), (Z.ltb_spec y (a + baseSize cl m p)); cbn; try lia; destruct (Z.eqb_spec y a); try lia; reflexivity. }
    assert (SRC : forall y, p <= y < p + baseSize cl m p -> allocate m fixed a (baseSize cl m p) y = m y).
    { intros y Hy. unfold allocate, put, fill. destruct (Z.eqb_spec y a); [destruct AP; lia|]. destruct (Z.leb_spec a y), (Z.ltb_spec y (a + baseSize cl m p)); cbn; try reflexivity. destruct AP; lia. }
    assert (D : forall k, 0 <= k < baseSize cl m p -> setObjectClass m1 p (classOf m1 p) (a + k) = m (p + k)).
    { intros k Hk. unfold setObjectClass, put. destruct (Z.eqb_spec (a + k) p); [destruct AP; lia|]. unfold m1, memcpy.
      destruct (Z.leb_spec a (a + k)), (Z.ltb_spec (a + k) (a + baseSize cl m p)); cbn; try lia. replace (p + (a + k - a)) with (p + k) by lia. apply SRC. lia. }
    set (m2 := setObjectClass m1 p (classOf m1 p)) in *.
    assert (HH : m2 a = m p) by (replace a with (a + 0) at 1 by lia; rewrite D by lia; f_equal; lia).
    assert (Ec : classOf m2 a = classOf m p) by (unfold classOf; rewrite HH; reflexivity).
    split; [exact Ec|]. split.
    { apply base_eq; [exact Ec|]. intros _. unfold len. rewrite Ec. replace (a + words (cl (classOf m p)) - 1) with (a + (words (cl (classOf m p)) - 1)) by lia. rewrite D by lia. f_equal. lia. }
    split; [intros i Hi; apply D; lia|]. split.
    + intros x Hx. unfold m2, setObjectClass, put, classOf. destruct (Z.eqb_spec x p) as [-> | _]; [|apply OUT; exact Hx]. rewrite <- (OUT p) by exact Hx. pose proof (Z.div_mod (m1 p) 8). lia.
    + intros [E | E]; [lia|]. assert (M : mark m2 a = (if fixed then FixedMark else 0)) by (unfold mark in *; rewrite HH; exact E). split; [exact M | exact (HASH _ M)].
  - assert (BE : baseSize cl m p = sizeOf cl (classOf m p) 0) by (symmetry; apply size_base; [reflexivity | lia]).
    set (m1 := make cl m fixed a (classOf m p) 0).
    assert (OUT : forall y, ~ (a <= y < a + baseSize cl m p) -> m1 y = m y) by (intros y Hy; apply make_out; [exact C | lia | rewrite <- BE; exact Hy]).
    assert (HH : memcpy m1 (a + 1) (p + 1) (baseSize cl m p - 1) a = 8 * classOf m p + (if fixed then 3 else 0)).
    { unfold memcpy. destruct (Z.leb_spec (a + 1) a); [lia|]. apply make_header. exact C. }
    destruct (header_parts (classOf m p) (if fixed then 3 else 0)) as [E1 E2]; [destruct fixed; lia|]. set (m2 := memcpy m1 (a + 1) (p + 1) (baseSize cl m p - 1)) in *.
    assert (Ec : classOf m2 a = classOf m p) by (unfold classOf at 1; rewrite HH; exact E1).
    split; [exact Ec|]. split; [apply base_eq; [exact Ec | lia]|]. split.
    { intros i Hi. unfold m2, memcpy. destruct (Z.leb_spec (a + 1) (a + i)), (Z.ltb_spec (a + i) (a + 1 + (baseSize cl m p - 1))); cbn; try lia. replace (p + 1 + (a + i - (a + 1))) with (p + i) by lia. apply OUT. destruct AP; lia. }
    split.
    + intros x Hx. unfold m2, memcpy. destruct (Z.leb_spec (a + 1) x), (Z.ltb_spec x (a + 1 + (baseSize cl m p - 1))); cbn; try lia; apply OUT; exact Hx.
    + intros _. assert (M : mark m2 a = (if fixed then FixedMark else 0)) by (unfold mark; rewrite HH; exact E2). split; [exact M | exact (HASH _ M)].
Qed.

Definition exampleClasses (c : Z) : cdesc := if c =? 1 then Cd 2 1 else Cd 3 0.   (* 1: byte[]; others: two fields *)
Lemma exampleClasses_ok : classes exampleClasses.
Proof. intros c. unfold exampleClasses. destruct (c =? 1); cbn; lia. Qed.
(** C21: an array whose hash was taken and which then moved is cloned together with its "extended" mark, so the clone has
    a hash word it was never given: its hash code is whatever lies behind it. Here the clone (object 1) is followed by object
    2; hashing object 2 changes the hash code of object 1. *)
Definition move0 : nat -> option Z := fun i => match i with O => Some 200 | _ => None end.
Definition h1 := fst (apply exampleClasses (start (fun _ => 0)) (New false 100 1 0)).
Definition h2 := fst (apply exampleClasses h1 (Hash 0)).
Definition h3 := fst (apply exampleClasses h2 (Collect move0)).
Definition h4 := fst (apply exampleClasses h3 (Clone false 0 300)).
Definition h5 := fst (apply exampleClasses h4 (New false 302 2 0)).
Definition h6 := fst (apply exampleClasses h5 (Hash 1)).
Definition h7 := fst (apply exampleClasses h6 (Hash 2)).
Definition h8 := fst (apply exampleClasses h7 (Hash 1)).
Lemma fail_history : history exampleClasses (fun _ _ => True) (fun _ => 0) h8 [(0%nat, 100); (1%nat, 16); (2%nat, 302); (1%nat, 17)].
Proof.
  assert (H1 : history exampleClasses (fun _ _ => True) (fun _ => 0) h1 []).
  { apply (h_step _ _ _ (start (fun _ => 0)) [] (New false 100 1 0)); [apply h_start | | exact I]. cbn. split; [lia|]. split; [lia|]. intros i p A. discriminate. }
  assert (H2 : history exampleClasses (fun _ _ => True) (fun _ => 0) h2 [(0%nat, 100)]).
  { exact (h_step _ _ _ h1 [] (Hash 0) H1 I I). }
  assert (H3 : history exampleClasses (fun _ _ => True) (fun _ => 0) h3 [(0%nat, 100)]).
  { apply (h_step _ _ _ h2 [(0%nat, 100)] (Collect move0) H2); [|exact I]. split.
    - intros [|i] p q A D N; [|discriminate]. vm_compute in A, D. inversion A; inversion D; subst. split; [reflexivity|]. intros [|j] r B; [|discriminate]. vm_compute in B. inversion B; subst. right. vm_compute. discriminate.
    - intros [|i] [|j] p p' q q' N; intros; try congruence; discriminate. }
  assert (H4 : history exampleClasses (fun _ _ => True) (fun _ => 0) h4 [(0%nat, 100)]).
  { apply (h_step _ _ _ h3 [(0%nat, 100)] (Clone false 0 300) H3); [|exact I]. intros p A. vm_compute in A. inversion A; subst. intros [|j] r B; [|discriminate]. vm_compute in B. inversion B; subst. right. vm_compute. discriminate. }
  assert (H5 : history exampleClasses (fun _ _ => True) (fun _ => 0) h5 [(0%nat, 100)]).
  { apply (h_step _ _ _ h4 [(0%nat, 100)] (New false 302 2 0) H4); [|exact I]. split; [lia|]. split; [lia|]. intros [|[|j]] r B; [| |discriminate]; vm_compute in B; inversion B; subst; right; vm_compute; discriminate. }
  pose proof (h_step _ _ _ h5 [(0%nat, 100)] (Hash 1) H5 I I) as H6.
  pose proof (h_step _ _ _ h6 _ (Hash 2) H6 I I) as H7. exact (h_step _ _ _ h7 _ (Hash 1) H7 I I).
Qed.
Theorem C21_array_clone_refuted :
  exists cl m s outs i h h', classes cl /\ history cl (fun _ _ => True) m s outs /\ In (i, h) outs /\ In (i, h') outs /\ h <> h'.
Proof.
  exists exampleClasses, (fun _ => 0), h8, [(0%nat, 100); (1%nat, 16); (2%nat, 302); (1%nat, 17)], 1%nat, 16, 17.
  split; [exact exampleClasses_ok|]. split; [exact fail_history|]. cbn. repeat split; auto; discriminate.
Qed.
(** Already a fresh clone carries the mark, and its hash code depends on the original's history: with the hash of the
    original never taken, the same clone at the same place answers 300. *)
Theorem C21_clone_marks_refuted :
  exists cl m m' p a, classes cl /\ (forall x, x <> p -> m' x = m x) /\ classOf m' p = classOf m p /\ apart a (baseSize cl m p) p (baseSize cl m p) /\
    mark (clone cl m false p a) a = ExtendedMark /\ snd (objectHash cl (clone cl m false p a) a) <> snd (objectHash cl (clone cl m' false p a) a).
Proof.
  exists exampleClasses, (mem h3), (put (mem h3) 200 8), 200, 300. split; [exact exampleClasses_ok|].
  split; [intros x H; unfold put; destruct (Z.eqb_spec x 200); congruence|]. split; [reflexivity|]. split; [right; vm_compute; discriminate|]. split; [reflexivity|]. vm_compute. discriminate.
Qed.

(** Non-vacuity for C20: an object is hashed, moved, written to, moved again and hashed, while a clone of it is hashed too. *)
Definition move1 : nat -> option Z := fun i => match i with O => Some 400 | 1%nat => Some 300 | _ => None end.
Definition g1 := fst (apply exampleClasses (start (fun _ => 0)) (New false 100 2 0)).
Definition g2 := fst (apply exampleClasses g1 (Hash 0)).
Definition g3 := fst (apply exampleClasses g2 (Collect move0)).
Definition g4 := fst (apply exampleClasses g3 (Write 0 2 77)).
Definition g5 := fst (apply exampleClasses g4 (Clone false 0 300)).
Definition g6 := fst (apply exampleClasses g5 (Collect move1)).
Definition g7 := fst (apply exampleClasses g6 (Hash 0)).
Definition g8 := fst (apply exampleClasses g7 (Hash 1)).
Example C20_history : history exampleClasses (noMarkedArrayClone exampleClasses) (fun _ => 0) g8 [(0%nat, 100); (0%nat, 100); (1%nat, 300)].
Proof.
  set (X := noMarkedArrayClone exampleClasses).
  assert (H1 : history exampleClasses X (fun _ => 0) g1 []).
  { apply (h_step _ _ _ (start (fun _ => 0)) [] (New false 100 2 0)); [apply h_start | | exact I]. cbn. split; [lia|]. split; [lia|]. intros i p A. discriminate. }
  assert (H2 : history exampleClasses X (fun _ => 0) g2 [(0%nat, 100)]).
  { exact (h_step _ _ _ g1 [] (Hash 0) H1 I I). }
  assert (H3 : history exampleClasses X (fun _ => 0) g3 [(0%nat, 100)]).
  { apply (h_step _ _ _ g2 [(0%nat, 100)] (Collect move0) H2); [|exact I]. split.
    - intros [|i] p q A D N; [|discriminate]. vm_compute in A, D. inversion A; inversion D; subst. split; [reflexivity|]. intros [|j] r B; [|discriminate]. vm_compute in B. inversion B; subst. right. vm_compute. discriminate.
    - intros [|i] [|j] p p' q q' N; intros; try congruence; discriminate. }
  assert (H4 : history exampleClasses X (fun _ => 0) g4 [(0%nat, 100)]).
  { apply (h_step _ _ _ g3 [(0%nat, 100)] (Write 0 2 77) H3); [|exact I]. intros p A. vm_compute in A. inversion A; subst. vm_compute. repeat split; intros; discriminate. }
  assert (H5 : history exampleClasses X (fun _ => 0) g5 [(0%nat, 100)]).
  { apply (h_step _ _ _ g4 [(0%nat, 100)] (Clone false 0 300) H4).
    - intros p A. vm_compute in A. inversion A; subst. intros [|j] r B; [|discriminate]. vm_compute in B. inversion B; subst. right. vm_compute. discriminate.
    - intros p A L. vm_compute in A. inversion A; subst. vm_compute in L. discriminate. }
  assert (H6 : history exampleClasses X (fun _ => 0) g6 [(0%nat, 100)]).
  { apply (h_step _ _ _ g5 [(0%nat, 100)] (Collect move1) H5); [|exact I]. split.
    - intros [|[|i]] p q A D N; [| |discriminate]; vm_compute in A, D; inversion A; inversion D; subst; [|congruence]. split; [reflexivity|].
      intros [|[|j]] r B; [| |discriminate]; vm_compute in B; inversion B; subst; right; vm_compute; discriminate.
    - intros [|[|i]] [|[|j]] p p' q q' N A B D E; try congruence; try discriminate; vm_compute in A, B, D, E; inversion A; inversion B; inversion D; inversion E; subst; congruence. }
  pose proof (h_step _ _ _ g6 _ (Hash 0) H6 I I) as H7. exact (h_step _ _ _ g7 _ (Hash 1) H7 I I).
Qed.

Definition hash_theorems := (C20_hash_stable, C20_objects_apart, C77_clone, C21_array_clone_refuted, C21_clone_marks_refuted).
Print Assumptions hash_theorems.
