(** Shared lemmas about lists and numbers.  No model content. *)
From Coq Require Export NArith ZArith List Bool Lia Permutation Arith.
From Coq Require Export ZifyBool ZifyNat ZifyN.
Export ListNotations.
Ltac Zify.zify_post_hook ::= Z.div_mod_to_equations.

Lemma nth_error_split' : forall {A} (l : list A) i x,
  nth_error l i = Some x -> exists l1 l2, l = l1 ++ x :: l2 /\ length l1 = i.
Proof. intros A l i x H. apply nth_error_split in H. exact H. Qed.

Lemma nth_error_lt_ex : forall {A} (l : list A) i, i < length l -> exists x, nth_error l i = Some x.
Proof.
  intros A l i H. destruct (nth_error l i) eqn:E; eauto.
  apply nth_error_None in E. lia.
Qed.

Lemma filter_length_le : forall {A} (f : A -> bool) l, length (filter f l) <= length l.
Proof. intros A f l; induction l as [|x l IH]; simpl; [lia|]. destruct (f x); simpl; lia. Qed.

Lemma Permutation_filter' : forall {A} (f : A -> bool) l l',
  Permutation l l' -> Permutation (filter f l) (filter f l').
Proof.
  intros A f l l' H; induction H; simpl.
  - constructor.
  - destruct (f x); [constructor|]; assumption.
  - destruct (f y), (f x); try reflexivity; constructor.
  - etransitivity; eassumption.
Qed.

Lemma filter_filter : forall {A} (f g : A -> bool) l,
  filter f (filter g l) = filter (fun x => f x && g x) l.
Proof.
  intros A f g l; induction l as [|x l IH]; simpl; [reflexivity|].
  destruct (g x); simpl; destruct (f x); simpl; rewrite ?IH; reflexivity.
Qed.

Lemma filter_ext_in' : forall {A} (f g : A -> bool) l,
  (forall x, In x l -> f x = g x) -> filter f l = filter g l.
Proof. intros; apply filter_ext_in; assumption. Qed.

Lemma filter_all : forall {A} (f : A -> bool) l, (forall x, In x l -> f x = true) -> filter f l = l.
Proof.
  intros A f l; induction l as [|x l IH]; simpl; intros H; [reflexivity|].
  rewrite (H x) by auto. f_equal. apply IH. auto.
Qed.

Lemma filter_none : forall {A} (f : A -> bool) l, (forall x, In x l -> f x = false) -> filter f l = [].
Proof.
  intros A f l; induction l as [|x l IH]; simpl; intros H; [reflexivity|].
  rewrite (H x) by auto. apply IH. auto.
Qed.

Lemma find_none_iff : forall {A} (f : A -> bool) l,
  (forall x, In x l -> f x = false) -> find f l = None.
Proof.
  intros A f l; induction l as [|x l IH]; simpl; intros H; [reflexivity|].
  rewrite (H x) by auto. apply IH. auto.
Qed.

Lemma find_app' : forall {A} (f : A -> bool) l l',
  find f (l ++ l') = match find f l with Some x => Some x | None => find f l' end.
Proof. intros A f l l'; induction l as [|x l IH]; simpl; [reflexivity|]. destruct (f x); auto. Qed.

Lemma concat_repeat_nil : forall {A} n, concat (repeat (@nil A) n) = [].
Proof. intros A n; induction n; simpl; auto. Qed.

Lemma firstn_nth_error_lt : forall {A} (l : list A) n i,
  i < n -> nth_error (firstn n l) i = nth_error l i.
Proof.
  intros A l n; revert l; induction n as [|n IH]; intros l i H; [lia|].
  destruct l as [|x l]; simpl; [destruct i; reflexivity|].
  destruct i; simpl; [reflexivity|]. apply IH. lia.
Qed.

Lemma nth_error_repeat_lt : forall {A} (x : A) n i, i < n -> nth_error (repeat x n) i = Some x.
Proof. intros A x n; induction n; intros i H; [lia|]. destruct i; simpl; auto. apply IHn. lia. Qed.

Lemma perm_eq : forall {A} (l l' : list A), l = l' -> Permutation l l'.
Proof. intros A l l' ->. apply Permutation_refl. Qed.

#[global] Instance filter_perm_proper {A} (f : A -> bool) :
  Morphisms.Proper (Morphisms.respectful (@Permutation A) (@Permutation A)) (filter f).
Proof. intros l l' H. apply Permutation_filter'. exact H. Qed.
