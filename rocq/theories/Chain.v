(** Singly linked lists given by a next pointer, as the monitors keep their wait lists. *)
From Coq Require Import List Bool Arith Lia.
Import ListNotations.

Definition upd {X} (f : nat -> X) (t : nat) (x : X) : nat -> X := fun u => if Nat.eqb u t then x else f u.
Definition eqo (a b : option nat) : bool :=
  match a, b with Some x, Some y => Nat.eqb x y | None, None => true | _, _ => false end.

(** Following [nx] from [f] visits exactly [l], in that order, and then ends. *)
Fixpoint chain (nx : nat -> option nat) (f : option nat) (l : list nat) : Prop :=
  match l with [] => f = None | x :: l' => f = Some x /\ chain nx (nx x) l' end.
Definition lastOf (l : list nat) : option nat := match rev l with [] => None | x :: _ => Some x end.

Ltac up := unfold upd in *; repeat match goal with
  | H : context [Nat.eqb ?a ?b] |- _ => destruct (Nat.eqb_spec a b); subst
  | |- context [Nat.eqb ?a ?b] => destruct (Nat.eqb_spec a b); subst end.

Lemma eqo_eq : forall a b, eqo a b = true <-> a = b.
Proof. intros [a|] [b|]; cbn; try rewrite Nat.eqb_eq; split; congruence. Qed.
Lemma chain_ext : forall l nx nx' f, (forall x, In x l -> nx x = nx' x) -> chain nx f l -> chain nx' f l.
Proof. induction l as [|x l IH]; cbn; intros; auto. destruct H0; split; auto. rewrite <- H by auto. apply IH with nx; auto. Qed.
Lemma lastOf_snoc : forall l x, lastOf (l ++ [x]) = Some x.
Proof. intros. unfold lastOf. rewrite rev_app_distr. reflexivity. Qed.
Lemma lastOf_in : forall l x, lastOf l = Some x -> exists l', l = l' ++ [x].
Proof.
  intros l x. destruct l as [|a l] using rev_ind; [discriminate|]. rewrite lastOf_snoc. intros [= ->]. eauto.
Qed.
Lemma lastOf_In : forall l x, lastOf l = Some x -> In x l.
Proof. intros l x H. apply lastOf_in in H. destruct H as (l' & ->). apply in_or_app. cbn. auto. Qed.
Lemma lastOf_nil : forall l, lastOf l = None -> l = [].
Proof. intros l. destruct l using rev_ind; auto. rewrite lastOf_snoc. discriminate. Qed.
Lemma chain_app : forall l1 l2 nx f, chain nx f (l1 ++ l2) ->
  exists m, chain nx m l2 /\ (match lastOf l1 with Some x => nx x | None => f end) = m.
Proof.
  induction l1 as [|x l1 IH]; intros l2 nx f C.
  - exists f. split; auto.
  - destruct C as [-> C]. destruct (IH _ _ _ C) as (m & H & E). exists m. split; auto.
    destruct l1 as [|a l] using rev_ind; [exact E|]. rewrite lastOf_snoc in E. rewrite app_comm_cons, lastOf_snoc. exact E.
Qed.
Lemma chain_head : forall l nx f, chain nx f l -> f = hd_error l.
Proof. destruct l; cbn; intuition. Qed.
Lemma chain_last : forall l nx f u, chain nx f l -> lastOf l = Some u -> nx u = None.
Proof. intros l nx f u C L. apply lastOf_in in L. destruct L as (l' & ->). apply chain_app in C. destruct C as (m & C & _). cbn in C. tauto. Qed.
(** in a chain only the last element has no successor, and every successor is in it *)
Lemma chain_next : forall l nx f x, chain nx f l -> In x l -> (nx x = None /\ lastOf l = Some x) \/ exists y, nx x = Some y /\ In y l.
Proof.
  intros l nx f x C H. apply in_split in H. destruct H as (l1 & l2 & ->). apply chain_app in C. destruct C as (m & C & _).
  destruct C as [-> C]. destruct l2 as [|y l2]; cbn in C.
  - left. rewrite lastOf_snoc. auto.
  - right. exists y. split; [tauto|]. apply in_or_app. cbn. auto.
Qed.
Lemma nodup_snoc : forall (l : list nat) x, NoDup l -> ~ In x l -> NoDup (l ++ [x]).
Proof.
  intros l x D N. rewrite <- (rev_involutive (l ++ [x])). apply NoDup_rev. rewrite rev_app_distr. cbn. constructor.
  - rewrite <- in_rev. auto.
  - apply NoDup_rev. auto.
Qed.
Lemma nodup_app_r : forall l1 l2 : list nat, NoDup (l1 ++ l2) -> NoDup l2.
Proof. induction l1; cbn; auto. intros l2 D. inversion D; auto. Qed.
(** linking t behind the last element *)
Lemma chain_snoc : forall l nx f t, ~ In t l -> NoDup l -> nx t = None -> chain nx f l ->
  chain (match lastOf l with Some x => upd nx x (Some t) | None => nx end) (match l with [] => Some t | _ => f end) (l ++ [t]).
Proof.
  intros l nx f t. destruct l as [|y l] using rev_ind.
  - cbn. auto.
  - clear IHl. rewrite lastOf_snoc. intros N D X C. rewrite <- app_assoc.
    assert (E : match l ++ [y] with [] => Some t | _ => f end = f) by (destruct l; auto). rewrite E. clear E.
    revert f C N D. induction l as [|z l IH]; cbn; intros f C N D.
    + destruct C as [-> C]. unfold upd. rewrite Nat.eqb_refl. repeat split; auto.
      destruct (Nat.eqb_spec t y); auto. subst. exfalso. auto.
    + destruct C as [-> C]. split; auto. inversion D; subst. unfold upd at 2.
      destruct (Nat.eqb_spec z y). { subst. exfalso. apply H1. apply in_or_app. cbn; auto. }
      apply IH; auto.
Qed.
Lemma append_ok : forall l nx f la t, ~ In t l -> NoDup l -> nx t = None -> chain nx f l -> la = lastOf l ->
  chain (match la with Some x => upd nx x (Some t) | None => nx end) (match la with Some _ => f | None => Some t end) (l ++ [t]) /\
  Some t = lastOf (l ++ [t]) /\ NoDup (l ++ [t]).
Proof.
  intros l nx f la t N D X C ->. pose proof (chain_snoc _ _ _ _ N D X C) as Y. split; [|split; [rewrite lastOf_snoc; auto|apply nodup_snoc; auto]].
  destruct l as [|y l] using rev_ind; [exact Y|]. rewrite lastOf_snoc in *. destruct (l ++ [y]) eqn:E; [destruct l; discriminate|]. exact Y.
Qed.
(** unlinking t, found after [l1] *)
Lemma unlink_ok : forall l l1 l2 nx f la t, l = l1 ++ t :: l2 -> NoDup l -> chain nx f l -> la = lastOf l ->
  chain (upd (if eqo f (Some t) then nx else match lastOf l1 with Some p => upd nx p (nx t) | None => nx end) t None)
    (if eqo f (Some t) then nx t else f) (remove Nat.eq_dec t l) /\
  (if eqo la (Some t) then lastOf l1 else la) = lastOf (remove Nat.eq_dec t l) /\ NoDup (remove Nat.eq_dec t l).
Proof.
  intros l l1 l2 nx f la t -> D C ->.
  pose proof (NoDup_remove_1 _ _ _ D) as D2. pose proof (NoDup_remove_2 _ _ _ D) as N.
  assert (Nl1 : ~ In t l1) by (intros H; apply N, in_or_app; auto). assert (Nl2 : ~ In t l2) by (intros H; apply N, in_or_app; auto).
  assert (R : remove Nat.eq_dec t (l1 ++ t :: l2) = l1 ++ l2).
  { rewrite remove_app. cbn. destruct (Nat.eq_dec t t); [|congruence]. rewrite !notin_remove; auto. }
  rewrite R. split; [|split; auto].
  - destruct l1 as [|y l1'] using rev_ind.
    + cbn in C. destruct C as [F C]. rewrite F. cbn. rewrite Nat.eqb_refl. cbn.
      apply chain_ext with nx; auto. intros x Hx. up; congruence.
    + clear IHl1'. rewrite lastOf_snoc.
      assert (F : eqo f (Some t) = false).
      { destruct l1'; cbn in C; destruct C as [-> _]; cbn; apply Nat.eqb_neq; intros ->; apply Nl1; cbn; auto. }
      rewrite F. clear R F D N. revert C. revert f. rewrite <- app_assoc in *. cbn.
      induction l1' as [|z l1' IH]; cbn; intros f [-> C]; (split; auto).
      * destruct C as [_ C]. up; try (exfalso; apply Nl1; cbn; auto; fail); try congruence.
        apply chain_ext with nx; auto. intros x Hx. up; try congruence.
        cbn in D2. inversion D2; contradiction.
      * cbn in D2. inversion D2; subst. up.
        { exfalso. apply Nl1. cbn. auto. } { exfalso. apply H1. apply in_or_app. cbn. auto. }
        apply IH; auto. intros Y. apply Nl1. cbn. auto.
  - destruct l2 as [|z l2'] using rev_ind.
    + rewrite lastOf_snoc. cbn. rewrite Nat.eqb_refl. rewrite app_nil_r. auto.
    + replace (l1 ++ t :: l2' ++ [z]) with ((l1 ++ t :: l2') ++ [z]) by (rewrite <- app_assoc; auto).
      rewrite app_assoc, !lastOf_snoc. cbn. destruct (Nat.eqb_spec z t); auto. subst. exfalso. apply Nl2. apply in_or_app. cbn. auto.
Qed.
Lemma pop_ok : forall l nx f la u, NoDup l -> chain nx f l -> la = lastOf l -> f = Some u ->
  exists l', l = u :: l' /\ ~ In u l' /\ chain nx (nx u) l' /\ (if eqo la (Some u) then None else la) = lastOf l' /\ NoDup l'.
Proof.
  intros l nx f la u D C -> ->. destruct l as [|x l]; cbn in C; [discriminate|]. destruct C as [[= <-] C]. exists l. inversion D; subst.
  repeat split; auto. destruct l as [|y l _] using rev_ind; cbn.
  - rewrite Nat.eqb_refl. auto.
  - rewrite app_comm_cons, !lastOf_snoc. cbn. destruct (Nat.eqb_spec y u); auto. subst. exfalso. apply H1. apply in_or_app. cbn. auto.
Qed.
