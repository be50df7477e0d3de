From Verif Require Import Base Res RBTree_Model.
From Coq Require Import Sorting.Sorted.
Local Open Scope res_scope.

Section P.
Context {V : Type}.
Notation node := (node V).
Notation heap := (heap V).

(** * Abstract trees *)
Inductive tree := E | T (c : bool) (l : tree) (v : V) (r : tree).
Inductive frame := FL (c : bool) (v : V) (r : tree) | FR (c : bool) (l : tree) (v : V).

Fixpoint plug (t : tree) (k : list frame) : tree :=
  match k with
  | [] => t
  | FL c v r :: k' => plug (T c t v r) k'
  | FR c l v :: k' => plug (T c l v t) k'
  end.

Fixpoint inorder (t : tree) : list V :=
  match t with E => [] | T _ l v r => inorder l ++ v :: inorder r end.
Fixpoint size (t : tree) : nat := match t with E => 0 | T _ l _ r => S (size l + size r) end.
Fixpoint depth (t : tree) : nat := match t with E => 0 | T _ l _ r => S (Nat.max (depth l) (depth r)) end.
Definition isred (t : tree) : bool := match t with T true _ _ _ => true | _ => false end.
Definition fred (f : frame) : bool := match f with FL c _ _ => c | FR c _ _ => c end.

Fixpoint lefts (k : list frame) : list V :=
  match k with [] => [] | FL _ _ _ :: k' => lefts k' | FR _ l v :: k' => lefts k' ++ inorder l ++ [v] end.
Fixpoint rights (k : list frame) : list V :=
  match k with [] => [] | FL _ v r :: k' => v :: inorder r ++ rights k' | FR _ _ _ :: k' => rights k' end.

Lemma inorder_plug : forall k t, inorder (plug t k) = lefts k ++ inorder t ++ rights k.
Proof.
  induction k as [|[c v r|c l v] k IH]; intros t; cbn [plug lefts rights].
  - rewrite app_nil_r. reflexivity.
  - rewrite IH. cbn [inorder]. rewrite <- !app_assoc. reflexivity.
  - rewrite IH. cbn [inorder]. rewrite <- !app_assoc. cbn [app]. reflexivity.
Qed.

(** red-black trees of black height n *)
Fixpoint rb (t : tree) (n : nat) : Prop :=
  match t with
  | E => n = 0%nat
  | T true l _ r => rb l n /\ rb r n /\ isred l = false /\ isred r = false
  | T false l _ r => exists m, n = S m /\ rb l m /\ rb r m
  end.

Fixpoint ctxrb (k : list frame) (n : nat) : Prop :=
  match k with
  | [] => True
  | f :: k' =>
      let s := match f with FL _ _ r => r | FR _ l _ => l end in
      rb s n /\
      (if fred f then isred s = false /\ (match k' with [] => False | g :: _ => fred g = false end)
                      /\ ctxrb k' n
       else ctxrb k' (S n))
  end.

Lemma plug_rb : forall k t n, rb t n -> ctxrb k n ->
  (isred t = true -> match k with [] => True | f :: _ => fred f = false end) ->
  exists m, rb (plug t k) m.
Proof.
  induction k as [|f k IH]; intros t n Ht Hk Hc; [exists n; exact Ht|].
  destruct f as [c v r|c l v]; cbn [plug ctxrb fred] in *.
  - destruct Hk as [Hs Hk]. destruct c.
    + destruct Hk as (Hns & Hg & Hk). apply (IH _ n); [|exact Hk|].
      * cbn [rb]. repeat split; auto. destruct (isred t); [specialize (Hc eq_refl); discriminate|reflexivity].
      * intros _. destruct k; auto.
    + apply (IH _ (S n)); [|exact Hk|].
      * cbn [rb]. exists n. auto.
      * discriminate.
  - destruct Hk as [Hs Hk]. destruct c.
    + destruct Hk as (Hns & Hg & Hk). apply (IH _ n); [|exact Hk|].
      * cbn [rb]. repeat split; auto. destruct (isred t); [specialize (Hc eq_refl); discriminate|reflexivity].
      * intros _. destruct k; auto.
    + apply (IH _ (S n)); [|exact Hk|].
      * cbn [rb]. exists n. auto.
      * discriminate.
Qed.

(** a black-rooted red-black tree plugs from its context *)
Lemma rb_ctx : forall k t m, rb (plug t k) m ->
  (match k with [] => True | f :: _ => isred t = true -> fred f = false end) ->
  (isred (plug t k) = false) -> 
  exists n, rb t n /\ ctxrb k n.
Proof.
  induction k as [|f k IH]; intros t m H Hc Hr; [exists m; split; [exact H|exact I]|].
  destruct f as [c v r|c l v]; cbn [plug] in *.
  - destruct c.
    + destruct (IH _ m H) as (n & Hn & Hk).
      { destruct k as [|g k]; [exact I|]. intros _.
        destruct (fred g) eqn:Eg; [|reflexivity]. exfalso.
        clear -H Eg. revert H Eg.
        assert (Hall : forall k t n, rb (plug t k) n -> exists j, rb t j).
        { clear. induction k as [|f k IH]; intros t n H; [eauto|].
          destruct f as [c v r|c l v]; cbn [plug] in H; apply IH in H as (j & Hj); cbn [rb] in Hj; destruct c;
          [destruct Hj as (?&?&?); eauto|destruct Hj as (?&?&?&?); eauto|destruct Hj as (?&?&?); eauto|destruct Hj as (?&?&?&?); eauto]. }
        intros H Eg. destruct g as [c' v' r'|c' l' v']; cbn [plug fred] in *; subst c';
        apply Hall in H as (j & Hj); cbn [rb isred] in Hj; destruct Hj as (_&_&H1&H2); discriminate. }
      { assumption. }
      cbn [rb] in Hn. destruct Hn as (H1 & H2 & H3 & H4). exists n. split; [assumption|].
      cbn [ctxrb fred]. repeat split; auto.
      destruct k as [|g k]; cbn [plug isred] in Hr; [discriminate|].
      (* colour of g *)
      destruct (fred g) eqn:Eg; [exfalso|reflexivity].
      assert (Hall : forall k t n, rb (plug t k) n -> exists j, rb t j).
      { clear. induction k as [|f k IH]; intros t n H; [eauto|].
        destruct f as [c v r|c l v]; cbn [plug] in H; apply IH in H as (j & Hj); cbn [rb] in Hj; destruct c;
        [destruct Hj as (?&?&?); eauto|destruct Hj as (?&?&?&?); eauto|destruct Hj as (?&?&?); eauto|destruct Hj as (?&?&?&?); eauto]. }
      destruct g as [c' v' r'|c' l' v']; cbn [plug fred] in *; subst c';
        apply Hall in H as (j & Hj); cbn [rb isred] in Hj; destruct Hj as (_&_&Hq1&Hq2); discriminate.
    + destruct (IH _ m H) as (n & Hn & Hk); [destruct k; [exact I|discriminate]|assumption|].
      cbn [rb] in Hn. destruct Hn as (j & -> & H1 & H2). exists j. split; [assumption|].
      cbn [ctxrb fred]. auto.
  - destruct c.
    + assert (Hall : forall k t n, rb (plug t k) n -> exists j, rb t j).
      { clear. induction k as [|f k IH]; intros t n H; [eauto|].
        destruct f as [c v r|c l v]; cbn [plug] in H; apply IH in H as (j & Hj); cbn [rb] in Hj; destruct c;
        [destruct Hj as (?&?&?); eauto|destruct Hj as (?&?&?&?); eauto|destruct Hj as (?&?&?); eauto|destruct Hj as (?&?&?&?); eauto]. }
      assert (Hg : match k with [] => False | g :: _ => fred g = false end).
      { destruct k as [|g k]; cbn [plug isred] in Hr; [discriminate|].
        destruct (fred g) eqn:Eg; [exfalso|reflexivity].
        destruct g as [c' v' r'|c' l' v']; cbn [plug fred] in *; subst c';
        apply Hall in H as (j & Hj); cbn [rb isred] in Hj; destruct Hj as (_&_&Hq1&Hq2); discriminate. }
      destruct (IH _ m H) as (n & Hn & Hk).
      { destruct k as [|g k]; [exact I|]. intros _. exact Hg. }
      { assumption. }
      cbn [rb] in Hn. destruct Hn as (H1 & H2 & H3 & H4). exists n. split; [assumption|].
      cbn [ctxrb fred]. repeat split; auto.
    + destruct (IH _ m H) as (n & Hn & Hk); [destruct k; [exact I|discriminate]|assumption|].
      cbn [rb] in Hn. destruct Hn as (j & -> & H1 & H2). exists j. split; [assumption|].
      cbn [ctxrb fred]. auto.
Qed.

Definition blacken (t : tree) : tree := match t with E => E | T _ l v r => T false l v r end.
Lemma rb_blacken : forall t n, rb t n -> exists m, rb (blacken t) m.
Proof.
  intros [|[] l v r] n H; cbn [blacken].
  - eauto.
  - destruct H as (H1 & H2 & _). exists (S n). cbn. eauto.
  - eauto.
Qed.
Lemma isred_blacken : forall t, isred (blacken t) = false.
Proof. intros [|c l v r]; reflexivity. Qed.
Lemma inorder_blacken : forall t, inorder (blacken t) = inorder t.
Proof. intros [|c l v r]; reflexivity. Qed.

(** depth is at most twice the logarithm *)
Lemma rb_size : forall t n, rb t n -> (2 ^ n <= size t + 1)%nat.
Proof.
  induction t as [|c l IHl v r IHr]; intros n H; cbn [rb] in H.
  - subst n. cbn. lia.
  - destruct c.
    + destruct H as (H1 & H2 & _). apply IHl in H1. cbn [size]. lia.
    + destruct H as (m & -> & H1 & H2). apply IHl in H1. apply IHr in H2. cbn [size]. cbn [Nat.pow]. lia.
Qed.
Lemma rb_depth : forall t n, rb t n -> (depth t <= 2 * n + (if isred t then 1 else 0))%nat.
Proof.
  induction t as [|c l IHl v r IHr]; intros n H; cbn [rb] in H.
  - subst n. cbn. lia.
  - destruct c; cbn [depth isred].
    + destruct H as (H1 & H2 & H3 & H4). apply IHl in H1. apply IHr in H2. rewrite H3 in H1. rewrite H4 in H2. lia.
    + destruct H as (m & -> & H1 & H2). apply IHl in H1. apply IHr in H2. destruct (isred l), (isred r); lia.
Qed.
Lemma size_inorder : forall t, length (inorder t) = size t.
Proof. induction t as [|c l IHl v r IHr]; cbn [inorder size]; [reflexivity|]. rewrite app_length. cbn [length]. lia. Qed.

(** * Heap representation *)
Variable s : nat.   (* the sentinal *)

Fixpoint rep (h : heap) (D : nat -> Prop) (a : nat) (t : tree) : Prop :=
  match t with
  | E => a = s
  | T c l v r => a <> s /\ ~ D a /\ exists la ra,
       mem h a = Some {| nval := Some v; nred := c; nleft := la; nright := ra |}
       /\ rep h D la l /\ rep h D ra r
  end.

Definition wfh (h : heap) : Prop :=
  (forall x, (next h <= x)%nat -> mem h x = None) /\
  mem h s = Some {| nval := None; nred := false; nleft := s; nright := s |}.

Lemma wfh_lt : forall h x n, wfh h -> mem h x = Some n -> (x < next h)%nat.
Proof.
  intros h x n [H _] Hx. destruct (le_lt_dec (next h) x) as [Hle|]; [|assumption].
  rewrite (H x Hle) in Hx. discriminate.
Qed.

Lemma rep_mono : forall h (D D' : nat -> Prop) t a, (forall x, D' x -> D x) -> rep h D a t -> rep h D' a t.
Proof.
  intros h D D' t; induction t as [|c l IHl v r IHr]; intros a HD H; cbn [rep] in *; [assumption|].
  destruct H as (H1 & H2 & la & ra & H3 & H4 & H5). split; [assumption|]. split; [auto|].
  exists la, ra. auto.
Qed.

Lemma rep_frame : forall h h' D t a, rep h D a t ->
  (forall x n, ~ D x -> mem h x = Some n -> mem h' x = Some n) -> rep h' D a t.
Proof.
  intros h h' D t; induction t as [|c l IHl v r IHr]; intros a H HF; cbn [rep] in *; [assumption|].
  destruct H as (H1 & H2 & la & ra & H3 & H4 & H5). split; [assumption|]. split; [assumption|].
  exists la, ra. split; [apply HF; assumption|]. auto.
Qed.

Lemma rep_notD : forall h D t a x, rep h D a t -> D x -> x <> s -> a <> x.
Proof.
  intros h D t a x H Hx Hs. destruct t; cbn [rep] in H; [congruence|].
  destruct H as (_ & H & _). congruence.
Qed.

Lemma rep_valid : forall h D t a, wfh h -> rep h D a t -> (a < next h)%nat.
Proof.
  intros h D t a Hw H. destruct t; cbn [rep] in H.
  - subst a. eapply wfh_lt; [assumption|]. apply Hw.
  - destruct H as (_ & _ & la & ra & H & _). eapply wfh_lt; eassumption.
Qed.

Lemma rep_red : forall h D t a, wfh h -> rep h D a t -> exists n, mem h a = Some n /\ nred n = isred t.
Proof.
  intros h D t a Hw H. destruct t as [|c l v r]; cbn [rep] in H.
  - subst a. eexists. split; [apply Hw|]. reflexivity.
  - destruct H as (_ & _ & la & ra & H & _). eexists. split; [exact H|]. destruct c; reflexivity.
Qed.

(** all addresses are allocated *)
Lemma rep_lt : forall h D t a, wfh h -> rep h D a t -> rep h (fun x => D x \/ (next h <= x)%nat) a t.
Proof.
  intros h D t a Hw. revert a. induction t as [|c l IHl v r IHr]; intros a H; cbn [rep] in *; [assumption|].
  destruct H as (H1 & H2 & la & ra & H3 & H4 & H5). split; [assumption|].
  apply (wfh_lt h a _ Hw) in H3 as Hl. split; [intros [|]; [auto|lia]|].
  exists la, ra. auto.
Qed.

(** The context: [anc] are the addresses of the frames, nearest first. *)
Fixpoint repctx (h : heap) (D : nat -> Prop) (anc : list nat) (k : list frame) (a root : nat) : Prop :=
  match anc, k with
  | [], [] => a = root
  | p :: anc', f :: k' =>
      p <> s /\
      (match f with
       | FL c v r => exists ra, mem h p = Some {| nval := Some v; nred := c; nleft := a; nright := ra |} /\ rep h D ra r
       | FR c l v => exists la, mem h p = Some {| nval := Some v; nred := c; nleft := la; nright := a |} /\ rep h D la l
       end) /\ repctx h D anc' k' p root
  | _, _ => False
  end.

Lemma repctx_frame : forall h h' D anc k a root,
  repctx h D anc k a root ->
  (forall x n, ~ D x -> mem h x = Some n -> mem h' x = Some n) ->
  (forall x, In x anc -> mem h' x = mem h x) ->
  repctx h' D anc k a root.
Proof.
  intros h h' D anc; induction anc as [|p anc IH]; intros k a root H HF HA; destruct k as [|f k]; cbn [repctx] in *; try assumption; try contradiction.
  destruct H as (Hs & Hf & Hr). split; [assumption|]. split.
  - destruct f as [c v r|c l v]; destruct Hf as (x & Hm & Hx); exists x;
    (split; [rewrite HA; [assumption|left; reflexivity]|eapply rep_frame; eassumption]).
  - apply IH; auto. intros x Hx. apply HA. right; assumption.
Qed.

Lemma repctx_mono : forall h (D D' : nat -> Prop) anc k a root,
  (forall x, D' x -> D x) -> repctx h D anc k a root -> repctx h D' anc k a root.
Proof.
  intros h D D' anc; induction anc as [|p anc IH]; intros k a root HD H; destruct k as [|f k]; cbn [repctx] in *; try assumption.
  destruct H as (Hs & Hf & Hr). split; [assumption|]. split; [|auto].
  destruct f as [c v r|c l v]; destruct Hf as (x & Hm & Hx); exists x;
    (split; [assumption|eapply rep_mono; eassumption]).
Qed.

Lemma repctx_lt : forall h D anc k a root x, wfh h -> repctx h D anc k a root -> In x anc -> (x < next h)%nat.
Proof.
  intros h D anc; induction anc as [|p anc IH]; intros k a root x Hw H Hx; [destruct Hx|].
  destruct k as [|f k]; cbn [repctx] in H; [contradiction|]. destruct H as (_ & Hf & Hr).
  destruct Hx as [->|Hx]; [|eapply IH; eassumption].
  destruct f as [c v r|c l v]; destruct Hf as (y & Hm & _); eapply wfh_lt; eassumption.
Qed.

Lemma repctx_avoid : forall h D anc k a root, wfh h -> repctx h D anc k a root ->
  repctx h (fun x => D x \/ (next h <= x)%nat) anc k a root.
Proof.
  intros h D anc; induction anc as [|p anc IH]; intros k a root Hw H; destruct k as [|f k]; cbn [repctx] in *; try assumption.
  destruct H as (Hs & Hf & Hr). split; [assumption|]. split; [|auto].
  destruct f as [c v r|c l v]; destruct Hf as (y & Hm & Hy); exists y; (split; [assumption|]); apply rep_lt; assumption.
Qed.

(** focus node whose children avoid itself and its ancestors *)
Definition nodeAt (h : heap) (D : nat -> Prop) (a : nat) (t : tree) : Prop :=
  match t with
  | E => False
  | T c l v r => a <> s /\ exists la ra,
      mem h a = Some {| nval := Some v; nred := c; nleft := la; nright := ra |}
      /\ rep h D la l /\ rep h D ra r
  end.

Lemma nodeAt_rep : forall h (D : nat -> Prop) a t, nodeAt h D a t -> ~ D a -> rep h D a t.
Proof.
  intros h D a [|c l v r]; cbn [nodeAt rep]; [tauto|]. intros (H1 & la & ra & H) HD.
  split; [assumption|]. split; [assumption|]. exists la, ra. assumption.
Qed.

Lemma nodeAt_mono : forall h (D D' : nat -> Prop) a t, (forall x, D' x -> D x) -> nodeAt h D a t -> nodeAt h D' a t.
Proof.
  intros h D D' a [|c l v r] HD; cbn [nodeAt]; [tauto|].
  intros (H1 & la & ra & Hm & Hl & Hr). split; [assumption|]. exists la, ra.
  repeat split; auto; eapply rep_mono; eauto.
Qed.

Lemma plug_nodeAt : forall h (D : nat -> Prop) anc k a root t,
  repctx h D anc k a root -> NoDup (a :: anc) -> (forall x, In x (a :: anc) -> D x) ->
  nodeAt h (fun x => In x (a :: anc)) a t ->
  nodeAt h (fun x => x = root) root (plug t k).
Proof.
  intros h D anc; induction anc as [|p anc IH]; intros k a root t Hc Hnd HD Ht; destruct k as [|f k]; cbn [repctx] in Hc; try contradiction.
  - subst root. cbn [plug]. eapply nodeAt_mono; [|exact Ht]. intros x ->. left; reflexivity.
  - destruct Hc as (Hs & Hf & Hr).
    inversion Hnd as [|? ? Hni Hnd']; subst.
    assert (Ha : rep h (fun x => In x (p :: anc)) a t).
    { apply nodeAt_rep.
      - eapply nodeAt_mono; [|exact Ht]. intros x Hx. right; exact Hx.
      - exact Hni. }
    destruct f as [c v r|c l v]; cbn [plug]; destruct Hf as (x & Hm & Hx);
    (apply (IH k p root); [exact Hr|assumption|intros y Hy; apply HD; right; exact Hy|]);
    cbn [nodeAt]; (split; [assumption|]).
    + exists a, x. split; [assumption|]. split; [assumption|].
      eapply rep_mono; [|exact Hx]. intros y Hy. apply HD. right; exact Hy.
    + exists x, a. split; [assumption|]. split; [|assumption].
      eapply rep_mono; [|exact Hx]. intros y Hy. apply HD. right; exact Hy.
Qed.

(** * Heap computation *)
Lemma upd_eq : forall (m : nat -> option node) a n, upd m a n a = Some n.
Proof. intros. unfold upd. rewrite Nat.eqb_refl. reflexivity. Qed.
Lemma upd_ne : forall (m : nat -> option node) a n x, x <> a -> upd m a n x = m x.
Proof. intros. unfold upd. destruct (x =? a)%nat eqn:Ex; [apply Nat.eqb_eq in Ex; contradiction|reflexivity]. Qed.

Ltac ne := first [assumption | congruence | lia | (apply not_eq_sym; assumption)].
Ltac mstep := repeat first [rewrite upd_eq | rewrite upd_ne by ne].
Ltac crunch := repeat (progress (mstep; cbn [bind mem next nval nred nleft nright])).
Ltac hs := unfold setRed, setLeft, setRight, setVal, clone, rd, alloc, wr, of_option; cbn [bind mem next nval nred nleft nright].

Lemma wfh_wr : forall h a n, wfh h -> (a < next h)%nat -> a <> s -> wfh (wr h a n).
Proof.
  intros h a n [H1 H2] Ha Hs. split; cbn [wr mem next].
  - intros x Hx. rewrite upd_ne by lia. auto.
  - rewrite upd_ne by congruence. assumption.
Qed.
Lemma wfh_alloc : forall h n, wfh h -> wfh (fst (alloc h n)).
Proof.
  intros h n [H1 H2]. cbn [alloc fst]. split; cbn [mem next].
  - intros x Hx. rewrite upd_ne by lia. apply H1. lia.
  - rewrite upd_ne; [assumption|]. intros ->. rewrite H1 in H2 by lia. discriminate.
Qed.

(** Relinking below the parent. *)
Lemma linkRight_ok : forall h (D : nat -> Prop) anc k g root c',
  wfh h -> repctx h D anc k g root -> NoDup anc -> (forall x, In x anc -> D x) -> D g -> g <> s ->
  exists h' root', linkRight h g c' anc root = Ok (h', root')
    /\ repctx h' D anc k c' root' /\ wfh h' /\ next h' = next h
    /\ (forall x, ~ In x anc -> mem h' x = mem h x)
    /\ (root' = c' \/ (root' = root /\ In root anc)).
Proof.
  intros h D anc k g root c' Hw Hc Hnd HD Hg Hgs.
  destruct anc as [|gg anc]; destruct k as [|f k]; cbn [repctx linkRight] in *; try contradiction.
  - exists h, c'. split; [reflexivity|]. repeat split; try apply Hw; auto.
  - destruct Hc as (Hs & Hf & Hr).
    inversion Hnd as [|? ? Hni Hnd']; subst.
    assert (Hroot : forall anc k a, repctx h D anc k a root -> a = root \/ In root anc).
    { clear. induction anc as [|p anc IH]; intros k a H; destruct k; cbn [repctx] in H; try contradiction; auto.
      destruct H as (_ & _ & H). apply IH in H as [<-|H]; right; [left; reflexivity|right; assumption]. }
    destruct f as [c v r|c l v]; destruct Hf as (x & Hm & Hx).
    + assert (Hne : x <> g) by (eapply rep_notD; eassumption).
      unfold rd. rewrite Hm. cbn [of_option bind nright].
      replace (x =? g)%nat with false by (symmetry; apply Nat.eqb_neq; assumption).
      hs. rewrite Hm. cbn [bind]. eexists; eexists. split; [reflexivity|].
      assert (Hlt : (gg < next h)%nat) by (eapply wfh_lt; eassumption).
      assert (HF : forall y n, ~ D y -> mem h y = Some n -> upd (mem h) gg {| nval := Some v; nred := c; nleft := c'; nright := x |} y = Some n).
      { intros y n Hy Hn. rewrite upd_ne; [assumption|]. intros ->. apply Hy. apply HD. left; reflexivity. }
      cbn [mem next nval nred nright]. split; [|split; [|split; [|split]]].
      * split; [assumption|]. split.
        { exists x. cbn [mem]. rewrite upd_eq. split; [reflexivity|]. eapply rep_frame; [exact Hx|exact HF]. }
        eapply repctx_frame; [exact Hr|exact HF|].
        intros y Hy. cbn [mem]. apply upd_ne. intros ->. contradiction.
      * exact (wfh_wr h gg _ Hw Hlt Hs).
      * reflexivity.
      * intros y Hy. apply upd_ne. intros ->. apply Hy; left; reflexivity.
      * right. split; [reflexivity|]. apply Hroot in Hr as [<-|Hr]; [left; reflexivity|right; assumption].
    + unfold rd. rewrite Hm. cbn [of_option bind nright].
      rewrite Nat.eqb_refl.
      hs. rewrite Hm. cbn [bind]. eexists; eexists. split; [reflexivity|].
      assert (Hlt : (gg < next h)%nat) by (eapply wfh_lt; eassumption).
      assert (HF : forall y n, ~ D y -> mem h y = Some n -> upd (mem h) gg {| nval := Some v; nred := c; nleft := x; nright := c' |} y = Some n).
      { intros y n Hy Hn. rewrite upd_ne; [assumption|]. intros ->. apply Hy. apply HD. left; reflexivity. }
      cbn [mem next nval nred nleft]. split; [|split; [|split; [|split]]].
      * split; [assumption|]. split.
        { exists x. cbn [mem]. rewrite upd_eq. split; [reflexivity|]. eapply rep_frame; [exact Hx|exact HF]. }
        eapply repctx_frame; [exact Hr|exact HF|].
        intros y Hy. cbn [mem]. apply upd_ne. intros ->. contradiction.
      * exact (wfh_wr h gg _ Hw Hlt Hs).
      * reflexivity.
      * intros y Hy. apply upd_ne. intros ->. apply Hy; left; reflexivity.
      * right. split; [reflexivity|]. apply Hroot in Hr as [<-|Hr]; [left; reflexivity|right; assumption].
Qed.

Lemma linkLeft_ok : forall h (D : nat -> Prop) anc k g root c',
  wfh h -> repctx h D anc k g root -> NoDup anc -> (forall x, In x anc -> D x) -> D g -> g <> s ->
  exists h' root', linkLeft h g c' anc root = Ok (h', root')
    /\ repctx h' D anc k c' root' /\ wfh h' /\ next h' = next h
    /\ (forall x, ~ In x anc -> mem h' x = mem h x)
    /\ (root' = c' \/ (root' = root /\ In root anc)).
Proof.
  intros h D anc k g root c' Hw Hc Hnd HD Hg Hgs.
  assert (Heq : linkLeft h g c' anc root = linkRight h g c' anc root);
    [|rewrite Heq; apply linkRight_ok with (D := D) (k := k); assumption].
  destruct anc as [|gg anc]; destruct k as [|f k]; cbn [repctx linkRight linkLeft] in *; try contradiction; [reflexivity|].
  destruct Hc as (Hs & Hf & Hr).
  destruct f as [c v r|c l v]; destruct Hf as (x & Hm & Hx);
  (assert (Hne : x <> g) by (eapply rep_notD; eassumption));
  unfold rd; rewrite Hm; cbn [of_option bind nright nleft];
  replace (x =? g)%nat with false by (symmetry; apply Nat.eqb_neq; assumption); rewrite Nat.eqb_refl; reflexivity.
Qed.

(** * The rebalancing loop *)
Variable n0 : nat.   (* first address not allocated before the insertion *)
Hypothesis s_old : (s < n0)%nat.

Definition same (h h' : heap) : Prop :=
  (next h <= next h')%nat /\ forall x, (x < n0)%nat -> mem h' x = mem h x.

Definition path (anc : list nat) (a : nat) : nat -> Prop := fun x => In x (a :: anc).

Definition St (h : heap) (anc : list nat) (k : list frame) (a root : nat) (t : tree) : Prop :=
  wfh h /\ (n0 <= next h)%nat /\ NoDup (a :: anc) /\ (forall x, In x (a :: anc) -> (n0 <= x)%nat)
  /\ nodeAt h (path anc a) a t /\ repctx h (path anc a) anc k a root.

Lemma same_trans : forall h1 h2 h3, same h1 h2 -> same h2 h3 -> same h1 h3.
Proof.
  intros h1 h2 h3 [H1 H2] [H3 H4]. split; [lia|]. intros x Hx. rewrite H4 by assumption. auto.
Qed.

Lemma outerLeft_ok : forall h anc k a p g root l v r v1 r1 c2 v2 u,
  St h (p :: g :: anc) (FL true v1 r1 :: FL c2 v2 u :: k) a root (T true l v r) ->
  exists h1 h2 h3 n np, setRed h p false = Ok h1 /\ setRed h1 g true = Ok h2
    /\ rightRotate h2 g = Ok (h3, n)
    /\ wfh h3 /\ (n0 <= n)%nat /\ same h h3 /\ mem h3 p = Some np /\ nred np = false
    /\ NoDup (n :: anc) /\ ~ In n (p :: g :: anc)
    /\ nodeAt h3 (path anc n) n (T false (T true l v r) v1 (T true r1 v2 u))
    /\ repctx h3 (path (n :: anc) g) anc k g root.
Proof.
  intros h anc k a p g root l v r v1 r1 c2 v2 u (Hw & Hn & Hnd & Hge & Ha & Hc).
  cbn [repctx nodeAt] in *.
  destruct Hc as (Hps & (ra1 & Hmp & Hr1) & Hgs & (ua & Hmg & Hu) & Hk).
  destruct Ha as (Has & la & ra & Hma & Hl & Hr).
  inversion Hnd as [|? ? Ha1 Hnd1]; subst. inversion Hnd1 as [|? ? Hp1 Hnd2]; subst. inversion Hnd2 as [|? ? Hg1 Hnd3]; subst.
  assert (a <> p) by (intros ->; apply Ha1; left; reflexivity).
  assert (a <> g) by (intros ->; apply Ha1; right; left; reflexivity).
  assert (p <> g) by (intros ->; apply Hp1; left; reflexivity).
  pose proof (wfh_lt _ _ _ Hw Hma) as La. pose proof (wfh_lt _ _ _ Hw Hmp) as Lp. pose proof (wfh_lt _ _ _ Hw Hmg) as Lg.
  assert (Hsn : (s < next h)%nat) by lia.
  unfold rightRotate. hs. rewrite Hmp. cbn [bind]. eexists. eexists. eexists. eexists. eexists.
  split; [reflexivity|]. cbn [mem next nval nred nleft nright].
  rewrite upd_ne by ne. rewrite Hmg. cbn [bind]. split; [reflexivity|]. cbn [mem next nval nred nleft nright].
  crunch. split; [reflexivity|].
  cbn [mem next nval nred nleft nright].
  match goal with |- wfh ?H /\ _ => set (h3 := H) end.
  assert (HF : forall x, x <> p -> x <> g -> x <> next h -> mem h3 x = mem h x).
  { intros x H1' H2' H3'. unfold h3; cbn [mem]. mstep. reflexivity. }
  assert (Hanc : forall x, In x anc -> x <> p /\ x <> g /\ (x < next h)%nat).
  { intros x Hx. split; [intros ->; apply Hp1; right; assumption|].
    split; [intros ->; contradiction|].
    eapply repctx_lt; eassumption. }
  split. (* wfh *)
  { split; unfold h3; cbn [mem next].
    - intros x Hx. mstep. apply Hw. lia.
    - mstep. apply Hw. }
  split; [lia|].
  split.
  { split; [unfold h3; cbn [next]; lia|]. intros x Hx. apply HF; [| |lia].
    - intros ->. specialize (Hge p). cbn in Hge. lia.
    - intros ->. specialize (Hge g). cbn in Hge. lia. }
  split. { unfold h3; cbn [mem]. mstep. reflexivity. }
  split. { reflexivity. }
  split. { constructor; [|assumption]. intros Hin. apply Hanc in Hin. lia. }
  split. { intros [->|[->|Hin]]; [lia|lia|]. apply Hanc in Hin. lia. }
  assert (HR : forall (D : nat -> Prop) y t, (forall x, D x -> x = next h \/ path (p :: g :: anc) a x) -> rep h (path (p :: g :: anc) a) y t -> rep h3 D y t).
  { intros D y t HD Hy. apply rep_lt in Hy; [|assumption].
    eapply rep_mono with (D := fun x => path (p :: g :: anc) a x \/ (next h <= x)%nat).
    { intros x Hx. destruct (HD x Hx) as [->|]; [right; lia|left; assumption]. }
    eapply rep_frame; [exact Hy|]. intros x n Hx Hm. rewrite HF; [assumption| | |].
    - intros ->. apply Hx. left. right; left; reflexivity.
    - intros ->. apply Hx. left. right; right; left; reflexivity.
    - intros ->. apply Hx. right; lia. }
  split.
  { cbn [nodeAt]. split; [lia|]. exists a, g.
    split. { unfold h3; cbn [mem]. mstep. reflexivity. }
    assert (HDp : forall x, path anc (next h) x -> x = next h \/ path (p :: g :: anc) a x).
    { intros x [<-|Hx]; [left; reflexivity|right; right; right; right; assumption]. }
    split.
    - cbn [rep]. split; [assumption|].
      split. { intros [Hq|Hq]; [lia|]. apply Ha1. right; right; assumption. }
      exists la, ra. split; [rewrite HF by ne; assumption|].
      split; apply HR; assumption.
    - cbn [rep]. split; [assumption|].
      split. { intros [Hq|Hq]; [lia|]. contradiction. }
      exists ra1, ua. split. { unfold h3; cbn [mem]. mstep. reflexivity. }
      split; apply HR; assumption. }
  { apply rep_lt in Hl as Hl'; [|assumption].
    assert (Hk' := repctx_avoid _ _ _ _ _ _ Hw Hk).
    eapply repctx_mono; [|eapply repctx_frame; [exact Hk'| |]].
    - intros x [<-|[<-|Hx]]; [left; right; right; left; reflexivity|right; lia|left; right; right; right; assumption].
    - intros x n Hx Hm. rewrite HF; [assumption| | |].
      + intros ->. apply Hx. left. right; left; reflexivity.
      + intros ->. apply Hx. left. right; right; left; reflexivity.
      + intros ->. apply Hx. right; lia.
    - intros x Hx. apply Hanc in Hx. apply HF; lia. }
Qed.

Lemma outerRight_ok : forall h anc k a p g root l v r v1 r1 c2 v2 u,
  St h (p :: g :: anc) (FR true r1 v1 :: FR c2 u v2 :: k) a root (T true l v r) ->
  exists h1 h2 h3 n np, setRed h p false = Ok h1 /\ setRed h1 g true = Ok h2
    /\ leftRotate h2 g = Ok (h3, n)
    /\ wfh h3 /\ (n0 <= n)%nat /\ same h h3 /\ mem h3 p = Some np /\ nred np = false
    /\ NoDup (n :: anc) /\ ~ In n (p :: g :: anc)
    /\ nodeAt h3 (path anc n) n (T false (T true u v2 r1) v1 (T true l v r))
    /\ repctx h3 (path (n :: anc) g) anc k g root.
Proof.
  intros h anc k a p g root l v r v1 r1 c2 v2 u (Hw & Hn & Hnd & Hge & Ha & Hc).
  cbn [repctx nodeAt] in *.
  destruct Hc as (Hps & (ra1 & Hmp & Hr1) & Hgs & (ua & Hmg & Hu) & Hk).
  destruct Ha as (Has & la & ra & Hma & Hl & Hr).
  inversion Hnd as [|? ? Ha1 Hnd1]; subst. inversion Hnd1 as [|? ? Hp1 Hnd2]; subst. inversion Hnd2 as [|? ? Hg1 Hnd3]; subst.
  assert (a <> p) by (intros ->; apply Ha1; left; reflexivity).
  assert (a <> g) by (intros ->; apply Ha1; right; left; reflexivity).
  assert (p <> g) by (intros ->; apply Hp1; left; reflexivity).
  pose proof (wfh_lt _ _ _ Hw Hma) as La. pose proof (wfh_lt _ _ _ Hw Hmp) as Lp. pose proof (wfh_lt _ _ _ Hw Hmg) as Lg.
  assert (Hsn : (s < next h)%nat) by lia.
  unfold leftRotate. hs. rewrite Hmp. cbn [bind]. eexists. eexists. eexists. eexists. eexists.
  split; [reflexivity|]. cbn [mem next nval nred nleft nright].
  rewrite upd_ne by ne. rewrite Hmg. cbn [bind]. split; [reflexivity|]. cbn [mem next nval nred nleft nright].
  crunch. split; [reflexivity|].
  cbn [mem next nval nred nleft nright].
  match goal with |- wfh ?H /\ _ => set (h3 := H) end.
  assert (HF : forall x, x <> p -> x <> g -> x <> next h -> mem h3 x = mem h x).
  { intros x H1' H2' H3'. unfold h3; cbn [mem]. mstep. reflexivity. }
  assert (Hanc : forall x, In x anc -> x <> p /\ x <> g /\ (x < next h)%nat).
  { intros x Hx. split; [intros ->; apply Hp1; right; assumption|].
    split; [intros ->; contradiction|].
    eapply repctx_lt; eassumption. }
  split. (* wfh *)
  { split; unfold h3; cbn [mem next].
    - intros x Hx. mstep. apply Hw. lia.
    - mstep. apply Hw. }
  split; [lia|].
  split.
  { split; [unfold h3; cbn [next]; lia|]. intros x Hx. apply HF; [| |lia].
    - intros ->. specialize (Hge p). cbn in Hge. lia.
    - intros ->. specialize (Hge g). cbn in Hge. lia. }
  split. { unfold h3; cbn [mem]. mstep. reflexivity. }
  split. { reflexivity. }
  split. { constructor; [|assumption]. intros Hin. apply Hanc in Hin. lia. }
  split. { intros [->|[->|Hin]]; [lia|lia|]. apply Hanc in Hin. lia. }
  assert (HR : forall (D : nat -> Prop) y t, (forall x, D x -> x = next h \/ path (p :: g :: anc) a x) -> rep h (path (p :: g :: anc) a) y t -> rep h3 D y t).
  { intros D y t HD Hy. apply rep_lt in Hy; [|assumption].
    eapply rep_mono with (D := fun x => path (p :: g :: anc) a x \/ (next h <= x)%nat).
    { intros x Hx. destruct (HD x Hx) as [->|]; [right; lia|left; assumption]. }
    eapply rep_frame; [exact Hy|]. intros x n Hx Hm. rewrite HF; [assumption| | |].
    - intros ->. apply Hx. left. right; left; reflexivity.
    - intros ->. apply Hx. left. right; right; left; reflexivity.
    - intros ->. apply Hx. right; lia. }
  split.
  { cbn [nodeAt]. split; [lia|]. exists g, a.
    split. { unfold h3; cbn [mem]. mstep. reflexivity. }
    assert (HDp : forall x, path anc (next h) x -> x = next h \/ path (p :: g :: anc) a x).
    { intros x [<-|Hx]; [left; reflexivity|right; right; right; right; assumption]. }
    split.
    - cbn [rep]. split; [assumption|].
      split. { intros [Hq|Hq]; [lia|]. contradiction. }
      exists ua, ra1. split. { unfold h3; cbn [mem]. mstep. reflexivity. }
      split; apply HR; assumption.
    - cbn [rep]. split; [assumption|].
      split. { intros [Hq|Hq]; [lia|]. apply Ha1. right; right; assumption. }
      exists la, ra. split; [rewrite HF by ne; assumption|].
      split; apply HR; assumption. }
  { apply rep_lt in Hl as Hl'; [|assumption].
    assert (Hk' := repctx_avoid _ _ _ _ _ _ Hw Hk).
    eapply repctx_mono; [|eapply repctx_frame; [exact Hk'| |]].
    - intros x [<-|[<-|Hx]]; [left; right; right; left; reflexivity|right; lia|left; right; right; right; assumption].
    - intros x n Hx Hm. rewrite HF; [assumption| | |].
      + intros ->. apply Hx. left. right; left; reflexivity.
      + intros ->. apply Hx. left. right; right; left; reflexivity.
      + intros ->. apply Hx. right; lia.
    - intros x Hx. apply Hanc in Hx. apply HF; lia. }
Qed.

Definition blackf (f : frame) : frame := match f with FL _ v r => FL false v r | FR _ l v => FR false l v end.

(** Context nodes seen as tree nodes. *)
Lemma recolorRight_ok : forall h anc k a p g root l v r f c2 v2 ul uv ur,
  St h (p :: g :: anc) (f :: FL c2 v2 (T true ul uv ur) :: k) a root (T true l v r) ->
  exists h', recolorRight h p g = Ok h' /\ same h h'
    /\ St h' anc k g root (T true (plug (T true l v r) [blackf f]) v2 (T false ul uv ur)).
Proof.
  intros h anc k a p g root l v r f c2 v2 ul uv ur (Hw & Hn & Hnd & Hge & Ha & Hc).
  cbn [repctx nodeAt] in *.
  destruct Hc as (Hps & Hf & Hgs & (ua & Hmg & Hu) & Hk).
  destruct Ha as (Has & la & ra & Hma & Hl & Hr).
  inversion Hnd as [|? ? Ha1 Hnd1]; subst. inversion Hnd1 as [|? ? Hp1 Hnd2]; subst. inversion Hnd2 as [|? ? Hg1 Hnd3]; subst.
  assert (a <> p) by (intros ->; apply Ha1; left; reflexivity).
  assert (a <> g) by (intros ->; apply Ha1; right; left; reflexivity).
  assert (p <> g) by (intros ->; apply Hp1; left; reflexivity).
  cbn [rep] in Hu. destruct Hu as (Hus & HuD & ula & ura & Hmu & Hul & Hur).
  assert (ua <> p) by (intros ->; apply HuD; right; left; reflexivity).
  assert (ua <> g) by (intros ->; apply HuD; right; right; left; reflexivity).
  assert (ua <> a) by (intros ->; apply HuD; left; reflexivity).
  assert (Hmp : exists np, mem h p = Some np) by (destruct f as [c0 v0 r0|c0 l0 v0]; destruct Hf as (y & Hm & _); eauto).
  destruct Hmp as (np & Hmp).
  pose proof (wfh_lt _ _ _ Hw Hma) as La. pose proof (wfh_lt _ _ _ Hw Hmp) as Lp. pose proof (wfh_lt _ _ _ Hw Hmg) as Lg.
  pose proof (wfh_lt _ _ _ Hw Hmu) as Lu.
  assert (Hsn : (s < next h)%nat) by lia.
  unfold recolorRight. hs. rewrite Hmp. cbn [bind mem next]. mstep. rewrite Hmg. cbn [bind nright]. mstep. rewrite Hmu.
  cbn [bind mem next]. mstep. rewrite Hmg. crunch.
  eexists. split; [reflexivity|].
  match goal with |- same _ ?H /\ _ => set (h3 := H) end.
  assert (HF : forall x, x <> p -> x <> g -> x <> next h -> mem h3 x = mem h x).
  { intros x H1' H2' H3'. unfold h3; cbn [mem]. mstep. reflexivity. }
  assert (Hanc : forall x, In x anc -> x <> p /\ x <> g /\ (x < next h)%nat).
  { intros x Hx. split; [intros ->; apply Hp1; right; assumption|].
    split; [intros ->; contradiction|].
    eapply repctx_lt; eassumption. }
  assert (HR : forall (D : nat -> Prop) y t, (forall x, D x -> path (p :: g :: anc) a x) -> rep h (path (p :: g :: anc) a) y t -> rep h3 D y t).
  { intros D y t HD Hy. apply rep_lt in Hy; [|assumption].
    eapply rep_mono with (D := fun x => path (p :: g :: anc) a x \/ (next h <= x)%nat).
    { intros x Hx. left; auto. }
    eapply rep_frame; [exact Hy|]. intros x n Hx Hm. rewrite HF; [assumption| | |].
    - intros ->. apply Hx. left. right; left; reflexivity.
    - intros ->. apply Hx. left. right; right; left; reflexivity.
    - intros ->. apply Hx. right; lia. }
  assert (HDp : forall x, path anc g x -> path (p :: g :: anc) a x).
  { intros x [<-|Hx]; [right; right; left; reflexivity|right; right; right; assumption]. }
  split.
  { split; [unfold h3; cbn [next]; lia|]. intros x Hx. apply HF; [| |lia].
    - intros ->. specialize (Hge p). cbn in Hge. lia.
    - intros ->. specialize (Hge g). cbn in Hge. lia. }
  split.
  { split; unfold h3; cbn [mem next].
    - intros x Hx. mstep. apply Hw. lia.
    - mstep. apply Hw. }
  split; [unfold h3; cbn [next]; lia|].
  split; [assumption|].
  split. { intros x [<-|Hx]; apply Hge; [right; right; left; reflexivity|right; right; right; assumption]. }
  split.
  { cbn [nodeAt]. split; [assumption|]. exists p, (next h).
    split. { unfold h3; cbn [mem]. mstep. reflexivity. }
    assert (Hra : rep h3 (path anc g) a (T true l v r)).
    { cbn [rep]. split; [assumption|].
      split. { intros [Hq|Hq]; [congruence|]. apply Ha1. right; right; assumption. }
      exists la, ra. split; [rewrite HF by ne; assumption|]. split; apply HR; assumption. }
    assert (HpD : ~ path anc g p).
    { intros [Hq|Hq]; [congruence|]. apply Hp1. right; assumption. }
    split.
    - destruct f as [c0 v0 r0|c0 l0 v0]; destruct Hf as (y & Hm & Hy); cbn [blackf plug rep];
      rewrite Hm in Hmp; inversion Hmp; subst np; clear Hmp; (split; [assumption|]; split; [assumption|]).
      + exists a, y. split. { unfold h3; cbn [mem]. mstep. reflexivity. }
        split; [exact Hra|apply HR; assumption].
      + exists y, a. split. { unfold h3; cbn [mem]. mstep. reflexivity. }
        split; [apply HR; assumption|exact Hra].
    - cbn [rep]. split; [lia|]. split.
      { intros [Hq|Hq]; [lia|]. apply Hanc in Hq. lia. }
      exists ula, ura. split. { unfold h3; cbn [mem]. mstep. reflexivity. }
      split; apply HR; assumption. }
  { assert (Hk' := repctx_avoid _ _ _ _ _ _ Hw Hk).
    eapply repctx_mono; [|eapply repctx_frame; [exact Hk'| |]].
    - intros x Hx. left. auto.
    - intros x n Hx Hm. rewrite HF; [assumption| | |].
      + intros ->. apply Hx. left. right; left; reflexivity.
      + intros ->. apply Hx. left. right; right; left; reflexivity.
      + intros ->. apply Hx. right; lia.
    - intros x Hx. apply Hanc in Hx. apply HF; lia. }
Qed.

Lemma recolorLeft_ok : forall h anc k a p g root l v r f c2 v2 ul uv ur,
  St h (p :: g :: anc) (f :: FR c2 (T true ul uv ur) v2 :: k) a root (T true l v r) ->
  exists h', recolorLeft h p g = Ok h' /\ same h h'
    /\ St h' anc k g root (T true (T false ul uv ur) v2 (plug (T true l v r) [blackf f])).
Proof.
  intros h anc k a p g root l v r f c2 v2 ul uv ur (Hw & Hn & Hnd & Hge & Ha & Hc).
  cbn [repctx nodeAt] in *.
  destruct Hc as (Hps & Hf & Hgs & (ua & Hmg & Hu) & Hk).
  destruct Ha as (Has & la & ra & Hma & Hl & Hr).
  inversion Hnd as [|? ? Ha1 Hnd1]; subst. inversion Hnd1 as [|? ? Hp1 Hnd2]; subst. inversion Hnd2 as [|? ? Hg1 Hnd3]; subst.
  assert (a <> p) by (intros ->; apply Ha1; left; reflexivity).
  assert (a <> g) by (intros ->; apply Ha1; right; left; reflexivity).
  assert (p <> g) by (intros ->; apply Hp1; left; reflexivity).
  cbn [rep] in Hu. destruct Hu as (Hus & HuD & ula & ura & Hmu & Hul & Hur).
  assert (ua <> p) by (intros ->; apply HuD; right; left; reflexivity).
  assert (ua <> g) by (intros ->; apply HuD; right; right; left; reflexivity).
  assert (ua <> a) by (intros ->; apply HuD; left; reflexivity).
  assert (Hmp : exists np, mem h p = Some np) by (destruct f as [c0 v0 r0|c0 l0 v0]; destruct Hf as (y & Hm & _); eauto).
  destruct Hmp as (np & Hmp).
  pose proof (wfh_lt _ _ _ Hw Hma) as La. pose proof (wfh_lt _ _ _ Hw Hmp) as Lp. pose proof (wfh_lt _ _ _ Hw Hmg) as Lg.
  pose proof (wfh_lt _ _ _ Hw Hmu) as Lu.
  assert (Hsn : (s < next h)%nat) by lia.
  unfold recolorLeft. hs. rewrite Hmp. cbn [bind mem next]. mstep. rewrite Hmg. cbn [bind nleft]. mstep. rewrite Hmu.
  cbn [bind mem next]. mstep. rewrite Hmg. crunch.
  eexists. split; [reflexivity|].
  match goal with |- same _ ?H /\ _ => set (h3 := H) end.
  assert (HF : forall x, x <> p -> x <> g -> x <> next h -> mem h3 x = mem h x).
  { intros x H1' H2' H3'. unfold h3; cbn [mem]. mstep. reflexivity. }
  assert (Hanc : forall x, In x anc -> x <> p /\ x <> g /\ (x < next h)%nat).
  { intros x Hx. split; [intros ->; apply Hp1; right; assumption|].
    split; [intros ->; contradiction|].
    eapply repctx_lt; eassumption. }
  assert (HR : forall (D : nat -> Prop) y t, (forall x, D x -> path (p :: g :: anc) a x) -> rep h (path (p :: g :: anc) a) y t -> rep h3 D y t).
  { intros D y t HD Hy. apply rep_lt in Hy; [|assumption].
    eapply rep_mono with (D := fun x => path (p :: g :: anc) a x \/ (next h <= x)%nat).
    { intros x Hx. left; auto. }
    eapply rep_frame; [exact Hy|]. intros x n Hx Hm. rewrite HF; [assumption| | |].
    - intros ->. apply Hx. left. right; left; reflexivity.
    - intros ->. apply Hx. left. right; right; left; reflexivity.
    - intros ->. apply Hx. right; lia. }
  assert (HDp : forall x, path anc g x -> path (p :: g :: anc) a x).
  { intros x [<-|Hx]; [right; right; left; reflexivity|right; right; right; assumption]. }
  split.
  { split; [unfold h3; cbn [next]; lia|]. intros x Hx. apply HF; [| |lia].
    - intros ->. specialize (Hge p). cbn in Hge. lia.
    - intros ->. specialize (Hge g). cbn in Hge. lia. }
  split.
  { split; unfold h3; cbn [mem next].
    - intros x Hx. mstep. apply Hw. lia.
    - mstep. apply Hw. }
  split; [unfold h3; cbn [next]; lia|].
  split; [assumption|].
  split. { intros x [<-|Hx]; apply Hge; [right; right; left; reflexivity|right; right; right; assumption]. }
  split.
  { cbn [nodeAt]. split; [assumption|]. exists (next h), p.
    split. { unfold h3; cbn [mem]. mstep. reflexivity. }
    assert (Hra : rep h3 (path anc g) a (T true l v r)).
    { cbn [rep]. split; [assumption|].
      split. { intros [Hq|Hq]; [congruence|]. apply Ha1. right; right; assumption. }
      exists la, ra. split; [rewrite HF by ne; assumption|]. split; apply HR; assumption. }
    assert (HpD : ~ path anc g p).
    { intros [Hq|Hq]; [congruence|]. apply Hp1. right; assumption. }
    split.
    - cbn [rep]. split; [lia|]. split.
      { intros [Hq|Hq]; [lia|]. apply Hanc in Hq. lia. }
      exists ula, ura. split. { unfold h3; cbn [mem]. mstep. reflexivity. }
      split; apply HR; assumption.
    - destruct f as [c0 v0 r0|c0 l0 v0]; destruct Hf as (y & Hm & Hy); cbn [blackf plug rep];
      rewrite Hm in Hmp; inversion Hmp; subst np; clear Hmp; (split; [assumption|]; split; [assumption|]).
      + exists a, y. split. { unfold h3; cbn [mem]. mstep. reflexivity. }
        split; [exact Hra|apply HR; assumption].
      + exists y, a. split. { unfold h3; cbn [mem]. mstep. reflexivity. }
        split; [apply HR; assumption|exact Hra]. }
  { assert (Hk' := repctx_avoid _ _ _ _ _ _ Hw Hk).
    eapply repctx_mono; [|eapply repctx_frame; [exact Hk'| |]].
    - intros x Hx. left. auto.
    - intros x n Hx Hm. rewrite HF; [assumption| | |].
      + intros ->. apply Hx. left. right; left; reflexivity.
      + intros ->. apply Hx. left. right; right; left; reflexivity.
      + intros ->. apply Hx. right; lia.
    - intros x Hx. apply Hanc in Hx. apply HF; lia. }
Qed.

Lemma innerLeft_ok : forall h anc k a p g root l v r f c2 v2 u,
  St h (p :: g :: anc) (f :: FL c2 v2 u :: k) a root (T true l v r) -> fred f = true ->
  exists h' a' p' l' v' r' v1 r1,
    innerLeft h a p (g :: anc) = Ok (h', a', p' :: g :: anc) /\ same h h'
    /\ St h' (p' :: g :: anc) (FL true v1 r1 :: FL c2 v2 u :: k) a' root (T true l' v' r')
    /\ inorder (T true (T true l' v' r') v1 r1) = inorder (plug (T true l v r) [f])
    /\ (forall n, rb (T true l v r) n -> ctxrb (f :: FL c2 v2 u :: k) n ->
          rb (T true l' v' r') n /\ rb r1 n /\ isred r1 = false).
Proof.
  intros h anc k a p g root l v r f c2 v2 u HSt Hfr. pose proof HSt as (Hw & Hn & Hnd & Hge & Ha & Hc).
  cbn [repctx nodeAt] in *.
  destruct Hc as (Hps & Hf & Hgs & (ua & Hmg & Hu) & Hk).
  destruct Ha as (Has & la & ra & Hma & Hl & Hr).
  destruct f as [c1 v1 r1|c1 l1 v1]; cbn [fred] in Hfr; subst c1; destruct Hf as (y & Hmp & Hy).
  - assert (Hne : y <> a) by (eapply rep_notD; [exact Hy|left; reflexivity|assumption]).
    unfold innerLeft, rd. rewrite Hmp. cbn [of_option bind nright].
    replace (a =? y)%nat with false by (symmetry; apply Nat.eqb_neq; congruence).
    exists h, a, p, l, v, r, v1, r1. split; [reflexivity|]. split; [split; auto|].
    split; [exact HSt|]. split; [reflexivity|].
    intros n H1 H2. cbn [ctxrb fred] in H2. tauto.
  - inversion Hnd as [|? ? Ha1 Hnd1]; subst. inversion Hnd1 as [|? ? Hp1 Hnd2]; subst. inversion Hnd2 as [|? ? Hg1 Hnd3]; subst.
    assert (a <> p) by (intros ->; apply Ha1; left; reflexivity).
    assert (a <> g) by (intros ->; apply Ha1; right; left; reflexivity).
    assert (p <> g) by (intros ->; apply Hp1; left; reflexivity).
    pose proof (wfh_lt _ _ _ Hw Hma) as La. pose proof (wfh_lt _ _ _ Hw Hmp) as Lp. pose proof (wfh_lt _ _ _ Hw Hmg) as Lg.
    assert (Hsn : (s < next h)%nat) by lia.
    assert (Hneu : ua <> p) by (eapply rep_notD; [exact Hu|right; left; reflexivity|assumption]).
    unfold innerLeft, leftRotate, rd. rewrite Hmp. cbn [of_option bind nright].
    rewrite Nat.eqb_refl. hs. rewrite Hma. crunch. rewrite Hmp. crunch. rewrite Hmg. crunch.
    replace (p =? ua)%nat with false by (symmetry; apply Nat.eqb_neq; congruence).
    cbn [bind].
    eexists. exists p, (next h), l1, v1, l, v, r.
    split; [reflexivity|].
    match goal with |- same _ ?H /\ _ => set (h3 := H) end.
    assert (HF : forall x, x <> p -> x <> g -> x <> next h -> mem h3 x = mem h x).
    { intros x H1' H2' H3'. unfold h3; cbn [mem]. mstep. reflexivity. }
    assert (Hanc : forall x, In x anc -> x <> p /\ x <> g /\ (x < next h)%nat).
    { intros x Hx. split; [intros ->; apply Hp1; right; assumption|].
      split; [intros ->; contradiction|].
      eapply repctx_lt; eassumption. }
    assert (HDp : forall x, path (next h :: g :: anc) p x -> path (p :: g :: anc) a x \/ (next h <= x)%nat).
    { intros x [<-|[<-|Hx]]; [left; right; left; reflexivity|right; lia|left; right; right; assumption]. }
    assert (HR : forall y t, rep h (path (p :: g :: anc) a) y t -> rep h3 (path (next h :: g :: anc) p) y t).
    { intros y' t Hy'. apply rep_lt in Hy'; [|assumption].
      eapply rep_mono; [exact HDp|].
      eapply rep_frame; [exact Hy'|]. intros x n Hx Hm. rewrite HF; [assumption| | |].
      - intros ->. apply Hx. left. right; left; reflexivity.
      - intros ->. apply Hx. left. right; right; left; reflexivity.
      - intros ->. apply Hx. right; lia. }
    split.
    { split; [unfold h3; cbn [next]; lia|]. intros x Hx. apply HF; [| |lia].
      - intros ->. specialize (Hge p). cbn in Hge. lia.
      - intros ->. specialize (Hge g). cbn in Hge. lia. }
    split.
    { split.
      { split; unfold h3; cbn [mem next].
        - intros x Hx. mstep. apply Hw. lia.
        - mstep. apply Hw. }
      split; [unfold h3; cbn [next]; lia|].
      split.
      { constructor.
        - intros [Hq|[Hq|Hq]]; [lia|congruence|]. apply Hp1. right; assumption.
        - constructor; [|assumption]. intros [Hq|Hq]; [lia|]. apply Hanc in Hq. lia. }
      split.
      { intros x [<-|[<-|Hx]]; [apply Hge; right; left; reflexivity|lia|apply Hge; right; right; assumption]. }
      split.
      { cbn [nodeAt]. split; [assumption|]. exists y, la.
        split. { unfold h3; cbn [mem]. mstep. reflexivity. }
        split; apply HR; assumption. }
      cbn [repctx]. split; [lia|]. split.
      { exists ra. split. { unfold h3; cbn [mem]. mstep. reflexivity. } apply HR; assumption. }
      split; [assumption|]. split.
      { exists ua. split. { unfold h3; cbn [mem]. mstep. reflexivity. } apply HR; assumption. }
      assert (Hk' := repctx_avoid _ _ _ _ _ _ Hw Hk).
      eapply repctx_mono; [exact HDp|eapply repctx_frame; [exact Hk'| |]].
      - intros x n Hx Hm. rewrite HF; [assumption| | |].
        + intros ->. apply Hx. left. right; left; reflexivity.
        + intros ->. apply Hx. left. right; right; left; reflexivity.
        + intros ->. apply Hx. right; lia.
      - intros x Hx. apply Hanc in Hx. apply HF; lia. }
    split.
    { cbn [plug inorder]. rewrite <- !app_assoc. reflexivity. }
    { intros n H1' H2'. cbn [ctxrb fred rb] in *. tauto. }
Qed.

Lemma innerRight_ok : forall h anc k a p g root l v r f c2 v2 u,
  St h (p :: g :: anc) (f :: FR c2 u v2 :: k) a root (T true l v r) -> fred f = true ->
  exists h' a' p' l' v' r' v1 r1,
    innerRight h a p (g :: anc) = Ok (h', a', p' :: g :: anc) /\ same h h'
    /\ St h' (p' :: g :: anc) (FR true r1 v1 :: FR c2 u v2 :: k) a' root (T true l' v' r')
    /\ inorder (T true r1 v1 (T true l' v' r')) = inorder (plug (T true l v r) [f])
    /\ (forall n, rb (T true l v r) n -> ctxrb (f :: FR c2 u v2 :: k) n ->
          rb (T true l' v' r') n /\ rb r1 n /\ isred r1 = false).
Proof.
  intros h anc k a p g root l v r f c2 v2 u HSt Hfr. pose proof HSt as (Hw & Hn & Hnd & Hge & Ha & Hc).
  cbn [repctx nodeAt] in *.
  destruct Hc as (Hps & Hf & Hgs & (ua & Hmg & Hu) & Hk).
  destruct Ha as (Has & la & ra & Hma & Hl & Hr).
  destruct f as [c1 v1 l1|c1 r1 v1]; cbn [fred] in Hfr; subst c1; destruct Hf as (y & Hmp & Hy).
  - inversion Hnd as [|? ? Ha1 Hnd1]; subst. inversion Hnd1 as [|? ? Hp1 Hnd2]; subst. inversion Hnd2 as [|? ? Hg1 Hnd3]; subst.
    assert (a <> p) by (intros ->; apply Ha1; left; reflexivity).
    assert (a <> g) by (intros ->; apply Ha1; right; left; reflexivity).
    assert (p <> g) by (intros ->; apply Hp1; left; reflexivity).
    pose proof (wfh_lt _ _ _ Hw Hma) as La. pose proof (wfh_lt _ _ _ Hw Hmp) as Lp. pose proof (wfh_lt _ _ _ Hw Hmg) as Lg.
    assert (Hsn : (s < next h)%nat) by lia.
    assert (Hneu : ua <> p) by (eapply rep_notD; [exact Hu|right; left; reflexivity|assumption]).
    unfold innerRight, rightRotate, rd. rewrite Hmp. cbn [of_option bind nleft].
    rewrite Nat.eqb_refl. hs. rewrite Hma. crunch. rewrite Hmp. crunch. rewrite Hmg. crunch.
    replace (p =? ua)%nat with false by (symmetry; apply Nat.eqb_neq; congruence).
    cbn [bind].
    eexists. exists p, (next h), r, v1, l1, v, l.
    split; [reflexivity|].
    match goal with |- same _ ?H /\ _ => set (h3 := H) end.
    assert (HF : forall x, x <> p -> x <> g -> x <> next h -> mem h3 x = mem h x).
    { intros x H1' H2' H3'. unfold h3; cbn [mem]. mstep. reflexivity. }
    assert (Hanc : forall x, In x anc -> x <> p /\ x <> g /\ (x < next h)%nat).
    { intros x Hx. split; [intros ->; apply Hp1; right; assumption|].
      split; [intros ->; contradiction|].
      eapply repctx_lt; eassumption. }
    assert (HDp : forall x, path (next h :: g :: anc) p x -> path (p :: g :: anc) a x \/ (next h <= x)%nat).
    { intros x [<-|[<-|Hx]]; [left; right; left; reflexivity|right; lia|left; right; right; assumption]. }
    assert (HR : forall y t, rep h (path (p :: g :: anc) a) y t -> rep h3 (path (next h :: g :: anc) p) y t).
    { intros y' t Hy'. apply rep_lt in Hy'; [|assumption].
      eapply rep_mono; [exact HDp|].
      eapply rep_frame; [exact Hy'|]. intros x n Hx Hm. rewrite HF; [assumption| | |].
      - intros ->. apply Hx. left. right; left; reflexivity.
      - intros ->. apply Hx. left. right; right; left; reflexivity.
      - intros ->. apply Hx. right; lia. }
    split.
    { split; [unfold h3; cbn [next]; lia|]. intros x Hx. apply HF; [| |lia].
      - intros ->. specialize (Hge p). cbn in Hge. lia.
      - intros ->. specialize (Hge g). cbn in Hge. lia. }
    split.
    { split.
      { split; unfold h3; cbn [mem next].
        - intros x Hx. mstep. apply Hw. lia.
        - mstep. apply Hw. }
      split; [unfold h3; cbn [next]; lia|].
      split.
      { constructor.
        - intros [Hq|[Hq|Hq]]; [lia|congruence|]. apply Hp1. right; assumption.
        - constructor; [|assumption]. intros [Hq|Hq]; [lia|]. apply Hanc in Hq. lia. }
      split.
      { intros x [<-|[<-|Hx]]; [apply Hge; right; left; reflexivity|lia|apply Hge; right; right; assumption]. }
      split.
      { cbn [nodeAt]. split; [assumption|]. exists ra, y.
        split. { unfold h3; cbn [mem]. mstep. reflexivity. }
        split; apply HR; assumption. }
      cbn [repctx]. split; [lia|]. split.
      { exists la. split. { unfold h3; cbn [mem]. mstep. reflexivity. } apply HR; assumption. }
      split; [assumption|]. split.
      { exists ua. split. { unfold h3; cbn [mem]. mstep. reflexivity. } apply HR; assumption. }
      assert (Hk' := repctx_avoid _ _ _ _ _ _ Hw Hk).
      eapply repctx_mono; [exact HDp|eapply repctx_frame; [exact Hk'| |]].
      - intros x n Hx Hm. rewrite HF; [assumption| | |].
        + intros ->. apply Hx. left. right; left; reflexivity.
        + intros ->. apply Hx. left. right; right; left; reflexivity.
        + intros ->. apply Hx. right; lia.
      - intros x Hx. apply Hanc in Hx. apply HF; lia. }
    split.
    { cbn [plug inorder]. rewrite <- !app_assoc. reflexivity. }
    { intros n H1' H2'. cbn [ctxrb fred rb] in *. tauto. }
  - assert (Hne : y <> a) by (eapply rep_notD; [exact Hy|left; reflexivity|assumption]).
    unfold innerRight, rd. rewrite Hmp. cbn [of_option bind nleft].
    replace (a =? y)%nat with false by (symmetry; apply Nat.eqb_neq; congruence).
    exists h, a, p, l, v, r, v1, r1. split; [reflexivity|]. split; [split; auto|].
    split; [exact HSt|]. split; [reflexivity|].
    intros n H1 H2. cbn [ctxrb fred] in H2. tauto.
Qed.

Lemma inorder_plug_cong : forall k t t', inorder t = inorder t' -> inorder (plug t k) = inorder (plug t' k).
Proof. intros k t t' H. rewrite !inorder_plug, H. reflexivity. Qed.

Lemma repctx_root : forall h D anc k a root, repctx h D anc k a root -> In root (a :: anc).
Proof.
  intros h D anc; induction anc as [|p anc IH]; intros k a root H; destruct k; cbn [repctx] in H; try contradiction.
  - left; assumption.
  - destruct H as (_ & _ & H). apply IH in H. right; assumption.
Qed.

Definition Final (h h' : heap) (root' : nat) (t : tree) : Prop :=
  wfh h' /\ same h h' /\ (n0 <= root')%nat /\
  exists t', nodeAt h' (fun x => x = root') root' t' /\ inorder t' = inorder t /\ exists m, rb t' m.

Lemma addLoop_ok : forall m k, (length k <= m)%nat -> forall fuel h anc a root l v r n,
  St h anc k a root (T true l v r) -> rb (T true l v r) n -> ctxrb k n -> (length k < fuel)%nat ->
  exists h' root', addLoop fuel h anc a root = Ok (h', root') /\ Final h h' root' (plug (T true l v r) k).
Proof.
  induction m as [|m IH]; intros k Hm fuel h anc a root l v r n HSt Hrb Hctx Hfuel.
  - destruct k; cbn in Hm; [|lia].
    pose proof HSt as (Hw & Hn & Hnd & Hge & Ha & Hc).
    destruct anc as [|p anc]; cbn [repctx] in Hc; [|contradiction]. subst root.
    exists h, a. split; [destruct fuel; reflexivity|].
    split; [assumption|]. split; [split; auto|]. split; [apply Hge; left; reflexivity|].
    exists (T true l v r). split; [|split; [reflexivity|eauto]].
    eapply nodeAt_mono; [|exact Ha]. intros x ->. left; reflexivity.
  - destruct k as [|f k].
    { apply (IH [] ltac:(cbn; lia) fuel h anc a root l v r n); auto. }
    pose proof HSt as (Hw & Hn & Hnd & Hge & Ha & Hc).
    destruct anc as [|p anc]; [cbn [repctx] in Hc; contradiction|].
    destruct (fred f) eqn:Ef.
    2:{ (* parent black: done *)
      pose proof Hc as Hc0. cbn [repctx] in Hc. destruct Hc as (Hps & Hf & Hk).
      exists h, root. split.
      { destruct f as [c1 v1 r1|c1 l1 v1]; cbn [fred] in Ef; subst c1; destruct Hf as (y & Hmp & Hy);
        destruct fuel; cbn [addLoop]; unfold rd; rewrite Hmp; reflexivity. }
      split; [assumption|]. split; [split; auto|].
      split; [apply Hge; eapply repctx_root; exact Hc0|].
      exists (plug (T true l v r) (f :: k)). split; [|split; [reflexivity|]].
      - eapply plug_nodeAt; [exact Hc0|assumption| |exact Ha]. intros x Hx; exact Hx.
      - apply plug_rb with (n := n); auto. }
    assert (Hk2 : exists f2 k2 g anc2, k = f2 :: k2 /\ anc = g :: anc2 /\ fred f2 = false).
    { cbn [ctxrb] in Hctx. rewrite Ef in Hctx. destruct Hctx as (_ & _ & Hg & _).
      destruct k as [|f2 k2]; [contradiction|]. destruct anc as [|g anc2].
      - cbn [repctx] in Hc. destruct Hc as (_ & _ & []).
      - eauto 8. }
    destruct Hk2 as (f2 & k2 & g & anc2 & -> & -> & Ef2).
    destruct fuel as [|fuel]; [lia|].
    cbn [length] in *.
    (* the parent is red *)
    assert (Hpred : exists np, mem h p = Some np /\ nred np = true).
    { cbn [repctx] in Hc. destruct Hc as (_ & Hf & _).
      destruct f as [c1 v1 r1|c1 l1 v1]; cbn [fred] in Ef; subst c1; destruct Hf as (y & Hmp & Hy); eauto. }
    destruct Hpred as (np & Hmp & Hnp).
    cbn [addLoop]. unfold rd at 1. rewrite Hmp. cbn [of_option bind]. rewrite Hnp. cbn [negb].
    assert (Hps : p <> s) by (cbn [repctx] in Hc; tauto).
    assert (Hgs : g <> s) by (cbn [repctx] in Hc; tauto).
    assert (Hpg : p <> g).
    { inversion Hnd as [|? ? _ Hnd1]; subst. inversion Hnd1 as [|? ? Hp1 _]; subst. intros ->. apply Hp1; left; reflexivity. }
    destruct f2 as [c2 v2 u|c2 u v2]; cbn [fred] in Ef2; subst c2.
    + (* parent is a left child *)
      assert (Hgm : exists ua, mem h g = Some {| nval := Some v2; nred := false; nleft := p; nright := ua |} /\ rep h (path (p :: g :: anc2) a) ua u).
      { cbn [repctx] in Hc. tauto. }
      destruct Hgm as (ua & Hmg & Hu). unfold rd at 1. rewrite Hmg. cbn [of_option bind nleft nright]. rewrite Nat.eqb_refl.
      destruct (rep_red _ _ _ _ Hw Hu) as (nu & Hmu & Hnu). unfold rd at 1. rewrite Hmu. cbn [of_option bind]. rewrite Hnu.
      destruct (isred u) eqn:Eu.
      * destruct u as [|[] ul uv ur]; try discriminate Eu.
        destruct (recolorRight_ok _ _ _ _ _ _ _ _ _ _ _ _ _ _ _ _ HSt) as (h1 & Hr1 & Hsame & HSt1).
        rewrite Hr1. cbn [bind].
        cbn [ctxrb fred] in Hctx. rewrite Ef in Hctx. destruct Hctx as (Hs1 & Hs2 & _ & Hs3 & Hs4).
        destruct (IH k2 ltac:(lia) fuel h1 anc2 g root (plug (T true l v r) [blackf f]) v2 (T false ul uv ur) (S n) HSt1)
          as (h' & root' & Hrun & HF); [| assumption | lia |].
        { cbn [rb]. cbn [rb] in Hs3. split; [|split; [|split]].
          - destruct f; cbn [blackf plug rb]; exists n; auto.
          - exists n. tauto.
          - destruct f; reflexivity.
          - reflexivity. }
        exists h', root'. split; [exact Hrun|].
        destruct HF as (HF1 & HF2 & HF3 & t' & HF4 & HF5 & HF6).
        split; [assumption|]. split; [eapply same_trans; eassumption|]. split; [assumption|].
        exists t'. split; [assumption|]. split; [|assumption]. rewrite HF5.
        destruct f; cbn [blackf plug]; apply inorder_plug_cong; reflexivity.
      * destruct (innerLeft_ok _ _ _ _ _ _ _ _ _ _ _ _ _ _ HSt Ef) as (h1 & a1 & p1 & l1 & w1 & r1 & v1 & s1 & Hin & Hsame & HSt1 & Hino & Hrb1).
        rewrite Hin. cbn [bind].
        destruct (Hrb1 n Hrb Hctx) as (Hq1 & Hq2 & Hq3).
        destruct (outerLeft_ok _ _ _ _ _ _ _ _ _ _ _ _ _ _ _ HSt1) as (h2 & h3 & h4 & nn & npp & E1 & E2 & E3 & Hw4 & Hnn & Hsame4 & Hmp4 & Hblk & Hnd4 & Hnin & Hnode & Hctx4).
        rewrite E1. cbn [bind]. rewrite E2. cbn [bind]. rewrite E3. cbn [bind].
        destruct (linkRight_ok h4 (path (nn :: anc2) g) anc2 k2 g root nn Hw4 Hctx4) as (h5 & root5 & E5 & Hctx5 & Hw5 & Hnx5 & HF5 & Hr5).
        { inversion Hnd4; assumption. }
        { intros x Hx. right; right; assumption. } { left; reflexivity. } { assumption. }
        rewrite E5. cbn [bind].
        assert (Hnd0 := HSt1). destruct Hnd0 as (_ & _ & Hnd1 & Hge1 & _ & _).
        assert (Hp1anc : ~ In p1 anc2).
        { inversion Hnd1 as [|? ? _ Hx1]; subst. inversion Hx1 as [|? ? Hx2 _]; subst. intros Hx. apply Hx2. right; assumption. }
        exists h5, root5. split.
        { assert (Hmp5 : mem h5 p1 = Some npp) by (rewrite HF5; assumption).
          destruct fuel; cbn [addLoop]; unfold rd; rewrite Hmp5; cbn [of_option bind]; rewrite Hblk; reflexivity. }
        split; [assumption|]. split.
        { eapply same_trans; [exact Hsame|]. destruct Hsame4 as [Hsa Hsb]. split; [lia|].
          intros x Hx. rewrite HF5; [auto|]. intros Hx2. specialize (Hge1 x). cbn in Hge1. specialize (Hge1 ltac:(auto)). lia. }
        split.
        { destruct Hr5 as [->|[-> Hin5]]; [assumption|]. apply Hge1. right; right; right; assumption. }
        assert (Hnode5 : nodeAt h5 (path anc2 nn) nn (T false (T true l1 w1 r1) v1 (T true s1 v2 u))).
        { cbn [nodeAt] in Hnode |- *. destruct Hnode as (Hn1 & x1 & x2 & Hn2 & Hn3 & Hn4). split; [assumption|].
          exists x1, x2. split.
          - rewrite HF5; [assumption|]. inversion Hnd4; assumption.
          - split; (eapply rep_frame; [eassumption|]); intros x nx Hx Hmx; (rewrite HF5; [assumption|]); intros Hx3; apply Hx; right; assumption. }
        exists (plug (T false (T true l1 w1 r1) v1 (T true s1 v2 u)) k2).
        split.
        { eapply plug_nodeAt; [exact Hctx5|assumption| |exact Hnode5]. intros x [<-|Hx]; [right; left; reflexivity|right; right; assumption]. }
        split.
        { transitivity (inorder (plug (T false (plug (T true l v r) [f]) v2 u) k2)).
          - apply inorder_plug_cong. cbn [inorder] in Hino |- *. rewrite <- Hino. rewrite <- !app_assoc. cbn [app]. reflexivity.
          - destruct f; reflexivity. }
        { cbn [ctxrb fred] in Hctx. rewrite Ef in Hctx. destruct Hctx as (Hs1 & Hs2 & _ & Hs3 & Hs4).
          apply plug_rb with (n := S n); [|assumption|discriminate].
          cbn [rb]. exists n. cbn [rb] in Hq1. repeat split; tauto. }
    + (* parent is a right child *)
      assert (Hgm : exists ua, mem h g = Some {| nval := Some v2; nred := false; nleft := ua; nright := p |} /\ rep h (path (p :: g :: anc2) a) ua u).
      { cbn [repctx] in Hc. tauto. }
      destruct Hgm as (ua & Hmg & Hu). unfold rd at 1. rewrite Hmg. cbn [of_option bind nleft nright].
      assert (Hua : ua <> p) by (eapply rep_notD; [exact Hu|right; left; reflexivity|assumption]).
      replace (p =? ua)%nat with false by (symmetry; apply Nat.eqb_neq; congruence).
      destruct (rep_red _ _ _ _ Hw Hu) as (nu & Hmu & Hnu). unfold rd at 1. rewrite Hmu. cbn [of_option bind]. rewrite Hnu.
      destruct (isred u) eqn:Eu.
      * destruct u as [|[] ul uv ur]; try discriminate Eu.
        destruct (recolorLeft_ok _ _ _ _ _ _ _ _ _ _ _ _ _ _ _ _ HSt) as (h1 & Hr1 & Hsame & HSt1).
        rewrite Hr1. cbn [bind].
        cbn [ctxrb fred] in Hctx. rewrite Ef in Hctx. destruct Hctx as (Hs1 & Hs2 & _ & Hs3 & Hs4).
        destruct (IH k2 ltac:(lia) fuel h1 anc2 g root (T false ul uv ur) v2 (plug (T true l v r) [blackf f]) (S n) HSt1)
          as (h' & root' & Hrun & HF); [| assumption | lia |].
        { cbn [rb]. cbn [rb] in Hs3. split; [|split; [|split]].
          - exists n. tauto.
          - destruct f; cbn [blackf plug rb]; exists n; auto.
          - reflexivity.
          - destruct f; reflexivity. }
        exists h', root'. split; [exact Hrun|].
        destruct HF as (HF1 & HF2 & HF3 & t' & HF4 & HF5 & HF6).
        split; [assumption|]. split; [eapply same_trans; eassumption|]. split; [assumption|].
        exists t'. split; [assumption|]. split; [|assumption]. rewrite HF5.
        destruct f; cbn [blackf plug]; apply inorder_plug_cong; reflexivity.
      * destruct (innerRight_ok _ _ _ _ _ _ _ _ _ _ _ _ _ _ HSt Ef) as (h1 & a1 & p1 & l1 & w1 & r1 & v1 & s1 & Hin & Hsame & HSt1 & Hino & Hrb1).
        rewrite Hin. cbn [bind].
        destruct (Hrb1 n Hrb Hctx) as (Hq1 & Hq2 & Hq3).
        destruct (outerRight_ok _ _ _ _ _ _ _ _ _ _ _ _ _ _ _ HSt1) as (h2 & h3 & h4 & nn & npp & E1 & E2 & E3 & Hw4 & Hnn & Hsame4 & Hmp4 & Hblk & Hnd4 & Hnin & Hnode & Hctx4).
        rewrite E1. cbn [bind]. rewrite E2. cbn [bind]. rewrite E3. cbn [bind].
        destruct (linkLeft_ok h4 (path (nn :: anc2) g) anc2 k2 g root nn Hw4 Hctx4) as (h5 & root5 & E5 & Hctx5 & Hw5 & Hnx5 & HF5 & Hr5).
        { inversion Hnd4; assumption. }
        { intros x Hx. right; right; assumption. } { left; reflexivity. } { assumption. }
        rewrite E5. cbn [bind].
        assert (Hnd0 := HSt1). destruct Hnd0 as (_ & _ & Hnd1 & Hge1 & _ & _).
        assert (Hp1anc : ~ In p1 anc2).
        { inversion Hnd1 as [|? ? _ Hx1]; subst. inversion Hx1 as [|? ? Hx2 _]; subst. intros Hx. apply Hx2. right; assumption. }
        exists h5, root5. split.
        { assert (Hmp5 : mem h5 p1 = Some npp) by (rewrite HF5; assumption).
          destruct fuel; cbn [addLoop]; unfold rd; rewrite Hmp5; cbn [of_option bind]; rewrite Hblk; reflexivity. }
        split; [assumption|]. split.
        { eapply same_trans; [exact Hsame|]. destruct Hsame4 as [Hsa Hsb]. split; [lia|].
          intros x Hx. rewrite HF5; [auto|]. intros Hx2. specialize (Hge1 x). cbn in Hge1. specialize (Hge1 ltac:(auto)). lia. }
        split.
        { destruct Hr5 as [->|[-> Hin5]]; [assumption|]. apply Hge1. right; right; right; assumption. }
        assert (Hnode5 : nodeAt h5 (path anc2 nn) nn (T false (T true u v2 s1) v1 (T true l1 w1 r1))).
        { cbn [nodeAt] in Hnode |- *. destruct Hnode as (Hn1 & x1 & x2 & Hn2 & Hn3 & Hn4). split; [assumption|].
          exists x1, x2. split.
          - rewrite HF5; [assumption|]. inversion Hnd4; assumption.
          - split; (eapply rep_frame; [eassumption|]); intros x nx Hx Hmx; (rewrite HF5; [assumption|]); intros Hx3; apply Hx; right; assumption. }
        exists (plug (T false (T true u v2 s1) v1 (T true l1 w1 r1)) k2).
        split.
        { eapply plug_nodeAt; [exact Hctx5|assumption| |exact Hnode5]. intros x [<-|Hx]; [right; left; reflexivity|right; right; assumption]. }
        split.
        { transitivity (inorder (plug (T false u v2 (plug (T true l v r) [f])) k2)).
          - apply inorder_plug_cong. cbn [inorder] in Hino |- *. rewrite <- Hino. rewrite <- !app_assoc. cbn [app]. reflexivity.
          - destruct f; reflexivity. }
        { cbn [ctxrb fred] in Hctx. rewrite Ef in Hctx. destruct Hctx as (Hs1 & Hs2 & _ & Hs3 & Hs4).
          apply plug_rb with (n := S n); [|assumption|discriminate].
          cbn [rb]. exists n. cbn [rb] in Hq1. repeat split; tauto. }
Qed.

(** * The path-cloning search *)
Context {K : Type}.
Variable compare : K -> V -> Z.
Variable R : V -> V -> Prop.
Hypothesis R_mono : forall v1 v2 k, R v1 v2 -> (compare k v1 <= 0)%Z -> (compare k v2 < 0)%Z.

Definition signs (key : K) (k : list frame) : Prop :=
  (forall x, In x (lefts k) -> (compare key x > 0)%Z) /\ (forall x, In x (rights k) -> (compare key x < 0)%Z).

Lemma sorted_app : forall l1 l2, StronglySorted R (l1 ++ l2) <->
  StronglySorted R l1 /\ StronglySorted R l2 /\ (forall x y, In x l1 -> In y l2 -> R x y).
Proof using.
  intros l1 l2; induction l1 as [|a l1 IH]; cbn [app].
  - split; [intros H; repeat split; auto; [constructor|intros x y []]|tauto].
  - split.
    + intros H. inversion H as [|? ? H1 H2]; subst. apply IH in H1 as (H1 & H3 & H4).
      rewrite Forall_forall in H2. repeat split; auto.
      * constructor; [assumption|]. apply Forall_forall. intros x Hx. apply H2. apply in_or_app; auto.
      * intros x y [<-|Hx] Hy; [apply H2; apply in_or_app; auto|auto].
    + intros (H1 & H2 & H3). inversion H1 as [|? ? H4 H5]; subst. constructor.
      * apply IH. repeat split; auto. intros x y Hx Hy. apply H3; [right|]; assumption.
      * rewrite Forall_forall in *. intros x Hx. apply in_app_or in Hx as [Hx|Hx]; [auto|]. apply H3; [left; reflexivity|assumption].
Qed.

Lemma sorted_node : forall l v r, StronglySorted R (l ++ v :: r) ->
  StronglySorted R l /\ StronglySorted R r /\ (forall x, In x l -> R x v) /\ (forall x, In x r -> R v x).
Proof using.
  intros l v r H. apply sorted_app in H as (H1 & H2 & H3). inversion H2 as [|? ? H4 H5]; subst.
  rewrite Forall_forall in H5. repeat split; auto. intros x Hx. apply H3; [assumption|left; reflexivity].
Qed.

Lemma R_mono' : forall v1 v2 k, R v1 v2 -> (compare k v2 >= 0)%Z -> (compare k v1 > 0)%Z.
Proof using R_mono.
  clear s_old.
  intros v1 v2 k H H2. destruct (Z_gt_le_dec (compare k v1) 0) as [|Hle]; [assumption|].
  specialize (R_mono v1 v2 k H Hle). lia.
Qed.

Definition old_region : nat -> Prop := fun x => (n0 <= x)%nat.

Lemma findLoop_ok : forall t remaining h old new_ anc k root key nd,
  (depth t <= remaining)%nat ->
  wfh h -> (n0 <= next h)%nat -> rep h old_region old t ->
  mem h old = Some nd -> mem h new_ = Some nd ->
  NoDup (new_ :: anc) -> (forall x, In x (new_ :: anc) -> (n0 <= x)%nat) ->
  repctx h old_region anc k new_ root ->
  StronglySorted R (inorder t) -> signs key k ->
  (forall v, In v (inorder t) -> compare key v <> 0%Z) ->
  exists h' new' anc' k',
    findLoop compare remaining h old new_ s key anc = Ok (h', true, new', anc')
    /\ wfh h' /\ same h h'
    /\ mem h' new' = Some {| nval := None; nred := false; nleft := s; nright := s |}
    /\ NoDup (new' :: anc') /\ (forall x, In x (new' :: anc') -> (n0 <= x)%nat)
    /\ repctx h' old_region anc' k' new' root
    /\ plug E k' = plug t k /\ signs key k'.
Proof.
  induction t as [|c l IHl v r IHr]; intros remaining h old new_ anc k root key nd Hd Hw Hn Hrep Hold Hnew Hnd Hge Hctx Hsort Hsig Hnz.
  - cbn [rep] in Hrep. subst old.
    exists h, new_, anc, k. split.
    { destruct remaining; cbn [findLoop]; rewrite Nat.eqb_refl; reflexivity. }
    split; [assumption|]. split; [split; auto|].
    split. { rewrite Hnew, <- Hold. apply Hw. }
    auto.
  - cbn [rep] in Hrep. destruct Hrep as (Hos & HoD & la & ra & Hmo & Hl & Hr).
    rewrite Hmo in Hold. inversion Hold; subst nd; clear Hold.
    pose proof (wfh_lt _ _ _ Hw Hmo) as Lo. pose proof (wfh_lt _ _ _ Hw Hnew) as Ln.
    assert (Hnn : (n0 <= new_)%nat) by (apply Hge; left; reflexivity).
    assert (Hon : (old < n0)%nat) by (unfold old_region in HoD; lia).
    inversion Hnd as [|? ? Hni Hnd']; subst.
    cbn [inorder] in Hsort, Hnz. apply sorted_node in Hsort as (Hsl & Hsr & Hlv & Hvr).
    assert (Hv0 : compare key v <> 0%Z) by (apply Hnz; apply in_or_app; right; left; reflexivity).
    cbn [depth] in Hd. destruct remaining as [|rem]; [lia|].
    cbn [findLoop]. replace (old =? s)%nat with false by (symmetry; apply Nat.eqb_neq; assumption).
    unfold rd at 1. rewrite Hmo. cbn [of_option bind nval].
    assert (Hanc : forall x, In x anc -> x <> new_ /\ (x < next h)%nat).
    { intros x Hx. split; [intros ->; contradiction|]. eapply repctx_lt; eassumption. }
    destruct (compare key v <? 0)%Z eqn:Elt; [|destruct (compare key v >? 0)%Z eqn:Egt].
    + apply Z.ltb_lt in Elt.
      destruct (rep_red _ _ _ _ Hw Hl) as (nl & Hml & _).
      pose proof (wfh_lt _ _ _ Hw Hml) as Ll.
      assert (Hlan : la <> new_).
      { intros ->. destruct l; cbn [rep] in Hl; [lia|]. unfold old_region in Hl. lia. }
      cbn [nleft]. hs. rewrite Hml. crunch. rewrite Hnew. crunch.
      match goal with |- exists _ _ _ _, findLoop _ _ ?H _ _ _ _ _ = _ /\ _ => set (h2 := H) end.
      assert (HF : forall x, x <> new_ -> x <> next h -> mem h2 x = mem h x).
      { intros x H1 H2. unfold h2; cbn [mem]. mstep. reflexivity. }
      assert (HFr : forall x n, ~ old_region x -> mem h x = Some n -> mem h2 x = Some n).
      { intros x n Hx Hm. unfold old_region in Hx. rewrite HF; [assumption|lia|lia]. }
      destruct (IHl rem h2 la (next h) (new_ :: anc) (FL c v r :: k) root key nl) as (h' & new' & anc' & k' & Hrun & Hw' & Hs' & Hrest); auto; try lia.
      * split; unfold h2; cbn [mem next].
        -- intros x Hx. mstep. apply Hw. lia.
        -- mstep. apply Hw.
      * unfold h2; cbn [next]. lia.
      * eapply rep_frame; eassumption.
      * rewrite HF; [assumption|assumption|lia].
      * unfold h2; cbn [mem]. mstep. reflexivity.
      * constructor; [|assumption]. intros [Hq|Hq]; [lia|]. apply Hanc in Hq. lia.
      * intros x [<-|Hx]; [lia|auto].
      * cbn [repctx]. split; [lia|]. split.
        { exists ra. split. { unfold h2; cbn [mem]. mstep. reflexivity. } eapply rep_frame; eassumption. }
        eapply repctx_frame; [exact Hctx|exact HFr|]. intros x Hx. apply Hanc in Hx. apply HF; lia.
      * destruct Hsig as [Hs1 Hs2]. split; cbn [lefts rights]; [assumption|].
        intros x [<-|Hx]; [assumption|]. apply in_app_or in Hx as [Hx|Hx]; [|auto].
        eapply R_mono; [apply Hvr; assumption|lia].
      * intros x Hx. apply Hnz. apply in_or_app; auto.
      * exists h', new', anc', k'. split; [exact Hrun|]. split; [assumption|]. split; [|exact Hrest].
        eapply same_trans; [|exact Hs']. split; [unfold h2; cbn [next]; lia|]. intros x Hx. apply HF; lia.
    + apply Z.gtb_lt in Egt. apply Z.ltb_ge in Elt.
      destruct (rep_red _ _ _ _ Hw Hr) as (nl & Hml & _).
      pose proof (wfh_lt _ _ _ Hw Hml) as Ll.
      assert (Hlan : ra <> new_).
      { intros ->. destruct r; cbn [rep] in Hr; [lia|]. unfold old_region in Hr. lia. }
      cbn [nright]. hs. rewrite Hml. crunch. rewrite Hnew. crunch.
      match goal with |- exists _ _ _ _, findLoop _ _ ?H _ _ _ _ _ = _ /\ _ => set (h2 := H) end.
      assert (HF : forall x, x <> new_ -> x <> next h -> mem h2 x = mem h x).
      { intros x H1 H2. unfold h2; cbn [mem]. mstep. reflexivity. }
      assert (HFr : forall x n, ~ old_region x -> mem h x = Some n -> mem h2 x = Some n).
      { intros x n Hx Hm. unfold old_region in Hx. rewrite HF; [assumption|lia|lia]. }
      destruct (IHr rem h2 ra (next h) (new_ :: anc) (FR c l v :: k) root key nl) as (h' & new' & anc' & k' & Hrun & Hw' & Hs' & Hrest); auto; try lia.
      * split; unfold h2; cbn [mem next].
        -- intros x Hx. mstep. apply Hw. lia.
        -- mstep. apply Hw.
      * unfold h2; cbn [next]. lia.
      * eapply rep_frame; eassumption.
      * rewrite HF; [assumption|assumption|lia].
      * unfold h2; cbn [mem]. mstep. reflexivity.
      * constructor; [|assumption]. intros [Hq|Hq]; [lia|]. apply Hanc in Hq. lia.
      * intros x [<-|Hx]; [lia|auto].
      * cbn [repctx]. split; [lia|]. split.
        { exists la. split. { unfold h2; cbn [mem]. mstep. reflexivity. } eapply rep_frame; eassumption. }
        eapply repctx_frame; [exact Hctx|exact HFr|]. intros x Hx. apply Hanc in Hx. apply HF; lia.
      * destruct Hsig as [Hs1 Hs2]. split; cbn [lefts rights]; [|assumption].
        intros x Hx. apply in_app_or in Hx as [Hx|Hx]; [auto|].
        apply in_app_or in Hx as [Hx|[<-|[]]]; [|lia].
        eapply R_mono'; [apply Hlv; assumption|lia].
      * intros x Hx. apply Hnz. apply in_or_app; right; right; assumption.
      * exists h', new', anc', k'. split; [exact Hrun|]. split; [assumption|]. split; [|exact Hrest].
        eapply same_trans; [|exact Hs']. split; [unfold h2; cbn [next]; lia|]. intros x Hx. apply HF; lia.
    + exfalso. apply Z.ltb_ge in Elt. rewrite Z.gtb_ltb in Egt. apply Z.ltb_ge in Egt. lia.
Qed.

(** queries *)
Lemma treeQuery_ok : forall t fuel h D a key, (depth t <= fuel)%nat -> rep h D a t ->
  StronglySorted R (inorder t) ->
  treeQuery compare fuel h a key s = Ok (List.find (fun v => (compare key v =? 0)%Z) (inorder t)).
Proof using R_mono.
  clear s_old.
  induction t as [|c l IHl v r IHr]; intros fuel h D a key Hd Hrep Hsort.
  - cbn [rep] in Hrep. subst a. unfold treeQuery. destruct fuel; cbn [treeFind]; rewrite Nat.eqb_refl; reflexivity.
  - cbn [rep] in Hrep. destruct Hrep as (Hos & HoD & la & ra & Hmo & Hl & Hr).
    cbn [depth] in Hd. destruct fuel as [|f]; [lia|].
    cbn [inorder] in *. apply sorted_node in Hsort as (Hsl & Hsr & Hlv & Hvr).
    specialize (IHl f h D la key ltac:(lia) Hl Hsl). specialize (IHr f h D ra key ltac:(lia) Hr Hsr).
    unfold treeQuery in *. cbn [treeFind].
    replace (a =? s)%nat with false by (symmetry; apply Nat.eqb_neq; assumption).
    unfold rd at 1. rewrite Hmo. cbn [of_option bind nval nleft nright].
    rewrite find_app'. cbn [List.find].
    destruct (compare key v <? 0)%Z eqn:Elt; [|destruct (compare key v >? 0)%Z eqn:Egt].
    + apply Z.ltb_lt in Elt. rewrite IHl.
      replace (compare key v =? 0)%Z with false by (symmetry; apply Z.eqb_neq; lia).
      rewrite (find_none_iff _ (inorder r)); [destruct (List.find _ (inorder l)); reflexivity|].
      intros x Hx. apply Z.eqb_neq. specialize (R_mono v x key (Hvr x Hx)). lia.
    + apply Z.gtb_lt in Egt. rewrite IHr.
      replace (compare key v =? 0)%Z with false by (symmetry; apply Z.eqb_neq; lia).
      rewrite (find_none_iff _ (inorder l)); [reflexivity|].
      intros x Hx. apply Z.eqb_neq. pose proof (R_mono' x v key (Hlv x Hx)). lia.
    + apply Z.ltb_ge in Elt. rewrite Z.gtb_ltb in Egt. apply Z.ltb_ge in Egt.
      cbn [bind]. unfold rd. rewrite Hmo. cbn [of_option bind nval].
      rewrite (find_none_iff _ (inorder l)).
      * replace (compare key v =? 0)%Z with true by (symmetry; apply Z.eqb_eq; lia). reflexivity.
      * intros x Hx. apply Z.eqb_neq. pose proof (R_mono' x v key (Hlv x Hx)). lia.
Qed.

End P.

Section Q.
Context {K V : Type}.
Variable compare : K -> V -> Z.
Variable R : V -> V -> Prop.
Hypothesis R_mono : forall v1 v2 k, R v1 v2 -> (compare k v1 <= 0)%Z -> (compare k v2 < 0)%Z.
Variable s : nat.
Notation rep := (rep s).
Notation wfh := (wfh s).

Definition Good (h : heap V) (root : nat) (vs : list V) : Prop :=
  exists t m, rep h (fun _ => False) root t /\ rb t m /\ isred t = false
    /\ StronglySorted R (inorder t) /\ Permutation (inorder t) vs.

Definition separated (key : K) (value : V) (v' : V) : Prop :=
  ((compare key v' < 0)%Z /\ R value v') \/ ((compare key v' > 0)%Z /\ R v' value).

Lemma good_depth : forall t m (vs : list V), rb t m -> isred t = false -> Permutation (inorder t) vs ->
  (depth t <= 2 * Nat.log2 (length vs + 1))%nat.
Proof.
  intros t m vs Hrb Hr Hp. apply Permutation_length in Hp. rewrite size_inorder in Hp.
  pose proof (rb_size t m Hrb) as H1. pose proof (rb_depth t m Hrb) as H2. rewrite Hr in H2.
  assert (m <= Nat.log2 (length vs + 1))%nat; [|lia].
  apply Nat.log2_le_pow2; lia.
Qed.

Lemma good_frame : forall h h' root vs, wfh h -> Good h root vs ->
  (forall x, (x < next h)%nat -> mem h' x = mem h x) -> Good h' root vs.
Proof.
  intros h h' root vs Hw (t & m & H1 & H2) HF. exists t, m. split; [|assumption].
  eapply rep_mono with (D := fun x => False \/ (next h <= x)%nat); [intros x []|].
  eapply rep_frame; [apply rep_lt; eassumption|].
  intros x n Hx Hm. rewrite HF; [assumption|]. lia.
Qed.

Lemma treeInsert_ok : forall h root vs key value,
  wfh h -> (s < next h)%nat -> Good h root vs -> (2 * Nat.log2 (length vs + 1) <= 100)%nat ->
  (forall v', In v' vs -> separated key value v') ->
  exists h' root', treeInsert compare h root key value s = Ok (h', root')
    /\ wfh h' /\ (next h <= next h')%nat /\ (forall x, (x < next h)%nat -> mem h' x = mem h x)
    /\ Good h' root' (value :: vs).
Proof.
  intros h root vs key value Hw Hsn (t & m & Hrep & Hrb & Hred & Hsort & Hperm) Hlog Hsep.
  pose proof (good_depth t m vs Hrb Hred Hperm) as Hdep.
  unfold treeInsert. cbn [alloc].
  set (h1 := {| mem := upd (mem h) (next h) {| nval := Some value; nred := false; nleft := s; nright := s |}; next := S (next h) |}).
  assert (Hw1 : wfh h1) by (apply (wfh_alloc s h _ Hw)).
  assert (Hrep1 : rep h1 (fun x => False \/ (next h <= x)%nat) root t).
  { eapply rep_frame; [apply rep_lt; eassumption|]. intros x n Hx Hm. unfold h1; cbn [mem]. rewrite upd_ne by lia. assumption. }
  destruct (rep_red s _ _ _ _ Hw1 Hrep1) as (nr & Hmr & _).
  pose proof (wfh_lt s _ _ _ Hw1 Hmr) as Lr.
  unfold clone, rd at 1. rewrite Hmr. cbn [of_option bind alloc].
  set (h2 := {| mem := upd (mem h1) (next h1) nr; next := S (next h1) |}).
  assert (Hw2 : wfh h2) by (apply (wfh_alloc s h1 nr Hw1)).
  set (n0 := next h1).
  assert (Hs0 : (s < n0)%nat) by (unfold n0, h1; cbn [next]; lia).
  assert (Hm2r : mem h2 root = Some nr).
  { unfold h2; cbn [mem]. rewrite upd_ne by lia. assumption. }
  assert (Hm2n : mem h2 n0 = Some nr).
  { unfold h2, n0; cbn [mem]. rewrite upd_eq. reflexivity. }
  assert (Hrep2 : rep h2 (old_region n0) root t).
  { eapply rep_mono with (D := fun x => False \/ (next h <= x)%nat).
    - unfold old_region, n0, h1; cbn [next]. intros x Hx. right. lia.
    - eapply rep_frame; [exact Hrep1|]. intros x n Hx Hm. unfold h2; cbn [mem].
      rewrite upd_ne; [assumption|]. unfold h1; cbn [next]. lia. }
  destruct (findLoop_ok s n0 Hs0 compare R R_mono t 100 h2 root n0 [] [] n0 key nr)
    as (h3 & new' & anc & k & Hrun & Hw3 & [Hsame3a Hsame3b] & Hmn & Hnd & Hge & Hctx & Hplug & Hsig); auto.
  { lia. } { unfold h2, n0; cbn [next]. lia. }
  { constructor; [intros []|constructor]. }
  { intros x [<-|[]]. lia. }
  { reflexivity. }
  { split; intros x []. }
  { intros v Hv. assert (Hv' : In v vs) by (eapply Permutation_in; eassumption).
    destruct (Hsep v Hv') as [[? _]|[? _]]; lia. }
  rewrite Hrun. cbn [bind].
  assert (Hnode : mem h3 (next h) = Some {| nval := Some value; nred := false; nleft := s; nright := s |}).
  { rewrite Hsame3b by (unfold n0, h1; cbn [next]; lia). unfold h2; cbn [mem]. rewrite upd_ne by (unfold h1; cbn [next]; lia).
    unfold h1; cbn [mem]. apply upd_eq. }
  unfold rd at 1. rewrite Hnode. cbn [of_option bind nval].
  unfold setVal, rd at 1. rewrite Hmn. cbn [of_option bind nval nred nleft nright].
  unfold treeAdd, setRed at 1, rd at 1. cbn [wr mem]. rewrite upd_eq. cbn [of_option bind nval nred nleft nright].
  set (h4 := wr _ new' _).
  pose proof (wfh_lt s _ _ _ Hw3 Hmn) as Lnew.
  assert (Hns : new' <> s) by (specialize (Hge new' ltac:(left; reflexivity)); lia).
  assert (Hw4 : wfh h4).
  { apply wfh_wr; [apply (wfh_wr s h3 new' _ Hw3)| |]; assumption. }
  assert (Hm4 : mem h4 new' = Some {| nval := Some value; nred := true; nleft := s; nright := s |}).
  { unfold h4; cbn [mem wr]. apply upd_eq. }
  assert (HF4 : forall x, x <> new' -> mem h4 x = mem h3 x).
  { intros x Hx. unfold h4; cbn [mem wr]. rewrite !upd_ne by assumption. reflexivity. }
  inversion Hnd as [|? ? Hni Hnd']; subst.
  assert (HSt : St s n0 h4 anc k new' n0 (T true E value E)).
  { split; [assumption|]. split. { unfold h4; cbn [wr next]. specialize (Hge new' ltac:(left; reflexivity)). lia. }
    split; [assumption|]. split; [assumption|]. split.
    - cbn [nodeAt]. split; [assumption|]. exists s, s. cbn [RBTree_Proofs.rep]. auto.
    - eapply repctx_mono with (D := old_region n0).
      + intros x Hx. apply Hge. exact Hx.
      + eapply repctx_frame; [exact Hctx| |].
        * intros x n Hx Hm. unfold old_region in Hx. rewrite HF4; [assumption|]. intros ->. apply Hx. apply Hge. left; reflexivity.
        * intros x Hx. apply HF4. intros ->. contradiction. }
  destruct (rb_ctx k E m) as (n & HrbE & Hcrb).
  { rewrite Hplug. exact Hrb. } { destruct k; [exact I|discriminate]. } { rewrite Hplug. exact Hred. }
  assert (Hlen : length anc = length k).
  { clear -Hctx. revert k new' Hctx. generalize n0 at 2. intros rt. induction anc as [|p anc IH]; intros k a H; destruct k; cbn [repctx] in H; try contradiction; [reflexivity|].
    destruct H as (_ & _ & H). apply IH in H. cbn [length]. lia. }
  destruct (addLoop_ok s n0 Hs0 (length k) k (le_n _) (S (length anc)) h4 anc new' n0 E value E n HSt)
    as (h5 & root' & Hadd & Hw5 & [Hsame5a Hsame5b] & Hroot & t' & Hnode5 & Hino & m' & Hrb').
  { cbn [rb isred] in *. auto. } { assumption. } { lia. }
  rewrite Hadd. cbn [bind].
  destruct t' as [|c' l' v' r']; [contradiction|]. cbn [nodeAt] in Hnode5.
  destruct Hnode5 as (Hrs & la & ra & Hmr5 & Hl5 & Hr5).
  unfold setRed, rd. rewrite Hmr5. cbn [of_option bind nval nred nleft nright].
  eexists. exists root'. split; [reflexivity|].
  pose proof (wfh_lt s _ _ _ Hw5 Hmr5) as Lr5.
  set (h6 := wr h5 root' _).
  split. { apply wfh_wr; assumption. }
  unfold same in *.
  split. { unfold h6; cbn [wr next]. unfold h4 in Hsame5a; cbn [wr next] in Hsame5a. unfold h2 in Hsame3a; cbn [next] in Hsame3a. unfold h1 in Hsame3a; cbn [next] in Hsame3a. lia. }
  assert (Hn0 : n0 = S (next h)) by reflexivity.
  split.
  { intros x Hx. unfold h6; cbn [wr mem]. rewrite upd_ne by lia. rewrite Hsame5b by lia.
    rewrite HF4. 2:{ specialize (Hge new' ltac:(left; reflexivity)). lia. }
    rewrite Hsame3b by lia. unfold h2; cbn [mem]. rewrite upd_ne by (unfold h1; cbn [next]; lia).
    unfold h1; cbn [mem]. rewrite upd_ne by lia. reflexivity. }
  destruct (rb_blacken _ _ Hrb') as (m2 & Hrb2).
  exists (T false l' v' r'), m2. split.
  { eapply rep_mono with (D := fun x => x = root' /\ False); [tauto|].
    cbn [RBTree_Proofs.rep]. split; [assumption|]. split; [tauto|]. exists la, ra.
    split. { unfold h6; cbn [wr mem]. apply upd_eq. }
    split; (eapply rep_mono with (D := fun x => x = root'); [tauto|]); (eapply rep_frame; [eassumption|]);
    intros x nx Hx Hmx; unfold h6; cbn [wr mem]; rewrite upd_ne; assumption. }
  split; [exact Hrb2|]. split; [reflexivity|].
  assert (Hin' : inorder (T false l' v' r') = lefts k ++ value :: rights k).
  { transitivity (inorder (T c' l' v' r')); [reflexivity|]. rewrite Hino, inorder_plug. reflexivity. }
  assert (Hin0 : inorder t = lefts k ++ rights k).
  { pose proof (inorder_plug k E) as Hip. rewrite Hplug in Hip. exact Hip. }
  rewrite Hin'. destruct Hsig as [Hsl Hsr]. split.
  - rewrite Hin0 in Hsort. apply (sorted_app R) in Hsort as (H1 & H2 & H3).
    apply (sorted_app R). split; [assumption|]. split.
    + constructor; [assumption|]. apply Forall_forall. intros x Hx.
      assert (Hv' : In x vs). { eapply Permutation_in; [exact Hperm|]. rewrite Hin0. apply in_or_app; right; assumption. }
      specialize (Hsr x Hx). destruct (Hsep x Hv') as [[? ?]|[? ?]]; [assumption|lia].
    + intros x y Hx [<-|Hy]; [|auto].
      assert (Hv' : In x vs). { eapply Permutation_in; [exact Hperm|]. rewrite Hin0. apply in_or_app; left; assumption. }
      specialize (Hsl x Hx). destruct (Hsep x Hv') as [[? ?]|[? ?]]; [lia|assumption].
  - rewrite <- Permutation_middle. constructor. rewrite <- Hin0. assumption.
Qed.

Lemma good_query : forall h root vs fuel key, Good h root vs ->
  (2 * Nat.log2 (length vs + 1) <= fuel)%nat ->
  (forall a b, In a vs -> In b vs -> compare key a = 0%Z -> compare key b = 0%Z -> a = b) ->
  treeQuery compare fuel h root key s = Ok (List.find (fun v => (compare key v =? 0)%Z) vs).
Proof.
  intros h root vs fuel key (t & m & Hrep & Hrb & Hred & Hsort & Hperm) Hf Huniq.
  pose proof (good_depth t m vs Hrb Hred Hperm) as Hd.
  rewrite (treeQuery_ok s compare R R_mono t fuel h _ root key ltac:(lia) Hrep Hsort). f_equal.
  destruct (List.find _ (inorder t)) as [v|] eqn:E1, (List.find _ vs) as [w|] eqn:E2; auto.
  - apply find_some in E1 as [H1 H2]. apply find_some in E2 as [H3 H4]. f_equal.
    apply Huniq; try lia; [eapply Permutation_in; eassumption|assumption].
  - apply find_some in E1 as [H1 H2]. exfalso. eapply Permutation_in in H1; [|exact Hperm].
    apply (find_none _ _ E2) in H1. cbv beta in H1. congruence.
  - apply find_some in E2 as [H1 H2]. exfalso. eapply Permutation_in in H1; [|symmetry; exact Hperm].
    apply (find_none _ _ E1) in H1. cbv beta in H1. congruence.
Qed.

(** at most one value of a sorted list matches *)
Lemma good_unique : forall h root vs key, Good h root vs ->
  forall a b, In a vs -> In b vs -> compare key a = 0%Z -> compare key b = 0%Z -> a = b.
Proof.
  intros h root vs key (t & m & Hrep & Hrb & Hred & Hsort & Hperm) a b Ha Hb Hza Hzb.
  eapply Permutation_in in Ha; [|symmetry; exact Hperm]. eapply Permutation_in in Hb; [|symmetry; exact Hperm].
  clear Hperm Hrep Hrb Hred. induction (inorder t) as [|x l IH]; [destruct Ha|].
  inversion Hsort as [|? ? H1 H2]; subst. rewrite Forall_forall in H2.
  destruct Ha as [<-|Ha], Hb as [<-|Hb]; auto.
  - specialize (R_mono x b key (H2 b Hb)). lia.
  - specialize (R_mono x a key (H2 a Ha)). lia.
Qed.
End Q.

Section Hist.
Context {K V : Type}.
Variable compare : K -> V -> Z.
Variable R : V -> V -> Prop.
Hypothesis R_mono : forall v1 v2 k, R v1 v2 -> (compare k v1 <= 0)%Z -> (compare k v2 < 0)%Z.

Fixpoint insertable (seen : list V) (kvs : list (K * V)) : Prop :=
  match kvs with
  | [] => True
  | (k, v) :: r => (forall v', In v' seen -> separated compare R k v v') /\ insertable (v :: seen) r
  end.

(** [vers]: contents of the versions, most recent first (aligned with roots). *)
Fixpoint contents (seen : list V) (kvs : list (K * V)) : list (list V) :=
  match kvs with [] => [] | (_, v) :: r => (v :: seen) :: contents (v :: seen) r end.

Lemma insertAll_ok : forall kvs h roots vers seen,
  wfh sentinal h -> (sentinal < next h)%nat ->
  Good R sentinal h (hd sentinal roots) seen ->
  Forall2 (Good R sentinal h) roots vers ->
  insertable seen kvs ->
  (2 * Nat.log2 (length seen + length kvs + 1) <= 100)%nat ->
  exists h' roots', insertAll compare h roots kvs = Ok (h', roots')
    /\ wfh sentinal h' /\ Forall2 (Good R sentinal h') roots' (rev (contents seen kvs) ++ vers).
Proof.
  induction kvs as [|[k v] kvs IH]; intros h roots vers seen Hw Hs Hg Hall Hins Hlog.
  - exists h, roots. split; [reflexivity|]. split; [assumption|]. exact Hall.
  - cbn [insertable] in Hins. destruct Hins as [Hsep Hins]. cbn [length] in Hlog.
    destruct (treeInsert_ok compare R R_mono sentinal h (hd sentinal roots) seen k v Hw Hs Hg) as (h1 & r1 & Hrun & Hw1 & Hn1 & HF1 & Hg1); auto.
    { assert (Nat.log2 (length seen + 1) <= Nat.log2 (length seen + S (length kvs) + 1))%nat by (apply Nat.log2_le_mono; lia). lia. }
    cbn [insertAll]. rewrite Hrun. cbn [bind].
    destruct (IH h1 (r1 :: roots) ((v :: seen) :: vers) (v :: seen)) as (h' & roots' & Hrun' & Hw' & Hall'); auto; try lia.
    + constructor; [assumption|]. clear -Hall HF1 Hw. induction Hall; constructor; auto. eapply good_frame; eassumption.
    + cbn [length]. replace (S (length seen) + length kvs + 1)%nat with (length seen + S (length kvs) + 1)%nat by lia. assumption.
    + exists h', roots'. split; [exact Hrun'|]. split; [assumption|].
      cbn [contents rev]. rewrite <- app_assoc. exact Hall'.
Qed.

Lemma init_ok : wfh sentinal (@init V).
Proof.
  split; cbn [init mem next].
  - intros x Hx. rewrite upd_ne by (unfold sentinal; lia). reflexivity.
  - reflexivity.
Qed.

Lemma contents_nth : forall kvs seen i vs, nth_error (contents seen kvs) i = Some vs ->
  vs = rev (map snd (firstn (S i) kvs)) ++ seen.
Proof.
  induction kvs as [|[k v] kvs IH]; intros seen i vs H; [destruct i; discriminate|].
  destruct i as [|i]; cbn [contents nth_error] in H.
  - inversion H; subst. reflexivity.
  - apply IH in H. rewrite H. cbn [firstn map snd rev]. rewrite <- app_assoc. reflexivity.
Qed.

Lemma contents_length : forall kvs seen, length (contents seen kvs) = length kvs.
Proof. induction kvs as [|[k v] kvs IH]; intros seen; cbn [contents length]; auto. Qed.

Lemma Forall2_rev_nth : forall A B (P : A -> B -> Prop) l l', Forall2 P l l' ->
  forall i a b, nth_error (rev l) i = Some a -> nth_error (rev l') i = Some b -> P a b.
Proof.
  intros A B P l l' H i a b Ha Hb.
  assert (HR : Forall2 P (rev l) (rev l')).
  { clear -H. induction H; cbn [rev]; [constructor|]. apply Forall2_app; auto. }
  revert i Ha Hb. induction HR as [|x y xs ys Hxy HR IH]; intros i Ha Hb; destruct i; try discriminate.
  - cbn in *. congruence.
  - eapply IH; eassumption.
Qed.

Lemma Forall2_len : forall A B (P : A -> B -> Prop) l l', Forall2 P l l' -> length l = length l'.
Proof. intros A B P l l' H; induction H; cbn; auto. Qed.

Lemma find_rev_unique : forall (f : V -> bool) l, (forall a b, In a l -> In b l -> f a = true -> f b = true -> a = b) ->
  List.find f (rev l) = List.find f l.
Proof.
  intros f l Hu. destruct (List.find f (rev l)) eqn:E1, (List.find f l) eqn:E2; auto.
  - apply find_some in E1 as [H1 H2]. apply find_some in E2 as [H3 H4]. apply in_rev in H1. f_equal. auto.
  - apply find_some in E1 as [H1 H2]. apply in_rev in H1. apply (find_none _ _ E2) in H1. congruence.
  - apply find_some in E2 as [H1 H2]. apply in_rev in H1. apply (find_none _ _ E1) in H1. congruence.
Qed.

(** Every version ever created, read in the final heap. *)
Theorem history_ok : forall kvs,
  insertable [] kvs -> (N.of_nat (length kvs) < 2 ^ 50)%N ->
  exists h roots, insertAll compare init [] kvs = Ok (h, roots)
    /\ length roots = length kvs
    /\ forall i root, nth_error (rev roots) i = Some root ->
         forall key fuel, (2 * Nat.log2 (i + 2) <= fuel)%nat ->
         treeQuery compare fuel h root key sentinal
         = Ok (List.find (fun v => (compare key v =? 0)%Z) (map snd (firstn (S i) kvs))).
Proof.
  intros kvs Hins Hlen.
  destruct (insertAll_ok kvs init [] [] []) as (h & roots & Hrun & Hw & Hall); auto.
  - apply init_ok.
  - exists E, 0%nat. cbn. repeat split; constructor.
  - cbn [length Nat.add].
    assert (Nat.log2 (length kvs + 1) < 51)%nat; [|lia].
    assert (Hl : (N.log2 (N.of_nat (length kvs + 1)) <= 50)%N).
    { transitivity (N.log2 (2 ^ 50)%N); [apply N.log2_le_mono; lia|]. rewrite N.log2_pow2; lia. }
    assert (Hpos : (0 < length kvs + 1)%nat) by lia.
    apply (proj1 (Nat.log2_lt_pow2 _ 51 Hpos)).
    assert ((N.of_nat (length kvs + 1) < N.of_nat (2 ^ 51))%N); [|lia].
    replace (N.of_nat (2 ^ 51)) with (2 ^ 51)%N.
    + apply N.le_lt_trans with (2 ^ 50)%N; [lia|reflexivity].
    + rewrite Nat2N.inj_pow. reflexivity.
  - exists h, roots. split; [exact Hrun|]. rewrite app_nil_r in Hall.
    assert (Hlen' : length roots = length kvs).
    { apply Forall2_len in Hall. rewrite rev_length, contents_length in Hall. exact Hall. }
    split; [assumption|].
    intros i root Hroot key fuel Hf.
    assert (Hi : (i < length kvs)%nat).
    { rewrite <- Hlen', <- (rev_length roots). apply nth_error_Some. congruence. }
    destruct (nth_error_lt_ex (contents [] kvs) i) as (vs & Hvs); [rewrite contents_length; assumption|].
    assert (Hg : Good R sentinal h root vs).
    { eapply Forall2_rev_nth; [exact Hall|exact Hroot|]. rewrite rev_involutive. exact Hvs. }
    assert (Hvs' := contents_nth _ _ _ _ Hvs). rewrite app_nil_r in Hvs'.
    pose proof (good_unique compare R R_mono sentinal h root vs key Hg) as Hu.
    assert (Hvl : length vs = S i).
    { rewrite Hvs', rev_length, map_length, firstn_length. lia. }
    rewrite (good_query compare R R_mono sentinal h root vs fuel key Hg); auto.
    + f_equal. rewrite Hvs'. apply find_rev_unique.
      intros a b Ha Hb H1 H2. apply Hu; try lia; rewrite Hvs'; apply in_rev; rewrite rev_involutive; assumption.
    + rewrite Hvl. replace (S i + 1)%nat with (i + 2)%nat by lia. assumption.
Qed.
End Hist.
