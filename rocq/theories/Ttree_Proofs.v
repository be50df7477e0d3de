(** Proofs about the thread tree. *)
From Coq Require Import ZArith List Bool Lia Permutation.
From Verif Require Import Res Ttree_Model Ttree_Spec.
Import ListNotations.
Local Open Scope Z_scope.
Local Arguments Z.add : simpl never.
Local Arguments Z.sub : simpl never.
Local Arguments Z.pow : simpl never.
Local Arguments Z.modulo : simpl never.

Lemma put_same : forall m a x, put m a x a = x.
Proof. intros. unfold put. now rewrite Z.eqb_refl. Qed.
Lemma put_other : forall m a x b, b <> a -> put m a x b = m b.
Proof. intros. unfold put. destruct (b =? a) eqn:E; auto. apply Z.eqb_eq in E. congruence. Qed.

(** ** Lists of nodes *)
Lemma nodesL_app : forall l1 l2, nodesL (l1 ++ l2) = nodesL l1 ++ nodesL l2.
Proof. intros. unfold nodesL. apply flat_map_app. Qed.
Lemma nodesL_cons : forall t l, nodesL (t :: l) = nodes t ++ nodesL l.
Proof. reflexivity. Qed.
Lemma addrs_app : forall l1 l2, addrs (l1 ++ l2) = addrs l1 ++ addrs l2.
Proof. intros. unfold addrs. rewrite nodesL_app, map_app. reflexivity. Qed.
Lemma addrs_cons : forall a st sys ks l, addrs (T a st sys ks :: l) = a :: addrs ks ++ addrs l.
Proof. intros. unfold addrs. rewrite nodesL_cons. simpl. rewrite map_app. reflexivity. Qed.
Lemma nodesL_rev : forall l, Permutation (nodesL (rev l)) (nodesL l).
Proof.
  induction l; simpl; auto. rewrite nodesL_app. rewrite IHl. rewrite Permutation_app_comm.
  simpl. rewrite app_nil_r. reflexivity.
Qed.
Lemma addrs_perm : forall l l', Permutation (nodesL l) (nodesL l') -> Permutation (addrs l) (addrs l').
Proof. intros. unfold addrs. now apply Permutation_map. Qed.

Lemma nodup_app : forall (l1 l2 : list Z), NoDup (l1 ++ l2) <->
  NoDup l1 /\ NoDup l2 /\ (forall x, In x l1 -> ~ In x l2).
Proof.
  induction l1; simpl; intros.
  - split; [intros; repeat split; auto; constructor|tauto].
  - split.
    + inversion 1; subst. apply IHl1 in H3 as (?&?&?). split; [constructor; auto|].
      * intros Hi; apply H2; apply in_or_app; auto.
      * split; auto. intros x [<-|Hx] Hi; [apply H2; apply in_or_app; auto|eapply H3; eauto].
    + intros (H1&H2&H3). inversion H1; subst. constructor.
      * intros Hi. apply in_app_or in Hi as [Hi|Hi]; [auto|eapply H3; eauto].
      * apply IHl1. repeat split; auto.
Qed.

(** ** Represented lists *)
Lemma rep_in : forall m q p ts, rep m q p ts -> forall a, In a (addrs ts) -> m a <> None.
Proof.
  induction 1; intros b Hb; [easy|]. rewrite addrs_cons in Hb. destruct Hb as [<-|Hb]; [congruence|].
  apply in_app_or in Hb as [Hb|Hb]; auto.
Qed.
Lemma rep_nonzero : forall m q p ts, rep m q p ts -> ~ In 0 (addrs ts).
Proof.
  induction 1; intros Hb; [easy|]. rewrite addrs_cons in Hb. destruct Hb as [Hb|Hb]; [congruence|].
  apply in_app_or in Hb as [Hb|Hb]; auto.
Qed.
Lemma rep_frame : forall m m' q p ts, rep m q p ts ->
  (forall a, In a (addrs ts) -> m' a = m a) -> rep m' q p ts.
Proof.
  induction 1; intros F; [constructor|]. rewrite addrs_cons in F. econstructor; auto.
  - rewrite F; [auto|now left].
  - apply IHrep1. intros b Hb. apply F. right. apply in_or_app; auto.
  - apply IHrep2. intros b Hb. apply F. right. apply in_or_app; auto.
Qed.
Lemma rep_head : forall m q p ts, rep m q p ts -> p = match ts with [] => 0 | t :: _ => addr t end.
Proof. destruct 1; auto. Qed.
Lemma rep_inv : forall m q p t ts, rep m q p (t :: ts) -> exists x ks,
  t = T p (state x) (system x) ks /\ p <> 0 /\ m p = Some x /\ parent x = q /\
  rep m p (child x) ks /\ rep m q (peer x) ts.
Proof. intros m q p t ts H. inversion H as [|a x ks ts' H1 H2 H3 H4 H5]; subst t ts'. exists x, ks. auto 10. Qed.

(** the address at which the rest of a list starts *)
Lemma rep_app : forall m q l1 l2 p, rep m q p (l1 ++ l2) -> exists p2, rep m q p2 l2 /\ ~ In 0 (addrs l1) /\ (l1 = [] -> p2 = p).
Proof.
  induction l1 as [|t l1]; simpl; intros.
  - exists p; auto.
  - apply rep_inv in H as (x&ks&->&Hp&Hm&Hx&Rk&Rs). destruct (IHl1 _ _ Rs) as (p2&R&N&_). exists p2. split; auto.
    split; [|congruence]. rewrite addrs_cons. intros [E|Hi]; [congruence|].
    apply in_app_or in Hi as [Hi|Hi]; auto. exact (rep_nonzero _ _ _ _ Rk Hi).
Qed.

(** changing one member's children *)
Lemma rep_update : forall m m' q o st sys ks ks' pre rest p x x',
  rep m q p (pre ++ T o st sys ks :: rest) -> NoDup (addrs (pre ++ T o st sys ks :: rest)) ->
  m o = Some x -> m' o = Some x' ->
  parent x' = parent x -> peer x' = peer x -> state x' = state x -> system x' = system x ->
  rep m' o (child x') ks' ->
  (forall b, b <> o -> ~ In b (addrs ks) -> m' b = m b) ->
  rep m' q p (pre ++ T o st sys ks' :: rest).
Proof.
  induction pre as [|t pre]; simpl; intros rest p x x' R Nd Ho Ho' Hp Hq Hs Hy Rk F.
  - apply rep_inv in R as (x0&ks0&Et&Hp0&Hm&Hx&Rk0&Rs). inversion Et; subst p st sys ks0.
    rewrite Ho in Hm; inversion Hm; subst x0.
    rewrite addrs_cons in Nd. pose proof (proj1 (NoDup_cons_iff _ _) Nd) as [H1 H4]. apply nodup_app in H4 as (_&_&D).
    rewrite <- Hs, <- Hy. econstructor; auto; try congruence.
    rewrite Hq. eapply rep_frame; eauto. intros b Hb. apply F.
    + intros ->. apply H1. apply in_or_app; auto.
    + intros Hi. eapply D; eauto.
  - apply rep_inv in R as (x0&ks0&->&Hp0&Hm&Hx&Rk0&Rs).
    rewrite addrs_cons in Nd. pose proof (proj1 (NoDup_cons_iff _ _) Nd) as [H2 H5].
    apply nodup_app in H5 as (Nk&Nr&D).
    assert (Hob : In o (addrs (pre ++ T o st sys ks :: rest))) by
      (rewrite addrs_app, addrs_cons; apply in_or_app; right; now left).
    assert (Hkb : forall b, In b (addrs ks) -> In b (addrs (pre ++ T o st sys ks :: rest))) by
      (intros; rewrite addrs_app, addrs_cons; apply in_or_app; right; right; apply in_or_app; auto).
    econstructor; auto.
    + rewrite F; auto.
      * intros ->. apply H2. apply in_or_app; auto.
      * intros Hi. apply H2. apply in_or_app; auto.
    + eapply rep_frame; eauto. intros b Hb. apply F.
      * intros ->. eapply D; eauto.
      * intros Hi. eapply D; eauto.
    + eapply IHpre; eauto.
Qed.

(** ** Removing a thread from its parent's list *)
Lemma unlink_go : forall n m q o st sys ks rest y prev pre p,
  m q = Some y -> rep m q p (pre ++ T o st sys ks :: rest) ->
  NoDup (addrs (pre ++ T o st sys ks :: rest)) ->
  (length pre < n)%nat ->
  (pre = [] -> prev <> 0 -> child y <> o) ->
  (pre = [] -> prev = 0 -> child y = o) ->
  (pre <> [] -> child y <> o) ->
  exists x, m o = Some x /\
    unlink n m q o prev p =
      match last (map addr pre) prev with
      | 0 => setChild m q (peer x)
      | b => setPeer m b (peer x)
      end.
Proof.
  induction n; intros m q o st sys ks rest y prev pre p Hq R Nd Hn H1 H2 H3; [lia|].
  destruct pre as [|t pre].
  - apply rep_inv in R as (x&ks0&Et&Hp0&Hm&Hx&Rk0&Rs). inversion Et; subst p st sys ks0.
    exists x. split; auto. simpl. unfold get.
    destruct (o =? 0) eqn:E0; [apply Z.eqb_eq in E0; congruence|].
    rewrite Hm. simpl. rewrite Z.eqb_refl, Hq. simpl.
    destruct (Z.eq_dec prev 0) as [->|N].
    + rewrite (H2 eq_refl eq_refl), Z.eqb_refl. reflexivity.
    + specialize (H1 eq_refl N). destruct (o =? child y) eqn:E; [apply Z.eqb_eq in E; congruence|].
      destruct prev; congruence.
  - simpl in R. apply rep_inv in R as (x&ks0&->&Hp0&Hm&Hx&Rk0&Rs). rename p into a.
    simpl in Nd. rewrite addrs_cons in Nd. pose proof (proj1 (NoDup_cons_iff _ _) Nd) as [H5 H8].
    apply nodup_app in H8 as (_&Nr&_).
    assert (Hne : a <> o).
    { intros ->. apply H5. apply in_or_app. right. rewrite addrs_app, addrs_cons. apply in_or_app.
      right. now left. }
    assert (Hc : child y <> o) by (apply H3; discriminate).
    destruct (IHn m q o st sys ks rest y a pre (peer x) Hq Rs Nr) as (xo&Ho&E); auto.
    + simpl in Hn. lia.
    + intros; congruence.
    + exists xo. split; auto. cbn [unlink]. unfold get at 1.
      destruct (a =? 0) eqn:E0; [apply Z.eqb_eq in E0; congruence|]. rewrite Hm. cbn [of_option bind].
      destruct (a =? o) eqn:E1; [apply Z.eqb_eq in E1; congruence|]. rewrite E.
      cbn [map addr].
      replace (last (a :: map addr pre) prev) with (last (map addr pre) a); auto.
      clear. revert a prev. induction pre; intros; auto. cbn [map]. 
      change (last (addr a :: map addr pre) a0 = last (addr a :: map addr pre) prev).
      rewrite <- (IHpre (addr a) a0), <- (IHpre (addr a) prev). reflexivity.
Qed.

Lemma rep_cut : forall m q o st sys ks rest pre p x b z,
  rep m q p (pre ++ T o st sys ks :: rest) -> NoDup (addrs (pre ++ T o st sys ks :: rest)) ->
  pre <> [] -> m o = Some x -> b = last (map addr pre) 0 -> m b = Some z ->
  rep (put m b (Some (Thread (parent z) (child z) (peer x) (state z) (system z)))) q p (pre ++ rest)
  /\ In b (addrs pre).
Proof.
  induction pre as [|t pre]; intros p x b z R Nd Hne Ho Hb Hz; [congruence|]. subst b.
  simpl in R, Nd. apply rep_inv in R as (x0&ks0&->&Hp0&Hm&Hx&Rk0&Rs). rename p into a.
  rewrite addrs_cons in Nd. pose proof (proj1 (NoDup_cons_iff _ _) Nd) as [H4 H5].
  apply nodup_app in H5 as (Nk&Nr&D). rewrite addrs_cons.
  destruct pre as [|t' pre].
  - cbn [map last addr app] in *. assert (z = x0) as -> by congruence.
    split; [|now left]. change (T a (state x0) (system x0) ks0 :: rest) with
      ([] ++ T a (state x0) (system x0) ks0 :: rest). cbn [app].
    set (x1 := Thread (parent x0) (child x0) (peer x) (state x0) (system x0)).
    change (state x0) with (state x1). change (system x0) with (system x1).
    rewrite addrs_cons in *.
    apply rep_inv in Rs as (x2&ks2&Et&Hp2&Hm2&Hx2&Rk2&Rs2). inversion Et; subst st sys ks2.
    assert (x2 = x) as -> by congruence.
    econstructor; auto.
    + apply put_same.
    + cbn [child x1]. eapply rep_frame; eauto. intros c Hc. apply put_other. intros ->.
      apply H4. apply in_or_app; auto.
    + cbn [peer x1]. eapply rep_frame; eauto. intros c Hc. apply put_other. intros ->.
      apply H4. apply in_or_app. right. right. apply in_or_app; auto.
  - assert (Hb : last (map addr (T a (state x0) (system x0) ks0 :: t' :: pre)) 0
                 = last (map addr (t' :: pre)) 0) by reflexivity.
    rewrite Hb in *. destruct (IHpre _ x _ z Rs Nr ltac:(discriminate) Ho eq_refl Hz) as [R' I'].
    split; [|right; apply in_or_app; auto].
    set (b := last (map addr (t' :: pre)) 0) in *.
    assert (Hin : In b (addrs ((t' :: pre) ++ T o st sys ks :: rest))) by
      (rewrite addrs_app; apply in_or_app; auto).
    cbn [app]. cbn [app] in R'. econstructor; auto.
    + rewrite put_other; auto. intros ->. apply H4. apply in_or_app; auto.
    + eapply rep_frame; eauto. intros c Hc. apply put_other. intros ->. eapply D; eauto.
Qed.

Definition sameBut (y y' : thread) : Prop :=
  parent y' = parent y /\ peer y' = peer y /\ state y' = state y /\ system y' = system y.
Lemma sameBut_refl : forall y, sameBut y y. Proof. repeat split. Qed.
Lemma sameBut_trans : forall x y z, sameBut x y -> sameBut y z -> sameBut x z.
Proof. unfold sameBut; intuition congruence. Qed.

Lemma last_in : forall (l : list tree) d, l <> [] -> In (last (map addr l) d) (map addr l).
Proof.
  induction l as [|t l]; intros; [congruence|]. destruct l as [|t' l]; [now left|].
  right. apply (IHl d). discriminate.
Qed.
Lemma addr_in : forall t l, In t l -> In (addr t) (addrs l).
Proof.
  intros t l H. unfold addrs, nodesL. apply in_map_iff. exists (label t). split.
  - now destruct t.
  - apply in_flat_map. exists t. split; auto. destruct t; now left.
Qed.

Lemma unlink_rep : forall n m q o st sys ks rest y pre,
  m q = Some y -> q <> 0 -> rep m q (child y) (pre ++ T o st sys ks :: rest) ->
  NoDup (q :: addrs (pre ++ T o st sys ks :: rest)) -> (length pre < n)%nat ->
  exists m' y', unlink n m q o 0 (child y) = Ok m' /\ m' q = Some y' /\ sameBut y y' /\
    rep m' q (child y') (pre ++ rest) /\
    (forall b, b <> q -> ~ In b (addrs pre) -> m' b = m b).
Proof.
  intros n m q o st sys ks rest y pre Hq Hq0 R Nd Hn. pose proof (proj1 (NoDup_cons_iff _ _) Nd) as [Nq Nd'].
  assert (Hh := rep_head _ _ _ _ R).
  destruct (unlink_go n m q o st sys ks rest y 0 pre (child y) Hq R Nd' Hn) as (x&Ho&E).
  - congruence.
  - intros -> _. exact Hh.
  - intros Hne Ec. destruct pre as [|t pre]; [congruence|]. simpl in Hh. destruct t as [a ? ? ?].
    simpl in *. rewrite addrs_cons in Nd'. apply NoDup_cons_iff in Nd' as [H1 _]. apply H1. apply in_or_app. right.
    rewrite addrs_app, addrs_cons. apply in_or_app. right. left. congruence.
  - rewrite E. destruct pre as [|t pre].
    + simpl. unfold setChild, get. rewrite Hq. simpl. eexists _, _. split; [reflexivity|].
      rewrite put_same. split; [reflexivity|]. split; [repeat split|]. split.
      * cbn [child]. simpl in R. apply rep_inv in R as (x0&ks0&Et&Hp0&Hm&Hx&Rk0&Rs).
        inversion Et; subst. assert (x0 = x) as -> by congruence.
        eapply rep_frame; eauto. intros b Hb. apply put_other. intros ->. apply Nq.
        cbn [app]. rewrite addrs_cons. right. apply in_or_app; auto.
      * intros b Hb _. apply put_other; auto.
    + set (b := last (map addr (t :: pre)) 0).
      assert (Hb : In b (addrs (t :: pre))).
      { destruct (proj1 (in_map_iff _ _ _) (last_in (t :: pre) 0 ltac:(discriminate))) as (u&Eu&Hu).
        subst b. rewrite <- Eu. apply addr_in; auto. }
      assert (Hb' : In b (addrs ((t :: pre) ++ T o st sys ks :: rest))) by
        (rewrite addrs_app; apply in_or_app; auto).
      assert (b <> 0) by (intros B; rewrite B in Hb'; eapply rep_nonzero; eauto).
      destruct (m b) as [z|] eqn:Hz; [|exfalso; eapply rep_in; eauto].
      destruct (rep_cut _ _ _ _ _ _ _ (t :: pre) _ x b z R Nd' ltac:(discriminate) Ho eq_refl Hz) as [R' _].
      assert (Hbq : b <> q) by (intros ->; auto).
      exists (put m b (Some (Thread (parent z) (child z) (peer x) (state z) (system z)))), y.
      split.
      * destruct b; try congruence; unfold setPeer, get; rewrite Hz; reflexivity.
      * rewrite put_other by auto. split; auto. split; [apply sameBut_refl|]. split; auto.
        intros c Hc Hn'. apply put_other. intros ->. auto.
Qed.

(** ** The children of a dead thread *)
Lemma adopt_rep : forall ks n m q o p y L,
  m q = Some y -> q <> 0 -> rep m o p ks -> rep m q (child y) L ->
  NoDup (q :: addrs ks ++ addrs L) -> (length ks < n)%nat ->
  exists m' y', adopt n m q p = Ok m' /\ m' q = Some y' /\ sameBut y y' /\
    rep m' q (child y') (rev ks ++ L) /\
    (forall b, b <> q -> ~ In b (addrs ks) -> m' b = m b).
Proof.
  induction ks as [|t ks]; intros n m q o p y L Hq Hq0 R RL Nd Hn; (destruct n; [simpl in Hn; lia|]).
  - inversion R; subst. exists m, y. simpl. repeat split; auto.
  - apply rep_inv in R as (x&ks0&->&Hp0&H3&Hx&H4&Rs).
    pose proof (proj1 (NoDup_cons_iff _ _) Nd) as [Nq Nd']. rewrite addrs_cons in Nd', Nq.
    cbn [adopt]. destruct (p =? 0) eqn:E0; [apply Z.eqb_eq in E0; congruence|].
    assert (Hpq : p <> q) by (intros ->; apply Nq; now left).
    unfold get at 1. rewrite H3. cbn [of_option bind]. unfold get at 1. rewrite Hq. cbn [of_option bind].
    unfold setPeer at 1, get at 1. rewrite H3. cbn [of_option bind].
    unfold setChild at 1, get at 1. rewrite put_other by auto. rewrite Hq. cbn [of_option bind].
    unfold setParent at 1, get at 1. rewrite put_other by auto. rewrite put_same. cbn [of_option bind].
    cbn [child parent peer state system].
    set (x1 := Thread q (child x) (child y) (state x) (system x)).
    set (y1 := Thread (parent y) p (peer y) (state y) (system y)).
    set (m1 := put _ p (Some x1)).
    assert (M1 : forall b, b <> p -> b <> q -> m1 b = m b)
      by (intros; subst m1; now rewrite !put_other by auto).
    assert (M1p : m1 p = Some x1) by apply put_same.
    assert (M1q : m1 q = Some y1) by (subst m1; rewrite put_other by auto; apply put_same).
    simpl in Nd', Nq. pose proof (proj1 (NoDup_cons_iff _ _) Nd') as [Np Nd''].
    rewrite <- app_assoc in Np, Nd''.
    apply nodup_app in Nd'' as (Nk0&Nr&D0). pose proof Nr as Nr0. apply nodup_app in Nr as (Nk&NL&D1).
    assert (Fr : forall b, In b (addrs ks0 ++ addrs ks ++ addrs L) -> m1 b = m b).
    { intros b Hb. apply M1; [intros ->; auto|]. intros ->. apply Nq. right. now rewrite <- app_assoc. }
    destruct (IHks n m1 q o (peer x) y1 (T p (state x) (system x) ks0 :: L)) as (m'&y'&E&Hy'&SB&R'&F'); auto.
    + eapply rep_frame; eauto. intros b Hb. apply Fr. rewrite !in_app_iff; auto.
    + change (child y1) with p. change (state x) with (state x1). change (system x) with (system x1).
      econstructor; auto.
      * eapply rep_frame; [exact H4|]. intros b Hb. apply Fr. rewrite !in_app_iff; auto.
      * eapply rep_frame; [exact RL|]. intros b Hb. apply Fr. rewrite !in_app_iff; auto.
    + rewrite addrs_cons. constructor.
      * intros Hi. apply Nq. apply in_app_or in Hi as [Hi|[Hi|Hi]]; [|auto|].
        -- right. rewrite !in_app_iff; auto.
        -- right. apply in_app_or in Hi. rewrite !in_app_iff. tauto.
      * apply nodup_app. split; auto. split.
        -- constructor.
           ++ intros Hi. apply Np. apply in_app_or in Hi. rewrite !in_app_iff. tauto.
           ++ apply nodup_app. repeat split; auto. intros c Hc Hi. apply (D0 c Hc). apply in_or_app; auto.
        -- intros c Hc [->|Hi]; [apply Np; rewrite !in_app_iff; auto|].
           apply in_app_or in Hi as [Hi|Hi]; [apply (D0 c Hi); apply in_or_app; auto|eapply D1; eauto].
    + simpl in Hn. lia.
    + exists m', y'. split; auto. split; auto. split.
      { destruct SB as (?&?&?&?). repeat split; auto. }
      split.
      * cbn [rev]. rewrite <- app_assoc. exact R'.
      * intros b Hb Hi. rewrite addrs_cons in Hi. rewrite F' by (auto; intros Hj; apply Hi; right; apply in_or_app; auto).
        apply M1; auto. intros ->. apply Hi. now left.
Qed.

(** ** Disposing of a child *)
Lemma dispose_rep : forall n s q o st sys ks pre rest y x,
  mem s q = Some y -> q <> 0 -> rep (mem s) q (child y) (pre ++ T o st sys ks :: rest) ->
  mem s o = Some x ->
  NoDup (q :: addrs (pre ++ T o st sys ks :: rest)) -> (length pre < n)%nat -> (length ks < n)%nat ->
  exists s' y', dispose n s o = Ok s' /\ mem s' q = Some y' /\ sameBut y y' /\
    rootThread s' = rootThread s /\ liveCount s' = liveCount s /\
    threadCount s' = (threadCount s - 1) mod 2 ^ 32 /\
    rep (mem s') q (child y') (rev ks ++ pre ++ rest) /\
    mem s' o = None /\
    (forall b, b <> q -> b <> o -> ~ In b (addrs pre) -> ~ In b (addrs ks) -> mem s' b = mem s b).
Proof.
  intros n s q o st sys ks pre rest y x Hq Hq0 R Ho Nd Hn1 Hn2.
  destruct (unlink_rep n _ q o st sys ks rest y pre Hq Hq0 R Nd Hn1) as (m1&y1&E1&Hy1&SB1&R1&F1).
  destruct (rep_app _ _ pre _ _ R) as (p2&R2&_&_).
  apply rep_inv in R2 as (x0&ks0&Et&Hp0&Hm&Hx&Rk0&Rs). inversion Et; subst p2 st sys ks0.
  assert (x0 = x) as -> by congruence. subst q.
  pose proof (proj1 (NoDup_cons_iff _ _) Nd) as [Nq Nd']. rewrite addrs_app, addrs_cons in Nd', Nq.
  apply nodup_app in Nd' as (Npre&Nd2&D). pose proof (proj1 (NoDup_cons_iff _ _) Nd2) as [No Nd3].
  apply nodup_app in Nd3 as (Nks&Nrest&D3).
  assert (Hopre : ~ In o (addrs pre)) by (intros Hi; apply (D o Hi); now left).
  assert (Hoq : o <> (parent x)).
  { intros ->. apply Nq. apply in_or_app. right. now left. }
  assert (Hrk : rep m1 o (child x) ks).
  { eapply rep_frame; eauto. intros b Hb. apply F1.
    - intros ->. apply Nq. rewrite in_app_iff. right. right. apply in_or_app; auto.
    - intros Hi. apply (D b Hi). right. apply in_or_app; auto. }
  destruct (adopt_rep ks n m1 (parent x) o (child x) y1 (pre ++ rest)) as (m2&y2&E2&Hy2&SB2&R3&F2); auto.
  - constructor.
    + intros Hi. apply Nq. rewrite addrs_app in Hi. rewrite !in_app_iff in *. simpl. rewrite in_app_iff. tauto.
    + apply nodup_app. split; auto. rewrite addrs_app. split.
      * apply nodup_app. repeat split; auto. intros c Hc Hi. apply (D c Hc). right. apply in_or_app; auto.
      * intros c Hc Hi. apply in_app_or in Hi as [Hi|Hi]; [|eapply D3; eauto].
        apply (D c Hi). right. apply in_or_app; auto.
  - unfold dispose. unfold get at 1. rewrite Ho. cbn [of_option bind].
    destruct (parent x =? 0) eqn:P0; [apply Z.eqb_eq in P0; congruence|]. cbn [negb].
    unfold get at 1. rewrite Hq. cbn [of_option bind]. rewrite E1. cbn [bind]. rewrite E2. cbn [bind fst snd].
    eexists _, y2. split; [reflexivity|]. cbn [mem rootThread liveCount threadCount].
    split; [now rewrite put_other by auto|]. split; [eapply sameBut_trans; eauto|].
    split; [reflexivity|]. split; [reflexivity|]. split; [reflexivity|]. split.
    + eapply rep_frame; eauto. intros b Hb. apply put_other. intros ->.
      rewrite addrs_app in Hb. apply in_app_or in Hb as [Hb|Hb].
      * apply No. apply in_or_app. left. eapply Permutation_in; [|exact Hb]. apply addrs_perm, nodesL_rev.
      * rewrite addrs_app in Hb. apply in_app_or in Hb as [Hb|Hb]; [auto|]. apply No. apply in_or_app; auto.
    + split; [apply put_same|]. intros b H1' H2' H3' H4'. rewrite put_other by auto. rewrite F2, F1; auto.
Qed.

(** ** What killing does to the tree *)
Fixpoint kill (t : tree) : tree :=
  match t with
  | T a st sys ks =>
    T a st sys (fold_left (fun pre t =>
      if dead (label (kill t)) then rev (kids (kill t)) ++ pre else pre ++ [kill t]) ks [])
  end.
Definition killStep (pre : list tree) (t : tree) : list tree :=
  if dead (label (kill t)) then rev (kids (kill t)) ++ pre else pre ++ [kill t].
Lemma kill_eq : forall a st sys ks, kill (T a st sys ks) = T a st sys (fold_left killStep ks []).
Proof. reflexivity. Qed.
Lemma kill_label : forall t, label (kill t) = label t.
Proof. destruct t; reflexivity. Qed.

(** induction over trees *)
Lemma tree_ind2 : forall (P : tree -> Prop),
  (forall a st sys ks, Forall P ks -> P (T a st sys ks)) -> forall t, P t.
Proof.
  intros P H. fix IH 1. intros [a st sys ks]. apply H. induction ks; constructor; auto.
Qed.

Definition alive n := negb (dead n).
Lemma filter_perm : forall (A : Type) (f : A -> bool) l l',
  Permutation l l' -> Permutation (filter f l) (filter f l').
Proof.
  induction 1; simpl; auto.
  - destruct (f x); auto.
  - destruct (f x), (f y); auto. constructor.
  - etransitivity; eauto.
Qed.

Lemma killStep_nodes : forall t pre,
  Permutation (nodesL (kids (kill t))) (filter alive (nodesL (kids t))) ->
  Permutation (nodesL (killStep pre t)) (nodesL pre ++ filter alive (nodes t)).
Proof.
  intros t pre H. unfold killStep. rewrite kill_label. destruct t as [a st sys ks].
  cbn [label nodes filter]. unfold alive at 1.
  destruct (dead (a, st, sys)) eqn:E; cbn [negb].
  - rewrite nodesL_app, nodesL_rev, H. apply Permutation_app_comm.
  - rewrite nodesL_app. apply Permutation_app_head. rewrite kill_eq in *. cbn [nodesL flat_map].
    rewrite app_nil_r. cbn [nodes]. constructor. exact H.
Qed.
Lemma kill_nodes : forall t, Permutation (nodesL (kids (kill t))) (filter alive (nodesL (kids t))).
Proof.
  induction t using tree_ind2. rewrite kill_eq. cbn [kids].
  enough (forall pre, Permutation (nodesL (fold_left killStep ks pre))
                        (nodesL pre ++ filter alive (nodesL ks))) by apply (H0 []).
  induction H as [|t ks Ht Hks IH]; intros pre.
  - simpl. now rewrite app_nil_r.
  - cbn [fold_left]. rewrite IH, (killStep_nodes _ _ Ht). rewrite nodesL_cons.
    rewrite filter_app, app_assoc. reflexivity.
Qed.
Lemma fold_nodes : forall ks pre, Permutation (nodesL (fold_left killStep ks pre))
                        (nodesL pre ++ filter alive (nodesL ks)).
Proof.
  induction ks as [|t ks IH]; intros pre; [simpl; now rewrite app_nil_r|].
  cbn [fold_left]. rewrite IH, (killStep_nodes _ _ (kill_nodes t)), nodesL_cons, filter_app, app_assoc.
  reflexivity.
Qed.

Definition ids (l : list (Z * tstate * bool)) : list Z := map (fun n => fst (fst n)) l.
Definition deadIn (l : list (Z * tstate * bool)) : Z := Z.of_nat (length (filter dead l)).

Lemma ids_filter_in : forall f l a, In a (ids (filter f l)) -> In a (ids l).
Proof.
  intros f l a H. apply in_map_iff in H as (n&<-&H). apply filter_In in H as [H _].
  apply in_map_iff; eauto.
Qed.
Lemma ids_filter_nodup : forall f l, NoDup (ids l) -> NoDup (ids (filter f l)).
Proof.
  induction l; simpl; intros; auto. inversion H; subst. destruct (f a); auto. simpl. constructor; auto.
  intros Hi. apply H2. eapply ids_filter_in; eauto.
Qed.

Lemma length_trees : forall ts, (length ts <= length (addrs ts))%nat.
Proof.
  induction ts as [|[a st sys ks] ts]; auto. rewrite addrs_cons. simpl. rewrite app_length. lia.
Qed.

(** ** Killing in memory *)
Definition countMinus (c k : Z) : Z := (c - k) mod 2 ^ 32.
Lemma minus_minus : forall c k l, countMinus (countMinus c k) l = countMinus c (k + l).
Proof.
  intros. unfold countMinus. rewrite Zminus_mod_idemp_l. f_equal. lia.
Qed.

Definition inRange (s s' : machine) : Prop :=
  0 <= threadCount s < 2 ^ 32 -> 0 <= threadCount s' < 2 ^ 32.
Definition killedTo (n : nat) (run : nat -> res machine) (s : machine) (q : Z) (y : thread)
    (before after : list tree) (k : Z) : Prop :=
  exists f0 s' y', (forall f, (f0 <= f)%nat -> run f = Ok s') /\
    mem s' q = Some y' /\ sameBut y y' /\
    rootThread s' = rootThread s /\ liveCount s' = liveCount s /\
    countMinus (threadCount s') 0 = countMinus (threadCount s) k /\ inRange s s' /\
    rep (mem s') q (child y') after /\
    (forall b, b <> q -> ~ In b (addrs before) -> mem s' b = mem s b) /\
    (forall b, b <> q -> In b (addrs before) -> ~ In b (addrs after) -> mem s' b = None).

Definition killGoal (n : nat) (t : tree) : Prop :=
  forall s q y pre rest,
    mem s q = Some y -> q <> 0 -> rep (mem s) q (child y) (pre ++ t :: rest) ->
    NoDup (q :: addrs (pre ++ t :: rest)) -> (length (addrs (pre ++ t :: rest)) < n)%nat ->
    killedTo n (fun f => killZombies n f s (addr t)) s q y (pre ++ t :: rest)
      (killStep pre t ++ rest) (deadIn (nodes t)).

Definition loopGoal (n : nat) (ks : list tree) : Prop :=
  forall s q y pre,
    mem s q = Some y -> q <> 0 -> rep (mem s) q (child y) (pre ++ ks) ->
    NoDup (q :: addrs (pre ++ ks)) -> (length (addrs (pre ++ ks)) < n)%nat ->
    forall p, rep (mem s) q p ks ->
    killedTo n (fun f => killLoop n f s p) s q y (pre ++ ks)
      (fold_left killStep ks pre) (deadIn (nodesL ks)).

Lemma deadIn_app : forall a b, deadIn (a ++ b) = deadIn a + deadIn b.
Proof. intros. unfold deadIn. rewrite filter_app, app_length. lia. Qed.

Lemma killStep_addrs : forall pre t b, In b (addrs (killStep pre t)) -> In b (addrs (pre ++ [t])).
Proof.
  intros pre t b Hb.
  unfold addrs in *. eapply Permutation_in in Hb; [|apply Permutation_map, killStep_nodes, kill_nodes].
  rewrite nodesL_app. rewrite map_app in *. apply in_app_or in Hb as [Hb|Hb]; apply in_or_app; [auto|right].
  cbn [nodesL flat_map]. rewrite app_nil_r. eapply ids_filter_in; eauto.
Qed.

Lemma fold_addrs : forall ks pre b, In b (addrs (fold_left killStep ks pre)) -> In b (addrs (pre ++ ks)).
Proof.
  induction ks as [|t ks IH]; intros pre b Hb; [now rewrite app_nil_r|].
  cbn [fold_left] in Hb. apply IH in Hb. rewrite addrs_app in *.
  apply in_app_or in Hb as [Hb|Hb].
  - apply killStep_addrs in Hb. rewrite addrs_app in Hb. apply in_app_or in Hb as [Hb|Hb]; apply in_or_app; auto.
    right. unfold addrs, nodesL in *. simpl in *. rewrite app_nil_r in Hb. rewrite map_app. apply in_or_app; auto.
  - apply in_or_app. right. unfold addrs, nodesL in *. simpl. rewrite map_app. apply in_or_app; auto.
Qed.
Lemma killStep_nodup : forall pre t rest, NoDup (addrs (pre ++ t :: rest)) ->
  NoDup (addrs (killStep pre t ++ rest)).
Proof.
  intros pre t rest Nd.
  assert (P : Permutation (addrs (killStep pre t ++ rest))
                (ids (nodesL pre ++ filter alive (nodes t) ++ nodesL rest))).
  { unfold addrs. apply Permutation_map. rewrite nodesL_app, (killStep_nodes _ _ (kill_nodes t)).
    now rewrite app_assoc. }
  eapply Permutation_NoDup; [symmetry; exact P|]. clear P.
  unfold addrs in Nd. rewrite nodesL_app, nodesL_cons in Nd. unfold ids. rewrite !map_app in *.
  apply nodup_app in Nd as (N1&N2&D1). apply nodup_app in N2 as (N2&N3&D2).
  apply nodup_app. split; auto. split.
  - apply nodup_app. split; [now apply ids_filter_nodup|]. split; auto.
    intros b Hb. apply D2. eapply ids_filter_in; eauto.
  - intros b Hb Hi. apply (D1 b Hb). apply in_app_or in Hi as [Hi|Hi]; apply in_or_app; auto.
    left. eapply ids_filter_in; eauto.
Qed.

Lemma kill_one : forall n a st sys ks, loopGoal n ks -> killGoal n (T a st sys ks).
Proof.
  intros n o st sys ks L s q y pre rest Hq Hq0 R Nd Hn.
  pose proof (proj1 (NoDup_cons_iff _ _) Nd) as [Nq Nd'].
  destruct (rep_app _ _ pre _ _ R) as (p2&R2&_&_).
  apply rep_inv in R2 as (x&ks0&Et&Hp0&Hm&Hx&Rk0&Rs). inversion Et; subst p2 st sys ks0. clear Et.
  assert (Incl : forall b, In b (o :: addrs ks) -> In b (addrs (pre ++ T o (state x) (system x) ks :: rest))).
  { intros b Hb. rewrite addrs_app, addrs_cons. apply in_or_app. right. destruct Hb; [now left|].
    right. apply in_or_app; auto. }
  assert (Hqo : q <> o) by (intros ->; apply Nq, Incl; now left).
  assert (Nd0 := Nd'). rewrite addrs_app, addrs_cons in Nd0. apply nodup_app in Nd0 as (Npre&Nd2&D).
  apply NoDup_cons_iff in Nd2 as [No Nd3]. apply nodup_app in Nd3 as (Nks&Nrest&D3).
  destruct (L s o x []) with (p := child x) as (f0&s1&x1&Run&Hx1&SB&Er&El&Ec&Ir&R1&F1&G1); auto.
  { cbn [app]. constructor; auto. intros Hi. apply No. apply in_or_app; auto. }
  { cbn [app]. rewrite addrs_app, addrs_cons, app_length in Hn. cbn [length] in Hn.
    rewrite app_length in Hn. lia. }
  cbn [app] in F1, G1. set (ks' := fold_left killStep ks []) in *.
  assert (Hq1 : mem s1 q = Some y).
  { rewrite F1; auto. intros Hi. apply Nq, Incl. now right. }
  assert (R' : rep (mem s1) q (child y) (pre ++ T o (state x) (system x) ks' :: rest)).
  { destruct SB as (B1&B2&B3&B4). eapply rep_update; eauto. }
  assert (Sub : forall b, In b (addrs ks') -> In b (addrs ks)) by (intros b Hb; apply fold_addrs in Hb; exact Hb).
  assert (Nd1 : NoDup (addrs (pre ++ T o (state x) (system x) ks' :: rest))).
  { rewrite addrs_app, addrs_cons. apply nodup_app. split; auto.
    assert (NoDup (addrs ks')).
    { eapply Permutation_NoDup; [symmetry; apply Permutation_map, fold_nodes|]. cbn [nodesL flat_map app].
      apply ids_filter_nodup. exact Nks. }
    split.
    - constructor.
      + intros Hi. apply No. apply in_app_or in Hi as [Hi|Hi]; apply in_or_app; auto.
      + apply nodup_app. split; auto.
    - intros b Hb [->|Hi]; [apply (D b Hb); now left|]. apply (D b Hb). right.
      apply in_app_or in Hi as [Hi|Hi]; apply in_or_app; auto. }
  assert (Nq1 : ~ In q (addrs (pre ++ T o (state x) (system x) ks' :: rest))).
  { intros Hi. apply Nq. rewrite addrs_app, addrs_cons in *. apply in_app_or in Hi as [Hi|[Hi|Hi]]; apply in_or_app; auto.
    - right; now left.
    - right; right. apply in_app_or in Hi as [Hi|Hi]; apply in_or_app; auto. }
  destruct SB as (B1&B2&B3&B4).
  assert (Ed : isDead x1 = dead (o, state x, system x)).
  { unfold isDead, dead. rewrite B3, B4. reflexivity. }
  assert (Es : killStep pre (T o (state x) (system x) ks) = if dead (o, state x, system x) then rev ks' ++ pre else pre ++ [T o (state x) (system x) ks'])
    by reflexivity.
  unfold killedTo. cbn [addr]. destruct (dead (o, state x, system x)) eqn:E.
  - destruct (dispose_rep n s1 q o (state x) (system x) ks' pre rest y x1) as (s2&y2&E2&Hy2&SB2&Er2&El2&Ec2&R3&Hn2&F2); auto.
    + constructor; auto.
    + rewrite addrs_app, addrs_cons, app_length in Hn. pose proof (length_trees pre). lia.
    + pose proof (length_trees ks').
      assert (length (addrs ks') <= length (addrs ks))%nat by (apply NoDup_incl_length; [|exact Sub];
        rewrite addrs_app, addrs_cons in Nd1; apply nodup_app in Nd1 as (_&N&_); apply NoDup_cons_iff in N as [_ N];
        apply nodup_app in N; tauto).
      rewrite addrs_app, addrs_cons, app_length in Hn. cbn [length] in Hn. rewrite app_length in Hn. lia.
    + exists (S f0), s2, y2. split.
      { intros f Hf. destruct f as [|f]; [lia|]. cbn [killZombies]. unfold get at 1. rewrite Hm. cbn [of_option bind].
        rewrite Run by lia. cbn [bind]. unfold get at 1. rewrite Hx1. cbn [of_option bind]. rewrite Ed. exact E2. }
      split; auto. split; auto. split; [congruence|]. split; [congruence|]. split.
      { rewrite Ec2. change ((threadCount s1 - 1) mod 2 ^ 32) with (countMinus (threadCount s1) 1).
        rewrite minus_minus. replace (1 + 0) with (0 + 1) by lia. rewrite <- minus_minus, Ec, minus_minus.
        f_equal. cbn [nodes]. unfold deadIn. cbn [filter]. rewrite E. cbn [length]. unfold nodesL. lia. }
      split; [unfold inRange; intros _; rewrite Ec2; apply Z.mod_pos_bound; lia|].
      rewrite Es. rewrite <- app_assoc. split; auto. split.
      * intros b Hb Hi. rewrite addrs_app, addrs_cons in Hi.
        assert (b <> o) by (intros ->; apply Hi; apply in_or_app; right; now left).
        assert (~ In b (addrs ks)) by (intros Hj; apply Hi; apply in_or_app; right; right; apply in_or_app; auto).
        rewrite F2; auto. intros Hj; apply Hi; apply in_or_app; auto.
      * intros b Hb Hi Hj. destruct (Z.eq_dec b o) as [->|Hbo]; auto.
        rewrite !addrs_app in Hj. rewrite addrs_app, addrs_cons in Hi.
        assert (Hnp : ~ In b (addrs pre)) by (intros H; apply Hj; apply in_or_app; right; apply in_or_app; auto).
        assert (Hnr : ~ In b (addrs rest)) by (intros H; apply Hj; apply in_or_app; right; apply in_or_app; auto).
        assert (Hnk : ~ In b (addrs ks')).
        { intros H; apply Hj; apply in_or_app. left.
          eapply Permutation_in; [symmetry; apply addrs_perm, nodesL_rev|exact H]. }
        apply in_app_or in Hi as [Hi|[Hi|Hi]]; [tauto|congruence|]. apply in_app_or in Hi as [Hi|Hi]; [|tauto].
        rewrite F2; auto.
  - exists (S f0), s1, y. split.
    { intros f Hf. destruct f as [|f]; [lia|]. cbn [killZombies]. unfold get at 1. rewrite Hm. cbn [of_option bind].
      rewrite Run by lia. cbn [bind]. unfold get at 1. rewrite Hx1. cbn [of_option bind]. now rewrite Ed. }
    split; auto. split; [apply sameBut_refl|]. split; auto. split; auto. split.
    { rewrite Ec. f_equal. cbn [nodes]. unfold deadIn. cbn [filter]. now rewrite E. }
    split; auto.
    rewrite Es. rewrite <- app_assoc. split; auto. split.
    + intros b Hb Hi. apply F1.
      * intros ->. apply Hi, Incl. now left.
      * intros Hj. apply Hi, Incl. now right.
    + intros b Hb Hi Hj. rewrite addrs_app in Hi, Hj. cbn [app] in Hj. rewrite addrs_cons in Hi, Hj.
      apply G1.
      * intros ->. apply Hj. apply in_or_app. right. now left.
      * apply in_app_or in Hi as [Hi|[Hi|Hi]].
        -- exfalso. apply Hj. apply in_or_app; auto.
        -- exfalso. apply Hj. apply in_or_app. right. now left.
        -- apply in_app_or in Hi as [Hi|Hi]; auto. exfalso. apply Hj. apply in_or_app. right. right. apply in_or_app; auto.
      * intros Hk. apply Hj. apply in_or_app. right. right. apply in_or_app; auto.
Qed.

Lemma kill_loop : forall n ks, Forall (killGoal n) ks -> loopGoal n ks.
Proof.
  intros n ks H. induction H as [|t ks Ht Hks IH]; intros s q y pre Hq Hq0 R Nd Hn p Rp.
  - inversion Rp; subst. exists 1%nat, s, y. split.
    { intros f Hf. destruct f; [lia|]. reflexivity. }
    rewrite app_nil_r in *. simpl. split; auto. split; [apply sameBut_refl|]. repeat split; auto; try tauto; unfold inRange; auto.
  - pose proof Rp as Rp'. apply rep_inv in Rp' as (x&ks0&Et&Hp0&Hm&Hx&Rk0&Rs).
    destruct (Ht s q y pre ks Hq Hq0 R Nd Hn) as (f1&s1&y1&Run1&Hy1&SB1&Er1&El1&Ec1&Ir1&R1&F1&G1).
    pose proof (proj1 (NoDup_cons_iff _ _) Nd) as [Nq Nd'].
    assert (Sub : forall b, In b (addrs (killStep pre t ++ ks)) -> In b (addrs (pre ++ t :: ks))).
    { intros b Hb. rewrite addrs_app in Hb. change (t :: ks) with ([t] ++ ks). rewrite app_assoc, addrs_app.
      apply in_app_or in Hb as [Hb|Hb]; apply in_or_app; auto. left. now apply killStep_addrs. }
    assert (Nd1 : NoDup (addrs (killStep pre t ++ ks))) by now apply killStep_nodup.
    destruct (rep_app _ _ (killStep pre t) _ _ R1) as (p2&R2&_&_).
    assert (p2 = peer x) as ->.
    { rewrite (rep_head _ _ _ _ R2), (rep_head _ _ _ _ Rs). reflexivity. }
    destruct (IH s1 q y1 (killStep pre t) Hy1 Hq0 R1) with (p := peer x)
      as (f2&s2&y2&Run2&Hy2&SB2&Er2&El2&Ec2&Ir2&R3&F2&G2); auto.
    { constructor; auto. }
    { pose proof (NoDup_incl_length Nd1 Sub). lia. }
    exists (S (max f1 f2)), s2, y2. split.
    { intros f Hf. destruct f as [|f]; [lia|]. cbn [killLoop].
      destruct (p =? 0) eqn:E0; [apply Z.eqb_eq in E0; congruence|].
      unfold get at 1. rewrite Hm. cbn [of_option bind].
      replace p with (addr t) by (rewrite Et; reflexivity). rewrite Run1 by lia. cbn [bind]. apply Run2. lia. }
    split; auto. split; [eapply sameBut_trans; eauto|]. split; [congruence|]. split; [congruence|]. split.
    { rewrite Ec2. rewrite nodesL_cons, deadIn_app, <- minus_minus, <- Ec1, minus_minus. now rewrite Z.add_0_l. }
    split; [unfold inRange in *; auto|]. split; auto. split.
    + intros b Hb Hi. rewrite F2, F1; auto.
    + intros b Hb Hi Hj. destruct (in_dec Z.eq_dec b (addrs (killStep pre t ++ ks))) as [Hk|Hk].
      * apply G2; auto.
      * rewrite F2; auto.
Qed.

Lemma kill_tree : forall n t, killGoal n t.
Proof.
  intros n t. induction t using tree_ind2. apply kill_one. now apply kill_loop.
Qed.
Lemma kill_list : forall n ks, loopGoal n ks.
Proof. intros. apply kill_loop. apply Forall_forall. intros. apply kill_tree. Qed.

(** ** More fuel gives the same result *)
Lemma unlink_more : forall n m q o prev p r, unlink n m q o prev p = Ok r ->
  forall k, unlink (n + k) m q o prev p = Ok r.
Proof.
  induction n; cbn [unlink Nat.add]; intros; [discriminate|]. destruct (p =? 0); auto.
  destruct (get m p); cbn [bind] in *; auto. destruct (p =? o); auto.
Qed.
Lemma adopt_more : forall n m q p r, adopt n m q p = Ok r -> forall k, adopt (n + k) m q p = Ok r.
Proof.
  induction n; cbn [adopt Nat.add]; intros; [discriminate|]. destruct (p =? 0); auto.
  destruct (get m p) as [x| | |]; cbn [bind] in *; auto.
  destruct (get m q) as [y| | |]; cbn [bind] in *; auto.
  destruct (setPeer m p (child y)) as [m1| | |]; cbn [bind] in *; auto.
  destruct (setChild m1 q p) as [m2| | |]; cbn [bind] in *; auto.
  destruct (setParent m2 p q); cbn [bind] in *; auto.
Qed.
Lemma raise_more : forall n m rt p r, raise n m rt p = Ok r -> forall k, raise (n + k) m rt p = Ok r.
Proof.
  induction n; cbn [raise Nat.add]; intros; [discriminate|]. destruct (p =? 0); auto.
  destruct (get m p); cbn [bind] in *; auto.
  destruct (setPeer m p rt); cbn [bind] in *; auto.
Qed.
Lemma dispose_more : forall n s o r, dispose n s o = Ok r -> forall k, dispose (n + k) s o = Ok r.
Proof.
  unfold dispose; intros n s o r H k. destruct (get (mem s) o) as [x| | |]; cbn [bind] in *; auto.
  destruct (parent x =? 0); cbn [negb] in *.
  - destruct (child x =? 0); cbn [negb] in *; auto.
    destruct (raise n (mem s) (child x) (peer x)) eqn:E; cbn [bind] in *; try discriminate.
    now rewrite (raise_more _ _ _ _ _ E).
  - destruct (get (mem s) (parent x)) as [y| | |]; cbn [bind] in *; auto.
    destruct (unlink n (mem s) (parent x) o 0 (child y)) eqn:E; cbn [bind] in *; try discriminate.
    rewrite (unlink_more _ _ _ _ _ _ _ E). cbn [bind].
    destruct (adopt n a (parent x) (child x)) eqn:E2; cbn [bind] in *; try discriminate.
    now rewrite (adopt_more _ _ _ _ _ E2).
Qed.
Lemma kill_more : forall f n s,
  (forall o r, killZombies n f s o = Ok r -> forall k j, killZombies (n + k) (f + j) s o = Ok r) /\
  (forall p r, killLoop n f s p = Ok r -> forall k j, killLoop (n + k) (f + j) s p = Ok r).
Proof.
  induction f; intros n s; split; cbn [killZombies killLoop Nat.add]; intros o r H k j; try discriminate.
  - destruct (get (mem s) o) as [x| | |]; cbn [bind] in *; auto.
    destruct (killLoop n f s (child x)) as [s1| | |] eqn:E; cbn [bind] in *; try discriminate.
    destruct (IHf n s) as [_ I]. rewrite (I _ _ E). cbn [bind].
    destruct (get (mem s1) o) as [x1| | |]; cbn [bind] in *; auto.
    destruct (isDead x1); auto. apply dispose_more; auto.
  - destruct (o =? 0); auto. destruct (get (mem s) o) as [x| | |]; cbn [bind] in *; auto.
    destruct (killZombies n f s o) as [s1| | |] eqn:E; cbn [bind] in *; try discriminate.
    destruct (IHf n s) as [I _]. rewrite (I _ _ E). cbn [bind].
    destruct (IHf n s1) as [_ J]. apply J; auto.
Qed.

(** ** The whole tree *)
Lemma collect_ok : forall s t, consistent s t -> dead (label t) = false ->
  exists f0 s', (forall n f, (length (nodes t) <= n)%nat -> (f0 <= f)%nat ->
      killZombies n f s (rootThread s) = Ok s') /\
    consistent s' (kill t) /\ rootThread s' = rootThread s /\ liveCount s' = liveCount s /\
    countMinus (threadCount s') 0 = countMinus (threadCount s) (deadIn (nodes t)) /\ inRange s s' /\
    (exists x x', mem s (rootThread s) = Some x /\ mem s' (rootThread s) = Some x' /\ sameBut x x').
Proof.
  intros s t [R Nd A] Hd. apply rep_inv in R as (x&ks&->&Hp&Hm&Hx&Rk&Rs). pose proof (rep_head _ _ _ _ Rs) as Hpe. clear Rs.
  rewrite addrs_cons in Nd. cbn [addrs nodesL flat_map map] in Nd. rewrite app_nil_r in Nd.
  pose proof (proj1 (NoDup_cons_iff _ _) Nd) as [Nr Nk].
  set (n0 := length (nodes (T (rootThread s) (state x) (system x) ks))).
  destruct (kill_list n0 ks s (rootThread s) x []) with (p := child x)
    as (f0&s1&x1&Run&Hx1&SB&Er&El&Ec&Ir&R1&F1&G1); auto.
  { subst n0. cbn [app nodes length]. unfold addrs, nodesL. rewrite map_length. lia. }
  cbn [app] in F1, G1. pose proof SB as SB'. destruct SB as (B1&B2&B3&B4).
  assert (Hdx : isDead x1 = false) by (unfold isDead; rewrite B3, B4; exact Hd).
  exists (S f0), s1. split.
  { intros n f Hn Hf. replace n with (n0 + (n - n0))%nat by lia.
    destruct f as [|f]; [lia|].
    specialize (Run f ltac:(lia)). destruct (kill_more f n0 s) as [_ M].
    specialize (M _ _ Run (n - n0)%nat 0%nat). rewrite Nat.add_0_r in M.
    cbn [killZombies]. unfold get at 1. rewrite Hm. cbn [of_option bind].
    rewrite M. cbn [bind]. unfold get at 1. rewrite Hx1. cbn [of_option bind]. now rewrite Hdx. }
  assert (Sub : forall b, In b (addrs (fold_left killStep ks [])) -> In b (addrs ks))
    by (intros b Hb; apply fold_addrs in Hb; exact Hb).
  rewrite kill_eq. split; [constructor|].
  - rewrite Er. rewrite <- B3, <- B4. econstructor; auto; try congruence.
    rewrite B2, Hpe. constructor.
  - rewrite addrs_cons. cbn [addrs nodesL flat_map map]. rewrite app_nil_r. constructor.
    + intros Hi. apply Nr. auto.
    + eapply Permutation_NoDup; [symmetry; apply Permutation_map, fold_nodes|]. cbn [nodesL flat_map app].
      apply ids_filter_nodup. exact Nk.
  - intros a. rewrite addrs_cons. cbn [addrs nodesL flat_map map]. rewrite app_nil_r.
    rewrite addrs_cons in A. cbn [addrs nodesL flat_map map] in A.
    destruct (Z.eq_dec a (rootThread s)) as [->|Ha].
    { split; [now left|]. intros _. congruence. }
    specialize (A a). rewrite app_nil_r in A. cbn [In] in *.
    destruct (in_dec Z.eq_dec a (addrs ks)) as [Hk|Hk].
    + destruct (in_dec Z.eq_dec a (addrs (fold_left killStep ks []))) as [Hj|Hj].
      * split; [auto|]. intros _. eapply rep_in; eauto.
      * rewrite G1 by auto. split; [congruence|]. intros [E|Hi]; [congruence|].
        exfalso. apply Hj. exact Hi.
    + rewrite F1 by auto. rewrite A. split; intros [E|Hi]; try congruence.
      exfalso. apply Hk. apply Sub. exact Hi.
  - split; auto. split; auto. split.
    + rewrite Ec. f_equal. unfold deadIn. cbn [nodes filter].
      change (dead (label (T (rootThread s) (state x) (system x) ks))) with
        (dead (rootThread s, state x, system x)) in Hd. rewrite Hd. reflexivity.
    + split; auto. exists x, x1. auto.
Qed.

Lemma kill_tree_nodes : forall t, dead (label t) = false ->
  Permutation (nodes (kill t)) (filter alive (nodes t)).
Proof.
  intros [a st sys ks] H. pose proof (kill_nodes (T a st sys ks)) as P. rewrite kill_eq in *.
  cbn [kids] in P. cbn [nodes filter]. cbn [label] in H. unfold alive at 1. rewrite H. cbn [negb].
  constructor. exact P.
Qed.

(** a new thread *)
Lemma rep_insert : forall m q p y, p <> 0 -> m q = Some y -> p <> q -> forall x f ts, rep m x f ts ->
  ~ In p (addrs ts) -> NoDup (addrs ts) -> In q (addrs ts) ->
  exists ts', rep (put (put m p (Some (Thread q 0 (child y) Live false))) q
                   (Some (Thread (parent y) p (peer y) (state y) (system y)))) x f ts' /\
    Permutation (nodesL ts') ((p, Live, false) :: nodesL ts).
Proof.
  intros m q p y Hp Hq Hpq x f ts R. induction R as [x|q0 a z ks ts Ha Hz Hpar R1 IH1 R2 IH2]; intros Np Nd Hi; [easy|].
  rewrite addrs_cons in *. apply NoDup_cons_iff in Nd as [Na Nd].
  assert (Np' : ~ In p (addrs ks) /\ ~ In p (addrs ts) /\ a <> p).
  { repeat split; intros H; apply Np; [right|right|now left]; apply in_or_app; auto. }
  destruct Np' as (Np1&Np2&Hap).
  apply nodup_app in Nd as (Nk&Nt&D).
  set (m' := put _ q _).
  assert (M : forall b, b <> p -> b <> q -> m' b = m b) by (intros; subst m'; now rewrite !put_other by auto).
  destruct Hi as [->|Hi].
  - assert (z = y) as -> by congruence.
    set (y1 := Thread (parent y) p (peer y) (state y) (system y)) in *.
    set (x1 := Thread q 0 (child y) Live false) in *.
    exists (T q (state y1) (system y1) (T p (state x1) (system x1) [] :: ks) :: ts). split.
    + econstructor; auto.
      * subst m'. apply put_same.
      * cbn [child y1]. econstructor; auto.
        -- subst m'. rewrite put_other by auto. apply put_same.
        -- constructor.
        -- cbn [peer x1]. eapply rep_frame; eauto. intros b Hb. apply M; intros ->; auto.
           apply Na. apply in_or_app; auto.
      * cbn [peer y1]. eapply rep_frame; eauto. intros b Hb. apply M; intros ->; auto.
        apply Na. apply in_or_app; auto.
    + rewrite !nodesL_cons. cbn [nodes flat_map app state system x1 y1]. apply perm_swap.
  - assert (Haq : a <> q) by (intros ->; auto).
    apply in_app_or in Hi as [Hi|Hi].
    + destruct IH1 as (ks'&Rk&P); auto. exists (T a (state z) (system z) ks' :: ts). split.
      * econstructor; auto.
        -- rewrite M; auto.
        -- eapply rep_frame; eauto. intros b Hb. apply M; intros ->; auto. eapply D; eauto.
      * rewrite !nodesL_cons. cbn [nodes app]. change (flat_map nodes ks') with (nodesL ks').
        change (flat_map nodes ks) with (nodesL ks). rewrite P. cbn [app]. apply perm_swap.
    + destruct IH2 as (ts'&Rt&P); auto. exists (T a (state z) (system z) ks :: ts'). split.
      * econstructor; auto.
        -- rewrite M; auto.
        -- eapply rep_frame; eauto. intros b Hb. apply M; intros ->; auto. eapply D; eauto.
      * rewrite !nodesL_cons. rewrite P. rewrite <- Permutation_middle. reflexivity.
Qed.

Lemma rep_single : forall m q f l ts, rep m q f ts -> rep m q f l -> length l = length ts.
Proof.
  intros m q f l ts R. revert l. induction R; intros l Rl.
  - inversion Rl; auto. congruence.
  - inversion Rl as [|b y ks' ts' B1 B2 B3 B4 B5]; subst; [congruence|].
    simpl. f_equal. apply IHR2. congruence.
Qed.

Lemma add_ok : forall s t p q y, consistent s t -> p <> 0 -> mem s p = None -> mem s q = Some y ->
  exists s' t', addThread s p q = Ok s' /\ consistent s' t' /\ rootThread s' = rootThread s /\
    threadCount s' = (threadCount s + 1) mod 2 ^ 32 /\ liveCount s' = (liveCount s + 1) mod 2 ^ 32 /\
    Permutation (nodes t') ((p, Live, false) :: nodes t) /\
    (forall a x, mem s a = Some x -> exists x', mem s' a = Some x' /\ state x' = state x).
Proof.
  intros s t p q y [R Nd A] Hp Mp Mq.
  assert (Hpq : p <> q) by congruence.
  assert (Hqi : In q (addrs [t])) by (apply A; congruence).
  assert (Hpi : ~ In p (addrs [t])) by (rewrite <- A; congruence).
  destruct (rep_insert _ q p y Hp Mq Hpq _ _ _ R Hpi Nd Hqi) as (ts'&R'&P).
  assert (length ts' = 1%nat) as L1.
  { apply rep_inv in R as (x&ks&->&Hr&Hm&_&_&Rs). pose proof (rep_head _ _ _ _ Rs) as Hpe.
    set (m' := put _ q _) in *.
    destruct ts' as [|t' ts']; [inversion R'; congruence|].
    apply rep_inv in R' as (x'&ks'&->&_&Hm'&_&_&Rs').
    assert (H1 : peer x' = 0).
    { destruct (Z.eq_dec (rootThread s) q) as [E|E].
      - rewrite E in Hm'. subst m'. rewrite put_same in Hm'. inversion Hm'; subst. simpl. congruence.
      - subst m'. rewrite !put_other in Hm' by congruence. congruence. }
    rewrite H1 in Rs'. inversion Rs'; subst; auto. congruence. }
  destruct ts' as [|t' [|]]; try discriminate.
  unfold addThread, get. rewrite Mq. cbn [of_option bind]. unfold setChild, get.
  rewrite put_other by auto. rewrite Mq. cbn [of_option bind].
  eexists _, t'. split; [reflexivity|].
  assert (P' : Permutation (addrs [t']) (p :: addrs [t])).
  { unfold addrs. rewrite (Permutation_map _ P). reflexivity. }
  split; [constructor|]; cbn [mem rootThread threadCount liveCount].
  - exact R'.
  - eapply Permutation_NoDup; [symmetry; exact P'|]. constructor; auto.
  - intros a. rewrite P'. cbn [In]. rewrite <- A. unfold put.
    destruct (a =? q) eqn:Eq; [apply Z.eqb_eq in Eq; subst; split; [right; congruence|discriminate]|].
    destruct (a =? p) eqn:Ep; [apply Z.eqb_eq in Ep; subst; split; [now left|discriminate]|].
    apply Z.eqb_neq in Ep. intuition congruence.
  - repeat split; auto.
    + cbn [nodesL flat_map] in P. rewrite !app_nil_r in P. exact P.
    + intros a x Hx. destruct (Z.eq_dec a q) as [->|Ha].
      * rewrite put_same. assert (x = y) as -> by congruence. eauto.
      * rewrite !put_other by congruence. eauto.
Qed.

(** a changed state or flag *)
Lemma rep_relabel : forall m o x1 x2, m o = Some x1 ->
  parent x2 = parent x1 -> peer x2 = peer x1 -> child x2 = child x1 ->
  forall q f ts, rep m q f ts -> NoDup (addrs ts) ->
  exists ts', rep (put m o (Some x2)) q f ts' /\ length ts' = length ts /\
    nodesL ts' = map (fun n => if fst (fst n) =? o then (o, state x2, system x2) else n) (nodesL ts).
Proof.
  intros m o x1 x2 Ho E1 E2 E3 q f ts R.
  induction R as [x|q0 a z ks ts Ha Hz Hpar R1 IH1 R2 IH2]; intros Nd.
  - exists []. repeat split. constructor.
  - rewrite addrs_cons in Nd. apply NoDup_cons_iff in Nd as [Na Nd]. apply nodup_app in Nd as (Nk&Nt&D).
    destruct (IH1 Nk) as (ks'&Rk&_&Pk). destruct (IH2 Nt) as (ts'&Rt&Lt&Pt).
    destruct (Z.eq_dec a o) as [->|Hao].
    + assert (z = x1) as -> by congruence.
      exists (T o (state x2) (system x2) ks' :: ts'). split; [|split].
      * econstructor; auto.
        -- apply put_same.
        -- congruence.
        -- rewrite E3. exact Rk.
        -- rewrite E2. exact Rt.
      * simpl; congruence.
      * rewrite !nodesL_cons, map_app, Pt. cbn [nodes map fst]. rewrite Z.eqb_refl.
        change (flat_map nodes ks') with (nodesL ks'). rewrite Pk. reflexivity.
    + exists (T a (state z) (system z) ks' :: ts'). split; [|split].
      * econstructor; auto. rewrite put_other; auto.
      * simpl; congruence.
      * rewrite !nodesL_cons, map_app, Pt. cbn [nodes map fst].
        destruct (a =? o) eqn:E; [apply Z.eqb_eq in E; congruence|].
        change (flat_map nodes ks') with (nodesL ks'). rewrite Pk. reflexivity.
Qed.

Lemma relabel_ok : forall s t o x1 x2 tc lc, consistent s t -> mem s o = Some x1 ->
  parent x2 = parent x1 -> peer x2 = peer x1 -> child x2 = child x1 ->
  exists t', consistent (Machine (rootThread s) tc lc (put (mem s) o (Some x2))) t' /\
    nodes t' = map (fun n => if fst (fst n) =? o then (o, state x2, system x2) else n) (nodes t).
Proof.
  intros s t o x1 x2 tc lc [R Nd A] Ho E1 E2 E3.
  destruct (rep_relabel _ o x1 x2 Ho E1 E2 E3 _ _ _ R Nd) as (ts'&R'&L&P).
  destruct ts' as [|t' [|]]; try discriminate. exists t'.
  assert (Pa : addrs [t'] = addrs [t]).
  { unfold addrs. rewrite P, map_map. apply map_ext. intros [[a st] sys]. cbn [fst].
    destruct (a =? o) eqn:E; auto. apply Z.eqb_eq in E. now subst. }
  split; [constructor|]; cbn [mem rootThread].
  - exact R'.
  - now rewrite Pa.
  - intros a. rewrite Pa, <- A. unfold put. destruct (a =? o) eqn:E; [|tauto].
    apply Z.eqb_eq in E; subst. split; congruence.
  - cbn [nodesL flat_map] in P. rewrite !app_nil_r in P. exact P.
Qed.

(** a thread's label in the tree *)
Lemma rep_node : forall m q f ts, rep m q f ts -> forall a st sys, In (a, st, sys) (nodesL ts) ->
  exists x, m a = Some x /\ state x = st /\ system x = sys.
Proof.
  intros m q f ts R. induction R; intros b st sys Hi; [easy|].
  rewrite nodesL_cons in Hi. apply in_app_or in Hi as [Hi|Hi]; auto.
  cbn [nodes] in Hi. destruct Hi as [Hi|Hi]; [inversion Hi; subst; eauto|].
  apply IHR1. exact Hi.
Qed.
Lemma node_of : forall s t a x, consistent s t -> mem s a = Some x ->
  In (a, state x, system x) (nodes t).
Proof.
  intros s t a x [R Nd A] Hx.
  assert (Hi : In a (addrs [t])) by (apply A; congruence).
  unfold addrs in Hi. apply in_map_iff in Hi as ([[b st] sys]&<-&Hi). cbn [fst] in *.
  destruct (rep_node _ _ _ _ R _ _ _ Hi) as (x'&Hx'&<-&<-).
  assert (x' = x) as -> by congruence. cbn [nodesL flat_map] in Hi. now rewrite app_nil_r in Hi.
Qed.

(** ** Histories *)
Definition okState (s : machine) : Prop :=
  exists t, consistent s t /\ counted s t /\ isLive s (rootThread s) /\
    Z.of_nat (length (nodes t)) < 2 ^ 32.

Lemma filter_length_le : forall (A : Type) (f : A -> bool) l, (length (filter f l) <= length l)%nat.
Proof. induction l; simpl; auto. destruct (f a); simpl; lia. Qed.

Lemma running_relabel : forall o st2 sys2 l, NoDup (ids l) ->
  forall st1 sys1, In (o, st1, sys1) l ->
  let l' := map (fun n => if fst (fst n) =? o then (o, st2, sys2) else n) l in
  Z.of_nat (length (filter running l')) =
  Z.of_nat (length (filter running l)) - (if running (o, st1, sys1) then 1 else 0)
    + (if running (o, st2, sys2) then 1 else 0).
Proof.
  intros o st2 sys2. induction l as [|n l]; intros Nd st1 sys1 Hi l'; [easy|].
  cbn [ids map] in Nd. apply NoDup_cons_iff in Nd as [Nn Nd].
  assert (Fix : ~ In o (ids l) ->
    map (fun n => if fst (fst n) =? o then (o, st2, sys2) else n) l = l).
  { intros Ho. transitivity (map (fun n : Z * tstate * bool => n) l); [|apply map_id].
    apply map_ext_in. intros m Hm. destruct (fst (fst m) =? o) eqn:E; auto. apply Z.eqb_eq in E.
    exfalso. apply Ho. apply in_map_iff. eauto. }
  subst l'. destruct Hi as [->|Hi].
  - cbn [map fst]. rewrite Z.eqb_refl. cbn [fst] in Nn. rewrite Fix by auto. cbn [filter].
    destruct (running (o, st1, sys1)), (running (o, st2, sys2)); cbn [length]; lia.
  - cbn [map]. assert (fst (fst n) <> o).
    { intros E. apply Nn. rewrite E. apply in_map_iff. exists (o, st1, sys1). auto. }
    destruct (fst (fst n) =? o) eqn:E; [apply Z.eqb_eq in E; congruence|].
    specialize (IHl Nd st1 sys1 Hi). cbn [filter]. cbv zeta in IHl.
    destruct (running n); cbn [length]; lia.
Qed.

Lemma ids_nodes : forall t, ids (nodes t) = addrs [t].
Proof. intros. unfold addrs, nodesL. simpl. now rewrite app_nil_r. Qed.

Lemma root_label : forall s t, consistent s t -> exists x, mem s (rootThread s) = Some x /\ label t = (rootThread s, state x, system x).
Proof.
  intros s t [R _ _]. apply rep_inv in R as (x&ks&->&_&Hm&_). exists x; auto.
Qed.
Lemma live_not_dead : forall s t, consistent s t -> isLive s (rootThread s) -> dead (label t) = false.
Proof.
  intros s t C (x&Hx&Hs). destruct (root_label _ _ C) as (x'&Hx'&->).
  assert (x' = x) as -> by congruence. unfold dead. rewrite Hs. now rewrite andb_false_r.
Qed.

Lemma step_ok : forall s e s', okState s -> step s e s' -> ordinary (rootThread s) e ->
  okState s' /\ rootThread s' = rootThread s.
Proof.
  intros s e s' (t&C&[Ct Cl]&Rl&Sz) S O. destruct S.
  - destruct H as (y&Hy&_). destruct (add_ok s t p q y C H0 H1 Hy) as (s1&t'&E&C'&Er&Et&El&P&Keep).
    rewrite H3 in E. inversion E; subst s1; clear E.
    pose proof (filter_length_le _ running (nodes t)).
    split; [|auto]. exists t'. split; auto. split; [|split].
    + split.
      * rewrite Et, (Permutation_length P), Ct. cbn [length]. rewrite Z.mod_small; lia.
      * rewrite El, (Permutation_length (filter_perm _ running _ _ P)), Cl. cbn [filter running length].
        rewrite Z.mod_small; lia.
    + rewrite Er. destruct Rl as (x&Hx&Hs). destruct (Keep _ _ Hx) as (x'&?&?). exists x'. split; congruence.
    + rewrite (Permutation_length P). cbn [length]. lia.
  - destruct O.
  - unfold exitThread in H1. destruct (d && (o =? rootThread s)) eqn:Ed.
    { inversion H1; subst. split; [|auto]. exists t. split; auto. split; [split; auto|]. split; auto. }
    assert (Ho : o <> rootThread s).
    { destruct d; cbn [andb] in Ed; [now apply Z.eqb_neq|exact O]. }
    destruct H as (x&Hx&Hs). unfold setState, get in H1. rewrite Hx in H1. cbn [of_option bind] in H1.
    inversion H1; subst s'; clear H1.
    set (x2 := Thread (parent x) (child x) (peer x) (if d then Joined else Zombie) (system x)).
    destruct (relabel_ok s t o x x2 (threadCount s) ((liveCount s - 1) mod 2 ^ 32) C Hx)
      as (t'&C'&P); auto.
    pose proof (node_of _ _ _ _ C Hx) as Hn.
    assert (Nd : NoDup (ids (nodes t))) by (rewrite ids_nodes; apply C).
    pose proof (running_relabel o (state x2) (system x2) (nodes t) Nd _ _ Hn) as Hr. cbv zeta in Hr.
    rewrite <- P in Hr. rewrite Hs in Hr. cbn [running] in Hr.
    pose proof (filter_length_le _ running (nodes t)).
    split; [|reflexivity]. exists t'. split; auto. split; [|split].
    + split; cbn [threadCount liveCount].
      * rewrite P, map_length. auto.
      * rewrite Z.mod_small by lia. rewrite Hr, Cl. subst x2. destruct d; cbn [state]; lia.
    + cbn [rootThread mem]. destruct Rl as (z&Hz&Hzs). exists z. split; auto. cbn [mem]. now rewrite put_other by auto.
    + rewrite P, map_length. auto.
  - unfold setSystem, get in H. destruct (mem s o) as [x|] eqn:Hx; cbn [of_option bind] in H; [|discriminate].
    inversion H; subst s'; clear H.
    set (x2 := Thread (parent x) (child x) (peer x) (state x) b).
    destruct (relabel_ok s t o x x2 (threadCount s) (liveCount s) C Hx) as (t'&C'&P); auto.
    pose proof (node_of _ _ _ _ C Hx) as Hn.
    assert (Nd : NoDup (ids (nodes t))) by (rewrite ids_nodes; apply C).
    pose proof (running_relabel o (state x2) (system x2) (nodes t) Nd _ _ Hn) as Hr. cbv zeta in Hr.
    rewrite <- P in Hr. subst x2. cbn [state running] in Hr.
    split; [|reflexivity]. exists t'. split; auto. split; [|split].
    + split; cbn [threadCount liveCount].
      * rewrite P, map_length. auto.
      * rewrite Hr, Cl. lia.
    + cbn [rootThread]. destruct Rl as (z&Hz&Hzs). unfold isLive; cbn [mem].
      destruct (Z.eq_dec (rootThread s) o) as [E|E].
      * rewrite E, put_same. eexists; split; [reflexivity|]. cbn [state]. congruence.
      * rewrite put_other by auto. eauto.
    + rewrite P, map_length. auto.
  - pose proof (live_not_dead _ _ C Rl) as Hd.
    destruct (collect_ok s t C Hd) as (f0&s1&Run&C'&Er&El&Ec&Ir&x&x'&Hx&Hx'&SB).
    assert (s1 = s') as ->.
    { destruct (kill_more f n s) as [K _]. specialize (K _ _ H (length (nodes t)) f0).
      rewrite Run in K by lia. congruence. }
    pose proof (kill_tree_nodes t Hd) as P.
    assert (Hlen : Z.of_nat (length (nodes t)) = Z.of_nat (length (filter alive (nodes t))) + deadIn (nodes t)).
    { unfold deadIn. clear. induction (nodes t) as [|n l]; cbn [filter length]; auto.
      unfold alive at 1. destruct (dead n); cbn [negb length]; lia. }
    split; [|auto]. exists (kill t). split; auto. split; [|split].
    + split.
      * rewrite (Permutation_length P). unfold inRange in Ir. unfold countMinus in Ec.
        specialize (Ir ltac:(lia)). rewrite Z.sub_0_r in Ec. rewrite Z.mod_small in Ec by auto.
        rewrite Ec, Ct. rewrite Z.mod_small; unfold deadIn in *; lia.
      * rewrite El, Cl, (Permutation_length (filter_perm _ running _ _ P)). f_equal. clear.
        induction (nodes t) as [|[[a st] sys] l]; cbn [filter]; auto. unfold alive at 1, dead.
        destruct st, sys; cbn [negb andb running filter]; cbn [length]; rewrite ?IHl; auto.
    + rewrite Er. destruct Rl as (z&Hz&Hzs). destruct SB as (_&_&B&_). exists x'. split; auto. congruence.
    + rewrite (Permutation_length P). unfold deadIn in Hlen. lia.
Qed.

Lemma initial_ok : forall a, a <> 0 -> okState (initial a).
Proof.
  intros a Ha. exists (T a Live false []). split; [constructor|].
  - cbn [initial rootThread]. change Live with (state (Thread 0 0 0 Live false)) at 1.
    change false with (system (Thread 0 0 0 Live false)). econstructor; auto.
    + cbn [initial mem]. now rewrite Z.eqb_refl.
    + constructor.
    + constructor.
  - cbn. constructor; auto. constructor.
  - intros b. cbn. destruct (b =? a) eqn:E.
    + apply Z.eqb_eq in E; subst. split; [auto|discriminate].
    + apply Z.eqb_neq in E. split; [congruence|]. intros [|[]]; congruence.
  - split; [split; reflexivity|]. split.
    + exists (Thread 0 0 0 Live false). cbn. now rewrite Z.eqb_refl.
    + cbn. lia.
Qed.

Lemma history_ok : forall a es s, history a es s -> Forall (ordinary a) es ->
  okState s /\ rootThread s = a.
Proof.
  intros a es s H. induction H; intros F.
  - split; [now apply initial_ok|reflexivity].
  - apply Forall_app in F as [F1 F2]. inversion F2 as [|? ? F3 _]; subst.
    destruct (IHhistory F1) as [Ok E]. rewrite <- E in F3.
    destruct (step_ok s e s' Ok H0 F3). split; auto. congruence.
Qed.

(** ** Walks over the tree *)
Lemma visit_rep : forall m q f ts, rep m q f ts ->
  exists k0 l, (forall k, (k0 <= k)%nat -> visitLoop k m f = Ok l) /\ Permutation l (addrs ts).
Proof.
  intros m q f ts R. induction R as [x|q0 a z ks ts Ha Hz Hpar R1 IH1 R2 IH2].
  - exists 1%nat, []. split; [|constructor]. intros k Hk. destruct k; [lia|reflexivity].
  - destruct IH1 as (k1&l1&V1&P1), IH2 as (k2&l2&V2&P2).
    exists (S (S (max k1 k2))), ((l1 ++ [a]) ++ l2). split.
    + intros k Hk. destruct k as [|[|k]]; try lia. cbn [visitLoop].
      destruct (a =? 0) eqn:E; [apply Z.eqb_eq in E; congruence|].
      unfold get at 1. rewrite Hz. cbn [of_option bind visitAll]. unfold get at 1. rewrite Hz.
      cbn [of_option bind]. rewrite V1 by lia. cbn [bind].
      pose proof (V2 (S k) ltac:(lia)) as V. cbn [visitLoop] in V. rewrite V. reflexivity.
    + rewrite addrs_cons. rewrite P1, P2. rewrite <- app_assoc. cbn [app].
      symmetry. apply Permutation_middle.
Qed.

Lemma visit_all : forall s t, consistent s t ->
  exists k0 l, (forall k, (k0 <= k)%nat -> visitAll k (mem s) (rootThread s) = Ok l) /\
    Permutation l (addrs [t]).
Proof.
  intros s t [R _ _]. apply rep_inv in R as (x&ks&->&Hp&Hm&Hx&Rk&Rs).
  destruct (visit_rep _ _ _ _ Rk) as (k0&l&V&P). exists (S k0), (l ++ [rootThread s]). split.
  - intros k Hk. destruct k as [|k]; [lia|]. cbn [visitAll]. unfold get at 1. rewrite Hm. cbn [of_option bind].
    rewrite V by lia. reflexivity.
  - rewrite addrs_cons. rewrite P. cbn [addrs nodesL flat_map map]. rewrite app_nil_r.
    rewrite Permutation_app_comm. reflexivity.
Qed.

(** ** Links *)
Lemma rep_links : forall m q f ts, rep m q f ts -> (q = 0 \/ m q <> None) ->
  forall a, In a (addrs ts) -> exists x, m a = Some x /\
    (parent x = 0 \/ m (parent x) <> None) /\ (child x = 0 \/ m (child x) <> None) /\
    (peer x = 0 \/ m (peer x) <> None).
Proof.
  intros m q f ts R. induction R as [x|q0 a z ks ts Ha Hz Hpar R1 IH1 R2 IH2]; intros Hq b Hb; [easy|].
  rewrite addrs_cons in Hb. destruct Hb as [<-|Hb].
  - exists z. split; auto. split; [now rewrite Hpar|].
    split; [destruct R1|destruct R2]; auto; right; congruence.
  - apply in_app_or in Hb as [Hb|Hb]; auto. apply IH1; auto. right. congruence.
Qed.
