(** Proofs about JNI references. *)
From Coq Require Import ZArith List Bool Lia.
From Verif Require Import Res Jref_Model Jref_Spec.
Import ListNotations.
Local Open Scope Z_scope.
Local Arguments Z.add : simpl never.
Local Arguments Z.sub : simpl never.
Local Arguments Z.pow : simpl never.
Local Arguments Z.modulo : simpl never.

Local Notation mem := (Z -> option ref).

Lemma put_same : forall (c : mem) a r, put c a r a = r.
Proof. intros. unfold put. now rewrite Z.eqb_refl. Qed.
Lemma put_other : forall (c : mem) a r x, x <> a -> put c a r x = c x.
Proof. intros. unfold put. destruct (x =? a) eqn:E; auto. apply Z.eqb_eq in E. congruence. Qed.

(** ** Segments of the list *)
Fixpoint seg (c : mem) (h : place) (a : Z) (l : list Z) (h' : place) (a' : Z) : Prop :=
  match l with
  | [] => h' = h /\ a' = a
  | x :: r => a = x /\ exists cx, c x = Some cx /\ handle cx = h /\
                seg c (NextOf x) (next cx) r h' a'
  end.

Definition linked c h a l := exists h', seg c h a l h' 0.

Lemma seg_app : forall c l1 h a l2 h2 a2,
  seg c h a (l1 ++ l2) h2 a2 <-> exists h1 a1, seg c h a l1 h1 a1 /\ seg c h1 a1 l2 h2 a2.
Proof.
  induction l1; simpl; intros.
  - split; [intros; exists h, a; auto | intros (?&?&(->&->)&?); auto].
  - split.
    + intros (->&cx&E&Eh&S). apply IHl1 in S as (h1&a1&S1&S2).
      exists h1, a1. split; auto. split; auto. exists cx; auto.
    + intros (h1&a1&(->&cx&E&Eh&S1)&S2). split; auto. exists cx. repeat split; auto.
      apply IHl1. eauto.
Qed.

Definition sameLinks (x y : option ref) : Prop :=
  option_map next x = option_map next y /\ option_map handle x = option_map handle y.

Lemma seg_ext : forall c c' l h a h' a',
  (forall x, In x l -> sameLinks (c x) (c' x)) -> seg c h a l h' a' -> seg c' h a l h' a'.
Proof.
  induction l; simpl; intros; auto.
  destruct H0 as (->&cx&E&Eh&S). split; auto.
  destruct (H a (or_introl eq_refl)) as [N Hd]. rewrite E in *. simpl in *.
  destruct (c' a) as [cy|] eqn:E'; simpl in *; try discriminate.
  inversion N; inversion Hd; subst. exists cy. repeat split; auto; try congruence.
  rewrite <- H1. apply IHl; auto.
Qed.

Lemma seg_in : forall c l h a h' a' x, seg c h a l h' a' -> In x l -> c x <> None.
Proof.
  induction l; simpl; intros; [easy|]. destruct H as (->&cx&E&Eh&S).
  destruct H0; [subst; congruence|eauto].
Qed.

Lemma seg_end : forall c l h a h' a',
  seg c h a l h' a' -> l <> [] ->
  exists y cy, h' = NextOf y /\ In y l /\ c y = Some cy /\ next cy = a'.
Proof.
  induction l; intros; [congruence|]. destruct H as (->&cx&E&Eh&S).
  destruct l as [|b l].
  - destruct S as [-> ->]. exists a, cx. simpl; auto.
  - destruct (IHl _ _ _ _ S ltac:(discriminate)) as (y&cy&?&?&?&?).
    exists y, cy. simpl in *. tauto.
Qed.

Definition setNext (r : ref) v := Ref (target r) v (handle r) (cnt r) (weak r).

Lemma seg_setNext : forall c l h a y a' cy v,
  seg c h a l (NextOf y) a' -> l <> [] -> NoDup l -> c y = Some cy ->
  seg (put c y (Some (setNext cy v))) h a l (NextOf y) v.
Proof.
  induction l; intros h a0 y a' cy v S Hn Nd Ey; [congruence|].
  destruct S as (->&cx&E&Eh&S). inversion Nd; subst. cbn [seg]. split; auto.
  destruct l as [|b l].
  - destruct S as [Ey' ->]. inversion Ey'; subst a. rewrite Ey in E. inversion E; subst.
    exists (setNext cx v). rewrite put_same. simpl. auto.
  - assert (y <> a).
    { destruct (seg_end _ _ _ _ _ _ S ltac:(discriminate)) as (z&cz&Ez&Hz&_). inversion Ez; subst z.
      intros ->. auto. }
    exists cx. rewrite put_other by auto. split; auto. split; auto.
    eapply IHl; eauto. discriminate.
Qed.

(** the part of a cell that the client sees *)
Definition body (r : ref) := (target r, cnt r, weak r).

Lemma store_seg : forall s l h' a' v,
  seg (cells s) Root (root s) l h' a' -> NoDup l ->
  exists s', store s h' v = Ok s' /\ seg (cells s') Root (root s') l h' v /\
    (forall z, ~ In z l -> cells s' z = cells s z) /\
    (forall z, option_map body (cells s' z) = option_map body (cells s z)).
Proof.
  intros s l h' a' v S Nd. destruct l as [|b l].
  - destruct S as [-> ->]. simpl. eexists; repeat split; auto.
  - destruct (seg_end _ _ _ _ _ _ S ltac:(discriminate)) as (y&cy&->&Hy&Ey&Hn).
    simpl. rewrite Ey. simpl. eexists; split; [reflexivity|]. cbn [cells root]. split.
    + apply seg_setNext with (a' := a') (cy := cy) (v := v) in S; auto. discriminate.
    + split; intros z; [intros Hz|].
      * apply put_other. intros ->. apply Hz. exact Hy.
      * unfold put. destruct (z =? y) eqn:E; auto. apply Z.eqb_eq in E; subst. rewrite Ey. reflexivity.
Qed.

Lemma setHandle_seg : forall s h a x l h' a' h2,
  seg (cells s) h a (x :: l) h' a' -> ~ In x l ->
  exists s', setHandle s x h2 = Ok s' /\ root s' = root s /\
    seg (cells s') h2 a (x :: l) h' a' /\
    (forall z, z <> x -> cells s' z = cells s z) /\
    (forall z, option_map body (cells s' z) = option_map body (cells s z)).
Proof.
  intros s h a x l h' a' h2 (->&cx&E&Eh&S) Nd. unfold setHandle. rewrite E. simpl.
  eexists; split; [reflexivity|]. cbn [cells root]. split; auto. split; [|split].
  - split; auto. eexists. rewrite put_same. split; [reflexivity|]. split; [reflexivity|]. cbn [next].
    apply seg_ext with (c := cells s); auto.
    intros z Hz. rewrite put_other by (intros ->; auto). split; reflexivity.
  - intros z Hz. apply put_other; auto.
  - intros z. unfold put. destruct (z =? x) eqn:Ez; auto. apply Z.eqb_eq in Ez; subst. rewrite E. reflexivity.
Qed.

(** ** Whole lists: [wf s l] *)
Record wf (s : refs) (l : list Z) : Prop := {
  wf_link : linked (cells s) Root (root s) l;
  wf_nodup : NoDup l;
  wf_zero : ~ In 0 l;
  wf_cells : forall a, cells s a <> None <-> In a l }.

Lemma wf_put : forall s l a r r',
  wf s l -> cells s a = Some r -> next r' = next r -> handle r' = handle r ->
  wf (Refs (root s) (put (cells s) a (Some r'))) l.
Proof.
  intros s l a r r' W E N H. destruct W as [[h L] Nd Z0 C]. constructor; auto.
  - exists h. simpl. apply seg_ext with (c := cells s); auto.
    intros x Hx. unfold put. destruct (x =? a) eqn:Ex.
    + apply Z.eqb_eq in Ex; subst. rewrite E. split; simpl; congruence.
    + split; reflexivity.
  - intros x. simpl. rewrite <- C. unfold put. destruct (x =? a) eqn:Ex; [|tauto].
    apply Z.eqb_eq in Ex; subst. rewrite E. split; intros; discriminate.
Qed.

Lemma construct_wf : forall s l a t w,
  wf s l -> a <> 0 -> cells s a = None ->
  exists s', construct s a t w = Ok s' /\ wf s' (a :: l) /\
    option_map body (cells s' a) = Some (t, 0, w) /\
    (forall z, z <> a -> option_map body (cells s' z) = option_map body (cells s z)).
Proof.
  intros s l a t w W Ha Ea. destruct W as [[h L] Nd Z0 C]. unfold construct.
  assert (Hal : ~ In a l) by (rewrite <- C; congruence).
  set (s1 := Refs (root s) (put (cells s) a (Some (Ref t (root s) Root 0 w)))).
  assert (L1 : seg (cells s1) Root (root s) l h 0).
  { apply seg_ext with (c := cells s); auto. intros x Hx. simpl. rewrite put_other by congruence.
    split; reflexivity. }
  assert (B1 : forall z, z <> a -> option_map body (cells s1 z) = option_map body (cells s z))
    by (intros; simpl; now rewrite put_other).
  assert (C1 : forall z, cells s1 z <> None <-> In z (a :: l)).
  { intros z. simpl. unfold put. destruct (z =? a) eqn:E.
    - apply Z.eqb_eq in E; subst. split; [auto|discriminate].
    - apply Z.eqb_neq in E. rewrite C. intuition congruence. }
  assert (NR : NoDup (a :: l)) by (constructor; auto).
  assert (ZR : ~ In 0 (a :: l)) by (simpl; intuition).
  destruct (root s =? 0) eqn:R0.
  - apply Z.eqb_eq in R0. eexists; split; [reflexivity|]. cbn [cells]. split; [|split].
    + constructor; auto.
      destruct l as [|x l]; [|destruct L as [L _]; rewrite R0 in L; subst; simpl in Z0; tauto].
      exists (NextOf a). cbn [root cells seg]. split; auto. eexists. subst s1; simpl. rewrite put_same.
      repeat split; auto.
    + subst s1; simpl. now rewrite put_same.
    + auto.
  - apply Z.eqb_neq in R0.
    destruct l as [|x l]; [destruct L1 as [_ L1]; congruence|].
    inversion Nd; subst.
    assert (root s = x) as <- by apply L1.
    destruct (setHandle_seg _ _ _ _ _ _ _ (NextOf a) L1 H1) as (s2&E2&Er&S2&O2&B2).
    rewrite E2. simpl. eexists; split; [reflexivity|]. cbn [cells].
    assert (Hxa : a <> root s) by (intros ->; apply Hal; now left).
    split; [|split].
    + constructor; auto.
      * exists h. cbn [root cells]. cbn [seg]. split; auto. eexists. rewrite O2 by auto.
        subst s1; cbn [cells]. rewrite put_same. split; [reflexivity|]. split; auto.
      * intros z. cbn [cells]. rewrite <- C1. specialize (B2 z).
        destruct (cells s2 z), (cells s1 z); simpl in B2; try discriminate; split; congruence.
    + rewrite B2. subst s1; simpl. now rewrite put_same.
    + intros. rewrite B2. auto.
Qed.

Lemma nodup_parts : forall (l1 l2 : list Z), NoDup (l1 ++ l2) -> NoDup l1 /\ NoDup l2.
Proof.
  induction l1; simpl; intros; [split; auto; constructor|]. inversion H; subst.
  destruct (IHl1 _ H3). split; auto. constructor; auto. intros Hi. apply H2. apply in_or_app. auto.
Qed.

Lemma dispose_wf : forall s l1 a l2,
  wf s (l1 ++ a :: l2) ->
  exists s', dispose s a = Ok s' /\ wf s' (l1 ++ l2) /\
    (forall z, z <> a -> option_map body (cells s' z) = option_map body (cells s z)).
Proof.
  intros s l1 a l2 W. destruct W as [[h L] Nd Z0 C].
  apply seg_app in L as (h1&a1&S1&S2). destruct S2 as (->&ca&Ea&Eh&S2).
  unfold dispose. rewrite Ea. simpl. subst h1.
  destruct (nodup_parts _ _ Nd) as [Nd1 Nd2].
  assert (Hdis : forall z, In z l1 -> ~ In z (a :: l2)).
  { clear - Nd. induction l1; simpl in *; [easy|]. inversion Nd; subst.
    intros z [<-|Hz]; auto. intros Hi. apply H1. apply in_or_app. auto. }
  destruct (store_seg _ _ _ _ (next ca) S1 Nd1) as (s1&E1&S1'&O1&B1). rewrite E1. simpl.
  inversion Nd2 as [|? ? Ha2 Nl2]; subst.
  assert (S2' : seg (cells s1) (NextOf a) (next ca) l2 h 0).
  { eapply seg_ext; [|exact S2]. intros z Hz.
    rewrite O1; [split; reflexivity|]. intros Hi. apply (Hdis z Hi). now right. }
  assert (Hgoal : exists s2,
     (if next ca =? 0 then Ok s1 else setHandle s1 (next ca) (handle ca)) = Ok s2 /\
     root s2 = root s1 /\ linked (cells s2) Root (root s1) (l1 ++ l2) /\
     (forall z, option_map body (cells s2 z) = option_map body (cells s1 z))).
  { destruct (next ca =? 0) eqn:N0.
    - apply Z.eqb_eq in N0. exists s1. repeat split; auto.
      destruct l2 as [|x l2].
      + rewrite app_nil_r. rewrite N0 in S1'. exists (handle ca). auto.
      + destruct S2 as [S2 _]. exfalso. apply Z0. apply in_or_app. right. simpl. right. left. congruence.
    - apply Z.eqb_neq in N0. destruct l2 as [|x l2].
      + destruct S2 as [_ S2]. congruence.
      + assert (next ca = x) as <- by apply S2. inversion Nl2; subst.
        destruct (setHandle_seg _ _ _ _ _ _ _ (handle ca) S2' H1) as (s2&E2&Er&S3&O3&B3).
        exists s2. repeat split; auto. exists h. apply seg_app. exists (handle ca), (next ca).
        split; auto. eapply seg_ext; [|exact S1']. intros z Hz.
        rewrite O3; [split; reflexivity|]. intros ->. apply (Hdis _ Hz). right. now left. }
  destruct Hgoal as (s2&E2&Er&L2&B2). rewrite E2. simpl.
  eexists; split; [reflexivity|]. cbn [cells root]. split.
  - constructor.
    + destruct L2 as [h2 L2]. exists h2. cbn [cells root]. rewrite Er. eapply seg_ext; [|exact L2].
      intros z Hz. rewrite put_other; [split; reflexivity|]. intros ->.
      apply in_app_or in Hz as [Hz|Hz]; [|auto]. apply (Hdis _ Hz). now left.
    + eapply NoDup_remove_1; eauto.
    + intros Hi. apply Z0. apply in_app_or in Hi. apply in_or_app. simpl. tauto.
    + intros z. cbn [cells]. unfold put. destruct (z =? a) eqn:Ez.
      * apply Z.eqb_eq in Ez; subst. split; [congruence|]. intros Hi.
        apply in_app_or in Hi as [Hi|Hi]; [exfalso; apply (Hdis _ Hi); now left|tauto].
      * apply Z.eqb_neq in Ez. specialize (B2 z). specialize (B1 z). rewrite B1 in B2.
        assert (cells s2 z <> None <-> cells s z <> None)
          by (destruct (cells s2 z), (cells s z); simpl in B2; try discriminate; split; congruence).
        rewrite H, C. rewrite !in_app_iff. simpl. intuition congruence.
  - intros z Hz. rewrite put_other by auto. rewrite B2, B1. reflexivity.
Qed.

Lemma search_seg : forall fuel s t w l h a h',
  seg (cells s) h a l h' 0 -> ~ In 0 l -> (length l < fuel)%nat ->
  exists f, search fuel s a t w = Ok f /\
    (f = 0 /\ (forall x c, In x l -> cells s x = Some c -> target c = t -> weak c = w -> False)
     \/ In f l /\ exists c, cells s f = Some c /\ target c = t /\ weak c = w).
Proof.
  induction fuel; intros s t w l h a h' S Z0 Hf; [lia|]. destruct l as [|x l].
  - destruct S as [_ <-]. simpl. exists 0. split; auto.
  - destruct S as (->&cx&E&Eh&S). cbn [search]. simpl in Z0.
    destruct (x =? 0) eqn:X; [apply Z.eqb_eq in X; tauto|]. rewrite E. cbn [of_option bind].
    destruct ((target cx =? t) && Bool.eqb (weak cx) w) eqn:M.
    + apply andb_prop in M as [M1 M2]. apply Z.eqb_eq in M1. apply eqb_prop in M2.
      exists x. split; auto. right. split; [now left|]. eauto.
    + destruct (IHfuel s t w l _ _ _ S) as (f&Ef&R); [tauto|simpl in Hf; lia|].
      exists f. split; auto. destruct R as [[-> R]|(Hi&R)]; [left|right; split; [now right|auto]].
      split; auto. intros y c [<-|Hy] Ec Ht Hw; [|eauto].
      rewrite E in Ec. inversion Ec; subst. rewrite Z.eqb_refl, eqb_reflx in M. discriminate.
Qed.

Lemma gcList_seg : forall fuel dead final move l s h a h',
  seg (cells s) h a l h' 0 -> NoDup l -> ~ In 0 l -> (length l < fuel)%nat ->
  exists s', gcList fuel dead final move s a = Ok s' /\ root s' = root s /\
    (forall x, In x l -> cells s' x = option_map (gcCell dead final move) (cells s x)) /\
    (forall x, ~ In x l -> cells s' x = cells s x).
Proof.
  induction fuel; intros dead final move l s h a h' S Nd Z0 Hf; [lia|]. destruct l as [|x l].
  - destruct S as [_ <-]. simpl. exists s. repeat split; auto. intros ? [].
  - destruct S as (->&cx&E&Eh&S). cbn [gcList]. simpl in Z0. inversion Nd; subst.
    destruct (x =? 0) eqn:X; [apply Z.eqb_eq in X; tauto|]. rewrite E. cbn [of_option bind].
    set (s1 := Refs (root s) (put (cells s) x (Some (gcCell dead final move cx)))).
    destruct (IHfuel dead final move l s1 (NextOf x) (next cx) h') as (s'&E'&R'&I'&O'); auto.
    + eapply seg_ext; [|exact S]. intros z Hz. subst s1; cbn [cells].
      rewrite put_other by congruence. split; reflexivity.
    + simpl in Hf; lia.
    + exists s'. repeat split; auto.
      * intros z [<-|Hz].
        -- rewrite O' by auto. subst s1; cbn [cells]. rewrite put_same, E. reflexivity.
        -- rewrite I' by auto. subst s1; cbn [cells]. rewrite put_other by congruence. auto.
      * intros z Hz. simpl in Hz. rewrite O' by tauto. subst s1; cbn [cells].
        apply put_other. intros ->. tauto.
Qed.

(** ** The invariant of reachable worlds *)
Fixpoint held_at (v : Z) (l : list held) : Z :=
  match l with [] => 0 | h :: r => (if value h =? v then 1 else 0) + held_at v r end.

Lemma held_at_bound : forall v l, 0 <= held_at v l <= Z.of_nat (length l).
Proof. induction l; simpl; [lia|]. destruct (value a =? v); lia. Qed.
Lemma held_at_pos : forall v l, 0 < held_at v l <-> exists h, In h l /\ value h = v.
Proof.
  induction l; simpl; [split; [lia|intros (?&[]&_)]|]. pose proof (held_at_bound v l).
  destruct (value a =? v) eqn:E.
  - apply Z.eqb_eq in E. split; [intros; exists a; auto|lia].
  - apply Z.eqb_neq in E. rewrite Z.add_0_l, IHl. split; intros (h&Hi&Hv); exists h; split; auto.
    destruct Hi; auto. subst; congruence.
Qed.

Definition same (v : Z) (w : bool) (d : option nat) (h : held) : bool :=
  (value h =? v) && Bool.eqb (isWeak h) w
  && match denotes h, d with
     | Some i, Some j => Nat.eqb i j | None, None => true | _, _ => false end.
Lemma same_eq : forall v w d h, same v w d h = true -> h = Held v w d.
Proof.
  intros v w d [v' w' d'] H. unfold same in H. cbn [value isWeak denotes] in H.
  apply andb_prop in H as [H1 H3]. apply andb_prop in H1 as [H1 H2].
  apply Z.eqb_eq in H1. apply eqb_prop in H2. subst.
  destruct d', d; try discriminate; auto. apply Nat.eqb_eq in H3. now subst.
Qed.
Lemma same_refl : forall h, same (value h) (isWeak h) (denotes h) h = true.
Proof.
  intros [v w d]. unfold same. cbn [value isWeak denotes]. rewrite Z.eqb_refl, eqb_reflx.
  destruct d; simpl; auto. apply Nat.eqb_refl.
Qed.
Lemma drop_split : forall h l, In h l ->
  exists l1 l2, l = l1 ++ h :: l2 /\ drop (value h) (isWeak h) (denotes h) l = l1 ++ l2.
Proof.
  induction l; [easy|]. intros Hi. cbn [drop].
  change (_ && _) with (same (value h) (isWeak h) (denotes h) a).
  destruct (same (value h) (isWeak h) (denotes h) a) eqn:E.
  - apply same_eq in E. exists [], l. split; auto. simpl. f_equal. subst. now destruct h.
  - destruct Hi as [->|Hi]; [rewrite same_refl in E; discriminate|].
    destruct (IHl Hi) as (l1&l2&->&->). exists (a :: l1), l2. auto.
Qed.
Lemma held_at_app : forall v l1 l2, held_at v (l1 ++ l2) = held_at v l1 + held_at v l2.
Proof. induction l1; intros; [simpl; lia|]. cbn [app held_at]. rewrite IHl1. lia. Qed.

Record good (w : world) : Prop := {
  g_list : exists l, wf (st w) l;
  g_count : forall a c, cells (st w) a = Some c -> cnt c = held_at a (out w) /\ 0 < cnt c;
  g_held : forall h, In h (out w) -> exists c, cells (st w) (value h) = Some c /\
             weak c = isWeak h /\ target c = addressOf (where_ w) (denotes h);
  g_live : forall h i, In h (out w) -> denotes h = Some i -> live w i = true;
  g_placed : placed (where_ w) (live w);
  g_few : Z.of_nat (length (out w)) < 2 ^ 32 - 1 }.

Lemma body_some : forall (x : option ref) t k w, option_map body x = Some (t, k, w) ->
  exists c, x = Some c /\ target c = t /\ cnt c = k /\ weak c = w.
Proof. intros [c|] t k w H; inversion H. exists c. repeat split. Qed.

Lemma body_eq : forall (x y : option ref) c, option_map body x = option_map body y -> x = Some c ->
  exists d, y = Some d /\ target d = target c /\ cnt d = cnt c /\ weak d = weak c.
Proof.
  intros x y c H ->. symmetry in H. apply body_some in H as (d&?&?&?&?). exists d; auto.
Qed.

Lemma mod_small : forall x, 0 <= x < 2 ^ 32 -> x mod 2 ^ 32 = x.
Proof. intros. now apply Z.mod_small. Qed.

Lemma acquire_ok : forall s l a c, wf s l -> cells s a = Some c ->
  exists s', acquire s a = Ok s' /\ wf s' l /\
    option_map body (cells s' a) = Some (target c, (cnt c + 1) mod 2 ^ 32, weak c) /\
    (forall z, z <> a -> cells s' z = cells s z).
Proof.
  intros s l a c W E. unfold acquire. rewrite E. simpl. eexists; split; [reflexivity|]. split.
  - eapply wf_put; eauto.
  - cbn [cells]. split; [now rewrite put_same|]. intros. now rewrite put_other.
Qed.

(** [newGlobalRef] from a good world *)
Lemma new_ok : forall w l t wk a fuel,
  good w -> wf (st w) l -> a <> 0 -> cells (st w) a = None -> (length l < fuel)%nat ->
  exists r s' l', newGlobalRef fuel (st w) t wk a = Ok (r, s') /\ wf s' l' /\ r <> 0 /\
    option_map body (cells s' r) = Some (t, held_at r (out w) + 1, wk) /\
    (forall z, z <> r -> option_map body (cells s' z) = option_map body (cells (st w) z)) /\
    (cells (st w) r = None \/ exists c, cells (st w) r = Some c /\ target c = t /\ weak c = wk).
Proof.
  intros w l t wk a fuel G W Ha Ea Hf. pose proof (wf_link _ _ W) as [h L].
  destruct (search_seg fuel (st w) t wk l Root (root (st w)) h L (wf_zero _ _ W) Hf)
    as (f&Ef&R). unfold newGlobalRef. rewrite Ef. cbn [bind].
  destruct R as [[-> R]|(Hi&c&Ec&Ht&Hw)].
  - rewrite Z.eqb_refl. destruct (construct_wf _ _ _ t wk W Ha Ea) as (s1&E1&W1&B1&O1).
    rewrite E1. cbn [bind]. apply body_some in B1 as (c&Ec&<-&Hc&<-).
    destruct (acquire_ok _ _ _ _ W1 Ec) as (s2&E2&W2&B2&O2). rewrite E2. cbn [bind].
    exists a, s2, (a :: l). split; auto. split; auto. split; auto. split; [|split].
    + rewrite B2. assert (held_at a (out w) = 0).
      { pose proof (held_at_bound a (out w)). destruct (Z.eq_dec (held_at a (out w)) 0); auto.
        destruct (proj1 (held_at_pos a (out w))) as (h0&Hh&Hv); [lia|].
        destruct (g_held _ G h0 Hh) as (c0&E0&_). rewrite Hv in E0. congruence. }
      rewrite Hc, H. now rewrite mod_small by lia.
    + intros z Hz. rewrite O2, O1 by auto. reflexivity.
    + now left.
  - assert (f <> 0) by (intros ->; apply (wf_zero _ _ W); auto).
    destruct (f =? 0) eqn:F0; [apply Z.eqb_eq in F0; congruence|].
    destruct (acquire_ok _ _ _ _ W Ec) as (s2&E2&W2&B2&O2). rewrite E2. cbn [bind].
    exists f, s2, l. split; auto. split; auto. split; auto. split; [|split].
    + rewrite B2. destruct (g_count _ G _ _ Ec) as [Hc Hp]. rewrite Hc.
      pose proof (held_at_bound f (out w)). pose proof (g_few _ G).
      rewrite mod_small by lia. congruence.
    + intros z Hz. rewrite O2 by auto. reflexivity.
    + right. eauto.
Qed.

(** [deleteGlobalRef] of an outstanding reference of a good world *)
Lemma delete_ok : forall w h,
  good w -> In h (out w) ->
  exists s' l', deleteGlobalRef (st w) (value h) = Ok s' /\ wf s' l' /\
    (forall z, z <> value h -> option_map body (cells s' z) = option_map body (cells (st w) z)) /\
    (held_at (value h) (out w) = 1 -> cells s' (value h) = None) /\
    (held_at (value h) (out w) <> 1 -> exists c, cells (st w) (value h) = Some c /\
       option_map body (cells s' (value h)) = Some (target c, cnt c - 1, weak c)).
Proof.
  intros w h G Hi. destruct (g_list _ G) as [l W].
  destruct (g_held _ G h Hi) as (c&Ec&Hw&Ht). unfold deleteGlobalRef.
  assert (Hin : In (value h) l) by (apply (wf_cells _ _ W); congruence).
  destruct (value h =? 0) eqn:V0; [apply Z.eqb_eq in V0; rewrite V0 in Hin; destruct (wf_zero _ _ W Hin)|].
  unfold release. rewrite Ec. cbn [of_option bind].
  destruct (g_count _ G _ _ Ec) as [Hc Hp]. pose proof (held_at_bound (value h) (out w)).
  pose proof (g_few _ G). rewrite mod_small by lia.
  set (s1 := Refs _ _).
  assert (W1 : wf s1 l) by (eapply wf_put; eauto).
  assert (O1 : forall z, z <> value h -> option_map body (cells s1 z) = option_map body (cells (st w) z))
    by (intros; subst s1; cbn [cells]; now rewrite put_other).
  destruct (cnt c - 1 =? 0) eqn:Z1.
  - apply Z.eqb_eq in Z1. apply in_split in Hin as (l1&l2&->).
    destruct (dispose_wf _ _ _ _ W1) as (s2&E2&W2&O2).
    exists s2, (l1 ++ l2). split; auto. split; auto. split; [|split].
    + intros. rewrite O2, O1; auto.
    + intros _. destruct (cells s2 (value h)) eqn:E; auto. exfalso.
      assert (In (value h) (l1 ++ l2)) by (apply (wf_cells _ _ W2); congruence).
      pose proof (wf_nodup _ _ W). apply NoDup_remove_2 in H2. auto.
    + intros. lia.
  - apply Z.eqb_neq in Z1. exists s1, l. split; auto. split; auto. split; auto. split; [lia|].
    intros _. exists c. split; auto. subst s1; cbn [cells]. now rewrite put_same.
Qed.

Lemma gc_ok : forall s l fuel dead final move, wf s l -> (length l < fuel)%nat ->
  exists s', gcRefs fuel dead final move s = Ok s' /\ wf s' l /\
    forall x, cells s' x = option_map (gcCell dead final move) (cells s x).
Proof.
  intros s l fuel dead final move W Hf. pose proof (wf_link _ _ W) as [h L].
  destruct (gcList_seg fuel dead final move l s _ _ h L (wf_nodup _ _ W) (wf_zero _ _ W) Hf)
    as (s'&E&R&I&O). exists s'. split; auto.
  assert (A : forall x, cells s' x = option_map (gcCell dead final move) (cells s x)).
  { intros x. destruct (in_dec Z.eq_dec x l); [auto|]. rewrite O by auto.
    destruct (cells s x) eqn:Ex; auto. exfalso. apply n. apply (wf_cells _ _ W). congruence. }
  split; auto. constructor.
  - exists h. rewrite R. eapply seg_ext; [|exact L]. intros x Hx. rewrite A.
    destruct (cells s x); split; reflexivity.
  - apply W.
  - apply W.
  - intros a. rewrite A. rewrite <- (wf_cells _ _ W). destruct (cells s a); simpl; split; congruence.
Qed.

(** more fuel than the list is long: the result does not depend on it *)
Lemma search_more : forall fuel s a t w f, search fuel s a t w = Ok f ->
  forall k, search (fuel + k) s a t w = Ok f.
Proof.
  induction fuel; simpl; intros; [discriminate|]. destruct (a =? 0); auto.
  destruct (cells s a); simpl in *; auto. destruct ((target r =? t) && Bool.eqb (weak r) w); auto.
Qed.
Lemma gcList_more : forall fuel dead final move s a s', gcList fuel dead final move s a = Ok s' ->
  forall k, gcList (fuel + k) dead final move s a = Ok s'.
Proof.
  induction fuel; simpl; intros; [discriminate|]. destruct (a =? 0); auto.
  destruct (cells s a); simpl in *; auto.
Qed.
Lemma new_more : forall fuel s t w a x, newGlobalRef fuel s t w a = Ok x ->
  forall k, newGlobalRef (fuel + k) s t w a = Ok x.
Proof.
  unfold newGlobalRef; intros. destruct (search fuel s (root s) t w) eqn:E; try discriminate.
  rewrite (search_more _ _ _ _ _ _ E). auto.
Qed.

Lemma held_at_map_gc : forall g v l, held_at v (map (afterGc g) l) = held_at v l.
Proof.
  induction l; cbn [map held_at]; auto. rewrite IHl. f_equal.
  unfold afterGc. destruct (denotes a); auto. destruct (isWeak a && g n); auto.
Qed.

Lemma good_step : forall w e w', good w -> step w e w' ->
  Z.of_nat (length (out w')) < 2 ^ 32 - 1 -> good w'.
Proof.
  intros w e w' G S Few. destruct S.
  - destruct (g_list _ G) as [l W].
    destruct (new_ok w l (addressOf (where_ w) o) wk a (fuel + S (length l)) G W H0 H1)
      as (r'&s'&l'&E&W'&Hr&B&O&F); [lia|].
    rewrite (new_more _ _ _ _ _ _ H2) in E. inversion E; subst r' s'; clear E.
    constructor; cbn [st out where_ live].
    + eauto.
    + intros x c Ex. cbn [held_at value]. destruct (r =? x) eqn:Er.
      * apply Z.eqb_eq in Er; subst x. rewrite Ex in B. inversion B.
        pose proof (held_at_bound r (out w)). lia.
      * apply Z.eqb_neq in Er. destruct (body_eq _ _ c (O x ltac:(auto)) Ex) as (d&Ed&_&Hd&_).
        destruct (g_count _ G _ _ Ed). lia.
    + intros h [<-|Hh].
      * cbn [value isWeak denotes]. apply body_some in B as (c&Ec&?&_&?). exists c; auto.
      * destruct (g_held _ G h Hh) as (c&Ec&Hw&Ht).
        destruct (Z.eq_dec (value h) r) as [Ev|Ev].
        -- destruct F as [F|(c'&Ec'&Ht'&Hw')]; [congruence|]. apply body_some in B as (d&Ed&?&_&?).
           exists d. rewrite Ev in *. rewrite Ec in Ec'; inversion Ec'; subst. repeat split; congruence.
        -- destruct (body_eq _ _ c (eq_sym (O _ Ev)) Ec) as (d&?&?&?&?). exists d.
           repeat split; congruence.
    + intros h i [<-|Hh] Hd; [apply H; exact Hd|eapply (g_live _ G); eauto].
    + apply G.
    + exact Few.
  - destruct (delete_ok w h G H) as (s'&l'&E&W'&O&Last&More). rewrite H0 in E. inversion E; subst s'; clear E.
    destruct (drop_split _ _ H) as (l1&l2&El&Ed).
    assert (Cnt : forall v, held_at v (out w) = held_at v (l1 ++ l2) + (if value h =? v then 1 else 0)).
    { intros. rewrite El, !held_at_app. cbn [held_at]. lia. }
    assert (Sub : forall x, In x (l1 ++ l2) -> In x (out w)).
    { intros x Hx. rewrite El. apply in_app_or in Hx. apply in_or_app. simpl. tauto. }
    constructor; cbn [st out where_ live]; rewrite ?Ed.
    + eauto.
    + intros x c Ex. specialize (Cnt x). destruct (value h =? x) eqn:Ev.
      * apply Z.eqb_eq in Ev; subst x. destruct (Z.eq_dec (held_at (value h) (out w)) 1) as [E1|E1].
        -- rewrite (Last E1) in Ex. discriminate.
        -- destruct (More E1) as (d&Ed'&B). rewrite Ex in B. inversion B.
           destruct (g_count _ G _ _ Ed'). lia.
      * apply Z.eqb_neq in Ev. destruct (body_eq _ _ c (O x ltac:(auto)) Ex) as (d&Ed'&_&Hd&_).
        destruct (g_count _ G _ _ Ed'). lia.
    + intros h' Hh. destruct (g_held _ G h' (Sub _ Hh)) as (c&Ec&Hw&Ht).
      destruct (Z.eq_dec (value h') (value h)) as [Ev|Ev].
      * assert (E1 : held_at (value h) (out w) <> 1).
        { rewrite Cnt, Z.eqb_refl. assert (0 < held_at (value h) (l1 ++ l2)) by (apply held_at_pos; eauto). lia. }
        destruct (More E1) as (d&Ed'&B). rewrite Ev in *. rewrite Ec in Ed'; inversion Ed'; subst d.
        apply body_some in B as (d&?&?&?&?). exists d. repeat split; congruence.
      * destruct (body_eq _ _ c (eq_sym (O _ Ev)) Ec) as (d&?&?&?&?). exists d. repeat split; congruence.
    + intros h' i Hh. apply (g_live _ G); auto.
    + apply G.
    + cbn [out] in Few. rewrite Ed in Few. exact Few.
  - constructor; cbn [st out where_ live].
    + apply G.
    + apply G.
    + intros h Hh. destruct (g_held _ G h Hh) as (c&Ec&Hw&Ht). exists c. repeat split; auto.
      rewrite Ht. destruct (denotes h) as [j|] eqn:Ed; auto. simpl.
      destruct (Nat.eqb j i) eqn:E; auto. apply Nat.eqb_eq in E; subst.
      rewrite (g_live _ G h i Hh Ed) in H. discriminate.
    + intros h j Hh Hd. destruct (Nat.eqb j i); auto. eapply (g_live _ G); eauto.
    + destruct (g_placed _ G) as [P1 P2]. split.
      * intros j Hj. destruct (Nat.eqb j i); auto.
      * intros j k Hj Hk E. destruct (Nat.eqb j i) eqn:Ej, (Nat.eqb k i) eqn:Ek.
        -- apply Nat.eqb_eq in Ej, Ek. congruence.
        -- exfalso. apply (H1 k Hk). auto.
        -- exfalso. apply (H1 j Hj). auto.
        -- auto.
    + exact Few.
  - destruct (g_list _ G) as [l W].
    destruct (gc_ok _ l (fuel + S (length l)) dead final move W) as (s'&E&W'&A); [lia|].
    unfold gcRefs in *. rewrite (gcList_more _ _ _ _ _ _ _ H8) in E. inversion E; subst s'; clear E.
    constructor; cbn [st out where_ live].
    + eauto.
    + intros x c Ex. rewrite A in Ex. destruct (cells (st w) x) as [d|] eqn:Ed; [|discriminate].
      inversion Ex; subst. rewrite held_at_map_gc. apply (g_count _ G _ _ Ed).
    + intros h' Hh. apply in_map_iff in Hh as (h&<-&Hh).
      destruct (g_held _ G h Hh) as (c&Ec&Hw&Ht).
      assert (Hv : value (afterGc gone h) = value h /\ isWeak (afterGc gone h) = isWeak h).
      { unfold afterGc. destruct (denotes h); auto. destruct (isWeak h && gone n); auto. }
      destruct Hv as [-> ->]. rewrite A, Ec. eexists; split; [reflexivity|]. split; auto.
      cbn [gcCell target]. rewrite Hw, Ht. unfold afterGc.
      destruct (denotes h) as [i|] eqn:Ed; cbn [addressOf].
      * assert (Li : live w i = true) by (eapply (g_live _ G); eauto).
        rewrite <- (H2 i Li). destruct (isWeak h) eqn:Eh; cbn [andb].
        -- destruct (gone i) eqn:Eg; [reflexivity|]. rewrite Ed. simpl. symmetry. apply H1.
           rewrite (H i Li). rewrite (H2 i Li) in Eg. apply orb_false_elim in Eg as [_ ->]. reflexivity.
        -- rewrite Ed. simpl. symmetry. apply H1. eapply H7; eauto.
      * rewrite H3, H4, H5, Ed. simpl. destruct (isWeak h); reflexivity.
    + intros h' i Hh Hd. apply in_map_iff in Hh as (h&<-&Hh). unfold afterGc in Hd.
      destruct (denotes h) as [j|] eqn:Ed; [|congruence].
      assert (Lj : live w j = true) by (eapply (g_live _ G); eauto).
      destruct (isWeak h && gone j) eqn:Eg; [discriminate|]. rewrite Ed in Hd. inversion Hd; subst j.
      destruct (isWeak h) eqn:Ew; simpl in Eg.
      * rewrite (H i Lj). rewrite (H2 i Lj) in Eg. apply orb_false_elim in Eg as [_ ->]. reflexivity.
      * eapply H7; eauto.
    + exact H6.
    + exact Few.
Qed.

Lemma reachable_good : forall w, reachable w -> good w.
Proof.
  induction 1.
  - constructor; cbn [st out where_ live].
    + exists []. constructor; simpl; try tauto; try constructor. exists Root. simpl; auto.
    + simpl; discriminate.
    + intros ? [].
    + intros ? ? [].
    + auto.
    + simpl. lia.
  - eapply good_step; eauto.
Qed.
