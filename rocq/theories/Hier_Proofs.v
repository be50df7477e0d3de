(** The loaded tables describe the hierarchy: invariant of loading; assignability. *)
From Verif Require Import Base Hier_Model Hier_Spec Hier_Tables.

Section Hier.
Variable ds : list cdef.
Hypothesis WF : wellFormed ds.

Lemma direct_lt : forall i j, direct ds i j -> j < i.
Proof.
  intros i j [d [E H]]. destruct (WF i d E) as [_ [W0 [W1 [_ W3]]]]. destruct H as [H | H].
  - destruct (Nat.eq_dec i 0) as [-> | N]; [destruct (W0 eq_refl) as [_ [X _]]; congruence|]. destruct (W1 N) as [s [c [S [L _]]]]. congruence.
  - apply W3. exact H.
Qed.
Lemma below_le : forall i j, below ds i j -> j <= i.
Proof. intros i j H. induction H; [lia|]. apply direct_lt in H. lia. Qed.
Lemma below_trans : forall i j k, below ds i j -> below ds j k -> below ds i k.
Proof. intros i j k H K. induction H; [exact K|]. econstructor; eauto. Qed.
Lemma superclass_below : forall i j, superclass ds i j -> below ds i j.
Proof. intros i j H. induction H; [constructor|]. econstructor; [|eassumption]. exists d. auto. Qed.
Lemma below_inv : forall i k, below ds i k -> k <> i -> exists j, direct ds i j /\ below ds j k.
Proof. intros i k H N. inversion H; subst; [congruence|]. eauto. Qed.
Lemma selects_fun : forall i s e e', selects ds i s e -> selects ds i s e' -> e = e'.
Proof.
  intros i s e e' H. revert e'. induction H; intros e' K; inversion K; subst; try tauto. apply IHselects. congruence.
Qed.
Lemma super_class : forall i d p, nth_error ds i = Some d -> super d = Some p -> p < i /\ exists c, nth_error ds p = Some c /\ isInterface c = false.
Proof.
  intros i d p E S. destruct (WF i d E) as [_ [W0 [W1 _]]]. destruct (Nat.eq_dec i 0) as [-> | N]; [destruct (W0 eq_refl) as [_ [X _]]; congruence|].
  destruct (W1 N) as [s [c [S' [L [E' I]]]]]. rewrite S in S'. inversion S'; subst. eauto.
Qed.

(** ** The interface table *)
Lemma insertMaybe_in : forall m i k, In k (insertMaybe m i) <-> In k m \/ k = i.
Proof.
  intros m i k. unfold insertMaybe. destruct (existsb (Nat.eqb i) m) eqn:E.
  - apply existsb_exists in E. destruct E as [x [H E]]. apply Nat.eqb_eq in E. subst x. split; [auto | intros [H' | ->]; assumption].
  - rewrite in_app_iff. cbn. intuition.
Qed.
Lemma insertMaybe_nodup : forall m i, NoDup m -> NoDup (insertMaybe m i).
Proof.
  intros m i N. unfold insertMaybe. destruct (existsb (Nat.eqb i) m) eqn:E; [exact N|].
  apply (Permutation_NoDup (l := i :: m)); [apply Permutation_cons_append|]. constructor; [|exact N]. intros H.
  assert (existsb (Nat.eqb i) m = true); [|congruence]. apply existsb_exists. exists i. split; [exact H | apply Nat.eqb_refl].
Qed.
Lemma addInterfaces_in : forall w i m k, In k (addInterfaces w i m) <-> In k m \/ In k (interfacesOf w i).
Proof.
  intros w i m k. unfold addInterfaces. generalize (interfacesOf w i) as l. intros l. revert m. induction l as [|x l IH]; intros m; cbn; [tauto|]. rewrite IH, insertMaybe_in. intuition.
Qed.
Lemma addInterfaces_nodup : forall w i m, NoDup m -> NoDup (addInterfaces w i m).
Proof. intros w i m. unfold addInterfaces. revert m. induction (interfacesOf w i) as [|x l IH]; intros m N; cbn; [exact N|]. apply IH, insertMaybe_nodup, N. Qed.
Lemma fold_in : forall w l m k, In k (fold_left (fun m i => addInterfaces w i (insertMaybe m i)) l m) <->
  In k m \/ exists i, In i l /\ (k = i \/ In k (interfacesOf w i)).
Proof.
  intros w l. induction l as [|x l IH]; intros m k; cbn; [split; [auto | intros [H | [? [[] _]]]; auto]|]. rewrite IH, addInterfaces_in, insertMaybe_in. split.
  - intros [[[H | H] | H] | [i [H H']]]; eauto 7.
  - intros [H | [i [[<- | H] [H' | H']]]]; eauto 7.
Qed.
Lemma fold_nodup : forall w l m, NoDup m -> NoDup (fold_left (fun m i => addInterfaces w i (insertMaybe m i)) l m).
Proof. intros w l. induction l as [|x l IH]; intros m N; cbn; [exact N|]. apply IH, addInterfaces_nodup, insertMaybe_nodup, N. Qed.

(** ** The invariant *)
(** Where a table entry of a class comes from. *)
Definition inherits (i : nat) (x : meth) : Prop :=
  interfaceClass ds (origin x) /\ below ds i (origin x) /\ declares ds (origin x) (sig x).
Record good (w : world) (i : nat) (c : cls) : Prop := {
  g_nodup : NoDup (map sig (vt c));
  g_indexed : indexed (vt c);
  g_class : isInterface (def c) = false -> forall x, In x (vt c) ->
    selects ds i (sig x) (origin x) \/ ((forall e, ~ selects ds i (sig x) e) /\ inherits i x);
  g_interface : isInterface (def c) = true -> forall x, In x (vt c) -> inherits i x /\ (declares ds i (sig x) -> origin x = i);
  g_all : isInterface (def c) = false -> forall s e, selects ds i s e -> In s (map sig (vt c));
  g_abs : forall k s, interfaceClass ds k -> below ds i k -> declares ds k s -> In s (map sig (vt c));
  g_inodup : NoDup (map fst (itable c));
  g_itable : forall k, In k (map fst (itable c)) <-> interfaceClass ds k /\ below ds i k /\ k <> i;
  g_itables : isInterface (def c) = false -> forall k l, In (k, l) (itable c) -> Forall2 (fun x y => sig x = sig y /\ In y (vt c)) (find_vtable w k) l;
  g_methods : forall x, In x (methods c) -> mclass x = i /\ (mvirtual x = true -> nth_error (vt c) (offset x) = Some x);
  g_declared : forall s, declares ds i s -> exists x, In x (methods c) /\ sig x = s /\ mvirtual x = true;
  g_super : forall p, isInterface (def c) = false -> super (def c) = Some p -> exists r, map sig (vt c) = map sig (find_vtable w p) ++ r;
  g_virtual : forall x, In x (vt c) -> mvirtual x = true;
  g_plain : forall x, In x (methods c) -> mvirtual x = true \/ In (Dec (sig x) false) (decls (def c));
  g_own : isInterface (def c) = true -> forall x, In x (vt c) -> In x (methods c);
  g_source : isInterface (def c) = false -> forall s, In s (map sig (vt c)) -> In s (map sig (methods c)) \/ exists p, super (def c) = Some p /\ In s (map sig (find_vtable w p)) }.
Definition inv (w : world) : Prop := forall i c, nth_error w i = Some c -> nth_error ds i = Some (def c) /\ good w i c.

Lemma find_vtable_app : forall w c k, k < length w -> find_vtable (w ++ [c]) k = find_vtable w k.
Proof. intros w c k H. unfold find_vtable. rewrite nth_error_app1 by exact H. reflexivity. Qed.

Lemma good_app : forall w c' i c, inv w -> nth_error w i = Some c -> good w i c -> good (w ++ [c']) i c.
Proof.
  intros w c' i c I E G. assert (L : i < length w) by (apply nth_error_Some; congruence). destruct (I i c E) as [Ed _].
  destruct G. constructor; auto.
  - intros H k l K. rewrite find_vtable_app; [auto|]. assert (X : In k (map fst (itable c))) by (apply in_map_iff; exists (k, l); auto).
    apply g_itable0 in X. destruct X as [_ [X _]]. apply below_le in X. lia.
  - intros p H S. destruct (super_class _ _ _ Ed S) as [P _]. rewrite find_vtable_app by lia. auto.
  - intros H s K. destruct (g_source0 H s K) as [X | [p [S X]]]; [left; exact X | right]. exists p. split; [exact S|]. destruct (super_class _ _ _ Ed S) as [P _]. rewrite find_vtable_app by lia. exact X.
Qed.

Variable order : list nat -> list nat.
Hypothesis OK : forall l, Permutation (order l) l.

Lemma interfaces_ok : forall w d, inv w -> nth_error ds (length w) = Some d ->
  NoDup (parseInterfaces order w d) /\
  (forall k, In k (parseInterfaces order w d) <-> interfaceClass ds k /\ below ds (length w) k /\ k <> length w).
Proof.
  intros w d I E. unfold parseInterfaces. set (m := match super d with Some s => addInterfaces w s [] | None => [] end).
  assert (Nm : NoDup m) by (unfold m; destruct (super d); [apply addInterfaces_nodup|]; constructor).
  assert (T : forall j k, direct ds (length w) j -> (In k (interfacesOf w j) <-> interfaceClass ds k /\ below ds j k /\ k <> j)).
  { intros j k H. apply direct_lt in H. unfold interfacesOf. destruct (nth_error w j) as [c|] eqn:Ej; [|apply nth_error_None in Ej; lia].
    destruct (I j c Ej) as [_ G]. apply (g_itable _ _ _ G). }
  split; [apply (Permutation_NoDup (Permutation_sym (OK _))), fold_nodup, Nm|]. intros k.
  transitivity (In k (fold_left (fun m i => addInterfaces w i (insertMaybe m i)) (ifaces d) m)).
  { split; apply Permutation_in; [|apply Permutation_sym]; apply OK. }
  rewrite fold_in. split.
  - intros [H | [i [Hi H]]].
    + unfold m in H. destruct (super d) as [p|] eqn:S; [|destruct H]. apply addInterfaces_in in H. destruct H as [[] | H].
      assert (D : direct ds (length w) p) by (exists d; auto). apply (T p k D) in H. destruct H as [H1 [H2 H3]]. split; [exact H1|]. split; [econstructor; eauto|].
      apply direct_lt in D. apply below_le in H2. lia.
    + assert (D : direct ds (length w) i) by (exists d; auto). pose proof (direct_lt _ _ D) as L. destruct H as [-> | H].
      * split; [|split; [econstructor; [exact D | constructor] | lia]]. destruct (WF _ d E) as [_ [_ [_ [_ W]]]]. destruct (W i Hi) as [_ [c W']]. exists c. exact W'.
      * apply (T i k D) in H. destruct H as [H1 [H2 H3]]. split; [exact H1|]. split; [econstructor; eauto|]. apply below_le in H2. lia.
  - intros [H1 [H2 H3]]. destruct (below_inv _ _ H2 H3) as [j [D B]]. pose proof D as D'. destruct D' as [d' [E' D']]. rewrite E in E'. inversion E'; subst d'.
    destruct D' as [S | F].
    + left. unfold m. rewrite S. apply addInterfaces_in. right. apply (T j k D). split; [exact H1|]. split; [exact B|]. intros ->.
      destruct (super_class _ _ _ E S) as [_ [c [C1 C2]]]. destruct H1 as [d1 [D1 D2]]. congruence.
    + right. exists j. split; [exact F|]. destruct (Nat.eq_dec k j) as [-> | N]; [left; reflexivity|]. right. apply (T j k D). auto.
Qed.

Lemma declares_vsigs : forall i d s, nth_error ds i = Some d -> (declares ds i s <-> In s (vsigs (decls d))).
Proof.
  intros i d s E. unfold declares, vsigs. split.
  - intros [d' [E' H]]. rewrite E in E'. inversion E'; subst. apply in_map_iff. exists (Dec s true). split; [reflexivity|]. apply filter_In. auto.
  - intros H. apply in_map_iff in H. destruct H as [[s' v] [<- H]]. apply filter_In in H. destruct H as [H V]. cbn in V. subst v. exists d. auto.
Qed.

Lemma load_ok : forall w d, inv w -> nth_error ds (length w) = Some d -> exists w', load order w d = Some w' /\ inv w' /\ length w' = S (length w).
Proof.
  intros w d I E. destruct (WF _ d E) as [Nd [W0 [W1 [W2 W3]]]]. destruct (interfaces_ok w d I E) as [Ni Hi]. set (is := parseInterfaces order w d) in *. set (n := length w) in *.
  assert (SUP : forall p, super d = Some p -> exists c, nth_error w p = Some c /\ nth_error ds p = Some (def c) /\ isInterface (def c) = false /\ good w p c).
  { intros p S. destruct (super_class _ _ _ E S) as [L [c [C1 C2]]]. destruct (nth_error w p) as [c'|] eqn:Ep; [|apply nth_error_None in Ep; fold n in Ep; lia].
    exists c'. destruct (I p c' Ep) as [X G]. rewrite C1 in X. inversion X; subst. auto. }
  assert (ST : superTable w d = [] \/ exists p c, isInterface d = false /\ super d = Some p /\ nth_error w p = Some c /\ nth_error ds p = Some (def c) /\ isInterface (def c) = false /\ good w p c /\ superTable w d = vt c).
  { unfold superTable. destruct (isInterface d); [left; reflexivity|]. destruct (super d) as [p|]; [|left; reflexivity]. right.
    destruct (SUP p eq_refl) as [c [X1 [X2 [X3 X4]]]]. exists p, c. repeat (split; [assumption || reflexivity|]). apply find_vtable_eq. exact X1. }
  destruct (parse_ok w n d is) as [c [st [m [nn [abs [P [[Pd Pv Pm Pi Pt] [D A]]]]]]]].
  { exact Nd. }
  { destruct ST as [-> | [p [c [_ [_ [_ [_ [_ [G ->]]]]]]]]]; [constructor | apply (g_nodup _ _ _ G)]. }
  { destruct ST as [-> | [p [c [_ [_ [_ [_ [_ [G ->]]]]]]]]]; [intros [|k] x X; discriminate | apply (g_indexed _ _ _ G)]. }
  { exact Ni. }
  { intros s S. destruct (SUP s S) as [c [X1 [X2 [X3 X4]]]]. exists c. split; [exact X1|]. split; [apply (g_inodup _ _ _ X4)|]. split; [|apply (g_itables _ _ _ X4 X3)].
    intros k K. apply (g_itable _ _ _ X4) in K. destruct K as [K1 [K2 K3]]. apply Hi. split; [exact K1|]. assert (Dn : direct ds n s) by (exists d; auto).
    split; [econstructor; eauto|]. apply direct_lt in Dn. apply below_le in K2. lia. }
  unfold load. fold n is. rewrite P. cbn [obind]. eexists. split; [reflexivity|]. split; [|rewrite app_length; cbn; unfold n; lia].
  (* facts about the new table *)
  assert (SVn : NoDup (map sig (superTable w d))). { destruct ST as [-> | [p [c0 [_ [_ [_ [_ [_ [G ->]]]]]]]]]; [constructor | apply (g_nodup _ _ _ G)]. }
  assert (SVi : indexed (superTable w d)). { destruct ST as [-> | [p [c0 [_ [_ [_ [_ [_ [G ->]]]]]]]]]; [intros [|k] x X; discriminate | apply (g_indexed _ _ _ G)]. }
  assert (VN : NoDup (map sig (vt c))) by (rewrite Pv; eapply V_nodup; eassumption).
  assert (VI : indexed (vt c)) by (rewrite Pv; eapply V_indexed; eassumption).
  assert (AK : forall k, In k is -> forall x, In x (find_vtable w k) -> In (sig x) (map sig (vt c))) by (rewrite Pv; eapply all_keys; eassumption).
  assert (DV : forall s, declares ds n s <-> In s (vsigs (decls d))) by (intros; apply declares_vsigs; exact E).
  assert (INS : forall s, In s (map sig (superTable w d)) -> In s (map sig (vt c))).
  { intros s H. rewrite Pv. unfold V'. rewrite map_app, map_map, (map_ext _ sig) by (intros; apply ov_sig). apply in_or_app. left. exact H. }
  assert (IND : forall s, declares ds n s -> In s (map sig (vt c))).
  { intros s H. apply DV in H. destruct (inSV (superTable w d) s) eqn:S; [apply inSV_in in S; auto|].
    rewrite Pv. unfold V'. rewrite !map_app. apply in_or_app. right. apply in_or_app. left. rewrite (d_news _ _ _ _ D). apply filter_In. rewrite S. auto. }
  assert (IFACE : forall k, In k is -> exists ck, nth_error w k = Some ck /\ isInterface (def ck) = true /\ good w k ck /\ find_vtable w k = vt ck).
  { intros k K. apply Hi in K. destruct K as [[dk [K1 K1']] [K2 K3]]. apply below_le in K2. destruct (nth_error w k) as [ck|] eqn:Ek; [|apply nth_error_None in Ek; unfold n in *; lia].
    destruct (I k ck Ek) as [X G]. exists ck. split; [reflexivity|]. rewrite K1 in X. inversion X; subst. split; [assumption|]. split; [assumption|]. apply find_vtable_eq. exact Ek. }
  assert (ABS : forall y, In y abs -> ~ In (sig y) (map sig (superTable w d)) /\ ~ declares ds n (sig y) /\ inherits n y /\ mclass y = n).
  { intros y Hy. pose proof (a_new _ _ _ _ _ _ _ _ A y Hy) as N. rewrite (d_vm _ _ _ _ D), map_app, !map_map in N. cbn in N.
    assert (N1 : ~ In (sig y) (map sig (superTable w d))) by (intros X; apply N, in_or_app; left; exact X). split; [exact N1|]. split.
    { intros X. apply DV in X. apply N, in_or_app. right. change (fun x : meth => sig x) with sig. rewrite (d_news _ _ _ _ D). apply filter_In. split; [exact X|].
      destruct (inSV (superTable w d) (sig y)) eqn:S; [apply inSV_in in S; tauto | reflexivity]. }
    apply In_nth_error in Hy. destruct Hy as [k Hy]. destruct (a_own _ _ _ _ _ _ _ _ A _ _ Hy) as [_ [MC [x [X1 [X2 [X3 X4]]]]]]. split; [|exact MC].
    apply in_concat in X1. destruct X1 as [l [L1 L2]]. apply in_map_iff in L1. destruct L1 as [j [<- L1]]. destruct (IFACE j L1) as [cj [J1 [J2 [J3 J4]]]].
    rewrite J4 in L2. destruct (g_interface _ _ _ J3 J2 x L2) as [[Q1 [Q2 Q3]] _]. unfold inherits. rewrite <- X2, <- X3. split; [exact Q1|]. split; [|exact Q3].
    apply (below_trans _ j); [|exact Q2]. apply Hi in L1. tauto. }
  assert (NEWS : forall y, In y (news st) -> origin y = n /\ declares ds n (sig y) /\ mclass y = n).
  { intros y Hy. assert (S : In (sig y) (map sig (news st))) by (apply in_map; exact Hy). rewrite (d_news _ _ _ _ D) in S. apply filter_In in S. destruct S as [S _].
    apply In_nth_error in Hy. destruct Hy as [k Hy]. destruct (d_own _ _ _ _ D _ _ Hy) as [B1 [B2 _]]. split; [exact B2|]. split; [apply DV; exact S | exact B1]. }
  assert (SPLIT : forall x, In x (vt c) -> (exists y, In y (superTable w d) /\ x = ov n (decls d) y) \/ In x (news st) \/ In x abs).
  { intros x Hx. rewrite Pv in Hx. unfold V' in Hx. apply in_app_or in Hx. destruct Hx as [Hx | Hx]; [left | right; apply in_app_or; exact Hx].
    apply in_map_iff in Hx. destruct Hx as [y [<- Hy]]. eauto. }
  assert (NOSEL : forall s, isInterface d = false -> ~ In s (map sig (superTable w d)) -> ~ declares ds n s -> forall e, ~ selects ds n s e).
  { intros s Id N1 N2 e H. inversion H as [| ? d1 p ? ? Q1 Q2 Q3 Q4]; subst; [tauto|]. rewrite E in Q2. inversion Q2; subst d1.
    destruct (SUP p Q3) as [c0 [X1 [X2 [X3 X4]]]]. apply N1. unfold superTable. rewrite Id, Q3, (find_vtable_eq _ _ _ X1). apply (g_all _ _ _ X4 X3 s e Q4). }
  assert (VIRT : forall x, In x (vt c) -> mvirtual x = true).
  { intros x Hx. destruct (SPLIT x Hx) as [[y [Y1 ->]] | [Hn | Ha]].
    - unfold ov. destruct (has (decls d) (sig y)); [reflexivity|]. destruct ST as [ST | [p [c0 [_ [_ [_ [_ [_ [G ST]]]]]]]]]; rewrite ST in Y1; [destruct Y1 | exact (g_virtual _ _ _ G y Y1)].
    - apply In_nth_error in Hn. destruct Hn as [k Hn]. apply (d_own _ _ _ _ D _ _ Hn).
    - apply In_nth_error in Ha. destruct Ha as [k Ha]. destruct (a_own _ _ _ _ _ _ _ _ A _ _ Ha) as [_ [_ [z [X1 [_ [_ <-]]]]]].
      apply in_concat in X1. destruct X1 as [l [L1 L2]]. apply in_map_iff in L1. destruct L1 as [j [<- L1]]. destruct (IFACE j L1) as [cj [J1 [J2 [J3 J4]]]]. rewrite J4 in L2. exact (g_virtual _ _ _ J3 z L2). }
  assert (GOOD : good w n c).
  { constructor; auto.
    - (* class *) rewrite Pd. intros Id x Hx. destruct (SPLIT x Hx) as [[y [Y1 ->]] | [Hn | Ha]].
      + destruct ST as [ST | [p [c0 [_ [S [X1 [X2 [X3 [X4 ST]]]]]]]]]; [rewrite ST in Y1; destruct Y1|]. rewrite ST in Y1. unfold ov. destruct (has (decls d) (sig y)) eqn:H.
        * left. cbn. apply selects_here. apply DV. apply has_in. exact H.
        * assert (ND : ~ declares ds n (sig y)). { intros X. apply DV in X. apply has_in in X. congruence. }
          destruct (g_class _ _ _ X4 X3 y Y1) as [SE | [NS [Q1 [Q2 Q3]]]]; [left; eapply selects_super; eauto | right]. split.
          -- intros e H1. inversion H1 as [| ? d1 p1 ? ? R1 R2 R3 R4]; subst; [tauto|]. rewrite E in R2. inversion R2; subst d1. rewrite S in R3. inversion R3; subst. exact (NS e R4).
          -- split; [exact Q1|]. split; [|exact Q3]. apply (below_step ds n p); [exists d; auto | exact Q2].
      + left. destruct (NEWS x Hn) as [-> [H _]]. apply selects_here. exact H.
      + right. destruct (ABS x Ha) as [H1 [H2 [H3 _]]]. split; [apply NOSEL; assumption | exact H3].
    - (* interface *) rewrite Pd. intros Id x Hx. assert (T0 : superTable w d = []) by (unfold superTable; rewrite Id; reflexivity).
      destruct (SPLIT x Hx) as [[y [Y1 ->]] | [Hn | Ha]]; [rewrite T0 in Y1; destruct Y1 | | ].
      + destruct (NEWS x Hn) as [Ho [H _]]. split; [|auto]. unfold inherits. rewrite Ho. split; [exists d; auto|]. split; [constructor | exact H].
      + destruct (ABS x Ha) as [H1 [H2 [H3 _]]]. split; [exact H3 | tauto].
    - (* all *) rewrite Pd. intros Id s e H. inversion H as [? ? Q1 | ? d1 p ? ? Q1 Q2 Q3 Q4]; subst; [auto|]. rewrite E in Q2. inversion Q2; subst d1.
      destruct (SUP p Q3) as [c0 [X1 [X2 [X3 X4]]]]. apply INS. unfold superTable. rewrite Id, Q3, (find_vtable_eq _ _ _ X1). apply (g_all _ _ _ X4 X3 s e Q4).
    - (* abs *) intros k s K1 K2 K3. destruct (Nat.eq_dec k n) as [-> | N]; [auto|]. assert (K : In k is) by (apply Hi; auto). destruct (IFACE k K) as [ck [J1 [J2 [J3 J4]]]].
      pose proof (g_abs _ _ _ J3 k s K1 (below_refl _ _) K3) as X. apply in_map_iff in X. destruct X as [x [<- X]]. apply (AK k K). rewrite J4. exact X.
    - (* inodup *) apply (Permutation_NoDup (Permutation_sym Pi)). exact Ni.
    - (* itable *) intros k. rewrite <- Hi. split; apply Permutation_in; [|apply Permutation_sym]; exact Pi.
    - (* itables *) rewrite Pd. exact Pt.
    - (* methods *) intros x Hx. rewrite Pm in Hx. apply in_app_or in Hx.
      assert (MC : mclass x = n) by (destruct Hx as [Hx | Hx]; [exact (d_mclass _ _ _ _ D x Hx) | apply ABS; exact Hx]). split; [exact MC|]. intros V.
      assert (Hin : In x (vt c)). { rewrite Pv. unfold V'. destruct Hx as [Hx | Hx]; [|apply in_or_app; right; apply in_or_app; right; exact Hx].
        destruct (d_tab _ _ _ _ D x Hx V) as [_ [B | B]]; apply in_or_app; [left; exact B | right; apply in_or_app; left; exact B]. }
      apply In_nth_error in Hin. destruct Hin as [k Hk]. rewrite (VI k x Hk). exact Hk.
    - (* declared *) intros s H. apply DV in H. destruct (d_all _ _ _ _ D s H) as [x [X1 X2]]. exists x. split; [rewrite Pm; apply in_or_app; left; exact X1 | exact X2].
    - (* super *) rewrite Pd. intros p Id S. rewrite Pv. unfold V'. rewrite map_app, map_map, (map_ext _ sig) by (intros; apply ov_sig). unfold superTable. rewrite Id, S. eauto.
    - (* plain *) intros x Hx. rewrite Pm in Hx. rewrite Pd. apply in_app_or in Hx. destruct Hx as [Hx | Hx]; [exact (d_plain _ _ _ _ D x Hx) | left; apply VIRT; rewrite Pv; unfold V'; apply in_or_app; right; apply in_or_app; right; exact Hx].
    - (* own *) rewrite Pd. intros Id x Hx. assert (T0 : superTable w d = []) by (unfold superTable; rewrite Id; reflexivity). rewrite Pm.
      destruct (SPLIT x Hx) as [[y [Y1 _]] | [Hn | Ha]]; [rewrite T0 in Y1; destruct Y1 | | apply in_or_app; right; exact Ha].
      apply in_or_app. left. destruct (NEWS x Hn) as [_ [H _]]. apply DV in H. destruct (d_all _ _ _ _ D _ H) as [y [Y1 [Y2 Y3]]]. destruct (d_tab _ _ _ _ D y Y1 Y3) as [_ [B | B]]; [rewrite T0 in B; destruct B|].
      assert (y = x) as <-; [|exact Y1]. assert (NN : NoDup (map sig (news st))) by (rewrite (d_news _ _ _ _ D); apply nodup_filter; exact Nd).
      apply In_nth_error in Hn, B. destruct Hn as [a Hna], B as [b Hb]. assert (a = b); [|congruence]. apply (proj1 (NoDup_nth_error _) NN); [rewrite map_length; apply nth_error_Some; congruence|]. rewrite !nth_error_map, Hna, Hb. cbn. congruence.
    - (* source *) rewrite Pd. intros Id s Hs. apply in_map_iff in Hs. destruct Hs as [x [<- Hx]]. destruct (SPLIT x Hx) as [[y [Y1 ->]] | [Hn | Ha]].
      + right. unfold superTable in Y1. rewrite Id in Y1. destruct (super d) as [p|]; [|destruct Y1]. exists p. split; [reflexivity|]. rewrite ov_sig. apply in_map. exact Y1.
      + left. destruct (NEWS x Hn) as [_ [H _]]. apply DV in H. destruct (d_all _ _ _ _ D _ H) as [y [Y1 [Y2 Y3]]]. rewrite Pm, <- Y2. apply in_map, in_or_app. left. exact Y1.
      + left. rewrite Pm. apply in_map, in_or_app. right. exact Ha. }
  intros i ci Hci. destruct (Nat.lt_ge_cases i (length w)) as [L | L].
  - rewrite nth_error_app1 in Hci by exact L. destruct (I i ci Hci) as [X G]. split; [exact X|]. apply good_app; assumption.
  - rewrite nth_error_app2 in Hci by exact L. destruct (i - length w) as [|j] eqn:Ej; cbn in Hci; [|destruct j; discriminate]. inversion Hci; subst ci.
    assert (i = n) as -> by (unfold n; lia). split; [rewrite Pd; exact E|].
    destruct GOOD. constructor; auto.
    + intros H k l K. rewrite find_vtable_app; [auto|]. assert (X : In k (map fst (itable c))) by (apply in_map_iff; exists (k, l); auto).
      apply g_itable0 in X. destruct X as [_ [X X']]. apply below_le in X. fold n. lia.
    + intros p H S. rewrite Pd in S. destruct (super_class _ _ _ E S) as [Lp _]. rewrite find_vtable_app by (fold n; lia). rewrite <- Pd in S. auto.
    + intros H s K. destruct (g_source0 H s K) as [X | [p [S X]]]; [left; exact X | right]. exists p. split; [exact S|]. rewrite Pd in S. destruct (super_class _ _ _ E S) as [Lp _]. rewrite find_vtable_app by (fold n; lia). exact X.
Qed.

Lemma loadAll_ok : forall l w, inv w -> (forall k, nth_error l k = nth_error ds (length w + k)) -> exists w', loadAll order w l = Some w' /\ inv w' /\ length w' = length w + length l.
Proof.
  induction l as [|d l IH]; intros w I H; cbn [loadAll]; [exists w; split; [reflexivity|]; split; [exact I | cbn; lia]|].
  pose proof (H 0) as H0. cbn in H0. rewrite Nat.add_0_r in H0. destruct (load_ok w d I (eq_sym H0)) as [w' [E [I' L]]]. rewrite E. cbn [obind].
  destruct (IH w' I') as [w'' [E' [I'' L']]]; [intros k; rewrite L; specialize (H (S k)); cbn in H; rewrite H; f_equal; lia|]. exists w''. split; [exact E'|]. split; [exact I''|]. cbn. lia.
Qed.
Theorem loaded : exists w, loadAll order [] ds = Some w /\ inv w /\ length w = length ds.
Proof. destruct (loadAll_ok ds []) as [w H]; [intros [|i] c X; discriminate | reflexivity | exists w; exact H]. Qed.
End Hier.
