(** C31, C32, C75, C76 *)
From Verif Require Import Base Hier_Model Hier_Spec Hier_Tables Hier_Proofs Hier_Assign.

(** The order in which a map is enumerated is some permutation. *)
Definition enumerates (order : list nat -> list nat) : Prop := forall l, Permutation (order l) l.

(** Every well-formed hierarchy loads: no table keeps a null entry. *)
Theorem C31_loads : forall ds order, wellFormed ds -> enumerates order ->
  exists w, loadAll order [] ds = Some w /\ length w = length ds /\
    forall i s, declares ds i s -> exists c m, nth_error w i = Some c /\ In m (methods c) /\ sig m = s /\ mvirtual m = true.
Proof.
  intros ds order WF OK. destruct (loaded ds WF order OK) as [w [E [I L]]]. exists w. split; [exact E|]. split; [exact L|]. intros i s H.
  assert (Hi : i < length w). { destruct H as [d [H _]]. rewrite L. apply nth_error_Some. congruence. }
  destruct (nth_error w i) as [c|] eqn:Ec; [|apply nth_error_None in Ec; lia]. destruct (I i c Ec) as [_ G]. destruct (g_declared _ _ _ _ G s H) as [m [M1 [M2 M3]]].
  exists c, m. auto.
Qed.

(** C31. Class [i] is not an interface and has the class [j] among its superclasses; [m] is the method object of a virtual
    method [s] declared by [j]. Dispatching [m] on an instance of [i] runs the code of the class nearest to [i], going up
    the superclasses, that declares [s]. *)
Theorem C31_virtual : forall ds order w i j ci cj m,
  wellFormed ds -> enumerates order -> loadAll order [] ds = Some w ->
  nth_error w i = Some ci -> isInterface (def ci) = false -> nth_error w j = Some cj -> superclass ds i j ->
  In m (methods cj) -> mvirtual m = true -> declares ds j (sig m) ->
  exists x, findVirtualMethod w m i = Some x /\ sig x = sig m /\ selects ds i (sig m) (origin x).
Proof.
  intros ds order w i j ci cj m WF OK E Ei Ii Ej S M V D. destruct (loaded ds WF order OK) as [w0 [E0 [I L]]]. rewrite E in E0. inversion E0; subst w0. clear E0.
  destruct (I i ci Ei) as [Edi Gi]. destruct (I j cj Ej) as [Edj Gj].
  assert (P : forall a b, superclass ds a b -> forall ca cb, nth_error w a = Some ca -> isInterface (def ca) = false -> nth_error w b = Some cb -> isInterface (def cb) = false /\ exists r, map sig (vt ca) = map sig (vt cb) ++ r).
  { clear - WF I L. intros a b H. induction H as [a | a d p b Ed Sp H IH]; intros ca cb Ea Ia Eb.
    - rewrite Ea in Eb. inversion Eb; subst. split; [assumption|]. exists []. rewrite app_nil_r. reflexivity.
    - destruct (I a ca Ea) as [Ed' G]. rewrite Ed in Ed'. inversion Ed'; subst d. destruct (super_class ds WF _ _ _ Ed Sp) as [Lp [cp [Ep Ip]]].
      destruct (nth_error w p) as [kp|] eqn:Kp; [|apply nth_error_None in Kp; assert (a < length w) by (apply nth_error_Some; congruence); lia].
      destruct (I p kp Kp) as [Edp _]. rewrite Ep in Edp. inversion Edp; subst cp. destruct (IH kp cb eq_refl Ip Eb) as [Q [r Hr]]. split; [exact Q|].
      destruct (g_super _ _ _ _ G p Ia Sp) as [r' Hr']. rewrite (find_vtable_eq _ _ _ Kp) in Hr'. exists (r ++ r'). rewrite Hr', Hr, app_assoc. reflexivity. }
  destruct (P i j S ci cj Ei Ii Ej) as [Ij [r Hr]]. destruct (g_methods _ _ _ _ Gj m M) as [_ Q]. specialize (Q V).
  assert (N : nth_error (map sig (vt ci)) (offset m) = Some (sig m)). { rewrite Hr, nth_error_app1 by (rewrite map_length; apply nth_error_Some; congruence). rewrite nth_error_map, Q. reflexivity. }
  rewrite nth_error_map in N. destruct (nth_error (vt ci) (offset m)) as [x|] eqn:X; [|discriminate]. inversion N as [Sx]. exists x. unfold findVirtualMethod. rewrite (find_vtable_eq _ _ _ Ei).
  split; [exact X|]. split; [reflexivity|]. destruct (g_class _ _ _ _ Gi Ii x (nth_error_In _ _ X)) as [H | [H _]]; [exact H|].
  exfalso. assert (Z : exists e, selects ds i (sig x) e); [|destruct Z as [e Z]; exact (H e Z)]. rewrite Sx. clear - S D WF. induction S as [a | a d p b Ed Sp H IH]; [exists a; constructor; exact D|].
  destruct (IH D) as [e He]. destruct (in_dec Nat.eq_dec (sig m) (vsigs (decls d))) as [Y | Y].
  - exists a. constructor. apply (declares_vsigs ds a d); assumption.
  - exists e. eapply selects_super; eauto. intros Z. apply Y. apply (declares_vsigs ds a d); assumption.
Qed.

(** The table of a subclass begins with the signatures of the superclass's table: indices never change. *)
Theorem C31_indices_stable : forall ds order w i j ci cj k x,
  wellFormed ds -> enumerates order -> loadAll order [] ds = Some w ->
  nth_error w i = Some ci -> isInterface (def ci) = false -> nth_error w j = Some cj -> super (def ci) = Some j ->
  nth_error (find_vtable w j) k = Some x -> exists y, nth_error (find_vtable w i) k = Some y /\ sig y = sig x /\ offset y = k /\ offset x = k.
Proof.
  intros ds order w i j ci cj k x WF OK E Ei Ii Ej S X. destruct (loaded ds WF order OK) as [w0 [E0 [I L]]]. rewrite E in E0. inversion E0; subst w0.
  destruct (I i ci Ei) as [Edi Gi]. destruct (I j cj Ej) as [Edj Gj]. destruct (g_super _ _ _ _ Gi j Ii S) as [r Hr].
  assert (N : nth_error (map sig (vt ci)) k = Some (sig x)). { rewrite Hr, nth_error_app1 by (rewrite map_length; apply nth_error_Some; congruence). rewrite nth_error_map, X. reflexivity. }
  rewrite nth_error_map in N. destruct (nth_error (vt ci) k) as [y|] eqn:Y; [|discriminate]. injection N as Sy. exists y. rewrite (find_vtable_eq _ _ _ Ei). rewrite (find_vtable_eq _ _ _ Ej) in X.
  split; [exact Y|]. split; [exact Sy|]. split; [apply (g_indexed _ _ _ _ Gi); exact Y | apply (g_indexed _ _ _ _ Gj); exact X].
Qed.

(** Interface dispatch: [m] is a method object of an interface [k] that the class [i] implements. The code run is that of
    the nearest superclass declaring the method; if none does, that of some interface of [i] declaring it. *)
Theorem C31_interface : forall ds order w i k ci ck m,
  wellFormed ds -> enumerates order -> loadAll order [] ds = Some w ->
  nth_error w i = Some ci -> isInterface (def ci) = false -> nth_error w k = Some ck -> isInterface (def ck) = true -> below ds i k ->
  In m (methods ck) -> mvirtual m = true ->
  exists x, findInterfaceMethod w m i = Some x /\ sig x = sig m /\
    (selects ds i (sig m) (origin x) \/
     ((forall e, ~ selects ds i (sig m) e) /\ interfaceClass ds (origin x) /\ below ds i (origin x) /\ declares ds (origin x) (sig m))).
Proof.
  intros ds order w i k ci ck m WF OK E Ei Ii Ek Ik B M V. destruct (loaded ds WF order OK) as [w0 [E0 [I L]]]. rewrite E in E0. inversion E0; subst w0. clear E0.
  destruct (I i ci Ei) as [Edi Gi]. destruct (I k ck Ek) as [Edk Gk]. destruct (g_methods _ _ _ _ Gk m M) as [MC Q]. specialize (Q V).
  assert (K : In k (map fst (itable ci))). { apply (g_itable _ _ _ _ Gi). split; [exists (def ck); auto|]. split; [exact B|]. intros ->. congruence. }
  unfold findInterfaceMethod. rewrite Ei, MC. destruct (find (fun p => Nat.eqb (fst p) k) (itable ci)) as [[k' l]|] eqn:F.
  - apply find_some in F. destruct F as [F1 F2]. apply Nat.eqb_eq in F2. cbn in F2. subst k'. pose proof (g_itables _ _ _ _ Gi Ii k l F1) as F3. rewrite (find_vtable_eq _ _ _ Ek) in F3.
    assert (T : forall (a b : list meth) n x, Forall2 (fun x y => sig x = sig y /\ In y (vt ci)) a b -> nth_error a n = Some x -> exists y, nth_error b n = Some y /\ sig x = sig y /\ In y (vt ci)).
    { clear. intros a b n x H. revert n. induction H as [|p q a b H0 H IH]; intros n Hn; [destruct n; discriminate|]. destruct n as [|n]; cbn in *; [inversion Hn; subst; eauto | auto]. }
    destruct (T _ _ _ _ F3 Q) as [y [Y1 [Y2 Y3]]]. exists y. split; [exact Y1|]. split; [auto|]. rewrite Y2. exact (g_class _ _ _ _ Gi Ii y Y3).
  - exfalso. apply in_map_iff in K. destruct K as [p [P1 P2]]. pose proof (find_none _ _ F p P2) as X. cbn in X. rewrite P1, Nat.eqb_refl in X. discriminate.
Qed.

(** C32. On known types, isAssignableFrom(a, b) answers, and answers true exactly if b is a subtype of a. *)
Theorem C32_assignable : forall ds order w serializable cloneable a b,
  wellFormed ds -> enumerates order -> loadAll order [] ds = Some w ->
  plain ds serializable -> plain ds cloneable -> known ds a -> known ds b ->
  exists r, isAssignableFrom w serializable cloneable a b = Some r /\ (r = true <-> subtype ds serializable cloneable b a).
Proof.
  intros ds order w ser clo a b WF OK E P1 P2 Ka Kb. destruct (loaded ds WF order OK) as [w0 [E0 [I L]]]. rewrite E in E0. inversion E0; subst w0. apply assignable; assumption.
Qed.

(** ** C75 refuted: the default method of the most specific interface is not always the one that runs. *)
Definition obj := Def false None [] [Dec 0 true].
(** 1: interface I { default m }   2: interface J extends I { default m }   3: class S implements I
    4: class C extends S implements J *)
Definition ex75 : list cdef :=
  [obj; Def true (Some 0) [] [Dec 7 true]; Def true (Some 0) [1] [Dec 7 true]; Def false (Some 0) [1] []; Def false (Some 3) [2] []].
Ltac nodup_tac := first [apply NoDup_nil | apply NoDup_cons; [cbn; intuition discriminate | nodup_tac]].
Lemma ex75_wf : wellFormed ex75.
Proof.
  intros i d E. do 5 (destruct i as [|i]; [cbn in E; inversion E; subst d; clear E; cbn; split; [nodup_tac|];
    split; [intros; try discriminate; auto|]; split; [intros; first [lia | eexists _, _; split; [reflexivity|]; split; [lia|]; split; reflexivity]|]; split; [intros; first [discriminate | reflexivity]|];
    intros k Hk; cbn in Hk; repeat (destruct Hk as [<- | Hk]; [split; [lia|]; eexists; split; reflexivity|]); destruct Hk |]). destruct i; discriminate.
Qed.
Theorem C75_default_method_refuted : exists ds order w i k m x,
  wellFormed ds /\ enumerates order /\ loadAll order [] ds = Some w /\ below ds i k /\
  (exists ck, nth_error w k = Some ck /\ In m (methods ck)) /\ (forall e, ~ selects ds i (sig m) e) /\
  mostSpecific ds i (sig m) k /\ findInterfaceMethod w m i = Some x /\ origin x <> k.
Proof.
  set (w := match loadAll (fun l => l) [] ex75 with Some w => w | None => [] end).
  exists ex75, (fun l => l), w, 4, 2, (Met 7 2 0 2 true), (Met 7 3 1 1 true).
  assert (D : forall k s, declares ex75 k s -> s = 7 -> k = 1 \/ k = 2).
  { intros k s [d [E H]] ->. do 5 (destruct k as [|k]; [cbn in E; inversion E; subst d; cbn in H; intuition discriminate|]). destruct k; discriminate. }
  split; [exact ex75_wf|]. split; [intros l; apply Permutation_refl|]. split; [reflexivity|].
  assert (B : below ex75 4 2). { apply (below_step _ _ 2); [|constructor]. eexists; split; [reflexivity|]. cbn. auto. }
  split; [exact B|]. split; [exists (nth 2 w (Cls obj [] None [])); split; [reflexivity | vm_compute; auto]|]. split.
  { intros e H. cbn in H. inversion H as [? ? Q | ? d p ? ? Q1 Q2 Q3 Q4]; subst; [apply D in Q; [intuition discriminate | reflexivity]|]. cbn in Q2. inversion Q2; subst d. cbn in Q3. inversion Q3; subst p. clear - Q4 D.
    inversion Q4 as [? ? Q | ? d p ? ? Q1 Q2 Q3 Q5]; subst; [apply D in Q; [intuition discriminate | reflexivity]|]. cbn in Q2. inversion Q2; subst d. cbn in Q3. inversion Q3; subst p. clear - Q5 D.
    inversion Q5 as [? ? Q | ? d p ? ? Q1 Q2 Q3 Q6]; subst; [apply D in Q; [intuition discriminate | reflexivity]|]. cbn in Q2. inversion Q2; subst d. cbn in Q3. discriminate. }
  split.
  { split; [eexists; split; reflexivity|]. split; [exact B|]. split; [eexists; split; [reflexivity | cbn; auto]|]. cbn. intros k' _ _ H. apply D in H; [|reflexivity].
    destruct H as [-> | ->]; [|constructor]. apply (below_step _ _ 1); [|constructor]. eexists; split; [reflexivity|]. cbn. auto. }
  split; [reflexivity | discriminate].
Qed.

(** ** C76 refuted: a package-private method is overridden by a class of another package. The class file's access flags do
    not enter the tables; [package] and [packagePrivate] are what the class files say. JVMS 5.4.5: a method of a subclass
    overrides a package-private method only inside the package (or through an overriding method in between). *)
Theorem C76_package_private_refuted : exists ds order w (package : nat -> nat) (packagePrivate : nat -> nat -> bool) i j m x,
  wellFormed ds /\ enumerates order /\ loadAll order [] ds = Some w /\
  (exists d, nth_error ds i = Some d /\ super d = Some j) /\
  (exists cj, nth_error w j = Some cj /\ In m (methods cj)) /\ packagePrivate j (sig m) = true /\ package i <> package j /\
  findVirtualMethod w m i = Some x /\ origin x = i.
Proof.
  set (ds := [obj; Def false (Some 0) [] [Dec 7 true]; Def false (Some 1) [] [Dec 7 true]]).
  set (w := match loadAll (fun l => l) [] ds with Some w => w | None => [] end).
  exists ds, (fun l => l), w, (fun i => i), (fun i _ => Nat.eqb i 1), 2, 1, (Met 7 1 1 1 true), (Met 7 2 1 2 true).
  split.
  { intros i d E. do 3 (destruct i as [|i]; [cbn in E; inversion E; subst d; clear E; cbn; split; [nodup_tac|];
    split; [intros; try discriminate; auto|]; split; [intros; first [lia | eexists _, _; split; [reflexivity|]; split; [lia|]; split; reflexivity]|]; split; [intros; first [discriminate | reflexivity]|];
    intros k Hk; destruct Hk |]). destruct i; discriminate. }
  split; [intros l; apply Permutation_refl|]. split; [reflexivity|]. split; [eexists; split; reflexivity|]. split; [exists (nth 1 w (Cls obj [] None [])); split; [reflexivity | vm_compute; auto]|].
  split; [reflexivity|]. split; [discriminate|]. split; reflexivity.
Qed.

(** ** Not vacuous *)
(** Object { hashCode; toString }, Serializable, Cloneable, I { m; n }, J extends I, Serializable { p },
    A implements J { m; static s }, B extends A { n; hashCode } *)
Definition ex : list cdef :=
  [Def false None [] [Dec 0 true; Dec 1 true]; Def true (Some 0) [] []; Def true (Some 0) [] []; Def true (Some 0) [] [Dec 2 true; Dec 3 true];
   Def true (Some 0) [3; 1] [Dec 4 true]; Def false (Some 0) [4] [Dec 2 true; Dec 9 false]; Def false (Some 5) [] [Dec 3 true; Dec 0 true]].
Example ex_wf : wellFormed ex /\ plain ex 1 /\ plain ex 2.
Proof.
  split; [|split; eexists; split; reflexivity || (split; reflexivity)].
  intros i d E. do 7 (destruct i as [|i]; [cbn in E; inversion E; subst d; clear E; cbn; split; [nodup_tac|];
    split; [intros; try discriminate; auto|]; split; [intros; first [lia | eexists _, _; split; [reflexivity|]; split; [lia|]; split; reflexivity]|]; split; [intros; first [discriminate | reflexivity]|];
    intros k Hk; cbn in Hk; repeat (destruct Hk as [<- | Hk]; [split; [lia|]; eexists; split; reflexivity|]); destruct Hk |]). destruct i; discriminate.
Qed.
Definition ex_w : world := match loadAll (@rev nat) [] ex with Some w => w | None => [] end.
Example ex_order : enumerates (@rev nat).
Proof. intros l. apply Permutation_sym, Permutation_rev. Qed.
Example ex_loads : loadAll (@rev nat) [] ex = Some ex_w /\ map (fun m => (sig m, origin m)) (find_vtable ex_w 6) = [(0, 6); (1, 0); (2, 5); (3, 6); (4, 4)].
Proof. split; vm_compute; reflexivity. Qed.
Example ex_dispatch : option_map origin (findVirtualMethod ex_w (Met 2 5 2 5 true) 6) = Some 5 /\ In (Met 2 5 2 5 true) (methods (nth 5 ex_w (Cls obj [] None []))) /\
  option_map origin (findInterfaceMethod ex_w (Met 3 4 2 3 true) 6) = Some 6 /\ In (Met 3 4 2 3 true) (methods (nth 4 ex_w (Cls obj [] None []))).
Proof. vm_compute. repeat split; auto 10. Qed.
Example ex_assign : isAssignableFrom ex_w 1 2 (TArray (TClass 1)) (TArray (TClass 6)) = Some true /\ isAssignableFrom ex_w 1 2 (TClass 2) (TArray (TPrim 0)) = Some true /\
  isAssignableFrom ex_w 1 2 (TClass 6) (TClass 5) = Some false.
Proof. vm_compute. repeat split. Qed.

Definition hier_theorems := (C31_loads, C31_virtual, C31_indices_stable, C31_interface, C32_assignable, C75_default_method_refuted, C76_package_private_refuted).
Print Assumptions hier_theorems.
