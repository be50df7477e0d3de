(** * Resolution of fields and methods *)
From Verif Require Import Base Hier_Model Hier_Spec Hier_Tables Hier_Proofs Hier_Props Resolve_Model Resolve_Spec Resolve_Proofs.

(** A field reference is resolved to the field the specification names, if the class itself declares the field; or no interface of
    the class does; or the class is not an interface, none of its superclasses declares the field and at most one of its
    interfaces does. Object has no fields. *)
Theorem field_resolution : forall ds fields order w i d f,
  wellFormed ds -> enumerates order -> loadAll order [] ds = Some w -> fields 0 = [] -> nth_error ds i = Some d ->
  declaresField ds fields i f \/ (forall k, ~ interfaceField ds fields i f k) \/ (isInterface d = false /\ constantOnly ds fields i f) ->
  findField w fields i f = fieldOf ds fields (length ds) i f.
Proof.
  intros ds fields order w i d f WF OK E NF Ed H. destruct (loaded ds WF order OK) as [w0 [E0 [I L]]]. rewrite E in E0. injection E0 as <-.
  apply (findField_ok ds WF w I L fields NF i d f Ed). destruct H as [[_ H] | H]; auto.
Qed.
(** In any case, the answer is a field of that name, of the class, a superclass or an interface of it. *)
Theorem field_resolution_sound : forall ds fields order w i f e,
  wellFormed ds -> enumerates order -> loadAll order [] ds = Some w -> i < length ds ->
  findField w fields i f = Some e -> below ds i e /\ declaresField ds fields e f.
Proof.
  intros ds fields order w i f e WF OK E Hi H. destruct (loaded ds WF order OK) as [w0 [E0 [I L]]]. rewrite E in E0. injection E0 as <-.
  exact (findField_sound ds WF w I L fields i f e Hi H).
Qed.
(** JNI finds the same field, except that the class itself may not declare the field if an interface does. *)
Theorem jni_field_resolution_partial : forall ds fields order w i d f,
  wellFormed ds -> enumerates order -> loadAll order [] ds = Some w -> fields 0 = [] -> nth_error ds i = Some d ->
  (forall k, ~ interfaceField ds fields i f k) \/ (isInterface d = false /\ constantOnly ds fields i f) ->
  resolveFieldByName w fields i f = fieldOf ds fields (length ds) i f.
Proof.
  intros ds fields order w i d f WF OK E NF Ed H. destruct (loaded ds WF order OK) as [w0 [E0 [I L]]]. rewrite E in E0. injection E0 as <-.
  exact (resolveFieldByName_ok ds WF w I L fields NF i d f Ed H).
Qed.

(** From a symbolic reference to the code that runs, for invokevirtual: class [i] is not an interface. The reference is resolved exactly
    if [i], a superclass or an interface of it declares the method; and for an instance of any subclass [r] of [i], the code
    that runs is that of the nearest superclass of [r] that declares the method, or else of an interface of [r] that does. *)
Theorem invokevirtual_runs : forall ds order w i c s,
  wellFormed ds -> enumerates order -> loadAll order [] ds = Some w -> nth_error w i = Some c -> isInterface (def c) = false -> onlyVirtual ds i s ->
  (hasMethod ds i s <-> findMethod w i s <> None) /\
  forall m r cr, findMethod w i s = Some m -> nth_error w r = Some cr -> isInterface (def cr) = false -> superclass ds r i ->
    exists x, findVirtualMethod w m r = Some x /\ sig x = s /\ rightCode ds r s (origin x).
Proof.
  intros ds order w i c s WF OK E Ec Ic OV. destruct (loaded ds WF order OK) as [w0 [E0 [I L]]]. rewrite E in E0. injection E0 as <-. split.
  - split; [intros H; destruct (findMethod_exists ds WF w I L i c s Ec Ic H) as [m ->]; discriminate|]. destruct (findMethod w i s) as [m|] eqn:M; [|congruence]. intros _.
    apply (findMethod_class ds WF w I L i c s m Ec Ic OV M).
  - intros m r cr M Er Ir SR. destruct (findMethod_class ds WF w I L i c s m Ec Ic OV M) as [_ [_ [_ H]]]. exact (H r cr Er Ir SR).
Qed.
(** The same for invokeinterface, with the interface [k] or one that it extends declaring the method, and class [i] implementing [k]. *)
Theorem invokeinterface_runs : forall ds order w k ck s,
  wellFormed ds -> enumerates order -> loadAll order [] ds = Some w -> nth_error w k = Some ck -> isInterface (def ck) = true ->
  (exists k', interfaceClass ds k' /\ below ds k k' /\ declares ds k' s) ->
  exists m, findMethod w k s = Some m /\ sig m = s /\
    forall i ci, nth_error w i = Some ci -> isInterface (def ci) = false -> below ds i k ->
      exists x, findInterfaceMethod w m i = Some x /\ sig x = s /\ rightCode ds i s (origin x).
Proof.
  intros ds order w k ck s WF OK E Ek Ik H. destruct (loaded ds WF order OK) as [w0 [E0 [I L]]]. pose proof E as E1. rewrite E in E0. injection E0 as <-.
  destruct (findMethod_interface ds w I k ck s Ek Ik H) as [m [M1 [M2 [M3 M4]]]]. exists m. split; [exact M1|]. split; [exact M2|]. intros i ci Ei Ii B.
  destruct (C31_interface ds order w i k ci ck m WF OK E1 Ei Ii Ek Ik B M3 M4) as [x [X1 [X2 X3]]]. exists x. rewrite M2 in *. auto.
Qed.

(** *** Not vacuous: the hierarchy [ex] of Hier_Props, with fields 20 in I, 21 in A, 22 in B and A *)
Definition exFields (i : nat) : list nat := nth i [[]; []; []; [20]; []; [21; 22]; [22]] [].
Example ex_resolves : findField ex_w exFields 6 20 = Some 3 /\ findField ex_w exFields 6 21 = Some 5 /\ findField ex_w exFields 6 22 = Some 6 /\ findField ex_w exFields 6 23 = None /\
  resolveFieldByName ex_w exFields 6 20 = Some 3 /\ option_map mclass (findMethod ex_w 6 4) = Some 5 /\ option_map origin (findMethod ex_w 6 4) = Some 4 /\ option_map mclass (findMethod ex_w 4 3) = Some 4 /\ findMethod ex_w 6 77 = None.
Proof. vm_compute. repeat split. Qed.
Example ex_hypotheses : nth_error ex 6 = Some (Def false (Some 5) [] [Dec 3 true; Dec 0 true]) /\ declaresField ex exFields 6 22 /\ (forall k, ~ interfaceField ex exFields 6 21 k) /\ constantOnly ex exFields 6 20 /\
  onlyVirtual ex 6 4 /\ hasMethod ex 6 4.
Proof.
  assert (F : forall k f, declaresField ex exFields k f -> f = 20 /\ k = 3 \/ f = 21 /\ k = 5 \/ f = 22 /\ (k = 5 \/ k = 6)).
  { intros k f [_ H]. do 7 (destruct k as [|k]; [cbn in H; intuition lia|]). cbn in H. destruct k; destruct H. }
  split; [reflexivity|]. split; [split; cbn; auto|]. split; [intros k [[d [E1 E2]] [_ H]]; apply F in H; destruct H as [[H _] | [[_ ->] | [H _]]]; try discriminate; cbn in E1; injection E1 as <-; discriminate|]. split.
  - split; [|intros k k' [_ [_ H]] [_ [_ H']]; apply F in H, H'; intuition lia]. intros j H D. apply F in D. assert (j = 3) as -> by intuition lia.
    inversion H as [| ? d p ? E1 E2 H1]; subst; clear H. cbn in E1. injection E1 as <-. cbn in E2. injection E2 as <-. inversion H1 as [| ? d p ? E1 E2 H2]; subst; clear H1. cbn in E1. injection E1 as <-. cbn in E2. injection E2 as <-.
    inversion H2 as [| ? d p ? E1 E2 H3]; subst; clear H2. cbn in E1. injection E1 as <-. discriminate.
  - split; [intros j d _ E H; do 7 (destruct j as [|j]; [cbn in E; injection E as <-; cbn in H; intuition discriminate|]); cbn in E; destruct j; discriminate|].
    right. exists 4. split; [eexists; split; reflexivity|]. split; [|eexists; split; [reflexivity | cbn; auto]]. apply (below_step _ _ 5); [eexists; split; [reflexivity | cbn; auto]|]. apply (below_step _ _ 4); [eexists; split; [reflexivity | cbn; auto]|constructor].
Qed.

(** *** What is not so *)
Ltac wf_tac := intros i d E; repeat (destruct i as [|i]; [cbn in E; inversion E; subst d; clear E; cbn; split; [nodup_tac|];
    split; [intros; try discriminate; auto|]; split; [intros; first [lia | eexists _, _; split; [reflexivity|]; split; [lia|]; split; reflexivity]|]; split; [intros; first [discriminate | reflexivity]|];
    intros k Hk; cbn in Hk; repeat (destruct Hk as [<- | Hk]; [split; [lia|]; eexists; split; reflexivity|]); destruct Hk |]); destruct i; discriminate E.
Definition worldOf (order : list nat -> list nat) (ds : list cdef) : world := match loadAll order [] ds with Some w => w | None => [] end.
Lemma id_order : enumerates (fun l => l).
Proof. intros l. apply Permutation_refl. Qed.
(** A field reference naming an interface that extends two others: only every second one is looked into.
    1: interface I   2: interface J { 7 }   3: interface K extends I, J *)
Theorem superinterface_field_refuted : exists ds fields order, wellFormed ds /\ enumerates order /\ fields 0 = [] /\
  findField (worldOf order ds) fields 3 7 = None /\ resolveFieldByName (worldOf order ds) fields 3 7 = None /\ fieldOf ds fields (length ds) 3 7 = Some 2.
Proof.
  exists [obj; Def true (Some 0) [] []; Def true (Some 0) [] []; Def true (Some 0) [1; 2] []], (fun i => if Nat.eqb i 2 then [7] else []), (fun l => l).
  split; [wf_tac|]. split; [exact id_order|]. vm_compute. auto.
Qed.
(** The field of an interface may be found although an interface in between hides it.
    1: interface I { 7 }   2: interface J extends I { 7 }   3: class C implements J *)
Theorem hidden_field_refuted : exists ds fields order, wellFormed ds /\ enumerates order /\ fields 0 = [] /\
  findField (worldOf order ds) fields 3 7 = Some 1 /\ fieldOf ds fields (length ds) 3 7 = Some 2.
Proof.
  exists [obj; Def true (Some 0) [] []; Def true (Some 0) [1] []; Def false (Some 0) [2] []], (fun i => if Nat.eqb i 2 || Nat.eqb i 1 then [7] else []), (@rev nat).
  split; [wf_tac|]. split; [exact ex_order|]. vm_compute. auto.
Qed.
(** The superclass is searched before the interfaces of the class.
    1: interface I { 7 }   2: class B { 7 }   3: class C extends B implements I *)
Theorem superclass_field_first_refuted : exists ds fields order, wellFormed ds /\ enumerates order /\ fields 0 = [] /\
  findField (worldOf order ds) fields 3 7 = Some 2 /\ fieldOf ds fields (length ds) 3 7 = Some 1.
Proof.
  exists [obj; Def true (Some 0) [] []; Def false (Some 0) [] []; Def false (Some 2) [1] []], (fun i => if Nat.eqb i 2 || Nat.eqb i 1 then [7] else []), (fun l => l).
  split; [wf_tac|]. split; [exact id_order|]. vm_compute. auto.
Qed.
(** JNI's GetFieldID gives the field of an interface although the class itself declares one.
    1: interface I { 7 }   2: class C implements I { 7 } *)
Theorem jni_own_field_refuted : exists ds fields order, wellFormed ds /\ enumerates order /\ fields 0 = [] /\
  resolveFieldByName (worldOf order ds) fields 2 7 = Some 1 /\ fieldOf ds fields (length ds) 2 7 = Some 2 /\ findField (worldOf order ds) fields 2 7 = Some 2.
Proof.
  exists [obj; Def true (Some 0) [] []; Def false (Some 0) [1] []], (fun i => if Nat.eqb i 2 || Nat.eqb i 1 then [7] else []), (fun l => l).
  split; [wf_tac|]. split; [exact id_order|]. vm_compute. auto.
Qed.
(** invokeinterface of a method of Object (JVMS 5.4.3.4 finds it there) aborts.  1: interface I   2: class C implements I *)
Theorem object_method_of_interface_refuted : exists ds order m, wellFormed ds /\ enumerates order /\ below ds 2 1 /\ selects ds 2 0 0 /\
  findMethod (worldOf order ds) 1 0 = Some m /\ sig m = 0 /\ findInterfaceMethod (worldOf order ds) m 2 = None /\ option_map origin (findVirtualMethod (worldOf order ds) m 2) = Some 0.
Proof.
  exists [obj; Def true (Some 0) [] []; Def false (Some 0) [1] []], (fun l => l), (Met 0 0 0 0 true).
  split; [wf_tac|]. split; [exact id_order|]. split; [apply (below_step _ _ 1); [eexists; split; [reflexivity | cbn; auto]|constructor]|]. split; [|vm_compute; auto 6].
  eapply selects_super; [intros [d [E H]]; cbn in E; injection E as <-; destruct H | reflexivity | reflexivity | constructor; eexists; split; [reflexivity | cbn; auto]].
Qed.

Definition resolve_theorems := (field_resolution, field_resolution_sound, jni_field_resolution_partial, invokevirtual_runs, invokeinterface_runs, superinterface_field_refuted, hidden_field_refuted,
  superclass_field_first_refuted, jni_own_field_refuted, object_method_of_interface_refuted).
Print Assumptions resolve_theorems.
