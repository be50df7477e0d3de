(** Proofs about resolution. *)
From Verif Require Import Base Hier_Model Hier_Spec Hier_Tables Hier_Proofs Resolve_Model Resolve_Spec.

Section Proofs.
Variable ds : list cdef.
Hypothesis WF : wellFormed ds.
Variable w : world.
Hypothesis I : inv ds w.
Hypothesis L : length w = length ds.
Lemma at_w : forall i d, nth_error ds i = Some d -> exists c, nth_error w i = Some c /\ def c = d /\ good ds w i c.
Proof.
  intros i d E. destruct (nth_error w i) as [c|] eqn:Ec; [|apply nth_error_None in Ec; assert (i < length ds) by (apply nth_error_Some; congruence); lia].
  exists c. destruct (I i c Ec) as [X G]. split; [reflexivity|]. split; [congruence | exact G].
Qed.
Lemma superclass_trans : forall i j k, superclass ds i j -> superclass ds j k -> superclass ds i k.
Proof. intros i j k H K. induction H; [exact K|]. econstructor; eauto. Qed.

(** *** Fields *)
Section Fields.
Variable fields : nat -> list nat.
Lemma findFieldInClass_some : forall c f r, findFieldInClass fields c f = Some r -> r = c /\ In f (fields c).
Proof. intros c f r. unfold findFieldInClass. destruct (existsb (Nat.eqb f) (fields c)) eqn:E; [|discriminate]. intros [= <-]. split; [reflexivity|]. apply existsb_exists in E. destruct E as [x [E1 E2]]. apply Nat.eqb_eq in E2. subst. exact E1. Qed.
Lemma findFieldInClass_in : forall c f, In f (fields c) -> findFieldInClass fields c f = Some c.
Proof. intros c f H. unfold findFieldInClass. replace (existsb (Nat.eqb f) (fields c)) with true; [reflexivity|]. symmetry. apply existsb_exists. exists f. split; [exact H | apply Nat.eqb_refl]. Qed.
Lemma findFieldInClass_none : forall c f, ~ In f (fields c) -> findFieldInClass fields c f = None.
Proof. intros c f H. destruct (findFieldInClass fields c f) as [r|] eqn:E; [|reflexivity]. apply findFieldInClass_some in E. tauto. Qed.

Lemma upwards_sound : forall n i f r, i < length ds -> upwards w (fun c => findFieldInClass fields c f) n i = Some r -> superclass ds i r /\ declaresField ds fields r f.
Proof.
  induction n as [|n IH]; intros i f r Hi H; cbn [upwards] in H; [discriminate|]. destruct (findFieldInClass fields i f) as [x|] eqn:E.
  - injection H as <-. apply findFieldInClass_some in E. destruct E as [-> E]. split; [constructor | split; assumption].
  - destruct (nth_error ds i) as [d|] eqn:Ed; [|apply nth_error_None in Ed; lia]. destruct (at_w i d Ed) as [c [Ec [Dc _]]]. rewrite Ec, Dc in H. destruct (super d) as [p|] eqn:Sp; [|discriminate].
    destruct (super_class ds WF _ _ _ Ed Sp) as [Lp _]. destruct (IH p f r ltac:(lia) H) as [A B]. split; [econstructor; eauto | exact B].
Qed.

Lemma firstOf_some : forall {A B} (g : A -> option B) l r, firstOf g l = Some r -> exists x, In x l /\ g x = Some r.
Proof. intros A B g l r. induction l as [|x l IH]; cbn; [discriminate|]. destruct (g x) eqn:E; [intros [= <-]; eauto|]. intros H. destruct (IH H) as [y [Y1 Y2]]. eauto. Qed.
Lemma firstOf_none : forall {A B} (g : A -> option B) l, (forall x, In x l -> g x = None) -> firstOf g l = None.
Proof. intros A B g l H. induction l as [|x l IH]; cbn; [reflexivity|]. rewrite (H x) by (left; reflexivity). apply IH. intros y Hy. apply H. right. exact Hy. Qed.

Hypothesis noObjectFields : fields 0 = [].
Lemma fieldOf_here : forall n i f, i < length ds -> In f (fields i) -> fieldOf ds fields (S n) i f = Some i.
Proof.
  intros n i f H F. cbn. destruct (nth_error ds i) eqn:E; [|apply nth_error_None in E; lia]. pose proof (findFieldInClass_in i f F) as X. unfold findFieldInClass in X.
  destruct (existsb (Nat.eqb f) (fields i)); [reflexivity | discriminate].
Qed.
Lemma fieldOf_away : forall n i d f, nth_error ds i = Some d -> ~ In f (fields i) ->
  fieldOf ds fields (S n) i f = match firstOf (fun k => fieldOf ds fields n k f) (ifaces d) with Some e => Some e | None => match super d with Some p => fieldOf ds fields n p f | None => None end end.
Proof.
  intros n i d f E F. cbn. rewrite E. pose proof (findFieldInClass_none i f F) as X. unfold findFieldInClass in X. destruct (existsb (Nat.eqb f) (fields i)); [discriminate | reflexivity].
Qed.
Lemma object_none : forall n f, fieldOf ds fields n 0 f = None.
Proof.
  intros [|n] f; [reflexivity|]. destruct (nth_error ds 0) as [d|] eqn:E; [|cbn [fieldOf]; rewrite E; reflexivity]. rewrite (fieldOf_away n 0 d) by (assumption || (rewrite noObjectFields; intros [])).
  destruct (WF 0 d E) as [_ [W0 _]]. destruct (W0 eq_refl) as [_ [-> ->]]. reflexivity.
Qed.
Lemma fieldOf_sound : forall n i f e, i < length ds -> fieldOf ds fields n i f = Some e ->
  declaresField ds fields e f /\ below ds i e /\ (superclass ds i e \/ interfaceClass ds e) /\ (interfaceClass ds i -> interfaceClass ds e).
Proof.
  induction n as [|n IH]; intros i f e Hi H; [discriminate|]. destruct (in_dec Nat.eq_dec f (fields i)) as [F | F].
  - rewrite fieldOf_here in H by assumption. injection H as <-. split; [split; assumption|]. split; [constructor|]. split; [left; constructor | auto].
  - destruct (nth_error ds i) as [d|] eqn:Ed; [|apply nth_error_None in Ed; lia]. rewrite (fieldOf_away n i d f Ed F) in H. destruct (WF i d Ed) as [_ [_ [_ [W2 W3]]]].
    destruct (firstOf (fun k => fieldOf ds fields n k f) (ifaces d)) as [x|] eqn:X.
    + injection H as <-. apply firstOf_some in X. destruct X as [k [K1 K2]]. destruct (W3 k K1) as [Lk [ck [C1 C2]]]. assert (IK : interfaceClass ds k) by (exists ck; auto).
      destruct (IH k f x ltac:(lia) K2) as [A [B [_ D]]]. split; [exact A|]. split; [apply (below_step ds i k); [exists d; auto | exact B]|]. split; [right; auto | auto].
    + destruct (super d) as [p|] eqn:Sp; [|discriminate]. destruct (super_class ds WF _ _ _ Ed Sp) as [Lp _]. destruct (IH p f e ltac:(lia) H) as [A [B [C D]]].
      split; [exact A|]. split; [apply (below_step ds i p); [exists d; auto | exact B]|]. split; [destruct C as [C | C]; [left; econstructor; eauto | right; exact C]|].
      intros [d' [E1 E2]]. rewrite Ed in E1. injection E1 as <-. specialize (W2 E2). injection W2 as ->. rewrite object_none in H. discriminate.
Qed.
Lemma fieldOf_complete : forall n i f k, i < n -> below ds i k -> declaresField ds fields k f -> fieldOf ds fields n i f <> None.
Proof.
  induction n as [|n IH]; intros i f k Hi B D; [lia|]. destruct (in_dec Nat.eq_dec f (fields i)) as [F | F].
  - assert (i < length ds). { destruct D as [D1 D2]. destruct (Nat.eq_dec k i) as [-> | N]; [exact D1|]. destruct (below_inv ds _ _ B N) as [j [[d [J _]] _]]. apply nth_error_Some. congruence. }
    rewrite fieldOf_here by assumption. discriminate.
  - assert (N : k <> i) by (intros ->; apply F, D). destruct (below_inv ds _ _ B N) as [j [Dj Bj]]. pose proof (direct_lt ds WF _ _ Dj) as Lj. destruct Dj as [d [Ed Dj]].
    rewrite (fieldOf_away n i d f Ed F). specialize (IH j f k ltac:(lia) Bj D). destruct (firstOf (fun k => fieldOf ds fields n k f) (ifaces d)) eqn:X; [discriminate|].
    destruct Dj as [Dj | Dj]; [rewrite Dj; exact IH|]. exfalso. apply IH. clear - X Dj. induction (ifaces d) as [|y l IHl]; [destruct Dj|]. cbn in X. destruct (fieldOf ds fields n y f) eqn:Y; [discriminate|]. destruct Dj as [-> | Dj]; auto.
Qed.
(** Without fields in interfaces both go up the superclasses. *)
Lemma fieldOf_upwards : forall n i f, i < length ds -> (forall k, ~ interfaceField ds fields i f k) ->
  fieldOf ds fields n i f = upwards w (fun c => findFieldInClass fields c f) n i.
Proof.
  induction n as [|n IH]; intros i f Hi NI; [reflexivity|]. cbn [upwards]. destruct (in_dec Nat.eq_dec f (fields i)) as [F | F].
  - rewrite fieldOf_here, findFieldInClass_in by assumption. reflexivity.
  - rewrite findFieldInClass_none by exact F. destruct (nth_error ds i) as [d|] eqn:Ed; [|apply nth_error_None in Ed; lia]. rewrite (fieldOf_away n i d f Ed F). destruct (WF i d Ed) as [_ [_ [_ [_ W3]]]].
    rewrite firstOf_none.
    + destruct (at_w i d Ed) as [c [Ec [Dc _]]]. rewrite Ec, Dc. destruct (super d) as [p|] eqn:Sp; [|reflexivity]. destruct (super_class ds WF _ _ _ Ed Sp) as [Lp _]. apply IH; [lia|].
      intros k [K1 [K2 K3]]. apply (NI k). split; [exact K1|]. split; [|exact K3]. apply (below_step ds i p); [exists d; auto | exact K2].
    + intros k Hk. destruct (fieldOf ds fields n k f) as [e|] eqn:E; [|reflexivity]. destruct (W3 k Hk) as [Lk [ck [C1 C2]]]. destruct (fieldOf_sound n k f e ltac:(lia) E) as [A [B [_ C]]].
      exfalso. apply (NI e). split; [apply C; exists ck; auto|]. split; [|exact A]. apply (below_step ds i k); [exists d; auto | exact B].
Qed.

Lemma interleaved : forall (l : list (nat * list meth)) f, findInInterfaces fields (flat_map (fun p => [Some (fst p); None]) l) f = firstOf (fun k => findFieldInClass fields k f) (map fst l).
Proof. induction l as [|[k v] l IH]; intros f; [reflexivity|]. cbn [flat_map app findInInterfaces map firstOf fst]. destruct (findFieldInClass fields k f); [reflexivity | apply IH]. Qed.
Lemma every_second : forall raw f r, findInInterfaces fields raw f = Some r -> In (Some r) raw /\ In f (fields r).
Proof.
  assert (P : forall n raw f r, length raw <= n -> findInInterfaces fields raw f = Some r -> In (Some r) raw /\ In f (fields r)).
  { induction n as [|n IH]; intros raw f r Ln H; [destruct raw; [discriminate | cbn in Ln; lia]|]. destruct raw as [|e raw]; [discriminate|]. cbn [findInInterfaces] in H.
    destruct (match e with Some i => findFieldInClass fields i f | None => None end) as [x|] eqn:E.
    - injection H as <-. destruct e as [i|]; [|discriminate]. apply findFieldInClass_some in E. destruct E as [-> E]. split; [left; reflexivity | exact E].
    - destruct raw as [|y raw]; [discriminate|]. cbn in Ln. destruct (IH raw f r ltac:(lia) H) as [A B]. split; [right; right; exact A | exact B]. }
  intros raw f r. apply (P (length raw)). lia.
Qed.
Lemma rawTable_in : forall i c r, nth_error w i = Some c -> In (Some r) (rawTable w i) -> In r (map fst (itable c)).
Proof.
  intros i c r E. unfold rawTable. rewrite E. destruct (isInterface (def c)); intros H.
  - apply in_map_iff in H. destruct H as [p [H1 H2]]. injection H1 as <-. apply in_map. exact H2.
  - apply in_flat_map in H. destruct H as [p [H1 [H2 | [H2 | []]]]]; [|discriminate]. injection H2 as <-. apply in_map. exact H1.
Qed.
Lemma interfaces_sound : forall i f r, i < length ds -> findInInterfaces fields (rawTable w i) f = Some r -> interfaceField ds fields i f r.
Proof.
  intros i f r Hi H. destruct (nth_error ds i) as [d|] eqn:Ed; [|apply nth_error_None in Ed; lia]. destruct (at_w i d Ed) as [c [Ec [Dc G]]]. apply every_second in H. destruct H as [H F].
  apply (rawTable_in i c r Ec), (g_itable _ _ _ _ G) in H. destruct H as [H1 [H2 H3]]. split; [exact H1|]. split; [exact H2|]. split; [|exact F]. apply (below_le ds WF) in H2. lia.
Qed.
Lemma interfaces_complete : forall i d f k, nth_error ds i = Some d -> isInterface d = false -> interfaceField ds fields i f k -> findInInterfaces fields (rawTable w i) f <> None.
Proof.
  intros i d f k Ed Id [K1 [K2 K3]]. destruct (at_w i d Ed) as [c [Ec [Dc G]]]. unfold rawTable. rewrite Ec, Dc, Id, interleaved. intros X.
  assert (K : In k (map fst (itable c))). { apply (g_itable _ _ _ _ G). split; [exact K1|]. split; [exact K2|]. intros ->. destruct K1 as [d' [E1 E2]]. congruence. }
  clear - X K K3. induction (map fst (itable c)) as [|y l IH]; [destruct K|]. cbn in X. destruct (findFieldInClass fields y f) eqn:E; [discriminate|].
  destruct K as [-> | K]; [|auto]. rewrite findFieldInClass_in in E by apply K3. discriminate.
Qed.

Lemma no_interfaces : forall i f, i < length ds -> (forall k, ~ interfaceField ds fields i f k) -> findInInterfaces fields (rawTable w i) f = None.
Proof. intros i f Hi N. destruct (findInInterfaces fields (rawTable w i) f) as [r|] eqn:E; [|reflexivity]. apply interfaces_sound in E; [|exact Hi]. exfalso. exact (N r E). Qed.
Lemma constants_found : forall i d f, nth_error ds i = Some d -> isInterface d = false -> constantOnly ds fields i f ->
  findInInterfaces fields (rawTable w i) f = fieldOf ds fields (length ds) i f /\ upwards w (fun c => findFieldInClass fields c f) (length w) i = None.
Proof.
  intros i d f Ed Id [C1 C2]. assert (Hi : i < length ds) by (apply nth_error_Some; congruence).
  assert (U : upwards w (fun c => findFieldInClass fields c f) (length w) i = None).
  { destruct (upwards w _ (length w) i) as [r|] eqn:E; [|reflexivity]. apply upwards_sound in E; [|exact Hi]. destruct E as [E1 E2]. exfalso. exact (C1 r E1 E2). }
  split; [|exact U]. destruct (fieldOf ds fields (length ds) i f) as [e|] eqn:E.
  - destruct (fieldOf_sound _ _ _ _ Hi E) as [A [B [C _]]]. destruct C as [C | C]; [exfalso; exact (C1 e C A)|]. assert (IE : interfaceField ds fields i f e) by (split; auto).
    pose proof (interfaces_complete i d f e Ed Id IE) as N. destruct (findInInterfaces fields (rawTable w i) f) as [r|] eqn:R; [|congruence]. f_equal. apply C2; [|exact IE]. apply interfaces_sound; assumption.
  - destruct (findInInterfaces fields (rawTable w i) f) as [r|] eqn:R; [|reflexivity]. apply interfaces_sound in R; [|exact Hi]. destruct R as [R1 [R2 R3]]. exfalso. exact (fieldOf_complete (length ds) i f r Hi R2 R3 E).
Qed.
Lemma findField_ok : forall i d f, nth_error ds i = Some d ->
  In f (fields i) \/ (forall k, ~ interfaceField ds fields i f k) \/ (isInterface d = false /\ constantOnly ds fields i f) ->
  findField w fields i f = fieldOf ds fields (length ds) i f.
Proof.
  intros i d f Ed H. assert (Hi : i < length ds) by (apply nth_error_Some; congruence). unfold findField. destruct H as [H | [H | [H1 H2]]].
  - assert (exists n, length ds = S n) as [n Ln] by (exists (length ds - 1); lia). rewrite L, Ln. cbn [upwards]. rewrite findFieldInClass_in by exact H. rewrite fieldOf_here by (exact Hi || exact H). reflexivity.
  - rewrite no_interfaces by assumption. rewrite L, <- fieldOf_upwards by assumption. destruct (fieldOf ds fields (length ds) i f); reflexivity.
  - destruct (constants_found i d f Ed H1 H2) as [A B]. rewrite B. exact A.
Qed.
Lemma resolveFieldByName_ok : forall i d f, nth_error ds i = Some d ->
  (forall k, ~ interfaceField ds fields i f k) \/ (isInterface d = false /\ constantOnly ds fields i f) ->
  resolveFieldByName w fields i f = fieldOf ds fields (length ds) i f.
Proof.
  intros i d f Ed H. assert (Hi : i < length ds) by (apply nth_error_Some; congruence). unfold resolveFieldByName. destruct H as [H | [H1 H2]].
  - rewrite no_interfaces by assumption. rewrite L, <- fieldOf_upwards by assumption. reflexivity.
  - destruct (constants_found i d f Ed H1 H2) as [A B]. rewrite A, B. destruct (fieldOf ds fields (length ds) i f); reflexivity.
Qed.
Lemma findField_sound : forall i f e, i < length ds -> findField w fields i f = Some e -> below ds i e /\ declaresField ds fields e f.
Proof.
  intros i f e Hi. unfold findField. destruct (upwards w _ (length w) i) as [r|] eqn:U; intros H.
  - injection H as <-. apply upwards_sound in U; [|exact Hi]. destruct U as [A B]. split; [apply (superclass_below ds); exact A | exact B].
  - apply interfaces_sound in H; [|exact Hi]. destruct H as [_ H]. exact H.
Qed.
End Fields.

(** *** Methods *)
Lemma find_sig : forall s l, In s (map sig l) -> exists m, find (fun m => Nat.eqb (sig m) s) l = Some m /\ In m l /\ sig m = s.
Proof.
  intros s l H. destruct (find (fun m => Nat.eqb (sig m) s) l) as [m|] eqn:E.
  - exists m. apply find_some in E. destruct E as [E1 E2]. apply Nat.eqb_eq in E2. auto.
  - exfalso. apply in_map_iff in H. destruct H as [x [H1 H2]]. pose proof (find_none _ _ E x H2) as X. cbn in X. rewrite H1, Nat.eqb_refl in X. discriminate.
Qed.
Lemma up_complete : forall n i c s, nth_error w i = Some c -> isInterface (def c) = false -> i < n -> In s (map sig (vt c)) -> upwards w (fun k => findMethodInClass w k s) n i <> None.
Proof.
  induction n as [|n IH]; intros i c s Ec Ic Hn H; [lia|]. cbn [upwards]. destruct (findMethodInClass w i s) as [m|] eqn:M; [discriminate|]. rewrite Ec. destruct (I i c Ec) as [Ed G].
  destruct (g_source _ _ _ _ G Ic s H) as [X | [p [S X]]].
  - destruct (find_sig s _ X) as [m [M1 _]]. unfold findMethodInClass in M. rewrite Ec, M1 in M. discriminate.
  - rewrite S. destruct (super_class ds WF _ _ _ Ed S) as [Lp [cp [P1 P2]]]. destruct (at_w p cp P1) as [kp [K1 [K2 _]]]. apply (IH p kp); [exact K1 | congruence | lia | rewrite <- (find_vtable_eq _ _ _ K1); exact X].
Qed.
Lemma up_sound : forall n i m s, upwards w (fun k => findMethodInClass w k s) n i = Some m -> exists j c, superclass ds i j /\ nth_error w j = Some c /\ In m (methods c) /\ sig m = s.
Proof.
  induction n as [|n IH]; intros i m s H; cbn [upwards] in H; [discriminate|]. destruct (findMethodInClass w i s) as [x|] eqn:M.
  - injection H as <-. unfold findMethodInClass in M. destruct (nth_error w i) as [c|] eqn:Ec; [|discriminate]. apply find_some in M. destruct M as [M1 M2]. apply Nat.eqb_eq in M2. exists i, c. split; [constructor | auto].
  - destruct (nth_error w i) as [c|] eqn:Ec; [|discriminate]. destruct (super (def c)) as [p|] eqn:S; [|discriminate]. destruct (IH p m s H) as [j [cj [A B]]]. exists j, cj. split; [|exact B]. destruct (I i c Ec) as [Ed _]. econstructor; eauto.
Qed.
Lemma hasMethod_vt : forall i c s, nth_error w i = Some c -> isInterface (def c) = false -> hasMethod ds i s -> In s (map sig (vt c)).
Proof. intros i c s Ec Ic [[e H] | [k [K1 [K2 K3]]]]; destruct (I i c Ec) as [_ G]; [exact (g_all _ _ _ _ G Ic s e H) | exact (g_abs _ _ _ _ G k s K1 K2 K3)]. Qed.
Lemma selects_up : forall i j s e, superclass ds i j -> selects ds j s e -> exists e', selects ds i s e'.
Proof.
  intros i j s e H. induction H as [i | i d p j Ed Sp H IH]; intros X; [eauto|]. destruct (IH X) as [e' He]. destruct (in_dec Nat.eq_dec s (vsigs (decls d))) as [Y | Y].
  - exists i. constructor. apply (declares_vsigs ds i d); assumption.
  - exists e'. eapply selects_super; eauto. intros Z. apply Y. apply (declares_vsigs ds i d); assumption.
Qed.
Lemma prefix : forall a b, superclass ds a b -> forall ca cb, nth_error w a = Some ca -> isInterface (def ca) = false -> nth_error w b = Some cb -> isInterface (def cb) = false /\ exists r, map sig (vt ca) = map sig (vt cb) ++ r.
Proof.
  intros a b H. induction H as [a | a d p b Ed Sp H IH]; intros ca cb Ea Ia Eb.
  - rewrite Ea in Eb. inversion Eb; subst. split; [assumption|]. exists []. rewrite app_nil_r. reflexivity.
  - destruct (I a ca Ea) as [Ed' G]. rewrite Ed in Ed'. inversion Ed'; subst d. destruct (super_class ds WF _ _ _ Ed Sp) as [Lp [cp [Ep Ip]]].
    destruct (at_w p cp Ep) as [kp [Kp [Dp _]]]. subst cp. destruct (IH kp cb Kp Ip Eb) as [Q [r Hr]]. split; [exact Q|].
    destruct (g_super _ _ _ _ G p Ia Sp) as [r' Hr']. rewrite (find_vtable_eq _ _ _ Kp) in Hr'. exists (r ++ r'). rewrite Hr', Hr, app_assoc. reflexivity.
Qed.
Lemma findMethod_class : forall i c s m, nth_error w i = Some c -> isInterface (def c) = false -> onlyVirtual ds i s -> findMethod w i s = Some m ->
  sig m = s /\ mvirtual m = true /\ hasMethod ds i s /\
  forall r cr, nth_error w r = Some cr -> isInterface (def cr) = false -> superclass ds r i -> exists x, findVirtualMethod w m r = Some x /\ sig x = s /\ rightCode ds r s (origin x).
Proof.
  intros i c s m Ec Ic OV H. unfold findMethod in H. rewrite Ec, Ic in H. destruct (up_sound _ _ _ _ H) as [j [cj [SJ [Ej [M1 M2]]]]]. destruct (I j cj Ej) as [Edj Gj].
  assert (V : mvirtual m = true). { destruct (g_plain _ _ _ _ Gj m M1) as [V | V]; [exact V|]. rewrite M2 in V. exfalso. exact (OV j (def cj) SJ Edj V). }
  destruct (g_methods _ _ _ _ Gj m M1) as [_ Q]. specialize (Q V). split; [exact M2|]. split; [exact V|].
  destruct (prefix i j SJ c cj Ec Ic Ej) as [Ij _]. split.
  { destruct (g_class _ _ _ _ Gj Ij m (nth_error_In _ _ Q)) as [X | [_ [X1 [X2 X3]]]]; rewrite M2 in *.
    - left. eapply selects_up; eauto.
    - right. exists (origin m). split; [exact X1|]. split; [|exact X3]. eapply (below_trans ds); [apply (superclass_below ds); exact SJ | exact X2]. }
  intros r cr Er Ir SR. destruct (prefix r j (superclass_trans _ _ _ SR SJ) cr cj Er Ir Ej) as [_ [t Ht]].
  assert (N : nth_error (map sig (vt cr)) (offset m) = Some s). { rewrite Ht, nth_error_app1 by (rewrite map_length; apply nth_error_Some; congruence). rewrite nth_error_map, Q. cbn. congruence. }
  rewrite nth_error_map in N. destruct (nth_error (vt cr) (offset m)) as [x|] eqn:X; [|discriminate]. injection N as Sx. exists x. unfold findVirtualMethod. rewrite (find_vtable_eq _ _ _ Er).
  split; [exact X|]. split; [exact Sx|]. destruct (I r cr Er) as [_ Gr]. pose proof (g_class _ _ _ _ Gr Ir x (nth_error_In _ _ X)) as Y. rewrite Sx in Y. unfold rightCode. destruct Y as [Y | [Y1 [Y2 [Y3 Y4]]]]; [left; exact Y | right; rewrite Sx in Y4; auto].
Qed.
Lemma findMethod_exists : forall i c s, nth_error w i = Some c -> isInterface (def c) = false -> hasMethod ds i s -> exists m, findMethod w i s = Some m.
Proof.
  intros i c s Ec Ic H. unfold findMethod. rewrite Ec, Ic. assert (i < length w) by (apply nth_error_Some; congruence). pose proof (up_complete (length w) i c s Ec Ic H0 (hasMethod_vt i c s Ec Ic H)) as X.
  destruct (upwards w _ (length w) i) as [m|]; [eauto | congruence].
Qed.
Lemma findMethod_interface : forall i c s, nth_error w i = Some c -> isInterface (def c) = true -> (exists k, interfaceClass ds k /\ below ds i k /\ declares ds k s) ->
  exists m, findMethod w i s = Some m /\ sig m = s /\ In m (methods c) /\ mvirtual m = true.
Proof.
  intros i c s Ec Ic [k [K1 [K2 K3]]]. destruct (I i c Ec) as [_ G]. pose proof (g_abs _ _ _ _ G k s K1 K2 K3) as X. destruct (find_sig s _ X) as [m [M1 [M2 M3]]].
  exists m. unfold findMethod. rewrite Ec, Ic. unfold vt in M1. destruct (vtable c) as [v|]; [|discriminate]. rewrite M1. split; [reflexivity|]. split; [exact M3|]. split; [exact (g_own _ _ _ _ G Ic m M2) | exact (g_virtual _ _ _ _ G m M2)].
Qed.
End Proofs.
