(** Proofs about the red-black sets of the class library. *)
From Coq Require Import ZArith Lia Bool List Sorted.
Import ListNotations.
From Verif Require Import PSet_Model PSet_Spec.

Section P.
Context {T : Type}.
Variable cmp : T -> T -> Z.
Notation tree := (tree T).
Notation frame := (frame T).

Fixpoint inorder (t : tree) : list T := match t with Null => [] | Node _ l v r => inorder l ++ v :: inorder r end.
Fixpoint before (c : list frame) : list T :=
  match c with [] => [] | f :: c' => before c' ++ (if toLeft f then [] else inorder (other f) ++ [fval f]) end.
Fixpoint after (c : list frame) : list T :=
  match c with [] => [] | f :: c' => (if toLeft f then fval f :: inorder (other f) else []) ++ after c' end.

Ltac lists := repeat first [rewrite <- app_assoc | rewrite app_nil_r | progress cbn [app]]; try reflexivity.

Lemma inorder_plug c : forall t, inorder (plug t c) = before c ++ inorder t ++ after c.
Proof.
  induction c as [|f c IH]; intro t; cbn [plug before after]; [cbn; rewrite app_nil_r; reflexivity|].
  rewrite IH. unfold join. destruct (toLeft f); cbn [inorder]; lists.
Qed.
Lemma inorder_blacken t : inorder (blacken t) = inorder t.
Proof. destruct t; reflexivity. Qed.
Lemma plug_app (t : tree) a b : plug t (a ++ b) = plug (plug t a) b.
Proof. revert t. induction a as [|f a IH]; intro t; cbn; [reflexivity|]. apply IH. Qed.
Lemma before_app a b : before (a ++ b) = before b ++ before a.
Proof. induction a as [|f a IH]; cbn; [rewrite app_nil_r; reflexivity|]. rewrite IH. lists. Qed.
Lemma after_app a b : after (a ++ b) = after a ++ after b.
Proof. induction a as [|f a IH]; cbn; [reflexivity|]. rewrite IH. lists. Qed.

(** ** Red-black trees *)

Inductive rb : tree -> nat -> Prop :=
| rbNull : rb Null 0
| rbRed l v r n : rb l n -> rb r n -> isRed l = false -> isRed r = false -> rb (Node true l v r) n
| rbBlack l v r n : rb l n -> rb r n -> rb (Node false l v r) (S n).
(** The parent is red, or there is none. *)
Definition redAbove (c : list frame) : bool := match c with [] => true | f :: _ => fred f end.
(** The ancestors expect a tree of black height [n]. *)
Inductive rbc : list frame -> nat -> Prop :=
| rbcNil n : rbc [] n
| rbcRed d v o c n : rb o n -> isRed o = false -> rbc c n -> redAbove c = false -> rbc (Frame d true v o :: c) n
| rbcBlack d v o c n : rb o n -> rbc c (S n) -> rbc (Frame d false v o :: c) n.
Definition rbRoot (t : tree) : Prop := isRed t = false /\ exists n, rb t n.

Lemma join_red d v o t n : rb o n -> isRed o = false -> rb t n -> isRed t = false -> rb (join (Frame d true v o) t) n.
Proof. intros. unfold join. cbn. destruct d; constructor; auto. Qed.
Lemma join_black d v o t n : rb o n -> rb t n -> rb (join (Frame d false v o) t) (S n).
Proof. intros. unfold join. cbn. destruct d; constructor; auto. Qed.
Lemma isRed_join (f : frame) t : isRed (join f t) = fred f.
Proof. unfold join. destruct (toLeft f); reflexivity. Qed.
Lemma isRed_blacken (t : tree) : isRed (blacken t) = false.
Proof. destruct t; reflexivity. Qed.
Lemma rb_blacken_red (t : tree) n : rb t n -> isRed t = true -> rb (blacken t) (S n).
Proof. intros H R. destruct H; try discriminate. cbn. constructor; auto. Qed.
Lemma rb_blacken_black (t : tree) : isRed t = false -> blacken t = t.
Proof. destruct t as [|[|]]; cbn; intro; congruence || reflexivity. Qed.
Lemma rb_blacken (t : tree) n : rb t n -> exists m, rb (blacken t) m.
Proof.
  intro H. destruct (isRed t) eqn:E; [exists (S n); apply rb_blacken_red; assumption|].
  rewrite rb_blacken_black by exact E. eauto.
Qed.

Lemma plug_rb c : forall t n, rbc c n -> rb t n -> (redAbove c = true -> isRed t = false) -> rbRoot (plug t c).
Proof.
  induction c as [|f c IH]; intros t n C R B; cbn [plug].
  - split; [apply B; reflexivity|eauto].
  - inversion C; subst.
    + apply (IH _ n); auto; [apply join_red; auto|]. rewrite isRed_join. cbn. congruence.
    + apply (IH _ (S n)); auto; [apply join_black; auto|]. intros _. rewrite isRed_join. reflexivity.
Qed.

(** *** Finding *)
Lemma descend_rb x t : forall c n, rb t n -> rbc c n -> (redAbove c = true -> isRed t = false) ->
  match descend cmp x t c with
  | (true, m, c') => m = Node false Null x Null /\ plug Null c' = plug t c /\ rbc c' 0
  | (false, m, c') => plug m c' = plug t c /\ (exists k, rb m k /\ rbc c' k) /\ (redAbove c' = true -> isRed m = false) /\
                      exists r l v s, m = Node r l v s /\ cmp x v = 0%Z
  end.
Proof.
  induction t as [|red l IHl v r IHr]; intros c n R C A; cbn [descend].
  - inversion R. subst n. split; [reflexivity|]. split; [reflexivity|exact C].
  - destruct (Z.ltb_spec (cmp x v) 0); [|destruct (Z.ltb_spec 0 (cmp x v))].
    + specialize (IHl (Frame true red v r :: c)). inversion R; subst.
      * specialize (IHl n). cbn [plug] in IHl. apply IHl; auto. constructor; auto. destruct (redAbove c); [discriminate (A eq_refl)|reflexivity].
      * specialize (IHl n0). cbn [plug] in IHl. apply IHl; auto. { constructor; auto. } { discriminate. }
    + specialize (IHr (Frame false red v l :: c)). inversion R; subst.
      * specialize (IHr n). cbn [plug] in IHr. apply IHr; auto. constructor; auto. destruct (redAbove c); [discriminate (A eq_refl)|reflexivity].
      * specialize (IHr n0). cbn [plug] in IHr. apply IHr; auto. { constructor; auto. } { discriminate. }
    + split; [reflexivity|]. split; [eauto|]. split; [exact A|]. exists red, l, v, r. split; [reflexivity|lia].
Qed.

(** *** Adding *)
Lemma addLoop_ok : forall k c t n, length c <= k -> rb t n -> isRed t = true -> rbc c n ->
  exists t', addLoop t c = Some t' /\ rbRoot (blacken t') /\ inorder t' = before c ++ inorder t ++ after c.
Proof.
  induction k as [|k IH]; intros c t n L R E C.
  - destruct c; [|cbn in L; lia]. exists t. split; [reflexivity|]. split; [|cbn; rewrite app_nil_r; reflexivity].
    split; [apply isRed_blacken|apply (rb_blacken t n R)].
  - destruct c as [|[pl [|] pv po] c].
    + exists t. split; [reflexivity|]. split; [|cbn; rewrite app_nil_r; reflexivity]. split; [apply isRed_blacken|apply (rb_blacken t n R)].
    + inversion C; subst. destruct c as [|[gl gred gv go] c]; [discriminate|]. cbn in H7. subst gred. inversion H6; subst.
      cbn [addLoop]. destruct (isRed go) eqn:Eg.
      * destruct (IH c (join (Frame gl true gv (blacken go)) (join (Frame pl false pv po) t)) (S n)) as [t' [X1 [X2 X3]]].
        -- cbn in L. lia.
        -- apply join_red; [apply rb_blacken_red; assumption|apply isRed_blacken|apply join_black; assumption|apply isRed_join].
        -- apply isRed_join.
        -- assumption.
        -- exists t'. split; [exact X1|]. split; [exact X2|]. rewrite X3. cbn [before after toLeft other fval]. unfold join. cbn [toLeft fred fval other].
           destruct gl, pl; cbn [inorder]; rewrite ?inorder_blacken; lists.
      * destruct (Bool.eqb pl gl) eqn:Ep.
        -- apply Bool.eqb_prop in Ep. subst gl. unfold join. cbn [toLeft fred fval other].
           destruct pl; (eexists; split; [reflexivity|]; split;
             [match goal with |- rbRoot (blacken (plug ?u ?cc)) => assert (Q : rbRoot (plug u cc)) by
                 (apply (plug_rb cc u (S n)); [assumption|constructor; (assumption || (constructor; assumption))|reflexivity]);
                 destruct Q as [Q1 Q2]; rewrite rb_blacken_black by exact Q1; split; assumption end
             |rewrite inorder_plug; cbn [before after toLeft other fval inorder]; lists]).
        -- inversion R; subst; try discriminate.
           destruct gl, pl; try discriminate Ep; (eexists; split; [reflexivity|]; split;
             [match goal with |- rbRoot (blacken (plug ?u ?cc)) => assert (Q : rbRoot (plug u cc)) by
                 (apply (plug_rb cc u (S n)); [assumption|constructor; constructor; assumption|reflexivity]);
                 destruct Q as [Q1 Q2]; rewrite rb_blacken_black by exact Q1; split; assumption end
             |rewrite inorder_plug; cbn [before after toLeft other fval inorder]; lists]).
    + exists (plug t (Frame pl false pv po :: c)). split; [destruct c; reflexivity|]. split.
      * assert (Q : rbRoot (plug t (Frame pl false pv po :: c))) by (apply (plug_rb _ _ n); auto; discriminate).
        destruct Q as [Q1 Q2]. rewrite rb_blacken_black by exact Q1. split; assumption.
      * apply inorder_plug.
Qed.

(** *** Removing *)
Lemma blackSibling_ok f child n : rb (other f) (S n) -> isRed (other f) = false -> rb child n -> isRed child = false ->
  match blackSibling f child with
  | Right t => isRed t = fred f /\ rb t (if fred f then S n else S (S n)) /\ inorder t = inorder (join f child)
  | Up t => isRed t = fred f /\ rb (blacken t) (S n) /\ inorder t = inorder (join f child)
  | Broken => False
  end.
Proof.
  intros R E C B. unfold blackSibling, join. destruct f as [d fr fv o]. cbn [other toLeft fred fval] in *.
  destruct o as [|sred sl sv sr]; [inversion R|]. cbn in E. subst sred. inversion R; subst.
  assert (BB : forall u : tree, isRed u = true -> rb u n -> rb (blacken u) (S n)) by (intros; apply rb_blacken_red; assumption).
  destruct (isRed sl) eqn:El, (isRed sr) eqn:Er; cbn [orb negb]; destruct d; rewrite ?El, ?Er; cbn [negb].
  all: try (split; [reflexivity|]; split; [destruct fr; (constructor; try assumption; try reflexivity; constructor; assumption) || (constructor; [constructor; assumption|apply BB; assumption])|rewrite ?inorder_blacken; cbn [inorder]; rewrite ?inorder_blacken; lists]; fail).
  all: try (split; [reflexivity|]; split; [destruct fr; constructor; try apply isRed_blacken; try reflexivity; try (apply BB; assumption); constructor; assumption|cbn [inorder]; rewrite ?inorder_blacken; lists]; fail).
  - destruct sl as [|a la v lb]; [discriminate|]. cbn in El. subst a. match goal with H : rb (Node true la v lb) _ |- _ => inversion H; subst end.
    split; [reflexivity|]. split; [destruct fr; constructor; try reflexivity; constructor; assumption|cbn [inorder]; lists].
  - destruct sr as [|a la v lb]; [discriminate|]. cbn in Er. subst a. match goal with H : rb (Node true la v lb) _ |- _ => inversion H; subst end.
    split; [reflexivity|]. split; [destruct fr; constructor; try reflexivity; constructor; assumption|cbn [inorder]; lists].
Qed.

Lemma mend_ok c : forall child n, rbc c (S n) -> (if isRed child then rb (blacken child) (S n) else rb child n) ->
  exists t, mend child c = Some t /\ rbRoot t /\ inorder t = before c ++ inorder child ++ after c.
Proof.
  induction c as [|f c IH]; intros child n C R; cbn [mend].
  - exists (blacken child). split; [reflexivity|]. split; [|cbn; rewrite inorder_blacken, app_nil_r; reflexivity].
    split; [apply isRed_blacken|]. destruct (isRed child) eqn:E; [eauto|]. rewrite rb_blacken_black by exact E. eauto.
  - destruct (isRed child) eqn:E.
    + eexists. split; [reflexivity|]. split.
      * apply (plug_rb _ _ (S n)); auto. intros _. apply isRed_blacken.
      * rewrite inorder_plug, inorder_blacken. reflexivity.
    + destruct f as [d fr fv o]. cbn [other toLeft fval fred].
      destruct (isRed o) eqn:Eo.
      * inversion C; subst; try congruence. destruct o as [|x sl sv sr]; [discriminate|]. cbn in Eo. subst x.
        match goal with H : rb (Node true sl sv sr) _ |- _ => inversion H; subst end.
        set (near := if d then sl else sr). set (far := if d then sr else sl).
        assert (N1 : rb near (S n)) by (destruct d; assumption). assert (N2 : isRed near = false) by (destruct d; assumption).
        assert (F1 : rb far (S n)) by (destruct d; assumption).
        pose proof (blackSibling_ok (Frame d true fv near) child n N1 N2 R E) as K.
        destruct (blackSibling (Frame d true fv near) child) as [t|t|]; [| |contradiction]; destruct K as [K1 [K2 K3]]; cbn [fred] in *.
        -- assert (Q : rbRoot (plug (join (Frame d false sv far) t) c)).
           { apply (plug_rb _ _ (S (S n))); auto; [apply join_black; assumption|]. intros _. apply isRed_join. }
           eexists. split; [reflexivity|]. split.
           ++ destruct Q as [Q1 Q2]. rewrite rb_blacken_black by exact Q1. split; assumption.
           ++ rewrite inorder_blacken, inorder_plug. cbn [before after toLeft fval other]. unfold join in *. cbn [toLeft fred fval other] in *. subst near far.
              destruct d; cbn [inorder] in *; rewrite K3; lists.
        -- assert (Q : rbRoot (plug (join (Frame d false sv far) (blacken t)) c)).
           { apply (plug_rb _ _ (S (S n))); auto; [apply join_black; assumption|]. intros _. apply isRed_join. }
           eexists. split; [reflexivity|]. split; [exact Q|].
           rewrite inorder_plug. cbn [before after toLeft fval other]. unfold join in *. cbn [toLeft fred fval other] in *. subst near far.
           destruct d; cbn [inorder] in *; rewrite inorder_blacken, K3; lists.
      * assert (O1 : rb o (S n)) by (inversion C; assumption).
        pose proof (blackSibling_ok (Frame d fr fv o) child n O1 Eo R E) as K.
        assert (IO : inorder (join (Frame d fr fv o) child) = (if d then [] else inorder o ++ [fv]) ++ inorder child ++ (if d then fv :: inorder o else [])).
        { unfold join. cbn. destruct d; cbn; lists. }
        destruct (blackSibling (Frame d fr fv o) child) as [t|t|]; [| |contradiction]; destruct K as [K1 [K2 K3]]; cbn [fred] in *.
        -- assert (Q : rbRoot (plug t c)).
           { destruct fr; inversion C; subst; [apply (plug_rb _ _ (S n))|apply (plug_rb _ _ (S (S n)))]; auto; intros; congruence. }
           eexists. split; [reflexivity|]. split.
           ++ destruct Q as [Q1 Q2]. rewrite rb_blacken_black by exact Q1. split; assumption.
           ++ rewrite inorder_blacken, inorder_plug, K3, IO. cbn [before after toLeft fval other]. lists.
        -- destruct fr; inversion C; subst.
           ++ destruct (IH t n) as [t' [X1 [X2 X3]]]; auto. { rewrite K1. exact K2. }
              exists t'. split; [exact X1|]. split; [exact X2|]. rewrite X3, K3, IO. cbn [before after toLeft fval other]. lists.
           ++ destruct (IH t (S n)) as [t' [X1 [X2 X3]]]; auto. { rewrite K1. rewrite <- (rb_blacken_black t) by exact K1. exact K2. }
              exists t'. split; [exact X1|]. split; [exact X2|]. rewrite X3, K3, IO. cbn [before after toLeft fval other]. lists.
Qed.

(** *** Paths *)
Lemma unplug_rb c : forall t, rbRoot (plug t c) -> exists k, rb t k /\ rbc c k /\ (redAbove c = true -> isRed t = false).
Proof.
  induction c as [|f c IH]; intros t H; cbn [plug] in H.
  - destruct H as [B [n R]]. exists n. split; [exact R|]. split; [constructor|auto].
  - destruct (IH _ H) as [k [R [C B]]]. destruct f as [d fr fv o]. rewrite isRed_join in B. cbn [fred] in B.
    assert (X : exists m, rb t m /\ rb o m /\ (fr = true -> isRed t = false /\ isRed o = false /\ m = k) /\ (fr = false -> k = S m)).
    { unfold join in R. cbn in R. destruct d; inversion R; subst; eexists; (split; [eassumption|]); (split; [eassumption|]); split; intro; try discriminate; auto. }
    destruct X as [m [X1 [X2 [X3 X4]]]]. exists m. split; [exact X1|]. destruct fr.
    + destruct (X3 eq_refl) as [X5 [X6 ->]]. split; [|auto]. constructor; auto. destruct (redAbove c); [discriminate (B eq_refl)|reflexivity].
    + rewrite (X4 eq_refl) in C. split; [constructor; auto|discriminate].
Qed.

Lemma min_app (t : tree) : forall a b, minimum t (a ++ b) = let (d, c) := minimum t a in (d, c ++ b).
Proof.
  induction t as [|red l IHl v r IHr]; intros a b; [reflexivity|]. cbn [minimum]. destruct l; [reflexivity|].
  apply (IHl (Frame true red v r :: a) b).
Qed.
Lemma min_ok (t : tree) : forall c, t <> Null -> exists dr dv drt c', minimum t c = (Node dr Null dv drt, c') /\ plug (Node dr Null dv drt) c' = plug t c /\
  inorder t ++ after c = dv :: inorder drt ++ after c' /\ before c' = before c.
Proof.
  induction t as [|red l IHl v r IHr]; intros c N; [congruence|]. cbn [minimum]. destruct l as [|lr ll lv lrt].
  - exists red, v, r, c. auto.
  - destruct (IHl (Frame true red v r :: c)) as [dr [dv [drt [c' [X1 [X2 [X3 X4]]]]]]]; [discriminate|].
    exists dr, dv, drt, c'. split; [exact X1|]. split; [rewrite X2; reflexivity|]. split.
    + rewrite <- X3. cbn [inorder after toLeft fval other]. lists.
    + rewrite X4. cbn. rewrite app_nil_r. reflexivity.
Qed.
Lemma leftmost_min (t : tree) : forall c, leftmost t c = minimum t c.
Proof. induction t as [|red l IHl v r IHr]; intro c; [reflexivity|]. cbn. destruct l; [reflexivity|]. apply IHl. Qed.
Lemma rightmost_ok (t : tree) : forall c, t <> Null -> exists dr dv dl c', rightmost t c = (Node dr dl dv Null, c') /\ plug (Node dr dl dv Null) c' = plug t c /\
  before c ++ inorder t = (before c' ++ inorder dl) ++ [dv] /\ after c' = after c.
Proof.
  induction t as [|red l IHl v r IHr]; intros c N; [congruence|]. cbn [rightmost]. destruct r as [|lr ll lv lrt].
  - exists red, v, l, c. split; [reflexivity|]. split; [reflexivity|]. split; [cbn [inorder]; lists|reflexivity].
  - destruct (IHr (Frame false red v l :: c)) as [dr [dv [drt [c' [X1 [X2 [X3 X4]]]]]]]; [discriminate|].
    exists dr, dv, drt, c'. split; [exact X1|]. split; [rewrite X2; reflexivity|]. split.
    + rewrite <- X3. cbn [inorder before toLeft fval other]. lists.
    + rewrite X4. reflexivity.
Qed.

Definition elements (s : PSet_Model.pset T) : list T := inorder (root s).
Definition okset (s : PSet_Model.pset T) : Prop := rbRoot (root s) /\ size s = length (elements s).
(** A path of the set. *)
Definition within (s : PSet_Model.pset T) (p : PSet_Model.path T) : Prop := plug (node p) (ancestors p) = root s /\ total p = size s /\ node p <> Null.

(** Removing the node of a path. *)
Lemma unlink_ok s dred dl dv dr c tot :
  rbRoot (plug (Node dred dl dv dr) c) -> dl = Null \/ dr = Null -> tot = length (inorder (plug (Node dred dl dv dr) c)) -> tot <> 1 ->
  exists s', match c with
             | [] => Some {| root := blacken (match dl with Null => dr | _ => dl end); size := 1 |}
             | _ => if dred then Some {| root := plug (match dl with Null => dr | _ => dl end) c; size := tot - 1 |}
                    else match mend (match dl with Null => dr | _ => dl end) c with
                         | Some t => Some {| root := t; size := tot - 1 |}
                         | None => s
                         end
             end = Some s' /\ okset s' /\ elements s' = before c ++ (inorder dl ++ inorder dr) ++ after c.
Proof.
  intros H D L N. set (child := match dl with Null => dr | _ => dl end).
  assert (CI : inorder child = inorder dl ++ inorder dr).
  { unfold child. destruct D as [-> | ->]; [reflexivity|]. destruct dl; [reflexivity|]. cbn [inorder]. rewrite app_nil_r. reflexivity. }
  assert (RC : forall n, rb dl n -> rb dr n -> rb child n) by (intros; unfold child; destruct D as [-> | ->]; [assumption|destruct dl; assumption]).
  assert (ZC : forall n, rb dl n -> rb dr n -> n = 0) by (intros n Q1 Q2; destruct D as [-> | ->]; [inversion Q1|inversion Q2]; reflexivity).
  assert (BC : isRed dl = false -> isRed dr = false -> isRed child = false) by (intros; unfold child; destruct D as [-> | ->]; [assumption|destruct dl; assumption]).
  clearbody child. clear D.
  destruct (unplug_rb _ _ H) as [k [R [C B]]].
  assert (LL : tot + 0 = length (before c) + S (length (inorder child)) + length (after c)).
  { clear N. rewrite L, inorder_plug. cbn [inorder]. rewrite CI, !app_length. cbn [length]. lia. }
  clear L. destruct c as [|f c].
  - cbn [before after length] in LL. specialize (B eq_refl). cbn in B. subst dred. inversion R; subst.
    assert (CH : rb child n /\ (exists q, inorder child = [q]) /\ rbRoot (blacken child)).
    { assert (R0 : rb child n) by (apply RC; assumption).
      split; [exact R0|]. assert (n = 0) as -> by (apply ZC; assumption).
      assert (child <> Null) by (intro Q; rewrite Q in LL; cbn in LL; lia).
      assert (ZN : forall t, rb t 0 -> isRed t = false -> t = Null) by (intros t Q1 Q2; inversion Q1; subst; [reflexivity|discriminate]).
      inversion R0; subst; [congruence|]. rewrite (ZN l), (ZN r) by assumption.
      split; [eexists; reflexivity|]. cbn. split; [reflexivity|]. exists 1. constructor; constructor. }
    destruct CH as [_ [[q Q] RR]]. eexists. split; [reflexivity|]. split.
    + split; [exact RR|]. unfold elements. cbn [root size]. rewrite inorder_blacken, Q. reflexivity.
    + unfold elements. cbn [root]. rewrite inorder_blacken. cbn [before after]. rewrite app_nil_r. exact CI.
  - destruct dred.
    + inversion R; subst.
      assert (child = Null /\ k = 0) as [EC ->].
      { assert (Q : k = 0) by (apply ZC; assumption). subst k. split; [|reflexivity].
        assert (R0 : rb child 0) by (apply RC; assumption). specialize (BC ltac:(assumption) ltac:(assumption)). inversion R0; subst; [reflexivity|discriminate]. }
      eexists. split; [reflexivity|]. rewrite EC in *. split; [split|].
      * apply (plug_rb _ _ 0); auto; constructor.
      * unfold elements. cbn [root size]. rewrite inorder_plug, !app_length. cbn [inorder length] in *. lia.
      * unfold elements. cbn [root]. rewrite inorder_plug, <- CI. reflexivity.
    + inversion R; subst. assert (R0 : rb child n) by (apply RC; assumption).
      destruct (mend_ok (f :: c) child n C) as [t [X1 [X2 X3]]].
      { destruct (isRed child) eqn:E; [apply rb_blacken_red; assumption|exact R0]. }
      rewrite X1. eexists. split; [reflexivity|]. split; [split; [exact X2|]|].
      * unfold elements. cbn [root size]. rewrite X3, !app_length. lia.
      * unfold elements. cbn [root]. rewrite X3, <- CI. reflexivity.
Qed.

Lemma removePath_ok s p r l v rt : okset s -> within s p -> node p = Node r l v rt ->
  exists s', removePath true p = Some s' /\ okset s' /\ elements s' = before (ancestors p) ++ inorder l ++ inorder rt ++ after (ancestors p).
Proof.
  intros [RB SZ] [W1 [W2 W3]] E. unfold removePath. rewrite E. rewrite E in W1.
  assert (EL : elements s = before (ancestors p) ++ (inorder l ++ v :: inorder rt) ++ after (ancestors p)) by (unfold elements; rewrite <- W1, inorder_plug; reflexivity).
  rewrite W2, SZ, EL. destruct (Nat.eqb_spec (length (before (ancestors p) ++ (inorder l ++ v :: inorder rt) ++ after (ancestors p))) 1) as [O|O].
  - rewrite !app_length in O. cbn [length] in O.
    assert (Q : ancestors p = []). { destruct (ancestors p) as [|f c]; [reflexivity|]. cbn in O. destruct (toLeft f); cbn in O; rewrite ?app_length in O; cbn in O; lia. }
    rewrite Q in *. cbn [before after length] in *. cbn [andb].
    exists empty. split; [reflexivity|]. split; [split; [split; [reflexivity|exists 0; constructor]|reflexivity]|].
    destruct (inorder l), (inorder rt); cbn in O; try lia. reflexivity.
  - rewrite <- EL in O |- *. set (tot := length (elements s)) in *.
    assert (PT : tot = length (inorder (plug (Node r l v rt) (ancestors p)))) by (unfold tot, elements; rewrite W1; reflexivity).
    assert (RP : rbRoot (plug (Node r l v rt) (ancestors p))) by (rewrite W1; exact RB).
    assert (ONE : (l = Null \/ rt = Null) -> exists s', match ancestors p with
             | [] => Some {| root := blacken (match l with Null => rt | _ => l end); size := 1 |}
             | _ => if r then Some {| root := plug (match l with Null => rt | _ => l end) (ancestors p); size := tot - 1 |}
                    else match mend (match l with Null => rt | _ => l end) (ancestors p) with
                         | Some t => Some {| root := t; size := tot - 1 |}
                         | None => None
                         end
             end = Some s' /\ okset s' /\ elements s' = before (ancestors p) ++ inorder l ++ inorder rt ++ after (ancestors p)).
    { intro D. destruct (unlink_ok None r l v rt (ancestors p) tot RP D PT O) as [s' [X1 [X2 X3]]].
      exists s'. split; [exact X1|]. split; [exact X2|]. rewrite X3. lists. }
    destruct l as [|lr ll lv lrt]; [apply ONE; auto|]. destruct rt as [|rr rl rv rrt]; [apply ONE; auto|].
    set (L := Node lr ll lv lrt) in *. set (R := Node rr rl rv rrt) in *.
    destruct (min_ok R []) as [dr [dv [drt [cr [X1 [X2 [X3 X4]]]]]]]; [discriminate|]. rewrite X1.
    cbn [after before app] in X3, X4. rewrite app_nil_r in X3.
    assert (PL : rbRoot (plug (Node dr Null dv drt) (cr ++ Frame false r dv L :: ancestors p))).
    { rewrite plug_app, X2. cbn [plug]. destruct (unplug_rb _ _ RP) as [k [K1 [K2 K3]]].
      apply (plug_rb _ _ k); auto. unfold join. cbn. inversion K1; subst; constructor; assumption. }
    assert (PI : inorder (plug (Node dr Null dv drt) (cr ++ Frame false r dv L :: ancestors p)) =
                 before (ancestors p) ++ inorder L ++ dv :: inorder R ++ after (ancestors p)).
    { rewrite inorder_plug, before_app, after_app, X4. cbn [before after inorder toLeft fval other].  rewrite X3. lists. }
    destruct (unlink_ok None dr Null dv drt (cr ++ Frame false r dv L :: ancestors p) tot) as [s' [Y1 [Y2 Y3]]]; auto.
    { rewrite PI, PT, inorder_plug. cbn [inorder]. rewrite !app_length. cbn [length]. rewrite !app_length. cbn [length]. lia. }
    exists s'. split; [|split; [exact Y2|]].
    + rewrite <- Y1. destruct (cr ++ Frame false r dv L :: ancestors p) eqn:Q; [destruct cr; discriminate|reflexivity].
    + rewrite Y3, before_app, after_app, X4, X3. cbn [before after inorder toLeft fval other]. lists.
Qed.

(** *** Order *)
Section Order.
Hypothesis O : ordered cmp.
Lemma gt_lt a b : (0 < cmp a b)%Z <-> (cmp b a < 0)%Z.
Proof. pose proof (oAnti _ O a b). destruct (cmp a b) eqn:E1, (cmp b a) eqn:E2; cbn in *; split; intro; try lia. Qed.
Lemma eq_sym0 a b : cmp a b = 0%Z <-> cmp b a = 0%Z.
Proof. pose proof (oAnti _ O a b). destruct (cmp a b) eqn:E1, (cmp b a) eqn:E2; cbn in *; split; intro; try lia. Qed.
Lemma lt_le_trans a b c : (cmp a b < 0 -> cmp b c <= 0 -> cmp a c < 0)%Z.
Proof.
  intros H1 H2. assert (H3 : (cmp a c <= 0)%Z) by (apply (oTrans _ O a b c); lia).
  destruct (Z.eq_dec (cmp a c) 0) as [E|E]; [|lia]. apply eq_sym0 in E.
  assert (cmp b a <= 0)%Z by (apply (oTrans _ O b c a); lia). apply gt_lt in H1. lia.
Qed.
Lemma le_lt_trans a b c : (cmp a b <= 0 -> cmp b c < 0 -> cmp a c < 0)%Z.
Proof.
  intros H1 H2. assert (H3 : (cmp a c <= 0)%Z) by (apply (oTrans _ O a b c); lia).
  destruct (Z.eq_dec (cmp a c) 0) as [E|E]; [|lia]. apply eq_sym0 in E.
  assert (cmp c b <= 0)%Z by (apply (oTrans _ O c a b); lia). apply gt_lt in H2. lia.
Qed.

Definition below (x : T) (l : list T) : Prop := Forall (fun y => (cmp y x < 0)%Z) l.
Definition above (x : T) (l : list T) : Prop := Forall (fun y => (cmp x y < 0)%Z) l.

Lemma sorted_app a b : sorted cmp (a ++ b) <-> sorted cmp a /\ sorted cmp b /\ Forall (fun x => above x b) a.
Proof.
  unfold sorted. induction a as [|x a IH]; cbn [app].
  - split; [intro; split; [constructor|split; [assumption|constructor]]|tauto].
  - split.
    + intro H. apply StronglySorted_inv in H. destruct H as [H1 H2]. apply IH in H1. destruct H1 as [H3 [H4 H5]].
      apply Forall_app in H2. destruct H2. split; [constructor; assumption|]. split; [assumption|]. constructor; assumption.
    + intros [H1 [H2 H3]]. apply StronglySorted_inv in H1. destruct H1. apply Forall_cons_iff in H3. destruct H3.
      constructor; [apply IH; auto|]. apply Forall_app. auto.
Qed.
Lemma sorted_mid a v b : sorted cmp (a ++ v :: b) <-> sorted cmp a /\ sorted cmp b /\ below v a /\ above v b /\ Forall (fun x => above x b) a.
Proof.
  rewrite sorted_app. unfold sorted at 2. split.
  - intros [H1 [H2 H3]]. apply StronglySorted_inv in H2. destruct H2 as [H4 H5]. split; [exact H1|]. split; [exact H4|].
    split; [|split; [exact H5|]]; (eapply Forall_impl; [|exact H3]); cbn; intros q Q; apply Forall_cons_iff in Q; tauto.
  - intros [H1 [H2 [H3 [H4 H5]]]]. split; [exact H1|]. split; [constructor; assumption|].
    apply Forall_forall. intros q Q. unfold below in H3. rewrite Forall_forall in H3, H5. constructor; [apply (H3 q Q)|apply (H5 q Q)].
Qed.
Lemma below_above v a b : below v a -> above v b -> Forall (fun x => above x b) a.
Proof.
  intros H1 H2. eapply Forall_impl; [|exact H1]. cbn. intros q Q. eapply Forall_impl; [|exact H2]. cbn. intros q2 Q2. apply (lt_le_trans q v q2); lia.
Qed.

Lemma descend_between x t : forall c, sorted cmp (inorder t) -> below x (before c) -> above x (after c) ->
  match descend cmp x t c with (_, m, c') => below x (before c') /\ above x (after c') end.
Proof.
  induction t as [|red l IHl v r IHr]; intros c S B A; cbn [descend].
  - auto.
  - cbn [inorder] in S. apply sorted_mid in S. destruct S as [S1 [S2 [S3 [S4 S5]]]].
    destruct (Z.ltb_spec (cmp x v) 0); [|destruct (Z.ltb_spec 0 (cmp x v))].
    + apply IHl; [assumption|cbn [before toLeft fval other]; rewrite app_nil_r; exact B|cbn [after toLeft fval other]].
      apply Forall_app. split; [|exact A]. constructor; [assumption|]. eapply Forall_impl; [|exact S4]. cbn. intros q Q. apply (lt_le_trans x v q); lia.
    + apply gt_lt in H0. apply IHr; [assumption|cbn [before after toLeft fval other]|exact A].
      apply Forall_app. split; [exact B|]. apply Forall_app. split; [|constructor; [assumption|constructor]].
      eapply Forall_impl; [|exact S3]. cbn. intros q Q. apply (lt_le_trans q v x); lia.
    + auto.
Qed.

Lemma lookup_app x a b : lookup cmp x (a ++ b) = match lookup cmp x a with Some y => Some y | None => lookup cmp x b end.
Proof. unfold lookup. induction a as [|y a IH]; [reflexivity|]. cbn. destruct (cmp x y =? 0)%Z; [reflexivity|exact IH]. Qed.
Lemma lookup_below x a : below x a -> lookup cmp x a = None.
Proof.
  unfold lookup. induction 1 as [|y a H F IH]; [reflexivity|]. cbn. apply gt_lt in H. destruct (Z.eqb_spec (cmp x y) 0); [lia|exact IH].
Qed.
Lemma lookup_above x a : above x a -> lookup cmp x a = None.
Proof. unfold lookup. induction 1 as [|y a H F IH]; [reflexivity|]. cbn. destruct (Z.eqb_spec (cmp x y) 0); [lia|exact IH]. Qed.
Lemma filter_all (P : T -> bool) l : Forall (fun y => P y = true) l -> filter P l = l.
Proof. induction 1 as [|y l H F IH]; [reflexivity|]. cbn. rewrite H, IH. reflexivity. Qed.
Lemma filter_none (P : T -> bool) l : Forall (fun y => P y = false) l -> filter P l = [].
Proof. induction 1 as [|y l H F IH]; [reflexivity|]. cbn. rewrite H, IH. reflexivity. Qed.
Ltac fall H := eapply Forall_impl; [|exact H]; cbn; let q := fresh in let Q := fresh in intros q Q.

Lemma insert_between x a m b : below x a -> above x b -> Forall (fun y => cmp x y = 0%Z) m -> insert cmp x (a ++ m ++ b) = a ++ x :: b.
Proof.
  intros B A M. unfold insert. rewrite !filter_app.
  rewrite (filter_all _ a), (filter_none _ m), (filter_none _ b), (filter_none _ a), (filter_none _ m), (filter_all _ b).
  - cbn. rewrite app_nil_r. reflexivity.
  - fall A. apply gt_lt in H0. apply Z.ltb_lt. exact H0.
  - fall M. apply eq_sym0 in H0. rewrite H0. reflexivity.
  - fall B. apply Z.ltb_ge. lia.
  - fall A. apply gt_lt in H0. apply Z.ltb_ge. lia.
  - fall M. apply eq_sym0 in H0. rewrite H0. reflexivity.
  - fall B. apply Z.ltb_lt. exact H0.
Qed.
Lemma without_between x a m b : below x a -> above x b -> Forall (fun y => cmp x y = 0%Z) m -> without cmp x (a ++ m ++ b) = a ++ b.
Proof.
  intros B A M. unfold without. rewrite !filter_app. rewrite (filter_all _ a), (filter_none _ m), (filter_all _ b); [reflexivity| | |].
  - fall A. destruct (Z.eqb_spec (cmp x H) 0); [lia|reflexivity].
  - fall M. rewrite H0. reflexivity.
  - fall B. apply gt_lt in H0. destruct (Z.eqb_spec (cmp x H) 0); [lia|reflexivity].
Qed.

Definition good (s : PSet_Model.pset T) : Prop := okset s /\ sorted cmp (elements s).

Lemma find_cases x s : good s ->
  (exists a b, elements s = a ++ b /\ below x a /\ above x b /\ fresh (find cmp x s) = true /\
     exists s', addPath (find cmp x s) = Some s' /\ good s' /\ elements s' = a ++ x :: b) \/
  (exists a v b, elements s = a ++ [v] ++ b /\ cmp x v = 0%Z /\ below x a /\ above x b /\ fresh (find cmp x s) = false /\ pathValue (find cmp x s) = Some v /\
     (exists s', replaceWith cmp (find cmp x s) x = Some s' /\ good s' /\ elements s' = a ++ x :: b) /\
     exists s', remove (find cmp x s) = Some s' /\ good s' /\ elements s' = a ++ b).
Proof.
  intros [[[RB [n R]] SZ] S]. unfold find.
  pose proof (descend_rb x (root s) [] n R (rbcNil n) (fun _ => RB)) as D.
  assert (B : match descend cmp x (root s) [] with (_, m, c') => below x (before c') /\ above x (after c') end).
  { apply descend_between; [exact S|constructor|constructor]. }
  destruct (descend cmp x (root s) []) as [[[|] m] c]; cbn [fresh].
  - destruct D as [-> [D1 D2]]. destruct B as [B A]. left. exists (before c), (after c). cbn [plug] in D1.
    assert (E : elements s = before c ++ after c) by (unfold elements; rewrite <- D1, inorder_plug; reflexivity).
    split; [exact E|]. split; [exact B|]. split; [exact A|]. split; [reflexivity|].
    unfold addPath. cbn [fresh negb node redden ancestors total].
    destruct (addLoop_ok (length c) c (Node true Null x Null) 0) as [t' [X1 [X2 X3]]]; [lia|constructor; (constructor || reflexivity)|reflexivity|exact D2|].
    rewrite X1. eexists. split; [reflexivity|].
    assert (E' : inorder (blacken t') = before c ++ x :: after c) by (rewrite inorder_blacken, X3; cbn; reflexivity).
    split; [|exact E']. split; [split; [exact X2|]|]; unfold elements; cbn [root size].
    + rewrite E', SZ, E, !app_length. cbn. lia.
    + rewrite E'. rewrite E in S. apply sorted_app in S. destruct S as [S1 [S2 S3]]. apply sorted_mid. auto.
  - destruct D as [D1 [_ [_ [r [l [v [rt [-> D5]]]]]]]]. destruct B as [B A]. right. cbn [plug] in D1.
    assert (E : elements s = (before c ++ inorder l) ++ [v] ++ (inorder rt ++ after c)) by (unfold elements; rewrite <- D1, inorder_plug; cbn [inorder]; lists).
    exists (before c ++ inorder l), v, (inorder rt ++ after c).
    split; [exact E|]. split; [exact D5|].
    pose proof S as S0. rewrite E in S0. cbn [app] in S0. apply sorted_mid in S0. destruct S0 as [S1 [S2 [S3 [S4 S5]]]].
    assert (BX : below x (before c ++ inorder l)).
    { fall S3. apply eq_sym0 in D5. apply (lt_le_trans H v x); lia. }
    assert (AX : above x (inorder rt ++ after c)).
    { fall S4. apply (le_lt_trans x v H); lia. }
    split; [exact BX|]. split; [exact AX|]. split; [reflexivity|]. split; [reflexivity|].
    split.
    + unfold replaceWith. cbn [fresh node ancestors total]. apply eq_sym0 in D5. rewrite D5. cbn [Z.eqb]. eexists. split; [reflexivity|].
      assert (E' : inorder (plug (Node r l x rt) c) = (before c ++ inorder l) ++ x :: (inorder rt ++ after c)) by (rewrite inorder_plug; cbn [inorder]; lists).
      split; [|exact E']. split; [split|]; unfold elements; cbn [root size].
      * assert (RP : rbRoot (plug (Node r l v rt) c)) by (rewrite D1; split; eauto).
        destruct (unplug_rb _ _ RP) as [k [K1 [K2 K3]]]. apply (plug_rb _ _ k); auto. inversion K1; subst; constructor; assumption.
      * rewrite E', SZ, E, !app_length. cbn [length]. rewrite ?app_length. lia.
      * rewrite E'. apply sorted_mid. auto.
    + unfold remove. cbn [fresh].
      destruct (removePath_ok s {| fresh := false; node := Node r l v rt; ancestors := c; total := size s |} r l v rt) as [s' [X1 [X2 X3]]].
      * split; [split; eauto|exact SZ].
      * split; [exact D1|]. split; [reflexivity|discriminate].
      * reflexivity.
      * exists s'. split; [exact X1|]. cbn [ancestors] in X3.
        assert (E' : elements s' = (before c ++ inorder l) ++ inorder rt ++ after c) by (rewrite X3; lists).
        split; [|exact E']. split; [exact X2|]. rewrite E'. apply sorted_app. auto.
Qed.
End Order.

(** *** Iterating *)
(** What is ahead of a path, and behind it. *)
Definition ahead (p : PSet_Model.path T) : list T := match node p with Node _ _ _ r => inorder r ++ after (ancestors p) | Null => [] end.
Definition behind (p : PSet_Model.path T) : list T := match node p with Node _ l _ _ => before (ancestors p) ++ inorder l | Null => [] end.

Lemma climbRight_ok c : forall n, n <> Null ->
  match climbRight n c with
  | None => after c = []
  | Some (m, c') => plug m c' = plug n c /\ exists r l v rt, m = Node r l v rt /\ after c = v :: inorder rt ++ after c'
  end.
Proof.
  induction c as [|f c IH]; intros n N; cbn [climbRight after]; [reflexivity|]. destruct (toLeft f) eqn:E.
  - split; [reflexivity|]. unfold join. rewrite E. do 4 eexists. split; reflexivity.
  - apply (IH (join f n)). unfold join. rewrite E. discriminate.
Qed.
Lemma climbLeft_ok c : forall n, n <> Null ->
  match climbLeft n c with
  | None => before c = []
  | Some (m, c') => plug m c' = plug n c /\ exists r l v rt, m = Node r l v rt /\ before c = (before c' ++ inorder l) ++ [v]
  end.
Proof.
  induction c as [|f c IH]; intros n N; cbn [climbLeft before]; [reflexivity|]. destruct (toLeft f) eqn:E.
  - rewrite app_nil_r. apply (IH (join f n)). unfold join. rewrite E. discriminate.
  - split; [reflexivity|]. unfold join. rewrite E. do 4 eexists. split; [reflexivity|]. lists.
Qed.

Lemma successor_ok s p : within s p ->
  match successor p with
  | None => ahead p = []
  | Some q => within s q /\ fresh q = false /\ exists v, pathValue q = Some v /\ ahead p = v :: ahead q
  end.
Proof.
  intros [W1 [W2 W3]]. unfold successor, ahead. destruct (node p) as [|r l v rt] eqn:E; [congruence|]. destruct rt as [|r2 l2 v2 rt2].
  - pose proof (climbRight_ok (ancestors p) (Node r l v Null) ltac:(discriminate)) as C.
    destruct (climbRight _ _) as [[m c']|]; [|exact C]. destruct C as [C1 [r' [l' [v' [rt' [-> C2]]]]]].
    split; [split; [cbn [node ancestors]; rewrite C1; exact W1|split; [exact W2|discriminate]]|].
    split; [reflexivity|]. exists v'. split; [reflexivity|]. cbn [node ancestors]. exact C2.
  - destruct (min_ok (Node r2 l2 v2 rt2) (Frame false r v l :: ancestors p)) as [dr [dv [drt [c' [X1 [X2 [X3 X4]]]]]]]; [discriminate|].
    rewrite X1. split; [split; [cbn [node ancestors]; rewrite X2; exact W1|split; [exact W2|discriminate]]|].
    split; [reflexivity|]. exists dv. split; [reflexivity|]. cbn [node ancestors]. exact X3.
Qed.
Lemma predecessor_ok s p : within s p ->
  match predecessor p with
  | None => behind p = []
  | Some q => within s q /\ exists v, pathValue q = Some v /\ behind p = behind q ++ [v]
  end.
Proof.
  intros [W1 [W2 W3]]. unfold predecessor, behind. destruct (node p) as [|r l v rt] eqn:E; [congruence|]. destruct l as [|r2 l2 v2 rt2].
  - pose proof (climbLeft_ok (ancestors p) (Node r Null v rt) ltac:(discriminate)) as C.
    destruct (climbLeft _ _) as [[m c']|]; [|cbn [inorder]; rewrite app_nil_r; exact C]. destruct C as [C1 [r' [l' [v' [rt' [-> C2]]]]]].
    split; [split; [cbn [node ancestors]; rewrite C1; exact W1|split; [exact W2|discriminate]]|].
    exists v'. split; [reflexivity|]. cbn [node ancestors inorder]. rewrite app_nil_r. exact C2.
  - destruct (rightmost_ok (Node r2 l2 v2 rt2) (Frame true r v rt :: ancestors p)) as [dr [dv [dl [c' [X1 [X2 [X3 X4]]]]]]]; [discriminate|].
    rewrite X1. split; [split; [cbn [node ancestors]; rewrite X2; exact W1|split; [exact W2|discriminate]]|].
    exists dv. split; [reflexivity|]. cbn [node ancestors]. cbn [before toLeft] in X3. rewrite app_nil_r in X3. exact X3.
Qed.

Lemma first_ok s : match first s with
  | None => elements s = []
  | Some p => within s p /\ exists v, pathValue p = Some v /\ elements s = v :: ahead p
  end.
Proof.
  unfold first. destruct (root s) as [|r l v rt] eqn:E; [unfold elements; rewrite E; reflexivity|]. rewrite leftmost_min.
  destruct (min_ok (Node r l v rt) []) as [dr [dv [drt [c' [X1 [X2 [X3 X4]]]]]]]; [discriminate|]. rewrite X1.
  split; [split; [cbn [node ancestors]; rewrite X2; symmetry; exact E|split; [reflexivity|discriminate]]|].
  exists dv. split; [reflexivity|]. unfold elements, ahead. rewrite E. cbn [node ancestors]. rewrite <- X3. cbn [after]. rewrite app_nil_r. reflexivity.
Qed.
Lemma last_ok s : match last s with
  | None => elements s = []
  | Some p => within s p /\ exists v, pathValue p = Some v /\ elements s = behind p ++ [v]
  end.
Proof.
  unfold last. destruct (root s) as [|r l v rt] eqn:E; [unfold elements; rewrite E; reflexivity|].
  destruct (rightmost_ok (Node r l v rt) []) as [dr [dv [dl [c' [X1 [X2 [X3 X4]]]]]]]; [discriminate|]. rewrite X1.
  split; [split; [cbn [node ancestors]; rewrite X2; symmetry; exact E|split; [reflexivity|discriminate]]|].
  exists dv. split; [reflexivity|]. unfold elements, behind. rewrite E. cbn [node ancestors]. rewrite <- X3. reflexivity.
Qed.

Lemma iterate_up s : forall f p v, within s p -> pathValue p = Some v -> length (ahead p) < f -> iterate f successor (Some p) = v :: ahead p.
Proof.
  induction f as [|f IH]; intros p v W V L; [lia|]. cbn [iterate]. rewrite V. f_equal.
  pose proof (successor_ok s p W) as Q. destruct (successor p) as [q|]; [|rewrite Q; destruct f; reflexivity].
  destruct Q as [W' [_ [v' [V' A]]]]. rewrite A in *. apply IH; auto. cbn in L. lia.
Qed.
Lemma iterate_down s : forall f p v, within s p -> pathValue p = Some v -> length (behind p) < f -> iterate f predecessor (Some p) = v :: rev (behind p).
Proof.
  induction f as [|f IH]; intros p v W V L; [lia|]. cbn [iterate]. rewrite V. f_equal.
  pose proof (predecessor_ok s p W) as Q. destruct (predecessor p) as [q|]; [|rewrite Q; destruct f; reflexivity].
  destruct Q as [W' [v' [V' A]]]. rewrite A in *. rewrite rev_app_distr. cbn [rev app]. apply IH; auto. rewrite app_length in L. cbn in L. lia.
Qed.

(** *** Balance *)
Fixpoint height (t : tree) : nat := match t with Null => 0 | Node _ l _ r => S (Nat.max (height l) (height r)) end.
Lemma balanced t n : rb t n -> 2 ^ n <= S (length (inorder t)) /\ height t <= 2 * n + (if isRed t then 1 else 0).
Proof.
  induction 1; cbn [inorder height isRed]; rewrite ?app_length; cbn [length].
  - cbn. lia.
  - destruct IHrb1, IHrb2. rewrite ?H1, ?H2, ?H0, ?H in *. split; [lia|]. 
    repeat match goal with H : isRed _ = false |- _ => rewrite H in * end. lia.
  - destruct IHrb1, IHrb2. split; [cbn [Nat.pow]; lia|]. destruct (isRed l), (isRed r); lia.
Qed.

(** *** Sweeping *)
Lemma within_elements s p v : within s p -> pathValue p = Some v -> elements s = behind p ++ v :: ahead p.
Proof.
  intros [W1 [W2 W3]] V. unfold pathValue, behind, ahead in *. destruct (node p) as [|r l u rt] eqn:E; [congruence|]. injection V as ->.
  unfold elements. rewrite <- W1, inorder_plug. cbn [inorder]. lists.
Qed.
Lemma cmp_refl : ordered cmp -> forall a, cmp a a = 0%Z.
Proof. intros O a. pose proof (oAnti _ O a a). destruct (cmp a a); cbn in *; lia. Qed.
Lemma split_unique : ordered cmp -> forall v a a' b b', sorted cmp (a ++ v :: b) -> a ++ v :: b = a' ++ v :: b' -> a = a' /\ b = b'.
Proof.
  intros O v. induction a as [|x a IH]; intros [|x' a'] b b' S E; cbn in E.
  - injection E as E1. auto.
  - injection E as E1 E2. subst x' b. apply (sorted_mid [] v) in S. destruct S as [_ [_ [_ [S _]]]]. unfold above in S. rewrite Forall_forall in S.
    specialize (S v ltac:(apply in_or_app; right; left; reflexivity)). rewrite (cmp_refl O) in S. lia.
  - injection E as E1 E2. subst x. cbn [app] in S. apply (sorted_mid [] v) in S. destruct S as [_ [_ [_ [S _]]]]. unfold above in S. rewrite Forall_forall in S.
    specialize (S v ltac:(apply in_or_app; right; left; reflexivity)). rewrite (cmp_refl O) in S. lia.
  - injection E as E1 E2. subst x'. cbn [app] in S. unfold sorted in S. apply StronglySorted_inv in S. destruct S as [S _].
    destruct (IH a' b b' S E2). subst. auto.
Qed.
Lemma find_element : ordered cmp -> forall s a v b, good s -> elements s = a ++ v :: b ->
  let p := find cmp v s in fresh p = false /\ within s p /\ pathValue p = Some v /\ ahead p = b.
Proof.
  intros O s a v b G E. cbn zeta.
  pose proof (find_cases O v s G) as FC. destruct G as [[[RB [n R]] SZ] S].
  assert (X : fresh (find cmp v s) = false /\ pathValue (find cmp v s) = Some v).
  { assert (I : In v (elements s)) by (rewrite E; apply in_or_app; right; left; reflexivity).
    pose proof (cmp_refl O v) as RF.
    destruct FC as [[a' [b' [E' [B [A _]]]]]|[a' [u [b' [E' [C [B [A [F [V _]]]]]]]]]].
    - exfalso. unfold below, above in *. rewrite Forall_forall in A, B. rewrite E' in I. apply in_app_or in I.
      destruct I as [I|I]; [specialize (B _ I)|specialize (A _ I)]; lia.
    - split; [exact F|]. rewrite V. f_equal. unfold below, above in *. rewrite Forall_forall in A, B. rewrite E' in I. apply in_app_or in I.
      destruct I as [I|[I|I]]; [specialize (B _ I); lia|exact I|specialize (A _ I); lia]. }
  destruct X as [F V].
  assert (W : within s (find cmp v s)).
  { unfold find in *. pose proof (descend_rb v (root s) [] n R (rbcNil n) (fun _ => RB)) as D.
    destruct (descend cmp v (root s) []) as [[[|] m] c]; cbn in F; [discriminate|].
    destruct D as [D1 [_ [_ [r [l [u [rt [-> D5]]]]]]]]. split; [exact D1|split; [reflexivity|discriminate]]. }
  split; [exact F|]. split; [exact W|]. split; [exact V|].
  pose proof (within_elements _ _ _ W V) as E2. rewrite E2 in S. rewrite E in E2. symmetry in E2. apply (split_unique O) in E2; tauto.
Qed.

(** The state of an iterator: the elements kept, whether the element returned last can be removed, those to come. *)
Record sweeping (i : iter (T:=T)) (kept rest : list T) : Prop := {
  wGood : good (iset i);
  wElems : elements (iset i) = kept ++ rest;
  wHas : rest <> [] -> hasNext i = true;
  wHasNot : rest = [] -> hasNext i = false;
  wNext : forall v r, rest = v :: r -> exists i1, next i = Some (v, i1) /\ iset i1 = iset i /\ icanRemove i1 = true /\ icell i1 = None /\
          exists p, ipath i1 = Some p /\ within (iset i) p /\ pathValue p = Some v /\ ahead p = r /\ inext i1 = successor p /\ (kept <> [] -> fresh p = false) }.

Lemma sweeping_of kept rest i p : good (iset i) -> elements (iset i) = kept ++ rest -> ipath i = Some p -> within (iset i) p -> inext i = successor p ->
  (icell i = None /\ kept <> [] /\ ahead p = rest \/ exists v, icell i = Some v /\ pathValue p = Some v /\ rest = v :: ahead p /\ (kept <> [] -> fresh p = false)) ->
  sweeping i kept rest.
Proof.
  intros G E P W N C. pose proof (successor_ok _ p W) as Q. destruct C as [[C [K A]]|[v [C [V [A F]]]]].
  - split; auto.
    + intro R. unfold hasNext. rewrite C, N. destruct (successor p); [reflexivity|]. congruence.
    + intro R. unfold hasNext. rewrite C, N. destruct (successor p) as [q|]; [|reflexivity]. destruct Q as [_ [_ [v [_ Q]]]]. rewrite A, R in Q. discriminate.
    + intros v r R. unfold next. rewrite C, N. destruct (successor p) as [q|]; [|congruence]. destruct Q as [W' [FQ [v' [V' A']]]].
      rewrite A, R in A'. injection A' as -> ->. rewrite V'. eexists. split; [reflexivity|]. cbn. repeat match goal with |- _ /\ _ => split; [reflexivity|] end.
      exists q. repeat match goal with |- _ /\ _ => split end; auto.
  - split; auto.
    + intro R. unfold hasNext. rewrite C. reflexivity.
    + intro R. congruence.
    + intros v' r R. rewrite R in A. injection A as -> ->. unfold next. rewrite C. eexists. split; [reflexivity|]. cbn. repeat match goal with |- _ /\ _ => split; [reflexivity|] end.
      exists p. repeat match goal with |- _ /\ _ => split end; auto.
Qed.

Lemma sweep_ok : ordered cmp -> forall keep rest fuel i kept, length rest <= fuel -> sweeping i kept rest ->
  (kept = [] -> forall v r, rest = v :: r -> keep v = true) ->
  exists s, sweep cmp fuel keep i = Some (rest, s) /\ good s /\ elements s = kept ++ filter keep rest.
Proof.
  intros O keep. induction rest as [|v r IH]; intros fuel i kept L W K.
  - exists (iset i). split; [|split; [apply (wGood _ _ _ W)|apply (wElems _ _ _ W)]]. destruct fuel; cbn; rewrite (wHasNot _ _ _ W eq_refl); reflexivity.
  - destruct fuel as [|fuel]; [cbn in L; lia|]. cbn [sweep]. rewrite (wHas _ _ _ W) by discriminate.
    destruct (wNext _ _ _ W v r eq_refl) as [i1 [N [N1 [N2 [N3 [p [P1 [P2 [P3 [P4 [P5 P6]]]]]]]]]]]. rewrite N. cbn [bindP filter].
    pose proof (wElems _ _ _ W) as E. pose proof (wGood _ _ _ W) as G. destruct (keep v) eqn:KV.
    + destruct (IH fuel i1 (kept ++ [v])) as [s [X1 [X2 X3]]].
      * cbn in L. lia.
      * apply (sweeping_of _ _ i1 p); rewrite ?N1; auto; [rewrite E; lists|]. left. split; [exact N3|]. split; [destruct kept; discriminate|exact P4].
      * intro Q. destruct kept; discriminate.
      * cbn [bindP]. rewrite X1. exists s. split; [reflexivity|]. split; [exact X2|]. rewrite X3. lists.
    + assert (KN : kept <> []) by (intro Q; rewrite (K Q v r eq_refl) in KV; discriminate).
      pose proof (within_elements _ _ _ P2 P3) as E1.
      destruct G as [OK S]. assert (QB : behind p = kept /\ ahead p = r). { rewrite E1 in S. rewrite E in E1. symmetry in E1. apply (split_unique O) in E1; tauto. }
      destruct QB as [QB _].
      unfold pathValue in P3. destruct (node p) as [|rd l u rt] eqn:EN; [discriminate|]. injection P3 as ->.
      destruct (removePath_ok _ p rd l v rt OK P2 EN) as [s' [R1 [R2 R3]]].
      assert (E' : elements s' = kept ++ r) by (rewrite R3, <- QB, <- P4; unfold behind, ahead; rewrite EN; lists).
      assert (G' : good s').
      { split; [exact R2|]. rewrite E'. rewrite E in S. apply (sorted_mid) in S. apply sorted_app. tauto. }
      unfold iremove. rewrite N2, P1. cbn [negb bindP]. unfold remove. rewrite (P6 KN), R1, P5.
      pose proof (successor_ok _ p P2) as Q. destruct (successor p) as [q|].
      * destruct Q as [WQ [FQ [w [VQ AQ]]]]. rewrite VQ. rewrite P4 in AQ. clear P4. subst r. cbn zeta.
        destruct (find_element O s' kept w (ahead q) G' E') as [F1 [F2 [F3 F4]]]. cbn [bindP].
        destruct (IH fuel {| iset := s'; ipath := Some (find cmp w s'); inext := successor (find cmp w s'); icell := Some w; icanRemove := false |} kept) as [s [X1 [X2 X3]]].
        -- cbn in L |- *. lia.
        -- eapply sweeping_of; [exact G'|exact E'|reflexivity|exact F2|reflexivity|]. right. exists w. split; [reflexivity|]. split; [exact F3|]. split; [rewrite F4; reflexivity|auto].
        -- congruence.
        -- rewrite X1. exists s. split; [reflexivity|]. auto.
      * rewrite P4 in Q. clear P4. subst r. cbn [bindP]. rewrite N3. destruct fuel; cbn; exists s'; auto.
Qed.

(** *** Calls *)
Lemma exec_ok : ordered cmp -> forall o s, good s ->
  good (fst (exec cmp o s)) /\ spec cmp o (elements s) = (elements (fst (exec cmp o s)), snd (exec cmp o s)).
Proof.
  intros O o s G.
  assert (LN : forall x a b, below x a -> above x b -> lookup cmp x (a ++ b) = None).
  { intros x a b B A. rewrite lookup_app, (lookup_below O) by exact B. apply lookup_above. exact A. }
  assert (LS : forall x a v b, below x a -> cmp x v = 0%Z -> lookup cmp x (a ++ [v] ++ b) = Some v).
  { intros x a v b B C. rewrite lookup_app, (lookup_below O) by exact B. unfold lookup. cbn. rewrite C. reflexivity. }
  assert (SZ : size s = length (elements s)) by apply G.
  destruct o as [x|x|x|x|x| | | | | | ]; cbn [exec spec].
  - destruct (find_cases O x s G) as [[a [b [E [B [A [F [s' [P [G' E']]]]]]]]]|[a [v [b [E [C [B [A [F _]]]]]]]]]; rewrite F.
    + rewrite P. cbn [fst snd]. split; [exact G'|]. rewrite E, LN by assumption. cbn [isSome]. pose proof (insert_between O x a [] b B A (Forall_nil _)) as I; cbn [app] in I; rewrite I.
      rewrite E'. reflexivity.
    + cbn [fst snd]. split; [exact G|]. rewrite E, LS by assumption. reflexivity.
  - destruct (find_cases O x s G) as [[a [b [E [B [A [F [s' [P [G' E']]]]]]]]]|[a [v [b [E [C [B [A [F [V [[s' [P [G' E']]] _]]]]]]]]]]]; rewrite F.
    + rewrite P. cbn [fst snd]. split; [exact G'|]. rewrite E, LN by assumption. pose proof (insert_between O x a [] b B A (Forall_nil _)) as I; cbn [app] in I; rewrite I.
      rewrite E'. reflexivity.
    + rewrite P. cbn [fst snd]. split; [exact G'|]. rewrite E, LS, V by assumption. rewrite (insert_between O x a [v] b) by (auto; constructor; auto; constructor).
      rewrite E'. reflexivity.
  - cbn [fst snd]. split; [exact G|]. f_equal.
    destruct (find_cases O x s G) as [[a [b [E [B [A [F _]]]]]]|[a [v [b [E [C [B [A [F [V _]]]]]]]]]]; rewrite F; f_equal; rewrite E.
    + apply LN; assumption.
    + rewrite V. apply LS; assumption.
  - cbn [fst snd]. split; [exact G|]. f_equal.
    destruct (find_cases O x s G) as [[a [b [E [B [A [F _]]]]]]|[a [v [b [E [C [B [A [F [V _]]]]]]]]]]; rewrite F; f_equal; rewrite E.
    + rewrite LN; auto.
    + rewrite LS; auto.
  - destruct (find_cases O x s G) as [[a [b [E [B [A [F _]]]]]]|[a [v [b [E [C [B [A [F [V [_ [s' [P [G' E']]]]]]]]]]]]]]; rewrite F.
    + cbn [fst snd]. split; [exact G|]. rewrite E, LN by assumption. f_equal. apply (without_between O x a [] b); auto.
    + rewrite P. cbn [fst snd]. split; [exact G'|]. rewrite E, LS, V by assumption. rewrite (without_between O x a [v] b) by (auto; constructor; auto; constructor).
      rewrite E'. reflexivity.
  - cbn. rewrite SZ. auto.
  - pose proof (first_ok s) as Q. rewrite SZ. destruct (first s) as [p|].
    + destruct Q as [_ [v [V E]]]. rewrite E. cbn. rewrite V. split; [exact G|]. rewrite E. reflexivity.
    + rewrite Q. cbn. split; [exact G|]. rewrite Q. reflexivity.
  - pose proof (last_ok s) as Q. rewrite SZ. destruct (last s) as [p|].
    + destruct Q as [_ [v [V E]]]. rewrite E. rewrite rev_app_distr, app_length. cbn [rev app length]. rewrite Nat.add_1_r. cbn. rewrite V. split; [exact G|]. rewrite E. reflexivity.
    + rewrite Q. cbn. split; [exact G|]. rewrite Q. reflexivity.
  - cbn [fst snd]. split; [exact G|]. f_equal. f_equal. rewrite SZ. pose proof (first_ok s) as Q. destruct (first s) as [p|].
    + destruct Q as [W [v [V E]]]. rewrite (iterate_up s _ p v W V); [exact E|]. rewrite E. cbn. lia.
    + rewrite Q. reflexivity.
  - cbn [fst snd]. split; [exact G|]. f_equal. f_equal. rewrite SZ. pose proof (last_ok s) as Q. destruct (last s) as [p|].
    + destruct Q as [W [v [V E]]]. rewrite (iterate_down s _ p v W V); [rewrite E, rev_app_distr; reflexivity|]. rewrite E, app_length. cbn. lia.
    + rewrite Q. reflexivity.
  - cbn. split; [|reflexivity]. split; [split; [split; [reflexivity|exists 0; constructor]|reflexivity]|constructor].
Qed.

Lemma good_empty : good empty.
Proof. split; [split; [split; [reflexivity|exists 0; constructor]|reflexivity]|constructor]. Qed.
Lemma run_ok : ordered cmp -> forall os s, good s ->
  good (fst (runWith (exec cmp) os s)) /\ runWith (spec cmp) os (elements s) = (elements (fst (runWith (exec cmp) os s)), snd (runWith (exec cmp) os s)).
Proof.
  intros O. induction os as [|o os IH]; intros s G; cbn [runWith]; [auto|].
  destruct (exec_ok O o s G) as [G1 E1]. rewrite E1. destruct (exec cmp o s) as [s1 a]. cbn [fst snd] in *.
  destruct (IH s1 G1) as [G2 E2]. rewrite E2. destruct (runWith (exec cmp) os s1) as [s2 l]. cbn [fst snd] in *. auto.
Qed.

(** What lookups find after an insertion and a removal. *)
Lemma lookup_ext x y l : ordered cmp -> cmp x y = 0%Z -> lookup cmp x l = lookup cmp y l.
Proof.
  intros O E. unfold lookup. induction l as [|z l IH]; [reflexivity|]. cbn. rewrite IH.
  replace (cmp x z =? 0)%Z with (cmp y z =? 0)%Z; [reflexivity|]. pose proof E as E'. apply (eq_sym0 O) in E'.
  destruct (Z.eqb_spec (cmp y z) 0) as [Q|Q], (Z.eqb_spec (cmp x z) 0) as [Q'|Q']; auto; exfalso.
  - apply Q'. destruct (Z.lt_total (cmp x z) 0) as [H|[H|H]]; auto.
    + pose proof (le_lt_trans O y x z ltac:(lia) H). lia.
    + apply (gt_lt O) in H. pose proof (lt_le_trans O z x y H ltac:(lia)) as H2. apply (gt_lt O) in H2. lia.
  - apply Q. destruct (Z.lt_total (cmp y z) 0) as [H|[H|H]]; auto.
    + pose proof (le_lt_trans O x y z ltac:(lia) H). lia.
    + apply (gt_lt O) in H. pose proof (lt_le_trans O z y x H ltac:(lia)) as H2. apply (gt_lt O) in H2. lia.
Qed.

Lemma lookup_eq0 z x m : ordered cmp -> cmp z x <> 0%Z -> Forall (fun y => cmp x y = 0%Z) m -> lookup cmp z m = None.
Proof.
  intros O N. unfold lookup. induction 1 as [|y m H F IH]; [reflexivity|]. cbn. destruct (Z.eqb_spec (cmp z y) 0) as [E|E]; [|exact IH].
  exfalso. apply N. assert (Q : lookup cmp z [x] = lookup cmp y [x]) by (apply lookup_ext; assumption).
  unfold lookup in Q. cbn in Q. apply (eq_sym0 O) in H. rewrite H in Q. cbn in Q. destruct (Z.eqb_spec (cmp z x) 0); [assumption|discriminate].
Qed.
Lemma lookup_mid z x a m b : ordered cmp -> below x a -> above x b -> Forall (fun y => cmp x y = 0%Z) m ->
  lookup cmp z (a ++ x :: b) = (if (cmp z x =? 0)%Z then Some x else lookup cmp z (a ++ m ++ b)) /\
  lookup cmp z (a ++ b) = (if (cmp z x =? 0)%Z then None else lookup cmp z (a ++ m ++ b)).
Proof.
  intros O B A M. destruct (Z.eqb_spec (cmp z x) 0) as [E|E].
  - rewrite !(lookup_ext z x) by assumption. rewrite !lookup_app, (lookup_below O), (lookup_above x b) by assumption.
    split; [|reflexivity]. unfold lookup. cbn. rewrite (cmp_refl O). reflexivity.
  - rewrite !lookup_app, (lookup_eq0 z x m) by assumption. split; [|reflexivity]. destruct (lookup cmp z a); [reflexivity|].
    unfold lookup. cbn. destruct (Z.eqb_spec (cmp z x) 0); [congruence|reflexivity].
Qed.
End P.

Section M.
Context {K V : Type}.
Variable cmpK : K -> K -> Z.
Hypothesis O : ordered cmpK.
Notation cmpE := (@cmpEntry K V cmpK).
Lemma ordered_entries : ordered cmpE.
Proof. split; unfold cmpEntry; intros; [apply (oAnti _ O)|eapply (oTrans _ O); eassumption]. Qed.
Definition agrees (s : pset (@entry K V)) (m : K -> option (option V)) : Prop :=
  good cmpE s /\ forall k, m k = option_map snd (lookup cmpE (k, None) (elements s)).
Lemma cmp_any k (v : option V) k' v' : cmpE (k, v) (k', v') = cmpK k k'.
Proof. reflexivity. Qed.
Lemma map_step o s m : agrees s m -> agrees (fst (execMap cmpK o s)) (fst (specMap cmpK o m)) /\ snd (execMap cmpK o s) = snd (specMap cmpK o m).
Proof.
  intros [G A]. pose proof ordered_entries as OE. destruct o as [k|k v|k|k]; unfold execMap; cbn [toSetOp specMap].
  - destruct (exec_ok cmpE OE (Get (k, None)) s G) as [G' E]. cbn [spec] in E. destruct (exec _ _ s) as [s' a]. cbn [fst snd] in *.
    injection E as E1 E2. split; [split; [exact G'|]; rewrite <- E1; exact A|]. rewrite <- E2, A.
    destruct (lookup _ _ _) as [[k' v']|]; reflexivity.
  - pose proof (exec_ok cmpE OE (Put (k, v)) s G) as [G' E]. cbn [spec] in E. 
    assert (LQ : lookup cmpE (k, v) (elements s) = lookup cmpE (k, None) (elements s)) by reflexivity.
    assert (LI : forall k', lookup cmpE (k', None) (insert cmpE (k, v) (elements s)) = if (cmpK k' k =? 0)%Z then Some (k, v) else lookup cmpE (k', None) (elements s)).
    { intro k'. destruct (find_cases cmpE OE (k, v) s G) as [[a [b [E0 [B [Ab _]]]]]|[a [u [b [E0 [C [B [Ab _]]]]]]]].
      - rewrite E0. pose proof (insert_between cmpE OE (k, v) a [] b B Ab (Forall_nil _)) as I. cbn [app] in I. rewrite I.
        apply (lookup_mid cmpE (k', None) (k, v) a [] b OE B Ab (Forall_nil _)).
      - rewrite E0. assert (M : Forall (fun y => cmpE (k, v) y = 0%Z) [u]) by (constructor; [exact C|constructor]).
        rewrite (insert_between cmpE OE (k, v) a [u] b B Ab M). apply (lookup_mid cmpE (k', None) (k, v) a [u] b OE B Ab M). }
    destruct (exec _ _ s) as [s' a]. cbn [fst snd] in *. injection E as E1 E2. split.
    + split; [exact G'|]. intro k'. rewrite <- E1, LI. destruct (Z.eqb_spec (cmpK k' k) 0); [reflexivity|apply A].
    + rewrite <- E2, A, LQ. destruct (lookup _ _ _) as [[k' v']|]; reflexivity.
  - pose proof (exec_ok cmpE OE (Remove (k, None)) s G) as [G' E]. cbn [spec] in E. 
    assert (LI : forall k', lookup cmpE (k', None) (without cmpE (k, None) (elements s)) = if (cmpK k' k =? 0)%Z then None else lookup cmpE (k', None) (elements s)).
    { intro k'. destruct (find_cases cmpE OE (k, None) s G) as [[a [b [E0 [B [Ab _]]]]]|[a [u [b [E0 [C [B [Ab _]]]]]]]].
      - rewrite E0. pose proof (without_between cmpE OE (k, None) a [] b B Ab (Forall_nil _)) as I. cbn [app] in I. rewrite I.
        apply (lookup_mid cmpE (k', None) (k, None) a [] b OE B Ab (Forall_nil _)).
      - rewrite E0. assert (M : Forall (fun y => cmpE (k, None) y = 0%Z) [u]) by (constructor; [exact C|constructor]).
        rewrite (without_between cmpE OE (k, None) a [u] b B Ab M). apply (lookup_mid cmpE (k', None) (k, None) a [u] b OE B Ab M). }
    destruct (exec _ _ s) as [s' a]. cbn [fst snd] in *. injection E as E1 E2. split.
    + split; [exact G'|]. intro k'. rewrite <- E1, LI. destruct (Z.eqb_spec (cmpK k' k) 0); [reflexivity|apply A].
    + rewrite <- E2, A. destruct (lookup _ _ _) as [[k' v']|]; reflexivity.
  - destruct (exec_ok cmpE OE (Contains (k, None)) s G) as [G' E]. cbn [spec] in E. destruct (exec _ _ s) as [s' a]. cbn [fst snd] in *.
    injection E as E1 E2. split; [split; [exact G'|]; rewrite <- E1; exact A|]. rewrite <- E2, A.
    destruct (lookup _ _ _) as [[k' v']|]; reflexivity.
Qed.
Lemma map_run : forall os s m, agrees s m -> runMap (execMap cmpK) os s = runMap (specMap cmpK) os m.
Proof.
  induction os as [|o os IH]; intros s m A; [reflexivity|]. cbn [runMap]. destruct (map_step o s m A) as [A' E].
  destruct (execMap cmpK o s), (specMap cmpK o m). cbn [fst snd] in *. rewrite E, (IH _ _ A'). reflexivity.
Qed.
End M.
