From Verif Require Import Base Chars Names_Model Names_Spec.
Local Open Scope N_scope.

Lemma mangle_size : forall c, length (mangle c) = mangledSize c.
Proof.
  intros c. unfold mangle, mangledSize.
  destruct (c =? ch "/") eqn:E1.
  - apply N.eqb_eq in E1. subst. reflexivity.
  - destruct (c =? ch "_"), (c =? ch ";"), (c =? ch "["), (c =? ch "$"); reflexivity.
Qed.

Lemma flat_mangle_size : forall s, length (flat_map mangle s) = sizeAll s.
Proof.
  induction s as [|c s IH]; [reflexivity|]. cbn [flat_map sizeAll fold_right].
  rewrite app_length, mangle_size, IH. reflexivity.
Qed.

Lemma makeJNIName_length : forall prefix c m s d,
  length (makeJNIName prefix c m s d) = (length prefix + jniNameLength c m s d + 1)%nat.
Proof.
  intros. unfold makeJNIName, jniNameLength. rewrite !app_length, !flat_mangle_size.
  destruct d; cbn [length app]; rewrite ?flat_mangle_size; lia.
Qed.

(** * Decoding *)
(** A symbol is read back as a sequence of items: characters of the names, or
    separators ('/' and the explicit underscores). *)
Definition item := option N.   (* None = separator *)
Definition itemOf (c : N) : item := if c =? ch "/" then None else Some c.
Definition enc (i : item) : list N := match i with None => [ch "_"] | Some c => mangle c end.

Fixpoint decode (l : list N) : list item :=
  match l with
  | [] => []
  | c :: r =>
      if c =? ch "_" then
        match r with
        | d :: r1 =>
            if d =? ch "1" then Some (ch "_") :: decode r1
            else if d =? ch "2" then Some (ch ";") :: decode r1
            else if d =? ch "3" then Some (ch "[") :: decode r1
            else if d =? ch "0" then
              match r1 with
              | _ :: _ :: _ :: _ :: r5 => Some (ch "$") :: decode r5
              | _ => []
              end
            else None :: decode r
        | [] => [None]
        end
      else Some c :: decode r
  end.

(** No separator is followed by a character that would be taken for an escape. *)
Fixpoint clear (l : list item) : Prop :=
  match l with
  | [] => True
  | Some c :: r => c <> ch "/" /\ clear r
  | None :: r => match r with Some c :: _ => escDigit c = false | _ => True end /\ clear r
  end.

Lemma decode_enc : forall l, clear l -> decode (flat_map enc l) = l.
Proof.
  induction l as [|i l IH]; intros H; [reflexivity|].
  destruct i as [c|]; cbn [clear] in H; cbn [flat_map].
  - destruct H as [Hc H]. specialize (IH H). cbn [enc]. unfold mangle.
    apply N.eqb_neq in Hc. rewrite Hc.
    destruct (c =? ch "_") eqn:E1; [apply N.eqb_eq in E1; subst; cbn [app decode]; cbn; rewrite IH; reflexivity|].
    destruct (c =? ch ";") eqn:E2; [apply N.eqb_eq in E2; subst; cbn; rewrite IH; reflexivity|].
    destruct (c =? ch "[") eqn:E3; [apply N.eqb_eq in E3; subst; cbn; rewrite IH; reflexivity|].
    destruct (c =? ch "$") eqn:E4; [apply N.eqb_eq in E4; subst; cbn; rewrite IH; reflexivity|].
    cbn [app decode]. rewrite E1, IH. reflexivity.
  - destruct H as [Hn H]. specialize (IH H). cbn [enc app decode].
    change (ch "_" =? ch "_") with true. cbn iota.
    destruct l as [|[c|] l]; cbn [flat_map enc] in *.
    + reflexivity.
    + destruct (mangle c) as [|d r] eqn:Em.
      { unfold mangle in Em. repeat match type of Em with (if ?b then _ else _) = _ => destruct b end; discriminate. }
      assert (escDigit d = false) as Hd.
      { unfold mangle in Em.
        repeat match type of Em with (if ?b then _ else _) = _ => destruct b end;
          try (injection Em as <- <-; try reflexivity; exact Hn).
        all: inversion Em; reflexivity. }
      unfold escDigit in Hd. cbn [app] in *.
      destruct (d =? ch "0"), (d =? ch "1"), (d =? ch "2"), (d =? ch "3"); try discriminate.
      rewrite IH. reflexivity.
    + cbn [app] in *. change (ch "_" =? ch "1") with false. change (ch "_" =? ch "2") with false.
      change (ch "_" =? ch "3") with false. change (ch "_" =? ch "0") with false. cbn iota.
      rewrite IH. reflexivity.
Qed.

Lemma enc_itemOf : forall s, flat_map enc (map itemOf s) = flat_map mangle s.
Proof.
  induction s as [|c s IH]; [reflexivity|]. cbn [map flat_map]. rewrite IH. f_equal.
  unfold itemOf, mangle, enc. destruct (c =? ch "/") eqn:E; [reflexivity|].
  unfold mangle. rewrite E. reflexivity.
Qed.

Lemma itemOf_inj : forall s s', map itemOf s = map itemOf s' -> s = s'.
Proof.
  induction s as [|c s IH]; intros [|c' s'] H; try discriminate; [reflexivity|].
  injection H as H1 H2. f_equal; [|apply IH; assumption].
  unfold itemOf in H1. destruct (c =? ch "/") eqn:E, (c' =? ch "/") eqn:E'; try discriminate.
  - apply N.eqb_eq in E, E'. congruence.
  - congruence.
Qed.

Definition items (c m s : list N) (d : bool) : list item :=
  map itemOf c ++ None :: map itemOf m ++ (if d then None :: None :: map itemOf (params s) else []).

Lemma name_items : forall p c m s d,
  makeJNIName p c m s d = p ++ flat_map enc (items c m s d) ++ [0].
Proof.
  intros. unfold makeJNIName, items. rewrite flat_map_app, enc_itemOf. cbn [flat_map enc].
  rewrite flat_map_app, enc_itemOf. rewrite <- !app_assoc. do 3 f_equal.
  destruct d; cbn [flat_map enc app]; rewrite ?enc_itemOf; reflexivity.
Qed.

Lemma clear_sig : forall s b, sigOk b s ->
  clear (map itemOf s) /\ (b = true -> match s with [] => True | c :: _ => escDigit c = false end).
Proof.
  induction s as [|c s IH]; intros b H; cbn [map clear sigOk] in *; [auto|].
  destruct H as [H1 H2]. destruct (IH _ H2) as [H3 H4]. split; [|exact H1].
  unfold itemOf at 1. destruct (c =? ch "/") eqn:E.
  - split; [|assumption]. destruct s as [|c' s]; [exact I|]. cbn [map].
    unfold itemOf. destruct (c' =? ch "/"); [exact I|]. apply H4. reflexivity.
  - split; [|assumption]. intros ->. discriminate.
Qed.

Definition headOk (l : list item) : Prop := match l with Some c :: _ => escDigit c = false | _ => True end.

Lemma clear_seg : forall s b rest, segments b s -> clear rest ->
  clear (map itemOf s ++ rest) /\ (b = true -> headOk (map itemOf s ++ rest)).
Proof.
  induction s as [|c s IH]; intros b rest H Hr; cbn [map segments app] in *.
  - split; [assumption|]. intros ->. discriminate.
  - unfold itemOf at 1 3. destruct (c =? ch "/") eqn:E.
    + destruct H as [-> H]. destruct (IH _ rest H Hr) as [H1 H2]. split; [|discriminate].
      cbn [clear]. split; [|assumption]. exact (H2 eq_refl).
    + destruct H as [H0 H]. destruct (IH _ rest H Hr) as [H1 H2]. split; [|exact H0].
      cbn [clear]. split; [|assumption]. intros ->. discriminate.
Qed.

Lemma items_clear : forall c m s d, segments true c -> segments true m ->
  (d = true -> sigOk true (params s)) -> clear (items c m s d).
Proof.
  intros c m s d Hc Hm Hs. unfold items.
  assert (Hr : clear (if d then None :: None :: map itemOf (params s) else [])).
  { destruct d; [|exact I]. destruct (clear_sig _ _ (Hs eq_refl)) as [H1 H2].
    split; [exact I|]. split; [|exact H1]. specialize (H2 eq_refl).
    destruct (params s) as [|x l]; [exact I|]. cbn [map]. unfold itemOf. destruct (x =? ch "/"); [exact I|exact H2]. }
  destruct (clear_seg m true _ Hm Hr) as [H1 H2].
  apply clear_seg with (b := true); [assumption|].
  split; [exact (H2 eq_refl)|exact H1].
Qed.

(** Splitting the item sequence back. *)
Fixpoint noDouble (prev : bool) (l : list item) : Prop :=
  match l with
  | [] => prev = false
  | None :: r => prev = false /\ noDouble true r
  | Some _ :: r => noDouble false r
  end.

Lemma segments_noDouble : forall s b, segments b s -> noDouble b (map itemOf s).
Proof.
  induction s as [|c s IH]; intros b H; cbn [map segments noDouble] in *; [assumption|].
  unfold itemOf at 1. destruct (c =? ch "/"); destruct H; auto.
Qed.

Lemma noDouble_app : forall l1 l2 b, noDouble b l1 -> noDouble true l2 -> noDouble b (l1 ++ None :: l2).
Proof.
  induction l1 as [|[x|] l1 IH]; intros l2 b H H2; cbn [app noDouble] in *; auto.
  destruct H; auto.
Qed.

Lemma split_double : forall l1 l2 r1 r2 b, noDouble b l1 -> noDouble b l2 ->
  l1 ++ None :: None :: r1 = l2 ++ None :: None :: r2 -> l1 = l2 /\ r1 = r2.
Proof.
  induction l1 as [|x l1 IH]; intros [|y l2] r1 r2 b H1 H2 E; cbn [app] in E.
  - injection E as ->. auto.
  - injection E as <- E. exfalso. cbn [noDouble] in *. destruct H2 as [-> H2].
    destruct l2 as [|z l2]; cbn [app] in E; [cbn in H2; discriminate|].
    injection E as <- E. cbn [noDouble] in H2. destruct H2; discriminate.
  - injection E as -> E. exfalso. cbn [noDouble] in *. destruct H1 as [-> H1].
    destruct l1 as [|z l1]; cbn [app] in E; [cbn in H1; discriminate|].
    injection E as -> E. cbn [noDouble] in H1. destruct H1; discriminate.
  - injection E as <- E. assert (noDouble (match x with None => true | _ => false end) l1) by (destruct x; cbn in H1; tauto).
    assert (noDouble (match x with None => true | _ => false end) l2) by (destruct x; cbn in H2; tauto).
    destruct (IH _ _ _ _ H H0 E) as [-> ->]. auto.
Qed.

Lemma noDouble_no_double : forall l1 l2 r b, noDouble b l1 -> l1 = l2 ++ None :: None :: r -> False.
Proof.
  intros l1 l2 r b H ->. revert b H. induction l2 as [|x l2 IH]; intros b H; cbn [app noDouble] in H.
  - destruct H as [_ [H _]]. discriminate.
  - destruct x; [exact (IH _ H)|]. destruct H as [_ H]. exact (IH _ H).
Qed.

Lemma split_last : forall l1 l2 (m1 m2 : list item),
  ~ In None m1 -> ~ In None m2 -> l1 ++ None :: m1 = l2 ++ None :: m2 -> l1 = l2 /\ m1 = m2.
Proof.
  induction l1 as [|x l1 IH]; intros [|y l2] m1 m2 H1 H2 E; cbn [app] in E.
  - injection E as ->. auto.
  - injection E as <- ->. exfalso. apply H1. apply in_or_app. right. left. reflexivity.
  - injection E as -> <-. exfalso. apply H2. apply in_or_app. right. left. reflexivity.
  - injection E as <- E. destruct (IH _ _ _ H1 H2 E) as [-> ->]. auto.
Qed.

Lemma no_slash_items : forall m, ~ In (ch "/") m -> ~ In None (map itemOf m).
Proof.
  intros m H Hin. apply in_map_iff in Hin. destruct Hin as (c & Hc & Hm).
  unfold itemOf in Hc. destruct (c =? ch "/") eqn:E; [|discriminate].
  apply N.eqb_eq in E. subst. auto.
Qed.

Lemma name_inj : forall p c m s c' m' s' d d',
  segments true c -> segments true m -> (d = true -> sigOk true (params s)) ->
  segments true c' -> segments true m' -> (d' = true -> sigOk true (params s')) ->
  ~ In (ch "/") m -> ~ In (ch "/") m' ->
  makeJNIName p c m s d = makeJNIName p c' m' s' d' ->
  d = d' /\ c = c' /\ m = m' /\ (d = true -> params s = params s').
Proof.
  intros p c m s c' m' s' d d' Hc Hm Hs Hc' Hm' Hs' Hsl Hsl' E.
  rewrite !name_items in E. apply app_inv_head in E. apply app_inv_tail in E.
  apply (f_equal decode) in E. rewrite !decode_enc in E by (apply items_clear; assumption).
  unfold items in E.
  assert (N1 : noDouble true (map itemOf c ++ None :: map itemOf m))
    by (apply noDouble_app; apply segments_noDouble; assumption).
  assert (N2 : noDouble true (map itemOf c' ++ None :: map itemOf m'))
    by (apply noDouble_app; apply segments_noDouble; assumption).
  assert (Hfin : forall cc mm dd, d = dd -> map itemOf c ++ None :: map itemOf m = map itemOf cc ++ None :: map itemOf mm ->
    ~ In (ch "/") mm -> c = cc /\ m = mm).
  { intros cc mm dd _ E' Hn. apply split_last in E'; try (apply no_slash_items; assumption).
    destruct E' as [E1 E2]. split; apply itemOf_inj; assumption. }
  assert (Hre : forall (a b : list item) r, a ++ None :: b ++ r = (a ++ None :: b) ++ r)
    by (intros; rewrite <- app_assoc; reflexivity).
  rewrite !Hre in E.
  destruct d, d'.
  - destruct (split_double _ _ _ _ true N1 N2 E) as [E1 E2].
    destruct (Hfin c' m' true eq_refl E1 Hsl') as [-> ->]. repeat split; auto.
    intros _. apply itemOf_inj. assumption.
  - rewrite app_nil_r in E. symmetry in E. exfalso. exact (noDouble_no_double _ _ _ _ N2 E).
  - rewrite app_nil_r in E. exfalso. exact (noDouble_no_double _ _ _ _ N1 E).
  - rewrite !app_nil_r in E. destruct (Hfin c' m' false eq_refl E Hsl') as [-> ->]. repeat split; auto.
    discriminate.
Qed.

(** * Agreement with the JNI rule *)
Lemma mangle_jni : forall c, plainChar c -> mangle c = jniEscape c.
Proof.
  intros c [H|H].
  - unfold jniEscape. rewrite H. unfold mangle.
    destruct (c =? ch "/") eqn:E1; [apply N.eqb_eq in E1; subst; discriminate H|].
    destruct (c =? ch "_") eqn:E2; [apply N.eqb_eq in E2; subst; discriminate H|].
    destruct (c =? ch ";") eqn:E3; [apply N.eqb_eq in E3; subst; discriminate H|].
    destruct (c =? ch "[") eqn:E4; [apply N.eqb_eq in E4; subst; discriminate H|].
    destruct (c =? ch "$") eqn:E5; [apply N.eqb_eq in E5; subst; discriminate H|].
    reflexivity.
  - cbn in H. destruct H as [<-|[<-|[<-|[<-|[<-|[]]]]]]; reflexivity.
Qed.

Lemma flat_mangle_jni : forall s, Forall plainChar s -> flat_map mangle s = flat_map jniEscape s.
Proof. induction 1 as [|c s H _ IH]; [reflexivity|]. cbn [flat_map]. rewrite mangle_jni, IH by assumption. reflexivity. Qed.

Lemma params_ok : forall ps ret, ~ In (ch ")") ps -> params (ch "(" :: ps ++ ch ")" :: ret) = ps.
Proof.
  intros ps ret H. unfold params. cbn [tl]. induction ps as [|c ps IH]; [reflexivity|].
  cbn [app upToParen]. destruct (c =? ch ")") eqn:E.
  - apply N.eqb_eq in E. subst. exfalso. apply H. left. reflexivity.
  - f_equal. apply IH. intros Hin. apply H. right. assumption.
Qed.

Lemma plain_no_paren : forall ps, Forall plainChar ps -> ~ In (ch ")") ps.
Proof.
  intros ps H Hin. rewrite Forall_forall in H. destruct (H _ Hin) as [Ha|Ha]; [discriminate Ha|].
  cbn in Ha. intuition discriminate.
Qed.

Lemma jni_symbol_ok : forall prefix c m ps ret d, Forall plainChar c -> Forall plainChar m -> Forall plainChar ps ->
  makeJNIName prefix c m (ch "(" :: ps ++ ch ")" :: ret) d = jniSymbol prefix c m ps d ++ [0].
Proof.
  intros prefix c m ps ret d Hc Hm Hp. unfold makeJNIName, jniSymbol.
  rewrite params_ok by (apply plain_no_paren; assumption).
  rewrite !flat_mangle_jni by assumption. rewrite <- !app_assoc. reflexivity.
Qed.
