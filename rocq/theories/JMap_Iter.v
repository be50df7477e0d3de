(** Proofs about the hash map: removing, scanning and iterating. *)
From Coq Require Import List ZArith Bool Lia Permutation.
From Verif Require Import Res Chain JNum_Model JMap_Model JMap_Spec JMap_Proofs.
Import ListNotations.
Local Open Scope Z_scope.
Local Arguments Z.add : simpl never.
Local Arguments Z.mul : simpl never.
Local Arguments Z.pow : simpl never.
Local Arguments Z.sub : simpl never.
Local Arguments Z.div : simpl never.

Section Map.
Context {K V : Type} (hash : K -> Z) (equal : K -> K -> bool) (equalV : V -> V -> bool).
Hypothesis L : lawful hash equal.
Local Notation lists := (@JMap_Spec.lists K V). Notation map := (@map K V). Notation store := (@store K V). Notation cell := (@cell K V).
Notation good := (good hash). Notation shape := (shape hash). Notation alloc := (alloc hash).

Lemma get_ok : forall m ids f key, good m ids -> lists equal (ents (cells m) ids) f ->
  get hash equal m key = Ok (f key) /\
  containsKey hash equal m key = Ok (match f key with Some _ => true | None => false end).
Proof.
  intros m ids f key G F. unfold get, containsKey.
  destruct (find_ok hash equal L m ids key (proj1 G)) as [r [E H]]. rewrite E. cbn [bind]. destruct r as [i|].
  - destruct H as [Hi Ht]. destruct (hit_split _ _ _ _ _ Hi Ht) as [A [B [d [E1 [Hd [He E2]]]]]].
    destruct (dat_cell _ _ _ Hd) as [x [Ex Edx]]. rewrite Ex. cbn [of_option bind].
    assert (Fk : f key = Some (cval x)).
    { eapply lists_some; [exact F| |exact He]. rewrite E2. apply in_or_app. right. left. subst d. reflexivity. }
    rewrite Fk. auto.
  - pose proof (miss_ents _ _ _ _ H) as N. rewrite (lists_none _ _ _ _ F N). auto.
Qed.

(** ** containsValue *)
Lemma valueLoop_ok : forall l fuel (cs : store) v c, chain (nx cs) c l -> alloc cs l -> (length l <= fuel)%nat ->
  exists b, valueLoop equalV fuel cs v c = Ok b /\
    (b = true <-> exists e, In e (ents cs l) /\ equalV v (snd e) = true).
Proof.
  induction l as [|i l IH]; intros fuel cs v c C A Hf; cbn in C.
  - subst. destruct fuel; cbn; exists false; (split; [reflexivity|split; [discriminate|intros [e [[] _]]]]).
  - destruct C as [-> C]. destruct fuel as [|fuel]; [simpl in Hf; lia|]. cbn [valueLoop].
    destruct (A i (or_introl eq_refl)) as [d [Hd _]]. destruct (dat_cell _ _ _ Hd) as [x [Ex Edx]].
    rewrite Ex. cbn [of_option bind]. rewrite (ents_cons _ _ _ _ Hd). destruct (equalV v (cval x)) eqn:E.
    + exists true. split; [reflexivity|]. split; [|reflexivity]. intros _. exists (fst d). split; [simpl; auto|]. subst d. exact E.
    + assert (Q : cnext x = nx cs i) by (unfold nx; rewrite Ex; reflexivity). rewrite Q.
      destruct (IH fuel cs v (nx cs i) C) as [b [E1 E2]].
      { intros j Hj. apply A. simpl. auto. } { simpl in Hf. lia. }
      exists b. split; [exact E1|]. rewrite E2. split; intros [e [H1 H2]].
      * exists e. simpl. auto.
      * destruct H1 as [H1|H1]; [|eauto]. subst. cbn in H2. congruence.
Qed.

Lemma valueScan_ok : forall a bs fuel (cs : store) v, Rch (nx cs) a bs -> alloc cs (concat bs) ->
  (length (concat bs) <= fuel)%nat ->
  exists b, valueScan equalV fuel cs v a = Ok b /\
    (b = true <-> exists e, In e (ents cs (concat bs)) /\ equalV v (snd e) = true).
Proof.
  intros a bs fuel cs v R. induction R as [|h l a bs C R IH]; intros A Hf.
  - exists false. split; [reflexivity|]. split; [discriminate|intros [e [[] _]]].
  - cbn [valueScan concat] in *. rewrite app_length in Hf.
    destruct (valueLoop_ok l fuel cs v h C) as [b [E H]].
    { intros j Hj. apply A. apply in_or_app. auto. } { lia. }
    rewrite E. cbn [bind]. rewrite ents_app. destruct b.
    + exists true. split; [reflexivity|]. split; [|reflexivity]. intros _. destruct (proj1 H eq_refl) as [e [H1 H2]].
      exists e. split; [apply in_or_app; auto|exact H2].
    + destruct IH as [b [E1 H1]]; [intros j Hj; apply A; apply in_or_app; auto|lia|].
      exists b. split; [exact E1|]. rewrite H1. split; intros [e [X Y]]; exists e; (split; [|exact Y]).
      * apply in_or_app. auto.
      * apply in_app_or in X. destruct X as [X|X]; [|exact X]. exfalso.
        assert (false = true) by (apply H; eauto). discriminate.
Qed.

Lemma containsValue_ok : forall m ids f v, good m ids -> lists equal (ents (cells m) ids) f ->
  exists b, containsValue equalV m v = Ok b /\ (b = true <-> exists k w, f k = Some w /\ equalV v w = true).
Proof.
  intros m ids f v [S _] [F1 F2]. unfold containsValue. pose proof (s_arr _ _ _ S) as Sa.
  assert (Q : (exists e, In e (ents (cells m) ids) /\ equalV v (snd e) = true) <->
              exists k w, f k = Some w /\ equalV v w = true).
  { split.
    - intros [[k w] [H1 H2]]. exists k, w. split; [|exact H2]. apply F2. exists k. split; [exact H1|apply (eq_refl_ _ _ L)].
    - intros [k [w [H1 H2]]]. apply F2 in H1. destruct H1 as [k' [H1 _]]. exists (k', w). auto. }
  destruct (array m) as [a|].
  - destruct Sa as [bs [-> [P [R Pl]]]].
    destruct (valueScan_ok a bs (Datatypes.S (fresh m)) (cells m) v R (s_al _ _ _ S)) as [b [E H]].
    { pose proof (nodup_bound _ _ (s_nd _ _ _ S) (s_fr _ _ _ S)). lia. }
    exists b. split; [exact E|]. rewrite H. exact Q.
  - exists false. split; [reflexivity|]. rewrite <- Q. subst ids. split; [discriminate|intros [e [[] _]]].
Qed.

(** ** remove *)
Lemma unlinkKey_ok : forall l pre fuel (cs : store) key head c, chain (nx cs) c l -> chain (nx cs) head (pre ++ l) ->
  NoDup (pre ++ l) -> alloc cs (pre ++ l) -> (length l <= fuel)%nat ->
  exists old head' cs', unlinkKey equal fuel cs key head (lastOf pre) c = Ok (old, head', cs') /\
    (forall j, dat cs' j = dat cs j) /\ (forall j, ~ In j (pre ++ l) -> nx cs' j = nx cs j) /\
    match old with
    | Some i => exists l1 l2, l = l1 ++ i :: l2 /\ hit equal cs key i /\ chain (nx cs') head' (pre ++ l1 ++ l2)
    | None => (forall i, In i l -> ~ hit equal cs key i) /\ cs' = cs /\ head' = head
    end.
Proof.
  induction l as [|i l IH]; intros pre fuel cs key head c C CH D A Hf; cbn in C.
  - subst. destruct fuel; cbn [unlinkKey]; exists None, head, cs; (split; [reflexivity|]); repeat split; auto.
  - destruct C as [-> C]. destruct fuel as [|fuel]; [simpl in Hf; lia|]. cbn [unlinkKey].
    destruct (A i ltac:(apply in_or_app; simpl; auto)) as [d [Hd _]]. destruct (dat_cell _ _ _ Hd) as [x [Ex Edx]].
    rewrite Ex. cbn [of_option bind].
    assert (Q : cnext x = nx cs i) by (unfold nx; rewrite Ex; reflexivity). rewrite Q.
    destruct (equal key (ckey x)) eqn:E.
    + assert (Ht : hit equal cs key i) by (exists d; split; [exact Hd|subst d; exact E]).
      pose proof (chain_del pre (nx cs) head i l D CH) as X.
      destruct (lastOf pre) as [q|] eqn:Eq.
      * exists (Some i), head, (setNext cs q (nx cs i)). split; [reflexivity|].
        assert (Hq : In q pre) by (apply lastOf_In; exact Eq).
        destruct (A q ltac:(apply in_or_app; auto)) as [dq [Hdq _]].
        split; [intros; apply dat_setNext|]. split.
        -- intros j Hj. rewrite (nx_setNext _ _ _ _ Hdq). up; [|reflexivity]. exfalso. apply Hj. apply in_or_app. auto.
        -- exists [], l. split; [reflexivity|]. split; [exact Ht|]. cbn [app].
           eapply chain_ext; [|exact X]. intros j _. rewrite (nx_setNext _ _ _ _ Hdq). reflexivity.
      * exists (Some i), (nx cs i), cs. split; [reflexivity|]. split; [reflexivity|]. split; [reflexivity|].
        exists [], l. split; [reflexivity|]. split; [exact Ht|]. exact X.
    + assert (P : pre ++ i :: l = (pre ++ [i]) ++ l) by (rewrite <- app_assoc; reflexivity).
      rewrite P in CH, D, A.
      destruct (IH (pre ++ [i]) fuel cs key head (nx cs i) C CH D A ltac:(simpl in Hf; lia)) as [old [h' [cs' [E1 [E2 [E3 E4]]]]]].
      rewrite lastOf_snoc in E1. exists old, h', cs'. split; [exact E1|]. split; [exact E2|].
      split; [intros j Hj; apply E3; rewrite <- P; exact Hj|]. destruct old as [o|].
      * destruct E4 as [l1 [l2 [-> [H1 H2]]]]. exists (i :: l1), l2. split; [reflexivity|]. split; [exact H1|].
        rewrite <- app_assoc in H2. exact H2.
      * destruct E4 as [H1 H2]. split; [|exact H2]. intros j [<-|Hj]; [|auto]. intros [d' [Y1 Y2]].
        rewrite Hd in Y1. inversion Y1; subst d'. subst d. cbn in Y2. congruence.
Qed.

Lemma nodup_mid : forall (A l B : list nat), NoDup (A ++ l ++ B) ->
  NoDup l /\ (forall x, In x l -> ~ In x A /\ ~ In x B).
Proof.
  intros A l B D. split.
  - apply nodup_app_r in D. clear - D. induction l; [constructor|]. simpl in D. inversion D; subst.
    constructor; auto. intros X. apply H1. apply in_or_app. auto.
  - intros x Hx. apply in_split in Hx. destruct Hx as [u [w ->]]. rewrite <- app_assoc in D. cbn [app] in D.
    rewrite app_assoc in D. pose proof (NoDup_remove_2 _ _ _ D) as N.
    split; intros X; apply N; apply in_or_app; [left|right]; apply in_or_app; auto.
Qed.

(** replacing one chain by a chain of some of its cells *)
Lemma shape_shorter : forall m a b1 l b2 n h' l' (cs' : store) sz, shape m (concat (b1 ++ l :: b2)) ->
  array m = Some a -> isPow2 (capacityOf a) -> Rch (nx (cells m)) a (b1 ++ l :: b2) ->
  placed (cells m) (capacityOf a) (b1 ++ l :: b2) -> length b1 = n ->
  (forall j, dat cs' j = dat (cells m) j) -> (forall j, ~ In j l -> nx cs' j = nx (cells m) j) ->
  chain (nx cs') h' l' -> NoDup l' -> (forall j, In j l' -> In j l) ->
  shape (Map sz (Some (setNth a n h')) cs' (fresh m)) (concat (b1 ++ l' :: b2)).
Proof.
  intros m a b1 l b2 n h' l' cs' sz S Ea P R Pl Ln Hd Hn C Nl Sub.
  pose proof (s_nd _ _ _ S) as ND. rewrite concat_mid in ND.
  destruct (nodup_mid _ _ _ ND) as [_ Dj].
  assert (Inc : forall j, In j (concat (b1 ++ l' :: b2)) -> In j (concat (b1 ++ l :: b2))).
  { intros j. rewrite !concat_mid, !in_app_iff. intuition. }
  assert (Hc : capacityOf (setNth a n h') = capacityOf a) by (unfold capacityOf; rewrite setNth_length; reflexivity).
  constructor; cbn.
  - exists (b1 ++ l' :: b2). split; [reflexivity|]. rewrite Hc. split; [exact P|]. split.
    + apply Forall2_app_inv_r in R. destruct R as [a1 [r [R1 [R2 ->]]]]. inversion R2; subst.
      rename l0 into a2.
      assert (La : length a1 = length b1) by (eapply rch_length; exact R1). rewrite <- La, setNth_app.
      apply rch_app; [| exact C|]; (eapply rch_ext; [|eassumption]).
      * intros x0 Hx. symmetry. apply Hn. intros X. apply (proj1 (Dj _ X) Hx).
      * intros x0 Hx. symmetry. apply Hn. intros X. apply (proj2 (Dj _ X) Hx).
    + intros k l0 j d Hl Hj. rewrite Hd. intros Hdj. destruct (nth_mid _ _ _ _ _ Hl) as [[-> ->]|[Nn Hl']].
      * eapply Pl; [|apply Sub; exact Hj|exact Hdj]. rewrite nth_error_app2, Nat.sub_diag by lia. reflexivity.
      * eapply Pl; [apply Hl'|exact Hj|exact Hdj].
  - rewrite concat_mid. clear - ND Nl Sub Dj. revert ND. generalize (concat b1) (concat b2) Dj. intros A B DjAB ND.
    induction A as [|x A IH]; cbn [app] in *.
    + assert (NB : NoDup B) by (apply nodup_app_r in ND; exact ND).
      clear - NB Nl Sub DjAB. induction l' as [|y l' IH]; [exact NB|]. inversion Nl; subst. cbn. constructor.
      * intros X. apply in_app_or in X. destruct X; [contradiction|]. apply (proj2 (DjAB y (Sub y (or_introl eq_refl)))). assumption.
      * apply IH; auto. intros j Hj. apply Sub. simpl. auto.
    + inversion ND; subst. constructor.
      * intros X. apply H1. rewrite !in_app_iff in *. intuition.
      * apply IH; [|assumption]. intros y Hy. destruct (DjAB y Hy) as [X Y]. split; [intros Z; apply X; simpl; auto|exact Y].
  - intros j Hj. rewrite Hd. apply (s_al _ _ _ S), Inc, Hj.
  - intros j Hj. apply (s_fr _ _ _ S), Inc, Hj.
Qed.

Lemma removeCell_ok : forall (m : map) ids key, good m ids -> exists old m' ids', removeCell hash equal m key = Ok (old, m') /\
  good m' ids' /\ (forall j, dat (cells m') j = dat (cells m) j) /\
  match old with
  | Some i => exists A B, ids = A ++ i :: B /\ hit equal (cells m) key i /\ Permutation ids' (A ++ B)
  | None => (forall i, In i ids -> ~ hit equal (cells m) key i) /\ Permutation ids' ids
  end.
Proof.
  intros m ids key [S Sz]. unfold removeCell. pose proof (s_arr _ _ _ S) as Sa. destruct (array m) as [a|] eqn:Ea.
  - destruct Sa as [bs [E [P [R Pl]]]]. pose proof (index_range (hash key) _ P) as Hi.
    unfold capacityOf in Hi at 2. rewrite Nat2Z.id in Hi. cbv zeta.
    set (n := indexFor (hash key) (capacityOf a)) in *.
    destruct (nth_error a n) as [h|] eqn:Eh; [|apply nth_error_None in Eh; lia].
    unfold at_. rewrite Eh. cbn [of_option bind].
    destruct (rch_split _ _ _ _ _ R Eh) as [a1 [a2 [b1 [l [b2 [E1 [E2 [L1 [L2 [R1 [C R2]]]]]]]]]]].
    pose proof (s_nd _ _ _ S) as ND. rewrite E, E2, concat_mid in ND. destruct (nodup_mid _ _ _ ND) as [Nl Dj].
    assert (Sub : forall i, In i l -> In i ids).
    { intros i Hi'. rewrite E, E2, concat_mid. apply in_or_app. right. apply in_or_app. auto. }
    destruct (unlinkKey_ok l [] (Datatypes.S (fresh m)) (cells m) key h h C C Nl) as [old [h' [cs' [F1 [F2 [F3 F4]]]]]].
    { eapply alloc_sub; [exact Sub|apply (s_al _ _ _ S)]. }
    { pose proof (nodup_bound (fresh m) l Nl ltac:(intros; apply (s_fr _ _ _ S); auto)). lia. }
    change (lastOf []) with (@None nat) in F1. rewrite F1. cbn [bind].
    assert (InB : forall i, In i ids -> hit equal (cells m) key i -> In i l).
    { intros i Hi' Ht. eapply in_bucket with (bs := bs) (n := n); eauto.
      - rewrite <- E. apply (s_al _ _ _ S).
      - reflexivity.
      - rewrite E2. rewrite nth_error_app2 by lia. replace (n - length b1)%nat with 0%nat by lia. reflexivity.
      - rewrite <- E. exact Hi'. }
    rewrite E2 in R, Pl. rewrite E, E2 in S.
    destruct old as [i|].
    + destruct F4 as [l1 [l2 [El [Ht Ch]]]]. cbn [app] in Ch.
      assert (Sl : shape (Map (wrap32 (size m - 1)) (Some (setNth a n h')) cs' (fresh m)) (concat (b1 ++ (l1 ++ l2) :: b2))).
      { eapply shape_shorter; eauto.
        - rewrite El in Nl. apply NoDup_remove_1 in Nl. exact Nl.
        - intros j Hj. rewrite El. rewrite in_app_iff in *. simpl. tauto. }
      destruct (shrink_ok hash _ _ _ Sl eq_refl) as [m' [ids' [G1 [Z1 Z2 Z3 Z4 Z5 Z6]]]]. rewrite G1. cbn [bind].
      exists (Some i), m', ids'. split; [reflexivity|]. cbn in Z3, Z4.
      assert (Ei : ids = (concat b1 ++ l1) ++ i :: l2 ++ concat b2).
      { rewrite E, E2, concat_mid, El. rewrite <- !app_assoc. reflexivity. }
      assert (Pm : Permutation ids' ((concat b1 ++ l1) ++ l2 ++ concat b2)).
      { rewrite Z2. rewrite concat_mid. rewrite <- !app_assoc. reflexivity. }
      split; [split; [exact Z1|]|split].
      * assert (Ln : length ids = Datatypes.S (length ids')).
        { rewrite (Permutation_length Pm), Ei, !app_length. cbn [length]. rewrite !app_length. lia. }
        rewrite Z4. cbn. rewrite Sz, Ln. apply wrap_pred.
      * intros j. rewrite Z3. apply F2.
      * exists (concat b1 ++ l1), (l2 ++ concat b2). split; [exact Ei|]. split; [exact Ht|exact Pm].
    + destruct F4 as [Nh [-> ->]].
      assert (Sl : shape (Map (size m) (Some (setNth a n h)) (cells m) (fresh m)) (concat (b1 ++ l :: b2))).
      { eapply shape_shorter; eauto. }
      destruct (shrink_ok hash _ _ _ Sl eq_refl) as [m' [ids' [G1 [Z1 Z2 Z3 Z4 Z5 Z6]]]]. rewrite G1. cbn [bind].
      exists None, m', ids'. split; [reflexivity|]. cbn in Z3, Z4.
      rewrite <- E2, <- E in Z2.
      split; [split; [exact Z1|rewrite Z4, Sz, (Permutation_length Z2); reflexivity]|]. split; [exact Z3|].
      split; [|exact Z2]. intros i Hi' Ht. apply (Nh i); auto.
  - exists None, m, ids. split; [reflexivity|]. split; [split; assumption|]. split; [reflexivity|].
    split; [|reflexivity]. subst ids. intros i [].
Qed.

Lemma remove_ok : forall (m : map) ids f key, good m ids -> lists equal (ents (cells m) ids) f ->
  exists m' ids', remove hash equal m key = Ok (f key, m') /\ good m' ids' /\
    lists equal (ents (cells m') ids') (removed equal f key).
Proof.
  intros m ids f key G F. unfold remove.
  destruct (removeCell_ok m ids key G) as [old [m' [ids' [E [G' [Hd H]]]]]]. rewrite E. cbn [bind fst snd].
  destruct old as [i|].
  - destruct H as [A [B [Ei [Ht Pm]]]].
    destruct Ht as [d [Hdi He]]. pose proof Hdi as Hdi'. rewrite <- Hd in Hdi'.
    destruct (dat_cell _ _ _ Hdi') as [x [Ex Edx]]. rewrite Ex. cbn [of_option bind].
    assert (E2 : ents (cells m) ids = ents (cells m) A ++ fst d :: ents (cells m) B).
    { rewrite Ei, ents_app, (ents_cons _ _ _ _ Hdi). reflexivity. }
    assert (Fk : f key = Some (cval x)).
    { eapply lists_some; [exact F| |exact He]. rewrite E2. apply in_or_app. right. left. subst d. reflexivity. }
    rewrite Fk. exists m', ids'. split; [reflexivity|]. split; [exact G'|].
    eapply (lists_perm hash equal L); [symmetry; apply ents_perm; exact Pm|].
    rewrite (ents_dat _ (cells m)) by (intros; apply Hd). rewrite ents_app.
    eapply (lists_del hash equal L) with (e := fst d); [rewrite <- E2; exact F|exact He].
  - destruct H as [N Pm]. pose proof (miss_ents _ _ _ _ N) as Nm. pose proof (lists_none _ _ _ _ F Nm) as Fk.
    rewrite Fk. exists m', ids'. split; [reflexivity|]. split; [exact G'|].
    eapply (lists_perm hash equal L); [symmetry; apply ents_perm; exact Pm|].
    rewrite (ents_dat _ (cells m)) by (intros; apply Hd).
    apply lists_ext with f; [|exact F]. intros x. unfold removed. destruct (equal x key) eqn:Ex; [|reflexivity].
    destruct F as [_ F]. destruct (f x) as [v|] eqn:Fx; [|reflexivity]. apply F in Fx. destruct Fx as [k' [H1 H2]].
    exfalso. specialize (Nm _ H1). cbn in Nm.
    assert (equal key k' = true) by (eapply (eq_trans_ _ _ L); [apply (eq_sym_ _ _ L); exact Ex|exact H2]). congruence.
Qed.

(** ** Iterating *)
(** Where the cell last returned is: [pos] is the rest of its chain. *)
Definition curAt (it : iter) (bs : list (list nat)) (c : nat) (tl : list nat) : Prop :=
  exists d1 q d2, bs = d1 ++ (q ++ c :: tl) :: d2 /\ curIndex it = Z.of_nat (length d1) /\
    prevCell it = lastOf q /\ curCell it = Some c.

(** [done] has been passed, [rem] is still to come. *)
Inductive pos (it : iter) (bs : list (list nat)) (done rem : list nat) : Prop :=
| AtNext b1 pre n rest b2 :
    bs = b1 ++ (pre ++ n :: rest) :: b2 -> nextIndex it = Z.of_nat (length b1) -> nextCell it = Some n ->
    done = concat b1 ++ pre -> rem = n :: rest ++ concat b2 ->
    ((exists c pre', pre = pre' ++ [c] /\ curCell it = Some c /\ curIndex it = nextIndex it /\ prevCell it = lastOf pre') \/
     (exists c d1 q d2, pre = [] /\ b1 = d1 ++ (q ++ [c]) :: d2 /\ curCell it = Some c /\
        curIndex it = Z.of_nat (length d1) /\ prevCell it = lastOf q) \/
     (curCell it = None /\ prevCell it = lastOf pre)) ->
    pos it bs done rem
| Between :
    -1 <= nextIndex it -> nextCell it = None ->
    done = concat (firstn (Z.to_nat (nextIndex it + 1)) bs) ->
    rem = concat (skipn (Z.to_nat (nextIndex it + 1)) bs) ->
    ((exists c d1 q d2, bs = d1 ++ (q ++ [c]) :: d2 /\ curCell it = Some c /\
        curIndex it = Z.of_nat (length d1) /\ prevCell it = lastOf q /\ curIndex it <= nextIndex it) \/
     (curCell it = None /\ prevCell it = None)) ->
    pos it bs done rem.

Lemma pos_concat : forall it bs done rem, pos it bs done rem -> concat bs = done ++ rem.
Proof.
  intros it bs done rem [b1 pre n rest b2 -> _ _ -> -> _|_ _ -> -> _].
  - rewrite concat_mid, <- !app_assoc. reflexivity.
  - rewrite <- concat_app, firstn_skipn. reflexivity.
Qed.

Lemma skipn_nth : forall {A} (l : list A) n x, nth_error l n = Some x -> skipn n l = x :: skipn (S n) l.
Proof. induction l; destruct n; cbn; intros; try discriminate; [congruence|]. apply IHl. assumption. Qed.

Lemma rch_nth : forall nxt a bs n h, Rch nxt a bs -> nth_error a n = Some h ->
  exists l, nth_error bs n = Some l /\ chain nxt h l.
Proof.
  intros nxt a bs n h R. revert n. induction R; intros [|n] H0; cbn in *; try discriminate; [|auto].
  inversion H0; subst. eauto.
Qed.

Lemma seek_ok : forall fuel nxt a bs k, Rch nxt a bs -> (length a < fuel + k)%nat -> (0 < fuel)%nat ->
  exists n c, seekLoop fuel a (Z.of_nat k - 1) = Ok (Z.of_nat n, c) /\ (k <= n)%nat /\
    concat (firstn n bs) = concat (firstn k bs) /\
    match c with
    | Some i => exists rest, nth_error bs n = Some (i :: rest)
    | None => (length bs <= n)%nat
    end.
Proof.
  induction fuel as [|fuel IH]; intros nxt a bs k R Hf H0; [lia|]. cbn [seekLoop].
  pose proof (rch_length _ _ _ R) as Ln.
  replace (Z.of_nat k - 1 + 1) with (Z.of_nat k) by lia. unfold capacityOf. rewrite Nat2Z.id.
  destruct (Z.ltb_spec (Z.of_nat k) (Z.of_nat (length a))).
  - destruct (nth_error a k) as [h|] eqn:Eh; [|apply nth_error_None in Eh; lia].
    unfold at_. rewrite Eh. cbn [of_option bind].
    destruct (rch_nth _ _ _ _ _ R Eh) as [l [El C]]. destruct h as [i|].
    + exists k, (Some i). split; [reflexivity|]. split; [lia|]. split; [reflexivity|].
      destruct l as [|j rest]; cbn in C; [discriminate|]. destruct C as [[= ->] _]. eauto.
    + destruct l as [|j rest]; cbn in C; [|destruct C; discriminate].
      destruct (Nat.eq_dec fuel 0) as [->|Nf]; [lia|].
      destruct (IH nxt a bs (S k) R ltac:(lia) ltac:(lia)) as [n [c [E1 [E2 [E3 E4]]]]].
      replace (Z.of_nat (S k) - 1) with (Z.of_nat k) in E1 by lia.
      exists n, c. split; [exact E1|]. split; [lia|]. split; [|exact E4]. rewrite E3.
      clear - El. revert bs El. induction k; intros [|b bs] El; cbn in *; try discriminate; auto.
      * inversion El; subst. reflexivity.
      * f_equal. apply IHk. exact El.
  - exists k, None. split; [reflexivity|]. split; [lia|]. split; [reflexivity|lia].
Qed.

Lemma firstn_mid : forall {A} (l : list A) n x, nth_error l n = Some x ->
  l = firstn n l ++ x :: skipn (S n) l /\ length (firstn n l) = n.
Proof.
  intros A l n x H. split.
  - rewrite <- (skipn_nth _ _ _ H). symmetry. apply firstn_skipn.
  - apply firstn_length_le. assert (n < length l)%nat by (apply nth_error_Some; congruence). lia.
Qed.

Lemma hasNext_ok : forall (m : map) a bs it done rem, array m = Some a -> Rch (nx (cells m)) a bs -> pos it bs done rem ->
  exists it', hasNext m it = Ok (match rem with [] => false | _ => true end, it') /\
    pos it' bs done rem /\ curCell it' = curCell it /\ (rem <> [] -> nextCell it' <> None).
Proof.
  intros m a bs it done rem Ea R P. unfold hasNext. rewrite Ea.
  destruct P as [b1 pre n rest b2 Eb Ei En Ed Er Hc|Hl En Ed Er Hc]; rewrite En.
  - cbn [bind]. rewrite En. exists it. subst rem. split; [reflexivity|]. split; [|split; [reflexivity|congruence]].
    eapply AtNext; eauto.
  - set (k := Z.to_nat (nextIndex it + 1)) in *.
    destruct (seek_ok (S (length a)) _ a bs k R ltac:(lia) ltac:(lia)) as [n [c [E1 [E2 [E3 E4]]]]].
    replace (Z.of_nat k - 1) with (nextIndex it) in E1 by (unfold k; lia). rewrite E1. cbn [bind fst snd].
    assert (Es : concat (skipn k bs) = concat (skipn n bs)).
    { apply (app_inv_head (concat (firstn k bs))). rewrite <- concat_app, firstn_skipn, <- E3, <- concat_app, firstn_skipn.
      reflexivity. }
    cbn [nextCell]. exists (Iter (curIndex it) (Z.of_nat n) (prevCell it) (curCell it) c). split; [|split; [|split; [reflexivity|]]].
    + destruct c as [i|].
      * destruct E4 as [rest E4]. rewrite Er, Es, (skipn_nth _ _ _ E4). reflexivity.
      * rewrite Er, Es, skipn_all2 by lia. reflexivity.
    + destruct c as [i|].
      * destruct E4 as [rest E4]. destruct (firstn_mid _ _ _ E4) as [M1 M2].
        apply AtNext with (b1 := firstn n bs) (pre := []) (n := i) (rest := rest) (b2 := skipn (S n) bs); cbn.
        -- exact M1.
        -- rewrite M2. reflexivity.
        -- reflexivity.
        -- rewrite app_nil_r, Ed. symmetry. exact E3.
        -- rewrite Er, Es, (skipn_nth _ _ _ E4). reflexivity.
        -- destruct Hc as [[c [d1 [q [d2 [B [C1 [C2 [C3 C4]]]]]]]]|[C1 C2]]; [right; left|right; right; auto].
           exists c, d1, q, (firstn (n - S (length d1)) d2). split; [reflexivity|]. split; [|auto].
           rewrite B. assert (length d1 < n)%nat by (unfold k in E2; lia).
           rewrite firstn_app. rewrite firstn_all2 by lia. f_equal.
           replace (n - length d1)%nat with (S (n - S (length d1)))%nat by lia. reflexivity.
      * apply Between; cbn.
        -- lia.
        -- reflexivity.
        -- rewrite Ed. rewrite <- E3. rewrite !firstn_all2 by lia. reflexivity.
        -- rewrite Er, Es. rewrite !skipn_all2 by lia. reflexivity.
        -- destruct Hc as [[c [d1 [q [d2 [B [C1 [C2 [C3 C4]]]]]]]]|[C1 C2]]; [left|right; auto].
           exists c, d1, q, d2. repeat split; auto. unfold k in E2. lia.
    + cbn. destruct c; [congruence|]. intros X. exfalso. apply X. rewrite Er, Es, skipn_all2 by lia. reflexivity.
Qed.

Lemma chain_mid : forall pre nxt h n rest, chain nxt h (pre ++ n :: rest) -> nxt n = hd_error rest.
Proof.
  induction pre as [|x pre IH]; intros nxt h n rest C; cbn in C; destruct C as [_ C].
  - apply chain_head in C. exact C.
  - eapply IH; eauto.
Qed.

Lemma rch_in : forall nxt a b1 l b2, Rch nxt a (b1 ++ l :: b2) -> exists h, nth_error a (length b1) = Some h /\ chain nxt h l.
Proof.
  intros nxt a b1 l b2 R. apply Forall2_app_inv_r in R. destruct R as [a1 [r [R1 [R2 ->]]]].
  inversion R2; subst. exists x. rewrite <- (rch_length _ _ _ R1). rewrite nth_error_app2, Nat.sub_diag by lia. auto.
Qed.

(** after next(): the state in which the cell returned is [n] *)
Lemma next_ok : forall (m : map) a bs it done n rem, shape m (concat bs) -> array m = Some a -> Rch (nx (cells m)) a bs ->
  pos it bs done (n :: rem) -> nextCell it <> None ->
  exists it', next m it = Ok (n, it') /\ pos it' bs (done ++ [n]) rem /\ curCell it' = Some n.
Proof.
  intros m a bs it done n rem S Ea R P Nn. unfold next.
  destruct P as [b1 pre n' rest b2 Eb Ei En Ed Er Hc|Hl En Ed Er Hc]; [|congruence].
  inversion Er; subst n' rem. clear Er. unfold hasNext at 1. rewrite Ea, En. cbn [bind]. rewrite En. cbn [bind fst snd].
  rewrite Eb in R. destruct (rch_in _ _ _ _ _ R) as [h [Eh C]].
  assert (Al : forall j, In j (pre ++ n :: rest) -> exists x, cells m j = Some x /\ cnext x = nx (cells m) j).
  { intros j Hj. destruct (s_al _ _ _ S j) as [d [Hd _]].
    - rewrite Eb, concat_mid, in_app_iff, (in_app_iff (pre ++ n :: rest)). auto.
    - destruct (dat_cell _ _ _ Hd) as [x [Ex _]]. exists x. split; [exact Ex|]. unfold nx. rewrite Ex. reflexivity. }
  assert (Prev : match curCell it with
                 | Some c => bind (of_option (cells m c)) (fun x => Ok (match cnext x with Some _ => Some c | None => None end))
                 | None => Ok (prevCell it) end = Ok (lastOf pre)).
  { destruct Hc as [[c [pre' [-> [Hc [_ _]]]]]|[[c [d1 [q [d2 [-> [B [Hc _]]]]]]]|[Hc Hp]]]; rewrite Hc.
    - destruct (Al c ltac:(rewrite !in_app_iff; simpl; auto)) as [x [Ex Nx]]. rewrite Ex. cbn [of_option bind]. rewrite Nx.
      rewrite <- app_assoc in C. cbn [app] in C. rewrite (chain_mid _ _ _ _ _ C). cbn. rewrite lastOf_snoc. reflexivity.
    - assert (Ic : In c (concat bs)). { rewrite Eb, B, !concat_app, !in_app_iff. cbn. rewrite !in_app_iff. simpl. tauto. }
      destruct (s_al _ _ _ S c Ic) as [d [Hd _]]. destruct (dat_cell _ _ _ Hd) as [x [Ex _]]. rewrite Ex. cbn [of_option bind].
      assert (Nx : cnext x = nx (cells m) c) by (unfold nx; rewrite Ex; reflexivity). rewrite Nx.
      rewrite B, <- app_assoc in R. cbn [app] in R. destruct (rch_in _ _ _ _ _ R) as [h' [_ C']].
      rewrite (chain_mid _ _ _ _ _ C'). reflexivity.
    - rewrite Hp. reflexivity. }
  rewrite Prev. cbn [bind]. rewrite ?En. cbn [bind of_option]. destruct (Al n ltac:(rewrite !in_app_iff; simpl; auto)) as [x [Ex Nx]].
  rewrite Ex. cbn [of_option bind]. rewrite Nx, (chain_mid _ _ _ _ _ C).
  eexists. split; [reflexivity|]. split; [|reflexivity].
  destruct rest as [|r rest].
  - apply Between; cbn.
    + lia.
    + reflexivity.
    + rewrite Ei. replace (Z.to_nat (Z.of_nat (length b1) + 1)) with (Datatypes.S (length b1)) by lia. rewrite Eb, Ed.
      rewrite firstn_app, firstn_all2 by lia. replace (Datatypes.S (length b1) - length b1)%nat with 1%nat by lia.
      rewrite concat_app. cbn. rewrite app_nil_r, app_assoc. reflexivity.
    + rewrite Ei. replace (Z.to_nat (Z.of_nat (length b1) + 1)) with (Datatypes.S (length b1)) by lia. rewrite Eb.
      rewrite skipn_app, skipn_all2 by lia. replace (Datatypes.S (length b1) - length b1)%nat with 1%nat by lia. reflexivity.
    + left. exists n, b1, pre, b2. repeat split; auto. lia.
  - apply AtNext with (b1 := b1) (pre := pre ++ [n]) (n := r) (rest := rest) (b2 := b2); cbn.
    + rewrite Eb, <- app_assoc. reflexivity.
    + exact Ei.
    + reflexivity.
    + rewrite Ed, app_assoc. reflexivity.
    + reflexivity.
    + left. exists n, pre. auto.
Qed.

(** ** remove() of the iterator *)
Lemma setNth_same : forall {A} (a : list A) n h, nth_error a n = Some h -> setNth a n h = a.
Proof.
  intros A a n h H. apply nth_error_split in H. destruct H as [a1 [a2 [-> <-]]]. apply setNth_app.
Qed.

(** what remove() does to the bucket of the current cell *)
Lemma unlink_here : forall (m : map) a d1 q c tl d2 it, shape m (concat (d1 ++ (q ++ c :: tl) :: d2)) -> array m = Some a ->
  Rch (nx (cells m)) a (d1 ++ (q ++ c :: tl) :: d2) -> isPow2 (capacityOf a) ->
  placed (cells m) (capacityOf a) (d1 ++ (q ++ c :: tl) :: d2) ->
  size m = wrap32 (Z.of_nat (length (concat (d1 ++ (q ++ c :: tl) :: d2)))) ->
  curIndex it = Z.of_nat (length d1) -> prevCell it = lastOf q -> curCell it = Some c ->
  exists m' a', iterRemove m it = Ok (m', Iter (curIndex it) (nextIndex it)
      (match tl with [] => None | _ => lastOf q end) None (nextCell it)) /\
    good m' (concat (d1 ++ (q ++ tl) :: d2)) /\ array m' = Some a' /\ isPow2 (capacityOf a') /\
    Rch (nx (cells m')) a' (d1 ++ (q ++ tl) :: d2) /\ placed (cells m') (capacityOf a') (d1 ++ (q ++ tl) :: d2) /\
    (forall j, dat (cells m') j = dat (cells m) j) /\ fresh m' = fresh m.
Proof.
  intros m a d1 q c tl d2 it S Ea R P Pl Sz Hi Hp Hc. unfold iterRemove. rewrite Hc.
  destruct (rch_in _ _ _ _ _ R) as [h [Eh C]].
  assert (Al : forall j, In j (q ++ c :: tl) -> exists d, dat (cells m) j = Some d).
  { intros j Hj. destruct (s_al _ _ _ S j) as [d [Hd _]]; [rewrite concat_mid, in_app_iff, (in_app_iff (q ++ c :: tl)); auto|eauto]. }
  destruct (Al c ltac:(rewrite in_app_iff; simpl; auto)) as [dc Hdc]. destruct (dat_cell _ _ _ Hdc) as [x [Ex _]].
  rewrite Ex. cbn [of_option bind].
  assert (Nx : cnext x = nx (cells m) c) by (unfold nx; rewrite Ex; reflexivity). rewrite Nx, Hp.
  pose proof (s_nd _ _ _ S) as ND. rewrite concat_mid in ND. destruct (nodup_mid _ _ _ ND) as [Nl _].
  pose proof (chain_del q (nx (cells m)) h c tl Nl C) as CD.
  assert (Sub : forall j, In j (q ++ tl) -> In j (q ++ c :: tl)) by (intros j; rewrite !in_app_iff; simpl; tauto).
  pose proof (NoDup_remove_1 _ _ _ Nl) as Nl'.
  assert (Len : wrap32 (size m - 1) = wrap32 (Z.of_nat (length (concat (d1 ++ (q ++ tl) :: d2))))).
  { rewrite Sz. assert (Q : length (concat (d1 ++ (q ++ c :: tl) :: d2)) = Datatypes.S (length (concat (d1 ++ (q ++ tl) :: d2)))).
    { rewrite !concat_mid, !app_length. cbn [length]. lia. }
    rewrite Q. apply wrap_pred. }
  rewrite Hi, Nat2Z.id. destruct (lastOf q) as [p|] eqn:Eq.
  - destruct (Al p ltac:(rewrite in_app_iff; left; apply lastOf_In; exact Eq)) as [dp Hdp].
    set (cs := setNext (cells m) p (nx (cells m) c)).
    assert (Ncs : forall j, nx cs j = upd (nx (cells m)) p (nx (cells m) c) j) by (intros; apply (nx_setNext _ _ _ _ Hdp)).
    assert (Dcs : forall j, dat cs j = dat (cells m) j) by (intros; apply dat_setNext).
    assert (Hdp' : dat cs p = Some dp) by (rewrite Dcs; exact Hdp).
    destruct (dat_cell _ _ _ Hdp') as [y [Ey _]]. rewrite Ey. cbn [of_option bind].
    assert (Ny : cnext y = hd_error tl).
    { assert (X : cnext y = nx cs p) by (unfold nx; rewrite Ey; reflexivity). rewrite X, Ncs. unfold upd. rewrite Nat.eqb_refl.
      apply (chain_mid _ _ _ _ _ C). }
    rewrite Ny.
    assert (SS : shape (Map (wrap32 (size m - 1)) (Some (setNth a (length d1) h)) cs (fresh m)) (concat (d1 ++ (q ++ tl) :: d2))).
    { eapply shape_shorter; eauto.
      - intros j Hj. rewrite Ncs. up; [|reflexivity]. exfalso. apply Hj. rewrite in_app_iff. left. apply lastOf_In. exact Eq.
      - eapply chain_ext; [|exact CD]. intros j _. symmetry. apply Ncs. }
    rewrite (setNth_same _ _ _ Eh) in SS.
    eexists. exists a. split; [rewrite Ea; destruct tl; reflexivity|]. cbn.
    split; [split; [exact SS|exact Len]|]. split; [reflexivity|].
    pose proof (s_arr _ _ _ SS) as Q. cbn in Q. destruct Q as [bs' [Q1 [Q2 [Q3 Q4]]]].
    split; [exact P|]. split; [|split; [|split; [exact Dcs|reflexivity]]].
    + apply Forall2_app_inv_r in R. destruct R as [a1 [r [R1 [R2 ->]]]]. inversion R2; subst.
      rewrite <- (rch_length _ _ _ R1) in Eh. rewrite nth_error_app2, Nat.sub_diag in Eh by lia. inversion Eh; subst.
      assert (Out : forall j, In j (concat d1) \/ In j (concat d2) -> nx (cells m) j = nx cs j).
      { intros j Hj. rewrite Ncs. up; [|reflexivity]. exfalso.
        destruct (nodup_mid _ _ _ ND) as [_ Dj]. destruct (Dj p) as [X Y]; [rewrite in_app_iff; left; apply lastOf_In; exact Eq|]. tauto. }
      apply rch_app; [eapply rch_ext; [|exact R1]; auto| |eapply rch_ext; [|exact H3]; auto].
      eapply chain_ext; [|exact CD]. intros j _. symmetry. apply Ncs.
    + intros k l0 j d Hl Hj. rewrite Dcs. intros Hdj. destruct (nth_mid _ _ _ _ _ Hl) as [[-> ->]|[Nn Hl']].
      * eapply Pl; [|apply Sub; exact Hj|exact Hdj]. rewrite nth_error_app2, Nat.sub_diag by lia. reflexivity.
      * eapply Pl; [apply Hl'|exact Hj|exact Hdj].
  - apply lastOf_nil in Eq. subst q. cbn [app] in *. rewrite Ea. cbn [of_option bind].
    assert (SS : shape (Map (wrap32 (size m - 1)) (Some (setNth a (length d1) (nx (cells m) c))) (cells m) (fresh m)) (concat (d1 ++ tl :: d2))).
    { eapply shape_shorter; eauto. }
    eexists. eexists. split; [destruct tl; reflexivity|]. cbn.
    split; [split; [exact SS|exact Len]|]. split; [reflexivity|].
    assert (Hcap : capacityOf (setNth a (length d1) (nx (cells m) c)) = capacityOf a) by (unfold capacityOf; rewrite setNth_length; reflexivity).
    rewrite Hcap. split; [exact P|]. split; [|split; [|split; [reflexivity|reflexivity]]].
    + apply Forall2_app_inv_r in R. destruct R as [a1 [r [R1 [R2 ->]]]]. inversion R2; subst.
      rewrite <- (rch_length _ _ _ R1), setNth_app. apply rch_app; assumption.
    + intros k l0 j d Hl Hj Hdj. destruct (nth_mid _ _ _ _ _ Hl) as [[-> ->]|[Nn Hl']].
      * eapply Pl; [|apply Sub; exact Hj|exact Hdj]. rewrite nth_error_app2, Nat.sub_diag by lia. reflexivity.
      * eapply Pl; [apply Hl'|exact Hj|exact Hdj].
Qed.

Lemma iterRemove_ok : forall (m : map) a bs it done c rem, shape m (concat bs) -> array m = Some a ->
  Rch (nx (cells m)) a bs -> isPow2 (capacityOf a) -> placed (cells m) (capacityOf a) bs ->
  size m = wrap32 (Z.of_nat (length (concat bs))) -> pos it bs (done ++ [c]) rem -> curCell it = Some c ->
  exists m' it' a' bs', iterRemove m it = Ok (m', it') /\ pos it' bs' done rem /\ good m' (concat bs') /\
    array m' = Some a' /\ isPow2 (capacityOf a') /\ Rch (nx (cells m')) a' bs' /\ placed (cells m') (capacityOf a') bs' /\
    (forall j, dat (cells m') j = dat (cells m) j) /\ fresh m' = fresh m.
Proof.
  intros m a bs it done c rem S Ea R P Pl Sz Ps Hc.
  pose proof (pos_concat _ _ _ _ Ps) as Hcon. rewrite <- app_assoc in Hcon. cbn [app] in Hcon.
  pose proof (s_nd _ _ _ S) as ND.
  assert (Cut : forall X Y, concat bs = X ++ c :: Y -> X = done /\ Y = rem).
  { intros X Y E. rewrite Hcon in E. rewrite Hcon in ND. clear - E ND.
    revert X E ND. induction done as [|z done IH]; intros [|w X] E ND; cbn in *.
    - inversion E. auto.
    - inversion E; subst. inversion ND; subst. exfalso. apply H1. rewrite in_app_iff. simpl. auto.
    - inversion E; subst. inversion ND; subst. exfalso. apply H1. rewrite in_app_iff. simpl. auto.
    - inversion E; subst. inversion ND; subst. destruct (IH X H1 H3). subst. auto. }
  destruct Ps as [b1 pre n rest b2 Eb Ei En Ed Er Hcc|Hl En Ed Er Hcc].
  - destruct Hcc as [[c' [pre' [-> [Hc' [Hi Hp]]]]]|[[c' [d1 [q [d2 [-> [B [Hc' [Hi Hp]]]]]]]]|[Hc' _]]]; [| |congruence].
    + rewrite Hc in Hc'. inversion Hc'; subst c'. rewrite <- app_assoc in Eb. cbn [app] in Eb. subst bs.
      rewrite Ei in Hi.
      destruct (unlink_here m a b1 pre' c (n :: rest) b2 it S Ea R P Pl Sz Hi Hp Hc) as [m' [a' [E [G [A1 [A2 [A3 [A4 [A5 A6]]]]]]]]].
      eexists m', _, a', _. split; [exact E|]. split; [|exact (conj G (conj A1 (conj A2 (conj A3 (conj A4 (conj A5 A6))))))].
      destruct (Cut (concat b1 ++ pre') (n :: rest ++ concat b2)) as [Q1 Q2]; [rewrite concat_mid, <- !app_assoc; reflexivity|].
      apply AtNext with (b1 := b1) (pre := pre') (n := n) (rest := rest) (b2 := b2); cbn; auto.
    + rewrite Hc in Hc'. inversion Hc'; subst c'. cbn [app] in Eb.
      assert (Eb' : bs = d1 ++ (q ++ c :: []) :: d2 ++ (n :: rest) :: b2) by (rewrite Eb, B, <- app_assoc; reflexivity).
      rewrite Eb' in S, R, Pl, Sz.
      destruct (unlink_here m a d1 q c [] _ it S Ea R P Pl Sz Hi Hp Hc) as [m' [a' [E [G [A1 [A2 [A3 [A4 [A5 A6]]]]]]]]].
      eexists m', _, a', _. split; [exact E|]. split; [|exact (conj G (conj A1 (conj A2 (conj A3 (conj A4 (conj A5 A6))))))].
      assert (D2 : concat d2 = []).
      { destruct (Cut (concat d1 ++ q) (concat (d2 ++ (n :: rest) :: b2))) as [Q1 Q2].
        - rewrite Eb', concat_mid, <- !app_assoc. reflexivity.
        - rewrite Er in Q2. rewrite concat_app in Q2. cbn in Q2.
          assert (Q3 : concat d2 ++ n :: rest ++ concat b2 = [] ++ n :: rest ++ concat b2) by exact Q2.
          apply app_inv_tail in Q3. exact Q3. }
      destruct (Cut (concat d1 ++ q) (concat (d2 ++ (n :: rest) :: b2))) as [Q1 Q2]; [rewrite Eb', concat_mid, <- !app_assoc; reflexivity|].
      apply AtNext with (b1 := d1 ++ (q ++ []) :: d2) (pre := []) (n := n) (rest := rest) (b2 := b2); cbn; auto.
      * rewrite <- app_assoc. reflexivity.
      * rewrite Ei, B, !app_length. reflexivity.
      * rewrite app_nil_r, concat_mid, D2, !app_nil_r. symmetry. exact Q1.
  - destruct Hcc as [[c' [d1 [q [d2 [Eb [Hc' [Hi [Hp Hle]]]]]]]]|[Hc' _]]; [|congruence].
    rewrite Hc in Hc'. inversion Hc'; subst c'. 
    destruct (Cut (concat d1 ++ q) (concat d2)) as [Q1 Q2]; [rewrite Eb, concat_mid, <- !app_assoc; reflexivity|].
    pose proof Eb as Eb'. rewrite Eb' in S, R, Pl, Sz.
    destruct (unlink_here m a d1 q c [] d2 it S Ea R P Pl Sz Hi Hp Hc) as [m' [a' [E [G [A1 [A2 [A3 [A4 [A5 A6]]]]]]]]].
    eexists m', _, a', _. split; [exact E|]. split; [|exact (conj G (conj A1 (conj A2 (conj A3 (conj A4 (conj A5 A6))))))].
    set (k := Z.to_nat (nextIndex it + 1)) in *. assert (Lk : (length d1 < k)%nat) by (unfold k; lia).
    assert (F : firstn k bs = d1 ++ (q ++ [c]) :: firstn (k - Datatypes.S (length d1)) d2).
    { rewrite Eb, firstn_app, firstn_all2 by lia. f_equal.
      replace (k - length d1)%nat with (Datatypes.S (k - Datatypes.S (length d1)))%nat by lia. reflexivity. }
    assert (F' : firstn k (d1 ++ (q ++ []) :: d2) = d1 ++ (q ++ []) :: firstn (k - Datatypes.S (length d1)) d2).
    { rewrite firstn_app, firstn_all2 by lia. f_equal.
      replace (k - length d1)%nat with (Datatypes.S (k - Datatypes.S (length d1)))%nat by lia. reflexivity. }
    assert (G1 : skipn k (d1 ++ (q ++ []) :: d2) = skipn k bs).
    { rewrite Eb, !skipn_app. f_equal. replace (k - length d1)%nat with (Datatypes.S (k - Datatypes.S (length d1)))%nat by lia. reflexivity. }
    apply Between; cbn.
    + exact Hl.
    + exact En.
    + fold k. rewrite F', concat_mid, app_nil_r. rewrite F, concat_mid, <- !app_assoc in Ed.
      assert (Z : concat (firstn (k - Datatypes.S (length d1)) d2) = []).
      { rewrite <- Q1 in Ed. rewrite <- !app_assoc in Ed. apply app_inv_head in Ed. apply app_inv_head in Ed. cbn in Ed.
        inversion Ed. reflexivity. }
      rewrite Z, app_nil_r. symmetry. exact Q1.
    + fold k. rewrite G1. exact Er.
    + right. auto.
Qed.
End Map.
