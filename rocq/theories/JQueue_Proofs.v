(** Proofs about ConcurrentLinkedQueue. *)
From Coq Require Import ZArith Lia Bool List.
Import ListNotations.
From Verif Require Import JQueue_Model.

Definition vals (s : shared) : list Z := map value (nodes s).
Definition len (s : shared) : nat := length (nodes s).

(** The nodes are linked in the order of their names. *)
Record good (s : shared) : Prop := {
  gNext : forall i n, nth_error (nodes s) i = Some n -> next n = if Nat.ltb (S i) (len s) then Some (S i) else None;
  gHead : head s <= tail s;
  gTail : tail s < len s }.

Lemma good_at s i : good s -> i < len s -> exists n, nth_error (nodes s) i = Some n /\
  next n = (if Nat.ltb (S i) (len s) then Some (S i) else None) /\ nth_error (vals s) i = Some (value n).
Proof.
  intros G H. destruct (nth_error (nodes s) i) as [n|] eqn:E.
  - exists n. split; [reflexivity|]. split; [apply (gNext s G i n E)|]. unfold vals. apply map_nth_error. exact E.
  - apply nth_error_None in E. unfold len in H. lia.
Qed.

Lemma walk_skipn ns : (forall i n, nth_error ns i = Some n -> next n = if Nat.ltb (S i) (length ns) then Some (S i) else None) ->
  forall f i, i < length ns -> length ns - i <= f -> walk f ns (Some i) = skipn i (map value ns).
Proof.
  intros G. induction f as [|f IH]; intros i Hi Hf; [lia|]. cbn [walk].
  destruct (nth_error ns i) as [n|] eqn:E; [|apply nth_error_None in E; lia].
  assert (Es : skipn i (map value ns) = value n :: skipn (S i) (map value ns)).
  { clear -E. revert i E. induction ns as [|a ns IH]; intros i E; [destruct i; discriminate|].
    destruct i; cbn in *; [injection E as ->; reflexivity|]. apply IH. exact E. }
  rewrite Es. f_equal. rewrite (G i n E). destruct (Nat.ltb_spec (S i) (length ns)).
  - apply IH; lia.
  - rewrite skipn_all2 by (rewrite map_length; lia). destruct f; reflexivity.
Qed.

Lemma contents_skipn s : good s -> contents s = skipn (S (head s)) (vals s).
Proof.
  intro G. destruct (good_at s (head s) G) as [n [E [N _]]]. { pose proof (gHead s G). pose proof (gTail s G). lia. }
  unfold contents. rewrite E, N. unfold len, vals. destruct (Nat.ltb_spec (S (head s)) (length (nodes s))).
  - apply walk_skipn; [apply (gNext s G)|assumption|lia].
  - rewrite skipn_all2 by (rewrite map_length; lia). destruct (length (nodes s)); reflexivity.
Qed.

Lemma skipn_cons_nth (l : list Z) i v : nth_error l i = Some v -> skipn i l = v :: skipn (S i) l.
Proof.
  revert i. induction l as [|a l IH]; intros i E; [destruct i; discriminate|].
  destruct i; cbn in *; [injection E as ->; reflexivity|]. apply IH. exact E.
Qed.

(** Linking a node after the last. *)
Lemma link_good s v x n : good s -> nth_error (nodes s) x = Some n -> next n = None ->
  let s' := {| nodes := setNext (nodes s) x (len s) ++ [{| value := v; next := None |}]; head := head s; tail := tail s |} in
  good s' /\ vals s' = vals s ++ [v] /\ len s' = S (len s).
Proof.
  intros G E N s'.
  assert (Hx : S x = len s).
  { pose proof (gNext s G x n E) as K. rewrite N in K. destruct (Nat.ltb_spec (S x) (len s)); [discriminate|].
    assert (x < len s) by (apply nth_error_Some; rewrite E; discriminate). lia. }
  assert (En : nodes s = firstn x (nodes s) ++ [n]).
  { rewrite <- (firstn_skipn x (nodes s)) at 1. f_equal.
    assert (L : length (skipn x (nodes s)) = 1) by (rewrite skipn_length; unfold len in Hx; lia).
    pose proof (firstn_skipn x (nodes s)) as FS. remember (skipn x (nodes s)) as r eqn:Er.
    destruct r as [|a [|b r]]; cbn in L; try lia.
    rewrite <- FS in E. rewrite nth_error_app2 in E by (rewrite firstn_length; lia).
    rewrite firstn_length in E. replace (x - Nat.min x (length (nodes s))) with 0 in E by (unfold len in Hx; lia).
    cbn in E. injection E as ->. reflexivity. }
  assert (Es : nodes s' = firstn x (nodes s) ++ [{| value := value n; next := Some (len s) |}; {| value := v; next := None |}]).
  { unfold s'. cbn [nodes]. unfold setNext. rewrite E. rewrite skipn_all2 by (unfold len in Hx; lia).
    rewrite app_nil_r, <- app_assoc. reflexivity. }
  assert (Lf : length (firstn x (nodes s)) = x) by (rewrite firstn_length; unfold len in Hx; lia).
  assert (Ls : len s' = S (len s)).
  { unfold len at 1. rewrite Es, app_length, Lf. cbn [length]. lia. }
  split; [|split].
  - constructor.
    + intros i m Hm. rewrite Ls. rewrite Es in Hm.
      destruct (Nat.lt_ge_cases i x).
      * rewrite nth_error_app1 in Hm by lia.
        assert (Hm' : nth_error (nodes s) i = Some m) by (rewrite En, nth_error_app1 by lia; exact Hm).
        rewrite (gNext s G i m Hm'). replace (Nat.ltb (S i) (len s)) with true by (symmetry; apply Nat.ltb_lt; lia).
        replace (Nat.ltb (S i) (S (len s))) with true by (symmetry; apply Nat.ltb_lt; lia). reflexivity.
      * rewrite nth_error_app2, Lf in Hm by lia. destruct (i - x) as [|[|k]] eqn:Ek.
        -- cbn in Hm. injection Hm as <-. cbn [next].
           replace (Nat.ltb (S i) (S (len s))) with true by (symmetry; apply Nat.ltb_lt; lia). f_equal. lia.
        -- cbn in Hm. injection Hm as <-. cbn [next].
           replace (Nat.ltb (S i) (S (len s))) with false by (symmetry; apply Nat.ltb_ge; lia). reflexivity.
        -- cbn in Hm. destruct k; discriminate.
    + apply (gHead s G).
    + rewrite Ls. pose proof (gTail s G). unfold s'. cbn [tail]. lia.
  - unfold vals. rewrite Es. rewrite En at 2. rewrite !map_app. cbn. rewrite <- app_assoc. reflexivity.
  - exact Ls.
Qed.

(** What a call may rely on. *)
Definition latest (s : shared) (c : call) : Prop := running c = true -> exists d, during c = contents s :: d.
Definition addInv (s : shared) (v : Z) (c : call) : Prop :=
  match at_ c with
  | AReadTail => changes c = []
  | AReadTail2 t => changes c = [] /\ t <= tail s
  | AReadNext t x => changes c = [] /\ t <= x <= tail s
  | ACheck t x nx => changes c = [] /\ t <= x <= tail s /\ (nx = Some (S x) /\ S x < len s \/ nx = None)
  | AHelp t nx => changes c = [] /\ nx = S t /\ S t < len s
  | AReadTail3 t => changes c = [] /\ t <= tail s
  | ALink t x => changes c = [] /\ t <= x <= tail s
  | ASwing t n => t < n < len s /\ exists l, changes c = [(l, l ++ [v])]
  | Returned r => r = 1%Z /\ exists l, changes c = [(l, l ++ [v])]
  | _ => False
  end.
Definition pollInv (s : shared) (rm : bool) (c : call) : Prop :=
  match at_ c with
  | PReadHead => changes c = []
  | PReadTail h => changes c = [] /\ h <= head s
  | PReadHead2 h t => changes c = [] /\ h <= head s /\ h <= t <= tail s
  | PReadNext h t x => changes c = [] /\ h <= x <= head s /\ h <= t <= tail s
  | PCheck h t x nx => changes c = [] /\ h <= x <= head s /\ h <= t <= tail s /\
      (nx = Some (S x) /\ S x < len s \/ nx = None /\ t <= x /\ (x < head s \/ In [] (during c)))
  | PHelp t nx => changes c = [] /\ nx = S t /\ S t < len s
  | PReadValue h nx => changes c = [] /\ nx = Some (S h) /\ S h <= tail s /\
      exists v l, nth_error (vals s) (S h) = Some v /\ In (v :: l) (during c)
  | PSwing h nx v => changes c = [] /\ rm = true /\ nx = S h /\ S h <= tail s /\ nth_error (vals s) (S h) = Some v
  | Returned r =>
      if rm then (exists l, changes c = [(r :: l, l)]) \/ (r = 0%Z /\ changes c = [] /\ In [] (during c))
      else changes c = [] /\ ((exists l, In (r :: l) (during c)) \/ (r = 0%Z /\ In [] (during c)))
  | _ => False
  end.
Definition callInv (s : shared) (c : call) : Prop :=
  latest s c /\ match op c with Add v => addInv s v c | Poll rm => pollInv s rm c end.

(** What may happen to the shared fields. *)
Record grows (s s' : shared) : Prop := {
  grHead : head s <= head s'; grTail : tail s <= tail s'; grVals : exists e, vals s' = vals s ++ e }.

Lemma len_vals s : len s = length (vals s).
Proof. unfold len, vals. rewrite map_length. reflexivity. Qed.
Lemma grLen s s' : grows s s' -> len s <= len s'.
Proof. intros [_ _ [e H]]. rewrite !len_vals, H, app_length. lia. Qed.
Lemma grNth s s' i v : grows s s' -> nth_error (vals s) i = Some v -> nth_error (vals s') i = Some v.
Proof.
  intros [_ _ [e H]] E. rewrite H, nth_error_app1; [exact E|]. apply nth_error_Some. rewrite E. discriminate.
Qed.
Lemma grows_refl s : grows s s.
Proof. constructor; auto. exists []. rewrite app_nil_r. reflexivity. Qed.

Lemma callInv_grows s s' c : grows s s' -> callInv s c -> callInv s' (observe (contents s') c).
Proof.
  intros R [L H]. pose proof (grHead _ _ R) as RH. pose proof (grTail _ _ R) as RT. pose proof (grLen _ _ R) as RL.
  pose proof (fun i v => grNth s s' i v R) as RN.
  unfold callInv, observe. destruct (running c) eqn:Er.
  - split.
    + intros _. cbn [during]. eauto.
    + cbn [op]. destruct (op c) as [v|rm].
      * unfold addInv in *. cbn [at_ changes during]. destruct (at_ c); auto; try contradiction.
        -- destruct H; split; [assumption|lia].
        -- destruct H; split; [assumption|lia].
        -- destruct H as [H1 [H2 H3]]. split; [exact H1|]. split; [lia|]. destruct H3 as [[H3 H4]|H3]; [left; split; [exact H3|lia]|right; exact H3].
        -- destruct H as [H1 [H2 H3]]. repeat split; auto; lia.
        -- destruct H; split; [assumption|lia].
        -- destruct H; split; [assumption|lia].
        -- destruct H; split; [lia|assumption].
      * unfold pollInv in *. cbn [at_ changes during]. unfold running in Er.
        destruct (at_ c) as [ | | | | | | | | | | | | h t x nx | | h nx | h nx w | | ]; try discriminate; try contradiction.
        -- exact H.
        -- destruct H; split; [assumption|lia].
        -- destruct H as [H1 [H2 H3]]. repeat split; auto; lia.
        -- destruct H as [H1 [H2 H3]]. repeat split; auto; lia.
        -- destruct H as [H1 [H2 [H3 H4]]]. split; [exact H1|]. split; [lia|]. split; [lia|].
           destruct H4 as [[H4 H5]|[H4 [H5 [H6|H6]]]]; [left; split; [exact H4|lia]| |].
           ++ right. split; [exact H4|]. split; [exact H5|]. left. lia.
           ++ right. split; [exact H4|]. split; [exact H5|]. right. right. exact H6.
        -- destruct H as [H1 [H2 H3]]. repeat split; auto; lia.
        -- destruct H as [H1 [H2 [H3 [w [l [H4 H5]]]]]]. split; [exact H1|]. split; [exact H2|]. split; [lia|].
           exists w, l. split; [apply RN; exact H4|right; exact H5].
        -- destruct H as [H1 [H2 [H3 [H4 H5]]]]. split; [exact H1|]. split; [exact H2|]. split; [exact H3|]. split; [lia|apply RN; exact H5].
  - split; [intro K; rewrite K in Er; discriminate|].
    destruct (op c) as [v|rm].
    + unfold addInv in *. unfold running in Er. destruct (at_ c); try discriminate; auto.
    + unfold pollInv in *. unfold running in Er. destruct (at_ c); try discriminate; auto.
Qed.

Lemma casTail_ok s t n : good s -> t < n < len s -> good (casTail s t n) /\ grows s (casTail s t n) /\ contents (casTail s t n) = contents s.
Proof.
  intros G H. unfold casTail. destruct (Nat.eqb_spec (tail s) t).
  - split; [|split].
    + constructor; cbn; [apply (gNext s G)| |]; unfold len in *; pose proof (gHead s G); cbn; lia.
    + constructor; cbn; try lia. exists []. unfold vals. cbn. rewrite app_nil_r. reflexivity.
    + reflexivity.
  - split; [exact G|]. split; [apply grows_refl|reflexivity].
Qed.

Lemma sameList_refl l : sameList l l = true.
Proof. unfold sameList. destruct (list_eq_dec Z.eq_dec l l); auto. Qed.
Lemma sameList_length a b : length a <> length b -> sameList a b = false.
Proof. intro H. unfold sameList. destruct (list_eq_dec Z.eq_dec a b); auto. subst. contradiction. Qed.

(** The call after a step. *)
Definition after (c : call) (s s' : shared) (p : place) : call :=
  {| op := op c; at_ := p; during := contents s' :: during c;
     changes := if sameList (contents s) (contents s') then changes c else (contents s, contents s') :: changes c |}.

Lemma step_ok s c : good s -> callInv s c -> running c = true ->
  let (s', p) := step (op c) (at_ c) s in good s' /\ grows s s' /\ callInv s' (after c s s' p).
Proof.
  intros G [L H] Hr. destruct (L Hr) as [d Hd]. clear L.
  assert (HH := gHead s G). assert (HT := gTail s G).
  assert (KEEP : forall p, match op c with Add v => addInv s v {| op := op c; at_ := p; during := contents s :: during c; changes := changes c |}
                            | Poll rm => pollInv s rm {| op := op c; at_ := p; during := contents s :: during c; changes := changes c |} end ->
            good s /\ grows s s /\ callInv s (after c s s p)).
  { intros p Hp. split; [exact G|]. split; [apply grows_refl|]. unfold after. rewrite sameList_refl. split; [|exact Hp].
    intros _. cbn [during]. eauto. }
  assert (SAME : forall s' p, good s' -> grows s s' -> contents s' = contents s ->
            match op c with Add v => addInv s' v {| op := op c; at_ := p; during := contents s' :: during c; changes := changes c |}
                            | Poll rm => pollInv s' rm {| op := op c; at_ := p; during := contents s' :: during c; changes := changes c |} end ->
            good s' /\ grows s s' /\ callInv s' (after c s s' p)).
  { intros s' p Gs Rs Es Hp. split; [exact Gs|]. split; [exact Rs|]. unfold after. rewrite Es, sameList_refl. rewrite Es in Hp. split; [|exact Hp].
    intros _. cbn [during]. rewrite Es. eauto. }
  destruct (op c) as [v|rm] eqn:Eo.
  - unfold addInv in H. unfold running in Hr. destruct (at_ c) eqn:Ea; try contradiction; try discriminate; cbn [step].
    + apply KEEP. unfold addInv. cbn. auto.
    + apply KEEP. unfold addInv. cbn. destruct H. auto.
    + destruct H as [H1 H2]. destruct (good_at s x G ltac:(lia)) as [n [E [N _]]]. rewrite E. apply KEEP. unfold addInv. cbn.
      rewrite N. destruct (Nat.ltb_spec (S x) (len s)); auto 6.
    + destruct H as [H1 [H2 H3]]. destruct (Nat.eqb_spec t (tail s)).
      * apply KEEP. unfold addInv. cbn. destruct H3 as [[-> H3]| ->].
        -- replace t with x by lia. auto.
        -- split; [exact H1|lia].
      * apply KEEP. unfold addInv. cbn. exact H1.
    + destruct H as [H1 [-> H3]]. destruct (casTail_ok s t (S t) G ltac:(lia)) as [G' [R' E']].
      apply SAME; auto.
    + destruct H as [H1 H2]. apply KEEP. unfold addInv. cbn. split; [exact H1|lia].
    + destruct H as [H1 H2]. destruct (good_at s x G ltac:(lia)) as [n [E [N _]]]. rewrite E.
      destruct (next n) as [m|] eqn:En.
      * apply KEEP. unfold addInv. cbn. exact H1.
      * destruct (link_good s v x n G E En) as [G' [V' L']]. fold (len s).
        set (s' := {| nodes := setNext (nodes s) x (len s) ++ [{| value := v; next := None |}]; head := head s; tail := tail s |}) in *.
        assert (C' : contents s' = contents s ++ [v]).
        { rewrite !contents_skipn by assumption. rewrite V'. cbn [head s']. rewrite skipn_app.
          replace (S (head s) - length (vals s)) with 0; [reflexivity|]. rewrite <- len_vals. lia. }
        split; [exact G'|]. split.
        { constructor; cbn; auto. exists [v]. exact V'. }
        unfold after. rewrite (sameList_length (contents s) (contents s')) by (rewrite C', app_length; cbn; lia).
        split; [intros _; cbn [during]; eauto|]. cbn [op]. rewrite Eo. unfold addInv. cbn [at_ changes]. rewrite H1, C', L'.
        split; [lia|eauto].
    + destruct H as [H1 [l H2]]. destruct (casTail_ok s t n G H1) as [G' [R' E']]. apply SAME; auto. unfold addInv. cbn. eauto.
  - unfold pollInv in H. unfold running in Hr. destruct (at_ c) eqn:Ea; try contradiction; try discriminate; cbn [step].
    + apply KEEP. unfold pollInv. cbn. auto.
    + destruct H as [H1 H2]. apply KEEP. unfold pollInv. cbn. repeat split; auto; lia.
    + destruct H as [H1 [H2 H3]]. apply KEEP. unfold pollInv. cbn. repeat split; auto; lia.
    + destruct H as [H1 [H2 H3]]. destruct (good_at s x G ltac:(lia)) as [n [E [N _]]]. rewrite E. apply KEEP. unfold pollInv. cbn.
      split; [exact H1|]. split; [exact H2|]. split; [exact H3|]. rewrite N. destruct (Nat.ltb_spec (S x) (len s)); [left; auto|].
      right. split; [reflexivity|]. split; [lia|]. destruct (Nat.eq_dec x (head s)) as [Ex|Ex]; [|left; lia].
      right. left. rewrite contents_skipn by exact G. apply skipn_all2. rewrite <- len_vals. lia.
    + destruct H as [H1 [H2 [H3 H4]]]. destruct (Nat.eqb_spec h (head s)) as [Eh|Eh].
      * assert (x = h) as -> by lia. destruct (Nat.eqb_spec h t) as [Et|Et].
        -- destruct H4 as [[-> H4]|[-> [_ H4]]].
           ++ apply KEEP. unfold pollInv. cbn. subst t. auto.
           ++ apply KEEP. unfold pollInv. cbn. destruct H4 as [H4|H4]; [lia|]. destruct rm; auto.
        -- destruct H4 as [[-> H4]|[-> [H5 _]]]; [|lia].
           apply KEEP. unfold pollInv. cbn. split; [exact H1|]. split; [reflexivity|]. split; [lia|].
           destruct (good_at s (S h) G H4) as [n [E [_ Vn]]]. exists (value n), (skipn (S (S h)) (vals s)).
           split; [exact Vn|]. left. rewrite contents_skipn by exact G. rewrite <- Eh. apply skipn_cons_nth. exact Vn.
      * apply KEEP. unfold pollInv. cbn. exact H1.
    + destruct H as [H1 [-> H3]]. destruct (casTail_ok s t (S t) G ltac:(lia)) as [G' [R' E']]. apply SAME; auto.
    + destruct H as [H1 [-> [H3 [w [l [H4 H5]]]]]]. destruct (good_at s (S h) G ltac:(lia)) as [n [E [_ Vn]]]. rewrite E.
      assert (w = value n) as -> by congruence.
      apply KEEP. unfold pollInv. destruct rm; cbn.
      * auto.
      * split; [exact H1|]. left. eauto.
    + destruct H as [H1 [-> [-> [H3 H4]]]]. destruct (Nat.eqb_spec (head s) h) as [Eh|Eh].
      * set (s' := {| nodes := nodes s; head := S h; tail := tail s |}).
        assert (G' : good s').
        { constructor; cbn; [apply (gNext s G)|lia|apply (gTail s G)]. }
        assert (C' : contents s = v :: contents s').
        { rewrite !contents_skipn by assumption. rewrite Eh. cbn [head s']. apply skipn_cons_nth. exact H4. }
        split; [exact G'|]. split.
        { constructor; cbn; [lia|lia|]. exists []. unfold vals. cbn. rewrite app_nil_r. reflexivity. }
        unfold after. rewrite (sameList_length (contents s) (contents s')) by (rewrite C'; cbn; lia).
        split; [intro K; discriminate K|]. cbn [op]. rewrite Eo. unfold pollInv. cbn [at_ changes]. left.
        exists (contents s'). rewrite H1, C'. reflexivity.
      * apply KEEP. unfold pollInv. cbn. exact H1.
Qed.

Record inv (y : system) : Prop := { iGood : good (sh y); iCalls : forall c, In c (calls y) -> callInv (sh y) c }.

Lemma inv_next e y : inv y -> inv (next_ e y).
Proof.
  intros [G C]. destruct e as [o|i]; cbn [next_].
  - constructor; cbn [sh calls]; [exact G|]. intros c Hc. apply in_app_or in Hc. destruct Hc as [Hc|[<-|[]]]; [apply C; exact Hc|].
    split; [intros _; cbn; eauto|]. cbn [op]. destruct o; reflexivity.
  - destruct (nth_error (calls y) i) as [c|] eqn:E; [|constructor; assumption].
    destruct (running c) eqn:Er; [|constructor; assumption].
    pose proof (step_ok (sh y) c G (C c (nth_error_In _ _ E)) Er) as S.
    destruct (step (op c) (at_ c) (sh y)) as [s' p]. destruct S as [G' [R' C']].
    constructor; cbn [sh calls]; [exact G'|].
    assert (O : forall c0, In c0 (calls y) -> callInv s' (observe (contents s') c0)).
    { intros c0 H0. apply (callInv_grows (sh y) s' c0 R'). apply C. exact H0. }
    intros c0 H0. apply in_app_or in H0. destruct H0 as [H0|[<-|H0]].
    + apply in_map_iff in H0. destruct H0 as [c1 [<- H1]]. apply O. rewrite <- (firstn_skipn i (calls y)). apply in_or_app. left. exact H1.
    + exact C'.
    + apply in_map_iff in H0. destruct H0 as [c1 [<- H1]]. apply O. rewrite <- (firstn_skipn (S i) (calls y)). apply in_or_app. right. exact H1.
Qed.

Lemma inv_run es : inv (run es).
Proof.
  unfold run. assert (I : inv {| sh := initial; calls := [] |}).
  { constructor; cbn [sh calls]; [|intros c []]. constructor; cbn; try lia.
    intros i n E. destruct i; [injection E as <-; reflexivity|]. destruct i; discriminate. }
  revert I. generalize {| sh := initial; calls := [] |}. induction es as [|e es IH]; intros y I; cbn; [exact I|].
  apply IH. apply inv_next. exact I.
Qed.
