From Coq Require Import NArith List Bool Arith Lia.
From Verif Require Import JToken_Model JToken_Spec.
Import ListNotations.

Lemma delim_in : forall ds c, isDelimiter ds c = true <-> In c ds.
Proof.
  intros. unfold isDelimiter. rewrite existsb_exists. split; [intros (x & H & E); apply N.eqb_eq in E; congruence | intro; exists c; split; auto; apply N.eqb_refl].
Qed.
Lemma dec_delim : forall {A} ds c (a b : A), (if in_dec N.eq_dec c ds then a else b) = if isDelimiter ds c then a else b.
Proof.
  intros. destruct (in_dec N.eq_dec c ds) as [H|H]; destruct (isDelimiter ds c) eqn:E; auto.
  - apply delim_in in H. congruence.
  - apply delim_in in E. contradiction.
Qed.
Lemma pieces_cons : forall ds s, exists p q, pieces ds s = p :: q.
Proof. intros ds [|c r]; cbn; [eauto|]. destruct (in_dec N.eq_dec c ds); [eauto|]. destruct (pieces ds r); eauto. Qed.
Lemma tokens_delim : forall ds c r, isDelimiter ds c = true -> tokens ds (c :: r) = tokens ds r.
Proof. intros. unfold tokens. cbn. rewrite dec_delim, H. reflexivity. Qed.
Definition ends (ds s : list N) : bool := match s with [] => true | c :: _ => isDelimiter ds c end.
Lemma tokens_other : forall ds c r, isDelimiter ds c = false ->
  tokens ds (c :: r) = if ends ds r then [c] :: tokens ds r else match tokens ds r with w :: q => (c :: w) :: q | [] => [[c]] end.
Proof.
  intros ds c r H. unfold tokens. cbn [pieces]. rewrite dec_delim, H. destruct r as [|d r]; [reflexivity|]. cbn [ends pieces]. rewrite !dec_delim.
  destruct (isDelimiter ds d); [reflexivity|]. destruct (pieces ds r); reflexivity.
Qed.
Lemma count_ok : forall ds s n saw, countLoop ds false s n saw = n + length (tokens ds s) + (if saw && ends ds s then 1 else 0).
Proof.
  induction s as [|c r IH]; intros n saw; cbn [countLoop ends].
  - cbn. destruct saw; cbn; lia.
  - destruct (isDelimiter ds c) eqn:D; rewrite IH.
    + rewrite tokens_delim by auto. destruct saw; cbn [andb]; lia.
    + rewrite tokens_other by auto. rewrite andb_false_r. cbn [andb]. destruct (ends ds r) eqn:E; cbn [length]; [lia|].
      destruct r as [|d r]; [discriminate|]. cbn in E. rewrite tokens_other by auto. 
      destruct (ends ds r); cbn; [lia|]. destruct (tokens ds r); cbn; lia.
Qed.
Lemma countInc_ok : forall ds s n saw, countLoop ds true s n saw = n + length (withDelimiters ds s) + (if saw && ends ds s then 1 else 0).
Proof.
  induction s as [|c r IH]; intros n saw; cbn [countLoop ends].
  - cbn. destruct saw; cbn; lia.
  - cbn [withDelimiters]. rewrite dec_delim. destruct (isDelimiter ds c) eqn:D; rewrite IH.
    + cbn [length]. destruct saw; cbn [andb]; lia.
    + rewrite andb_false_r. cbn [andb]. destruct r as [|d r]; [cbn; lia|]. cbn [ends].
      rewrite dec_delim. destruct (isDelimiter ds d) eqn:Q; [cbn [length]; lia|].
      destruct (withDelimiters ds (d :: r)) as [|w q] eqn:W; [|cbn [length]; lia].
      exfalso. cbn in W. rewrite dec_delim, Q in W. destruct r as [|e r]; [discriminate|].
      destruct (in_dec N.eq_dec e ds); [discriminate|]. destruct (withDelimiters ds (e :: r)); discriminate.
Qed.
Lemma skipn_next : forall (s : list N) p c r, skipn p s = c :: r -> skipn (S p) s = r.
Proof. induction s as [|x s IH]; intros [|p] c r H; cbn in *; try discriminate; [congruence|]. eapply IH; eauto. Qed.
Lemma more_ok : forall ds s rest i p, skipn i s = rest -> tokens ds (skipn p s) = tokens ds rest ->
  fst (moreLoop ds false rest i p) = match tokens ds rest with [] => false | _ => true end /\
  tokens ds (skipn (snd (moreLoop ds false rest i p)) s) = tokens ds rest.
Proof.
  induction rest as [|c r IH]; intros i p E T; cbn [moreLoop]; [split; [reflexivity|exact T]|].
  destruct (isDelimiter ds c) eqn:D.
  - rewrite tokens_delim in * by auto. apply IH; auto. eapply skipn_next; eauto.
  - cbn [fst snd]. rewrite E. split; auto. rewrite tokens_other by auto. destruct (ends ds r); auto. now destruct (tokens ds r).
Qed.
Lemma end_ok : forall ds s rest i, skipn i s = rest -> ends ds rest = false ->
  tokens ds rest = firstn (endLoop ds rest i - i) rest :: tokens ds (skipn (endLoop ds rest i) s) /\ i < endLoop ds rest i.
Proof.
  induction rest as [|c r IH]; intros i E D; [discriminate|]. cbn in D. cbn [endLoop]. rewrite D, tokens_other by auto.
  assert (E' := skipn_next _ _ _ _ E). destruct (ends ds r) eqn:R.
  - assert (X : endLoop ds r (S i) = S i) by (destruct r; cbn in *; [|rewrite R]; reflexivity). rewrite X, E'. replace (S i - i) with 1 by lia. split; [reflexivity|lia].
  - destruct (IH (S i) E' eq_refl) as [T L]. rewrite T. split; [|lia]. replace (endLoop ds r (S i) - i) with (S (endLoop ds r (S i) - S i)) by lia. reflexivity.
Qed.
Lemma next_ok : forall t rest i, includeDelimiters t = false -> skipn i (text t) = rest ->
  match nextLoop t rest i with
  | Some (w, p) => tokens (delimiters t) rest = w :: tokens (delimiters t) (skipn p (text t))
  | None => tokens (delimiters t) rest = []
  end.
Proof.
  intros t rest. induction rest as [|c r IH]; intros i F E; [reflexivity|]. cbn [nextLoop]. rewrite F. destruct (isDelimiter (delimiters t) c) eqn:D.
  - rewrite tokens_delim by auto. apply IH; auto. eapply skipn_next; eauto.
  - rewrite E. eapply end_ok; eauto.
Qed.
Lemma run_ok : forall cs t, includeDelimiters t = false -> run cs t = expected cs (tokens (delimiters t) (skipn (position t) (text t))).
Proof.
  induction cs as [|c cs IH]; intros t F; [reflexivity|]. destruct c; cbn [run exec expected].
  - unfold hasMoreTokens. rewrite F. pose proof (more_ok (delimiters t) (text t) (skipn (position t) (text t)) (position t) (position t) eq_refl eq_refl) as [A B].
    destruct (moreLoop _ _ _ _ _) as [b p]. cbn [fst snd] in *. rewrite IH by exact F. cbn [moved delimiters text position]. rewrite A, B. reflexivity.
  - rewrite IH by exact F. unfold countTokens. rewrite F, count_ok. cbn [andb]. rewrite Nat.add_0_r. reflexivity.
  - unfold nextToken. pose proof (next_ok t (skipn (position t) (text t)) (position t) F eq_refl) as X.
    destruct (nextLoop t _ _) as [[w p]|]; rewrite X; [|rewrite IH, X by exact F; reflexivity]. rewrite IH by exact F. reflexivity.
Qed.
