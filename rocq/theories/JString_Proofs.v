(** Proofs about java.lang.String. *)
From Coq Require Import List ZArith Arith Bool Lia.
From Verif Require Import JString_Model JString_Spec.
Import ListNotations.
Local Open Scope Z_scope.

(** The window lies in the array; an array of bytes holds none above 127 *)
Definition wf (s : str) : Prop :=
  0 <= offset s /\ 0 <= len s /\ offset s + len s <= arrayLength (data s) /\
  match data s with
  | Bytes b => Forall (fun x => 0 <= x < 128) b
  | Chars c => Forall (fun x => 0 <= x < 65536) c
  end.

Definition content (d : sdata) : list Z := match d with Bytes b => map (fun x => x mod 65536) b | Chars c => c end.

Lemma content_length : forall d, Z.of_nat (length (content d)) = arrayLength d.
Proof. intros [b|c]; cbn; [rewrite map_length|]; reflexivity. Qed.

Lemma chars_content : forall s, chars s = firstn (Z.to_nat (len s)) (skipn (Z.to_nat (offset s)) (content (data s))).
Proof.
  intros [[b|c] o n]; unfold chars, window, content; cbn [data len offset]; [|reflexivity].
  rewrite <- firstn_map, <- skipn_map. reflexivity.
Qed.

Lemma chars_size : forall s, wf s -> size (chars s) = len s.
Proof.
  intros s (O & L & W & _). unfold size. rewrite chars_content, firstn_length, skipn_length.
  rewrite <- content_length in W. lia.
Qed.

Lemma element_content : forall d i, 0 <= i -> element d i = nth_error (content d) (Z.to_nat i).
Proof.
  intros d i I. unfold element. replace (i <? 0) with false by (symmetry; apply Z.ltb_ge; lia).
  destruct d as [b|c]; cbn [content]; [|reflexivity]. rewrite nth_error_map.
  destruct (nth_error b (Z.to_nat i)); reflexivity.
Qed.

Lemma nth_error_skipn' : forall (l : list Z) a i, nth_error (skipn a l) i = nth_error l (a + i).
Proof.
  induction l as [|x l IH]; intros a i.
  - rewrite skipn_nil. destruct (a + i)%nat, i; reflexivity.
  - destruct a; [reflexivity|]. cbn [skipn Nat.add nth_error]. apply IH.
Qed.
Lemma nth_error_firstn' : forall (l : list Z) n i, (i < n)%nat -> nth_error (firstn n l) i = nth_error l i.
Proof.
  induction l as [|x l IH]; intros n i L; [rewrite firstn_nil; reflexivity|].
  destruct n; [lia|]. destruct i; [reflexivity|]. cbn. apply IH. lia.
Qed.

Lemma charAt_ok : forall s i, wf s -> 0 <= i < len s -> charAt s i = nth_error (chars s) (Z.to_nat i).
Proof.
  intros s i (O & L & W & _) I. unfold charAt.
  replace (i <? 0) with false by (symmetry; apply Z.ltb_ge; lia).
  replace (len s <? i) with false by (symmetry; apply Z.ltb_ge; lia). cbn [orb].
  rewrite element_content by lia. rewrite chars_content, nth_error_firstn', nth_error_skipn' by lia.
  f_equal. lia.
Qed.

Lemma charAt_some : forall s i, wf s -> 0 <= i < len s -> exists c, charAt s i = Some c /\ hasAt (chars s) i c.
Proof.
  intros s i W I. rewrite charAt_ok by assumption. destruct (nth_error (chars s) (Z.to_nat i)) as [c|] eqn:E.
  - exists c. split; [reflexivity|]. split; [lia|exact E].
  - apply nth_error_None in E. pose proof (chars_size s W). unfold size in *. lia.
Qed.

Lemma hasAt_fun : forall t i c d, hasAt t i c -> hasAt t i d -> c = d.
Proof. intros t i c d [_ A] [_ B]. congruence. Qed.
Lemma hasAt_range : forall t i c, hasAt t i c -> 0 <= i < size t.
Proof.
  intros t i c [I E]. assert (nth_error t (Z.to_nat i) <> None) by congruence. apply nth_error_Some in H. unfold size. lia.
Qed.

(** ** substring *)

Lemma part_part : forall (l : list Z) o n a b, (a + b <= n)%nat ->
  firstn b (skipn a (firstn n (skipn o l))) = firstn b (skipn (o + a) l).
Proof.
  intros l o n a b L. rewrite skipn_firstn_comm, firstn_firstn. rewrite Nat.min_l by lia. f_equal.
  revert l. induction o as [|o IH]; intro l; [reflexivity|]. destruct l as [|x l]; cbn [skipn Nat.add]; [apply skipn_nil|apply IH].
Qed.

Lemma substring_ok : forall s a b, wf s -> 0 <= a <= b -> b <= len s ->
  exists u, substring s a b = Some u /\ wf u /\ chars u = part a b (chars s).
Proof.
  intros s a b W A B. pose proof (chars_size s W) as SZ. unfold substring.
  replace (a <? 0) with false by (symmetry; apply Z.ltb_ge; lia).
  replace (len s <? b) with false by (symmetry; apply Z.ltb_ge; lia).
  replace (b - a <? 0) with false by (symmetry; apply Z.ltb_ge; lia).
  destruct ((a =? 0) && (b =? len s))%bool eqn:Q.
  - apply andb_prop in Q as [Q1 Q2]. apply Z.eqb_eq in Q1. apply Z.eqb_eq in Q2. subst a.
    exists s. split; [reflexivity|]. split; [exact W|]. unfold part. rewrite Z.sub_0_r. cbn [Z.to_nat skipn].
    symmetry. apply firstn_all2. unfold size in SZ. lia.
  - destruct (Z.eqb_spec (b - a) 0) as [E|E].
    + exists emptyString. split; [reflexivity|]. split; [repeat split; cbn; try lia; constructor|].
      unfold part. rewrite E. reflexivity.
    + destruct W as (O & L & W & F). unfold construct.
      replace (offset s + a <? 0) with false by (symmetry; apply Z.ltb_ge; lia).
      replace (arrayLength (data s) <? offset s + a + (b - a)) with false by (symmetry; apply Z.ltb_ge; lia).
      replace (b - a <? 0) with false by (symmetry; apply Z.ltb_ge; lia).
      eexists. split; [reflexivity|]. split; [repeat split; cbn [offset len data]; try lia; exact F|].
      rewrite !chars_content. cbn [data offset len]. unfold part. rewrite part_part by lia.
      do 2 f_equal. lia.
Qed.

(** ** compareTo *)

Fixpoint cmp (s t : text) : Z :=
  match s, t with
  | a :: s', b :: t' => if a - b =? 0 then cmp s' t' else a - b
  | _, _ => size s - size t
  end.

Lemma compared_cons : forall a s t r, compared s t r -> compared (a :: s) (a :: t) r.
Proof.
  intros a s t r C. destruct C as [c x y s t N|c s|c t].
  - exact (DifferAt (a :: c) x y s t N).
  - exact (Longer (a :: c) s).
  - exact (Shorter (a :: c) t).
Qed.

Lemma cmp_compared : forall s t, compared s t (cmp s t).
Proof.
  induction s as [|a s IH]; intro t.
  - cbn. replace (size [] - size t) with (- size t) by (unfold size; cbn; lia). exact (Shorter [] t).
  - destruct t as [|b t].
    + cbn [cmp]. replace (size (a :: s) - size []) with (size (a :: s)) by (unfold size; cbn; lia). exact (Longer [] (a :: s)).
    + cbn [cmp]. destruct (Z.eqb_spec (a - b) 0) as [E|E].
      * assert (a = b) by lia. subst b. apply compared_cons. apply IH.
      * apply (DifferAt [] a b s t). lia.
Qed.

Lemma compared_cmp : forall s t r, compared s t r -> r = cmp s t.
Proof.
  intros s t r C. destruct C as [c x y s t N|c s|c t].
  - induction c as [|a c IH]; cbn [app cmp]; [|rewrite Z.sub_diag; exact IH].
    replace (x - y =? 0) with false by (symmetry; apply Z.eqb_neq; lia). reflexivity.
  - induction c as [|a c IH]; cbn [app cmp]; [|rewrite Z.sub_diag; exact IH].
    destruct s; unfold size; cbn [cmp length]; unfold size; cbn [length]; lia.
  - induction c as [|a c IH]; cbn [app cmp]; [|rewrite Z.sub_diag; exact IH]. unfold size; cbn [length]; lia.
Qed.

Lemma cmp_zero : forall s t, cmp s t = 0 <-> s = t.
Proof.
  induction s as [|a s IH]; intros [|b t]; cbn [cmp]; unfold size; cbn [length].
  - split; reflexivity.
  - split; [lia|discriminate].
  - split; [lia|discriminate].
  - destruct (Z.eqb_spec (a - b) 0) as [E|E].
    + rewrite IH. split; intro H; [f_equal; [lia|exact H]|congruence].
    + split; [lia|]. intro H. injection H as H1 H2. lia.
Qed.

Lemma cmp_opposite : forall s t, cmp t s = - cmp s t.
Proof.
  induction s as [|a s IH]; intros [|b t]; cbn [cmp]; unfold size; cbn [length]; try lia.
  replace (b - a =? 0) with (a - b =? 0) by (destruct (Z.eqb_spec (a - b) 0), (Z.eqb_spec (b - a) 0); lia).
  destruct (a - b =? 0); [apply IH|lia].
Qed.

Lemma cmp_trans : forall s t u, cmp s t <= 0 -> cmp t u <= 0 -> cmp s u <= 0.
Proof.
  induction s as [|a s IH]; intros [|b t] [|c u]; cbn [cmp]; unfold size; cbn [length]; try lia.
  destruct (Z.eqb_spec (a - b) 0), (Z.eqb_spec (b - c) 0), (Z.eqb_spec (a - c) 0); try lia. apply IH.
Qed.

Lemma compareLoop_ok : forall n s p idx c S P, wf s -> wf p -> chars s = c ++ S -> chars p = c ++ P -> size c = idx ->
  n = Nat.min (length S) (length P) -> compareLoop n s p idx = Some (cmp S P).
Proof.
  induction n as [|n IH]; intros s p idx c S0 P0 WS WP ES EP SC N.
  - cbn [compareLoop]. pose proof (chars_size s WS) as ZS. pose proof (chars_size p WP) as ZP.
    rewrite ES in ZS. rewrite EP in ZP. unfold size in *. rewrite app_length in *. f_equal.
    destruct S0 as [|a S0]; [|destruct P0 as [|b P0]; [|cbn in N; lia]];
      cbn [cmp]; unfold size; cbn [length] in *; lia.
  - destruct S0 as [|a S0]; [cbn in N; lia|]. destruct P0 as [|b P0]; [cbn in N; lia|].
    pose proof (chars_size s WS) as ZS. pose proof (chars_size p WP) as ZP.
    rewrite ES in ZS. rewrite EP in ZP. unfold size in *. rewrite app_length in *. cbn [length] in *.
    cbn [compareLoop cmp]. rewrite !charAt_ok by (assumption || lia). rewrite ES, EP.
    rewrite !nth_error_app2 by lia. replace (Z.to_nat idx - length c)%nat with 0%nat by lia. cbn [nth_error].
    destruct (Z.eqb_spec (a - b) 0) as [E|E]; [|reflexivity]. assert (a = b) by lia. subst b.
    apply (IH s p (idx + 1) (c ++ [a])); try assumption.
    + rewrite <- app_assoc. exact ES.
    + rewrite <- app_assoc. exact EP.
    + unfold size. rewrite app_length. cbn [length]. lia.
    + lia.
Qed.

Lemma compareTo_cmp : forall s p, wf s -> wf p -> compareTo s p = Some (cmp (chars s) (chars p)).
Proof.
  intros s p WS WP. unfold compareTo. apply (compareLoop_ok _ s p 0 []); try assumption; try reflexivity.
  pose proof (chars_size s WS). pose proof (chars_size p WP). unfold size in *.
  destruct (Z.ltb_spec (len s) (len p)); lia.
Qed.

Lemma equals_cmp : forall s p, wf s -> wf p -> exists r, equals s p = Some r /\ (r = true <-> chars s = chars p).
Proof.
  intros s p WS WP. unfold equals. pose proof (chars_size s WS) as ZS. pose proof (chars_size p WP) as ZP.
  destruct (Z.eqb_spec (len p) (len s)) as [E|E].
  - rewrite compareTo_cmp by assumption. eexists. split; [reflexivity|]. rewrite Z.eqb_eq. apply cmp_zero.
  - exists false. split; [reflexivity|]. split; [discriminate|]. intro H. rewrite H in ZS. lia.
Qed.

(** ** Searching *)

Lemma indexOfCharLoop_ok : forall n s c i, wf s -> 0 <= i -> n = Z.to_nat (len s - i) ->
  exists r, indexOfCharLoop n s c i = Some r /\ firstFrom (fun k => hasAt (chars s) k c) i r.
Proof.
  induction n as [|n IH]; intros s c i W I N.
  - exists (-1). split; [reflexivity|]. left. split; [reflexivity|]. intros k K H.
    apply hasAt_range in H. rewrite chars_size in H by exact W. lia.
  - cbn [indexOfCharLoop]. destruct (charAt_some s i W) as [x [E H]]; [lia|]. rewrite E.
    destruct (Z.eqb_spec x c) as [X|X].
    + subst x. exists i. split; [reflexivity|]. right. split; [lia|]. split; [exact H|]. intros; lia.
    + destruct (IH s c (i + 1) W) as [r [R F]]; [lia|lia|]. exists r. split; [exact R|].
      assert (NI : ~ hasAt (chars s) i c) by (intro H'; apply X; eapply hasAt_fun; eassumption).
      destruct F as [[F1 F2]|[F1 [F2 F3]]]; [left; split; [exact F1|]|right; split; [lia|]; split; [exact F2|]];
        intros k K; (destruct (Z.eq_dec k i); [subst k; exact NI|]); [apply F2|apply F3]; lia.
Qed.

Lemma lastIndexOfCharLoop_ok : forall n s c i, wf s -> i < len s -> n = Z.to_nat (i + 1) ->
  exists r, lastIndexOfCharLoop n s c i = Some r /\ lastUpTo (fun k => hasAt (chars s) k c) i r.
Proof.
  induction n as [|n IH]; intros s c i W I N.
  - exists (-1). split; [reflexivity|]. left. split; [reflexivity|]. intros k K H. destruct H. lia.
  - cbn [lastIndexOfCharLoop]. destruct (charAt_some s i W) as [x [E H]]; [lia|]. rewrite E.
    destruct (Z.eqb_spec x c) as [X|X].
    + subst x. exists i. split; [reflexivity|]. right. split; [lia|]. split; [exact H|]. intros; lia.
    + destruct (IH s c (i - 1) W) as [r [R F]]; [lia|lia|]. exists r. split; [exact R|].
      assert (NI : ~ hasAt (chars s) i c) by (intro H'; apply X; eapply hasAt_fun; eassumption).
      destruct F as [[F1 F2]|[F1 [F2 F3]]]; [left; split; [exact F1|]|right; split; [lia|]; split; [exact F2|]];
        intros k K; (destruct (Z.eq_dec k i); [subst k; exact NI|]); [apply F2|apply F3]; lia.
Qed.

(** an occurrence, position by position *)
Lemma prefix_iff : forall p t : list Z, (length p <= length t)%nat ->
  (exists b, t = p ++ b) <-> forall k, (k < length p)%nat -> nth_error t k = nth_error p k.
Proof.
  intros p t L. split.
  - intros [b E] k K. subst t. apply nth_error_app1; exact K.
  - revert t L. induction p as [|x p IH]; intros t L H.
    + exists t. reflexivity.
    + destruct t as [|y t]; [cbn in L; lia|]. specialize (H 0%nat) as H0. cbn in H0.
      assert (y = x) by (assert (Some y = Some x) by (apply H0; lia); congruence). subst y.
      destruct (IH t) as [b E]; [cbn in L; lia| |exists b; cbn; congruence].
      intros k K. apply (H (Datatypes.S k)). cbn; lia.
Qed.

Lemma occurs_range : forall p t i, occursAt p t i -> 0 <= i /\ i + size p <= size t.
Proof. intros p t i [I [a [b [E A]]]]. subst t. unfold size in *. rewrite !app_length. lia. Qed.

Lemma occurs_iff : forall p t i, 0 <= i -> i + size p <= size t ->
  occursAt p t i <-> forall k, 0 <= k < size p -> nth_error t (Z.to_nat (i + k)) = nth_error p (Z.to_nat k).
Proof.
  intros p t i I L. unfold size in *.
  assert (X : occursAt p t i <-> exists b, skipn (Z.to_nat i) t = p ++ b).
  { split.
    - intros [_ [a [b [E A]]]]. exists b. subst t. rewrite skipn_app. unfold size in A.
      rewrite skipn_all2 by lia. replace (Z.to_nat i - length a)%nat with 0%nat by lia. reflexivity.
    - intros [b E]. split; [exact I|]. exists (firstn (Z.to_nat i) t), b. rewrite <- E. split; [symmetry; apply firstn_skipn|].
      unfold size. rewrite firstn_length. lia. }
  rewrite X, prefix_iff by (rewrite skipn_length; lia). split; intros H k K.
  - specialize (H (Z.to_nat k)). rewrite nth_error_skipn' in H.
    replace (Z.to_nat (i + k)) with (Z.to_nat i + Z.to_nat k)%nat by lia. apply H. lia.
  - rewrite nth_error_skipn'. specialize (H (Z.of_nat k)). rewrite Nat2Z.id in H.
    replace (Z.to_nat (i + Z.of_nat k)) with (Z.to_nat i + k)%nat in H by lia. apply H. lia.
Qed.

Lemma matchLoop_ok : forall n s p i j, wf s -> wf p -> 0 <= i -> 0 <= j -> i + len p <= len s -> n = Z.to_nat (len p - j) ->
  exists r, matchLoop n s p i j = Some r /\
    (r = true <-> forall k, j <= k < len p -> nth_error (chars s) (Z.to_nat (i + k)) = nth_error (chars p) (Z.to_nat k)).
Proof.
  induction n as [|n IH]; intros s p i j WS WP I J L N.
  - exists true. split; [reflexivity|]. split; [intros _ k K; lia|reflexivity].
  - cbn [matchLoop]. destruct (charAt_some s (i + j) WS) as [a [E A]]; [lia|].
    destruct (charAt_some p j WP) as [b [E' B]]; [lia|]. rewrite E, E'. destruct A as [_ A]. destruct B as [_ B].
    destruct (Z.eqb_spec a b) as [X|X].
    + destruct (IH s p i (j + 1) WS WP) as [r [R F]]; [lia|lia|lia|lia|]. exists r. split; [exact R|]. rewrite F.
      split; intros H k K; [|apply H; lia]. destruct (Z.eq_dec k j); [subst k; congruence|apply H; lia].
    + exists false. split; [reflexivity|]. split; [discriminate|]. intro H. exfalso. apply X.
      specialize (H j). rewrite A, B in H. assert (Some a = Some b) by (apply H; lia). congruence.
Qed.

Lemma matchAt_ok : forall s p i, wf s -> wf p -> 0 <= i -> i + len p <= len s ->
  exists r, matchAt s p i = Some r /\ (r = true <-> occursAt (chars p) (chars s) i).
Proof.
  intros s p i WS WP I L. destruct (matchLoop_ok (Z.to_nat (len p)) s p i 0 WS WP I) as [r [R F]]; [lia|lia|lia|].
  exists r. split; [exact R|]. rewrite F. rewrite occurs_iff by (rewrite ?chars_size by assumption; lia).
  rewrite chars_size by assumption. reflexivity.
Qed.

Lemma indexOfLoop_ok : forall n s p i, wf s -> wf p -> 0 <= i -> n = Z.to_nat (len s - len p + 1 - i) ->
  exists r, indexOfLoop n s p i = Some r /\ firstFrom (occursAt (chars p) (chars s)) i r.
Proof.
  induction n as [|n IH]; intros s p i WS WP I N.
  - exists (-1). split; [reflexivity|]. left. split; [reflexivity|]. intros k K H.
    apply occurs_range in H. rewrite !chars_size in H by assumption. lia.
  - cbn [indexOfLoop]. destruct (matchAt_ok s p i WS WP I) as [r [R M]]; [lia|]. rewrite R. destruct r.
    + exists i. split; [reflexivity|]. right. split; [lia|]. split; [apply M; reflexivity|]. intros; lia.
    + destruct (IH s p (i + 1) WS WP) as [r [R' F]]; [lia|lia|]. exists r. split; [exact R'|].
      assert (NI : ~ occursAt (chars p) (chars s) i) by (intro H; apply M in H; discriminate).
      destruct F as [[F1 F2]|[F1 [F2 F3]]]; [left; split; [exact F1|]|right; split; [lia|]; split; [exact F2|]];
        intros k K; (destruct (Z.eq_dec k i); [subst k; exact NI|]); [apply F2|apply F3]; lia.
Qed.

Lemma lastIndexOfLoop_ok : forall n s p i, wf s -> wf p -> i <= len s - len p -> n = Z.to_nat (i + 1) ->
  exists r, lastIndexOfLoop n s p i = Some r /\ lastUpTo (occursAt (chars p) (chars s)) i r.
Proof.
  induction n as [|n IH]; intros s p i WS WP I N.
  - exists (-1). split; [reflexivity|]. left. split; [reflexivity|]. intros k K H. destruct H. lia.
  - cbn [lastIndexOfLoop]. destruct (matchAt_ok s p i WS WP) as [r [R M]]; [lia|lia|]. rewrite R. destruct r.
    + exists i. split; [reflexivity|]. right. split; [lia|]. split; [apply M; reflexivity|]. intros; lia.
    + destruct (IH s p (i - 1) WS WP) as [r [R' F]]; [lia|lia|]. exists r. split; [exact R'|].
      assert (NI : ~ occursAt (chars p) (chars s) i) by (intro H; apply M in H; discriminate).
      destruct F as [[F1 F2]|[F1 [F2 F3]]]; [left; split; [exact F1|]|right; split; [lia|]; split; [exact F2|]];
        intros k K; (destruct (Z.eq_dec k i); [subst k; exact NI|]); [apply F2|apply F3]; lia.
Qed.

Lemma indexOf_ok : forall s p start, wf s -> wf p -> chars p <> [] -> 0 <= start ->
  exists r, indexOf s p start = Some r /\ firstFrom (occursAt (chars p) (chars s)) start r.
Proof.
  intros s p start WS WP N I. unfold indexOf.
  destruct (Z.eqb_spec (len p) 0) as [E|E].
  - exfalso. apply N. pose proof (chars_size p WP) as Z. unfold size in Z. destruct (chars p); [reflexivity|cbn in Z; lia].
  - apply indexOfLoop_ok; try assumption; reflexivity.
Qed.

(** ** replace *)

Lemma part_left : forall (a b : text), part 0 (size a) (a ++ b) = a.
Proof.
  intros a b. unfold part, size. rewrite Z.sub_0_r, Nat2Z.id. cbn [Z.to_nat skipn].
  rewrite firstn_app, firstn_all, Nat.sub_diag, firstn_O, app_nil_r. reflexivity.
Qed.
Lemma part_right : forall (a b : text), part (size a) (size (a ++ b)) (a ++ b) = b.
Proof.
  intros a b. unfold part, size. rewrite Nat2Z.id, skipn_app, skipn_all, Nat.sub_diag, skipn_O. cbn [app].
  rewrite firstn_all2; [reflexivity|]. rewrite app_length. lia.
Qed.

Lemma size_app : forall a b : text, size (a ++ b) = size a + size b.
Proof. intros; unfold size; rewrite app_length; lia. Qed.

Lemma replaceLoop_ok : forall n s p r, wf s -> wf p -> chars p <> [] -> (Z.to_nat (len s) < n)%nat ->
  exists out, replaceLoop n s p r = Some out /\ replaced (chars p) r (chars s) out.
Proof.
  induction n as [|n IH]; intros s p r WS WP NE N; [lia|].
  cbn [replaceLoop]. destruct (indexOf_ok s p 0 WS WP NE) as [i [E F]]; [lia|]. rewrite E.
  assert (PP : 0 < size (chars p)) by (destruct (chars p); [congruence|unfold size; cbn; lia]).
  destruct (Z.eqb_spec i (-1)) as [X|X].
  - exists (chars s). split; [reflexivity|]. constructor. intros k H.
    destruct F as [[_ F]|[F _]]; [|lia]. apply (F k); [destruct H; lia|exact H].
  - destruct F as [[F _]|[I [O F]]]; [lia|]. pose proof (occurs_range _ _ _ O) as OR.
    destruct O as [_ [a [b [T A]]]]. pose proof (chars_size s WS) as ZS. pose proof (chars_size p WP) as ZP.
    rewrite ZS, ZP in OR.
    destruct (substring_ok s 0 i WS) as [u [SU [WU CU]]]; [lia|lia|].
    destruct (substring_ok s (i + len p) (len s) WS) as [v [SV [WV CV]]]; [lia|lia|].
    rewrite SU, SV.
    assert (U : chars u = a) by (rewrite CU, T, <- A; apply part_left).
    assert (V : chars v = b).
    { rewrite CV. rewrite <- ZS, <- ZP, <- A, T. rewrite app_assoc, <- size_app. apply part_right. }
    destruct (IH v p r WV WP NE) as [out [R Q]].
    + rewrite <- (chars_size v WV), V. rewrite T, !size_app in ZS. unfold size in *. lia.
    + rewrite R. eexists. split; [reflexivity|]. rewrite U, T. rewrite V in Q. apply With; [|exact Q].
      intros k K H. apply (F k); [|rewrite T; exact H]. destruct H. lia.
Qed.

Lemma infuseLoop_ok : forall n s r i, wf s -> 0 <= i -> n = Z.to_nat (len s - i) -> i <= len s ->
  infuseLoop n s r i = Some (fold_right (fun c out => r ++ c :: out) r (skipn (Z.to_nat i) (chars s))).
Proof.
  induction n as [|n IH]; intros s r i W I N L; pose proof (chars_size s W) as ZS; unfold size in ZS.
  - cbn [infuseLoop]. rewrite skipn_all2 by lia. reflexivity.
  - cbn [infuseLoop]. destruct (substring_ok s i (i + 1) W) as [u [E [WU CU]]]; [lia|lia|]. rewrite E.
    rewrite (IH s r (i + 1) W) by lia. rewrite CU. unfold part. replace (Z.to_nat (i + 1 - i)) with 1%nat by lia.
    replace (Z.to_nat (i + 1)) with (Datatypes.S (Z.to_nat i)) by lia.
    assert (K : exists c rest, skipn (Z.to_nat i) (chars s) = c :: rest /\ skipn (Datatypes.S (Z.to_nat i)) (chars s) = rest).
    { assert (Q : (Z.to_nat i < length (chars s))%nat) by lia. revert Q. clear.
      generalize (Z.to_nat i) as k, (chars s) as l. intros k l. revert l.
      induction k as [|k IH]; intros [|x l] Q; cbn [length] in Q; try lia.
      - exists x, l. split; reflexivity.
      - cbn [skipn]. apply IH. lia. }
    destruct K as [c [rest [K1 K2]]]. rewrite K1, K2. reflexivity.
Qed.

(** ** trim *)

Lemma blank_iff : forall c, isWhitespace c = true <-> blank c.
Proof. intro c. unfold isWhitespace, blank. rewrite !orb_true_iff, !Z.eqb_eq. tauto. Qed.

Lemma trimStart_ok : forall n s i, wf s -> 0 <= i -> n = Z.to_nat (len s - i) ->
  exists r, trimStart n s i = Some r /\ firstFrom (fun k => exists c, hasAt (chars s) k c /\ ~ blank c) i r.
Proof.
  induction n as [|n IH]; intros s i W I N.
  - exists (-1). split; [reflexivity|]. left. split; [reflexivity|]. intros k K [c [H _]].
    apply hasAt_range in H. rewrite chars_size in H by exact W. lia.
  - cbn [trimStart]. destruct (charAt_some s i W) as [x [E H]]; [lia|]. rewrite E.
    destruct (isWhitespace x) eqn:X.
    + apply blank_iff in X. destruct (IH s (i + 1) W) as [r [R F]]; [lia|lia|]. exists r. split; [exact R|].
      assert (NI : ~ exists c, hasAt (chars s) i c /\ ~ blank c).
      { intros [c [H' B]]. apply B. rewrite (hasAt_fun _ _ _ _ H' H). exact X. }
      destruct F as [[F1 F2]|[F1 [F2 F3]]]; [left; split; [exact F1|]|right; split; [lia|]; split; [exact F2|]];
        intros k K; (destruct (Z.eq_dec k i); [subst k; exact NI|]); [apply F2|apply F3]; lia.
    + exists i. split; [reflexivity|]. right. split; [lia|]. split; [|intros; lia]. exists x. split; [exact H|].
      intro B. apply blank_iff in B. congruence.
Qed.

Lemma trimEnd_ok : forall n s i, wf s -> i < len s -> n = Z.to_nat (i + 1) ->
  exists r, (trimEnd n s i = Some (if r =? -1 then -1 else r + 1)) /\
    lastUpTo (fun k => exists c, hasAt (chars s) k c /\ ~ blank c) i r.
Proof.
  induction n as [|n IH]; intros s i W I N.
  - exists (-1). split; [reflexivity|]. left. split; [reflexivity|]. intros k K [c [H _]]. destruct H. lia.
  - cbn [trimEnd]. destruct (charAt_some s i W) as [x [E H]]; [lia|]. rewrite E.
    destruct (isWhitespace x) eqn:X.
    + apply blank_iff in X. destruct (IH s (i - 1) W) as [r [R F]]; [lia|lia|]. exists r. split; [exact R|].
      assert (NI : ~ exists c, hasAt (chars s) i c /\ ~ blank c).
      { intros [c [H' B]]. apply B. rewrite (hasAt_fun _ _ _ _ H' H). exact X. }
      destruct F as [[F1 F2]|[F1 [F2 F3]]]; [left; split; [exact F1|]|right; split; [lia|]; split; [exact F2|]];
        intros k K; (destruct (Z.eq_dec k i); [subst k; exact NI|]); [apply F2|apply F3]; lia.
    + exists i. split; [destruct (Z.eqb_spec i (-1)); [lia|reflexivity]|].
      right. split; [lia|]. split; [|intros; lia]. exists x. split; [exact H|].
      intro B. apply blank_iff in B. congruence.
Qed.
