(** Strings: equality, hashing and interning. *)
From Verif Require Import Base HashMap_Model HashMap_Spec HashMap_Proofs HashMap_Props Str_Model Str_Spec.
Local Open Scope Z_scope.
Local Arguments Z.add : simpl never. Local Arguments Z.mul : simpl never. Local Arguments Z.sub : simpl never.
Local Arguments Z.modulo : simpl never. Local Arguments Z.pow : simpl never.

Lemma hashLoop_mod : forall l h, hashLoop l h mod 2 ^ 32 = (h * 31 ^ Z.of_nat (length l) + javaHash l) mod 2 ^ 32.
Proof.
  induction l as [|c l IH]; intros h; cbn [hashLoop javaHash length].
  - f_equal. change (31 ^ Z.of_nat 0) with 1. lia.
  - rewrite IH. rewrite Nat2Z.inj_succ, Z.pow_succ_r by lia. rewrite <- Zplus_mod_idemp_l, Zmult_mod_idemp_l, Zplus_mod_idemp_l. f_equal. try lia.
Qed.
Lemma hashLoop_range : forall l h, 0 <= h < 2 ^ 32 -> 0 <= hashLoop l h < 2 ^ 32.
Proof. induction l as [|c l IH]; intros h H; [exact H|]. cbn [hashLoop]. apply IH. apply Z.mod_pos_bound. lia. Qed.
Lemma hashLoop_java : forall l, hashLoop l 0 = javaHash l mod 2 ^ 32.
Proof. intros l. rewrite <- (Z.mod_small (hashLoop l 0) (2 ^ 32)) by (apply hashLoop_range; lia). rewrite hashLoop_mod. reflexivity. Qed.
Lemma Forall_sub : forall (P : Z -> Prop) l o n, Forall P l -> Forall P (subslice l o n).
Proof.
  intros P l o n H. unfold subslice. apply Forall_forall. intros x Hx. rewrite Forall_forall in H. apply H.
  rewrite <- (firstn_skipn (Z.to_nat o) l). apply in_or_app. right. rewrite <- (firstn_skipn (Z.to_nat n) (skipn (Z.to_nat o) l)). apply in_or_app. left. exact Hx.
Qed.
Lemma map_id_in : forall (f : Z -> Z) l, (forall x, In x l -> f x = x) -> map f l = l.
Proof. induction l as [|a l IH]; intros H; [reflexivity|]. cbn. rewrite (H a) by (left; reflexivity). rewrite IH; [reflexivity|]. intros x Hx. apply H. right. exact Hx. Qed.

Lemma compute_java : forall s, valid s -> ascii s -> computeHash s = javaHash (chars s) mod 2 ^ 32.
Proof.
  intros s V A. unfold computeHash, chars, ascii in *. destruct (data s) as [b|c]; rewrite <- hashLoop_java; [|reflexivity].
  f_equal. apply map_id_in. intros x Hx. apply Z.mod_small. pose proof (proj1 (Forall_forall _ _) (Forall_sub _ _ (offset s) (len s) A) x Hx). cbn in *. lia.
Qed.
Lemma chars_empty : forall s, len s = 0 -> chars s = [].
Proof. intros s H. unfold chars, subslice. rewrite H. destruct (data s); reflexivity. Qed.
Lemma hash_java : forall s, valid s -> ascii s -> snd (stringHash s) = javaHash (chars s) mod 2 ^ 32 /\ valid (fst (stringHash s)) /\ chars (fst (stringHash s)) = chars s.
Proof.
  intros s V A. pose proof (compute_java s V A) as CJ. destruct V as [V1 [V2 [V3 [V4 V5]]]]. unfold stringHash.
  destruct (Z.eqb_spec (hashCode s) 0) as [E | E], (Z.eqb_spec (len s) 0) as [L | L]; cbn [andb negb fst snd].
  - split; [|split; [|reflexivity]]; [|split; [exact V1|]; split; [exact V2|]; split; [exact V3|]; split; [exact V4 | exact V5]]. rewrite E, chars_empty by exact L. reflexivity.
  - split; [exact CJ|]. split; [|reflexivity]. split; [exact V1|]. split; [exact V2|]. split; [exact V3|]. split; [exact V4|]. right. cbn [hashCode]. exact CJ.
  - split; [|split; [|reflexivity]]; [destruct V5; [contradiction | assumption]|]. split; [exact V1|]. split; [exact V2|]. split; [exact V3|]. split; [exact V4 | exact V5].
  - split; [|split; [|reflexivity]]; [destruct V5; [contradiction | assumption]|]. split; [exact V1|]. split; [exact V2|]. split; [exact V3|]. split; [exact V4 | exact V5].
Qed.

Lemma sub_length : forall l o n, 0 <= o -> 0 <= n -> o + n <= Z.of_nat (length l) -> length (subslice l o n) = Z.to_nat n.
Proof. intros l o n H1 H2 H3. unfold subslice. rewrite firstn_length, skipn_length. lia. Qed.
Lemma chars_length : forall s, valid s -> length (chars s) = Z.to_nat (len s).
Proof. intros s [V1 [V2 [V3 _]]]. unfold chars, arrayLength in *. destruct (data s); apply sub_length; assumption. Qed.
Lemma nth_firstn_ : forall n i (l : list Z), (i < n)%nat -> nth i (firstn n l) 0 = nth i l 0.
Proof. induction n as [|n IH]; intros [|i] [|x l] H; cbn; try lia; try reflexivity. apply IH. lia. Qed.
Lemma nth_skipn_ : forall n i (l : list Z), nth i (skipn n l) 0 = nth (n + i) l 0.
Proof. induction n as [|n IH]; intros i [|x l]; cbn; try reflexivity; [destruct i; reflexivity|]. apply IH. Qed.
Lemma sub_nth : forall l o n i, 0 <= o -> 0 <= i < n -> nth (Z.to_nat (o + i)) l 0 = nth (Z.to_nat i) (subslice l o n) 0.
Proof.
  intros l o n i H1 H2. unfold subslice. rewrite nth_firstn_ by lia. rewrite nth_skipn_. f_equal. lia.
Qed.
Lemma charAt_nth : forall s i, valid s -> ascii s -> 0 <= i < len s -> stringCharAt s i = nth (Z.to_nat i) (chars s) 0.
Proof.
  intros s i V A H. pose proof (chars_length s V) as CL. destruct V as [V1 [V2 [V3 _]]]. unfold stringCharAt, chars, ascii in *. destruct (data s) as [b|c].
  - rewrite (sub_nth b (offset s) (len s) i) by lia. apply Z.mod_small. pose proof (Forall_sub _ _ (offset s) (len s) A) as F. rewrite Forall_forall in F.
    assert (X : In (nth (Z.to_nat i) (subslice b (offset s) (len s)) 0) (subslice b (offset s) (len s))) by (apply nth_In; lia). specialize (F _ X). cbn in F. lia.
  - apply sub_nth; lia.
Qed.
Lemma charsEqual_ok : forall a b, valid a -> valid b -> ascii a -> ascii b -> len a = len b -> forall fuel i, 0 <= i -> i + Z.of_nat fuel = len a ->
  charsEqual a b i fuel = true <-> skipn (Z.to_nat i) (chars a) = skipn (Z.to_nat i) (chars b).
Proof.
  intros a b Va Vb Aa Ab L. pose proof (chars_length a Va) as La. pose proof (chars_length b Vb) as Lb. induction fuel as [|fuel IH]; intros i H0 H; cbn [charsEqual].
  - rewrite !skipn_all2 by lia. tauto.
  - rewrite !charAt_nth by (assumption || lia). 
    assert (Sk : forall l : list Z, (Z.to_nat i < length l)%nat -> skipn (Z.to_nat i) l = nth (Z.to_nat i) l 0 :: skipn (Z.to_nat (i + 1)) l).
    { intros l Hl. replace (Z.to_nat (i + 1)) with (S (Z.to_nat i)) by lia. clear -Hl. revert l Hl. induction (Z.to_nat i) as [|n IHn]; intros [|x l] Hl; cbn in *; try lia; [reflexivity|]. apply IHn. lia. }
    rewrite (Sk (chars a)), (Sk (chars b)) by lia. destruct (Z.eqb_spec (nth (Z.to_nat i) (chars a) 0) (nth (Z.to_nat i) (chars b) 0)) as [E | E].
    + rewrite IH by lia. rewrite E. split; [intros ->; reflexivity | intros X; inversion X; reflexivity].
    + split; [discriminate | intros X; inversion X; contradiction].
Qed.
Lemma equal_ok : forall a b, valid a -> valid b -> ascii a -> ascii b -> stringEqual a b = true <-> chars a = chars b.
Proof.
  intros a b Va Vb Aa Ab. unfold stringEqual. pose proof (chars_length a Va) as La. pose proof (chars_length b Vb) as Lb. pose proof Va as [_ [Pa _]]. pose proof Vb as [_ [Pb _]]. destruct (Z.eqb_spec (len a) (len b)) as [L | L].
  - rewrite (charsEqual_ok a b) by (assumption || lia). reflexivity.
  - split; [discriminate|]. intros E. rewrite E, Lb in La. lia.
Qed.

(** ** Interning *)
Section I.
Variable obj : nat -> str.
Hypothesis OK : forall k, valid (obj k) /\ ascii (obj k).
Notation hash := (hashN obj).
Notation equal := (equalN obj).
Lemma equal_chars : forall a b, equal a b = true <-> chars (obj a) = chars (obj b).
Proof.
  intros a b. unfold equalN. destruct (OK a) as [Va Aa], (OK b) as [Vb Ab]. rewrite orb_true_iff, (equal_ok _ _ Va Vb Aa Ab). split; [|auto]. intros [E | E]; [|exact E]. apply Nat.eqb_eq in E. subst. reflexivity.
Qed.
Lemma e_refl : forall k, equal k k = true. Proof. intros k. apply equal_chars. reflexivity. Qed.
Lemma e_sym : forall a b, equal a b = true -> equal b a = true. Proof. intros a b H. rewrite equal_chars in *. auto. Qed.
Lemma e_trans : forall a b c, equal a b = true -> equal b c = true -> equal a c = true. Proof. intros a b c H K. rewrite equal_chars in *. congruence. Qed.
Lemma e_hash : forall a b, equal a b = true -> hash a = hash b.
Proof. intros a b H. rewrite equal_chars in H. unfold hashN. destruct (OK a) as [Va Aa], (OK b) as [Vb Ab]. rewrite (proj1 (hash_java _ Va Aa)), (proj1 (hash_java _ Vb Ab)), H. reflexivity. Qed.

(** A history of interning as a history of the map. *)
Definition ops1 (o : iop) : list (op nat nat) :=
  match o with Intern k mid => [OFind k; OMaybe k k mid] | Die ks => [ODie ks] end.
Definition ops (l : list iop) : list (op nat nat) := flat_map ops1 l.
(** What the specification of the map says interning returns. *)
Fixpoint sinterns (s : list (nat * nat) * (nat -> bool)) (l : list iop) : (list (nat * nat) * (nat -> bool)) * list (option nat) :=
  match l with
  | [] => (s, [])
  | Intern k mid :: l =>
    let r := match sget equal k (fst s) with Some v => v | None => k end in
    let s1 := fst (sstep equal true s (OMaybe k k mid)) in
    let '(s2, rs) := sinterns s1 l in (s2, Some r :: rs)
  | Die ks :: l => let '(s2, rs) := sinterns (fst (sstep equal true s (ODie ks))) l in (s2, None :: rs)
  end.
Fixpoint answers (l : list iop) (xs : list (out nat)) : list (option nat) :=
  match l, xs with
  | Intern k _ :: l, RVal o :: _ :: xs => Some (match o with Some v => v | None => k end) :: answers l xs
  | Die _ :: l, _ :: xs => None :: answers l xs
  | _, _ => []
  end.
Lemma sinterns_answers : forall l s, snd (sinterns s l) = answers l (snd (srun equal true s (ops l))) /\ fst (sinterns s l) = fst (srun equal true s (ops l)).
Proof.
  induction l as [|[k mid|ks] l IH]; intros [es d].
  - split; reflexivity.
  - cbn [sinterns ops flat_map ops1 app srun sstep]. destruct (smem equal k es) eqn:M; cbn [fst];
    (match goal with |- context [srun equal true ?s _] => specialize (IH s) end; fold (ops l) in *;
     match goal with |- context [sinterns ?s l] => destruct (sinterns s l) as [s2 rs] end;
     match goal with |- context [srun equal true ?s (ops l)] => destruct (srun equal true s (ops l)) as [s3 xs] end; cbn [fst snd answers] in *; destruct IH as [-> ->]; split; reflexivity).
  - cbn [sinterns ops flat_map ops1 app srun sstep fst]. match goal with |- context [srun equal true ?s _] => specialize (IH s) end. fold (ops l) in *.
    match goal with |- context [sinterns ?s l] => destruct (sinterns s l) as [s2 rs] end;
    match goal with |- context [srun equal true ?s (ops l)] => destruct (srun equal true s (ops l)) as [s3 xs] end; cbn [fst snd answers] in *; destruct IH as [-> ->]; split; reflexivity.
Qed.
(** Values are the keys they are stored under: the second component of a node found is its first. *)
Definition selfMap (m : imap) : Prop := forall a c k v, harray m = Some a -> In c a -> In (k, v) c -> v = k.
Lemma chainFind_in : forall d key (c : list (nat * nat)) kv, chainFind equal true d key c = Some kv -> In kv c.
Proof.
  induction c as [|[k v] c IH]; intros kv H; cbn [chainFind In] in *; [discriminate|]. destruct (skipped true d k); [right; auto|]. destruct (equal key k); [inversion H; left; reflexivity | right; auto].
Qed.
Lemma set_nth_in : forall (A : Type) i (x : A) l l' y, set_nth i x l = Some l' -> In y l' -> y = x \/ In y l.
Proof.
  induction i as [|i IH]; intros x [|z l] l' y H I; cbn in *; try discriminate.
  - inversion H; subst. destruct I as [-> | I]; auto.
  - destruct (set_nth i x l) as [r|] eqn:E; [|discriminate]. inversion H; subst. destruct I as [-> | I]; [auto|]. destruct (IH x l r y E I); auto.
Qed.
Definition selfArray (a : list (list (nat * nat))) : Prop := forall c k v, In c a -> In (k, v) c -> v = k.
Lemma pushNode_self : forall kv a a', fst kv = snd kv -> selfArray a -> pushNode hash kv a = Some a' -> selfArray a'.
Proof.
  intros [k v] a a' E S H. unfold pushNode in H. destruct (nth_error a _) as [c|] eqn:N; [|discriminate]. intros c' k' v' I J.
  destruct (set_nth_in _ _ _ _ _ c' H I) as [-> | I']; [|exact (S c' k' v' I' J)]. destruct J as [J | J]; [inversion J; subst; cbn in E; auto|]. apply (S c); [eapply nth_error_In; eassumption | exact J].
Qed.
Lemma rehashChain_self : forall d c a a', (forall k v, In (k, v) c -> v = k) -> selfArray a -> rehashChain hash true d c a = Some a' -> selfArray a'.
Proof.
  induction c as [|[k v] c IH]; intros a a' Hc S H; cbn in H; [inversion H; subst; exact S|]. destruct (d k); [apply (IH a); auto; intros; apply Hc; right; assumption|].
  destruct (pushNode hash (k, v) a) as [a1|] eqn:P; [|discriminate]. apply (IH a1); [intros; apply Hc; right; assumption | | exact H]. eapply pushNode_self; [|exact S | exact P]. cbn. symmetry. apply Hc. left. reflexivity.
Qed.
Lemma rehashAll_self : forall d old a a', selfArray old -> selfArray a -> rehashAll hash true d old a = Some a' -> selfArray a'.
Proof.
  induction old as [|c old IH]; intros a a' So S H; cbn in H; [inversion H; subst; exact S|]. destruct (rehashChain hash true d c a) as [a1|] eqn:R; [|discriminate].
  apply (IH a1); [intros c' k v I; apply So; right; exact I | | exact H]. eapply rehashChain_self; [|exact S | exact R]. intros k v I. apply (So c); [left; reflexivity | exact I].
Qed.
Lemma resize_self : forall d m n m', selfMap m -> resize hash true d m n = Some m' -> selfMap m'.
Proof.
  intros d m n m' S H. unfold resize in H. destruct (N.eqb _ _); [inversion H; subst; intros a c k v E; discriminate|]. destruct (Math_Model.nextPowerOfTwo _) as [nl|]; [|discriminate].
  assert (Fr : selfArray (repeat [] (N.to_nat nl))) by (intros c k v I J; apply repeat_spec in I; subst; destruct J).
  destruct (harray m) as [old|] eqn:E.
  - destruct (N.eqb _ _); [inversion H; subst; exact S|]. destruct (rehashAll hash true d old _) as [a|] eqn:R; [|discriminate]. inversion H; subst. intros a' c k v Ea. cbn in Ea. inversion Ea; subst a'.
    apply (rehashAll_self d old (repeat [] (N.to_nat nl)) a); [intros c' k' v' I J; exact (S old c' k' v' E I J) | exact Fr | exact R].
  - inversion H; subst. intros a' c k v Ea. cbn in Ea. inversion Ea; subst. apply Fr.
Qed.
Lemma insert_self : forall d d1 m k m', selfMap m -> insert hash true d d1 m k k = Some m' -> selfMap m'.
Proof.
  intros d d1 m k m' S H. unfold insert in H. cbn [harray hsize] in H.
  match goal with H : match ?X with _ => _ end = _ |- _ => assert (S2 : forall m2, X = Some m2 -> selfMap m2) end.
  { intros m2 X. set (m1 := {| hsize := _; harray := harray m |}) in *. assert (S1 : selfMap m1) by (intros a c x y E; exact (S a c x y E)).
    destruct (harray m) as [a|]; [destruct (N.leb _ _)|]; [exact (resize_self _ _ _ _ S1 X) | inversion X; subst; exact S1 | exact (resize_self _ _ _ _ S1 X)]. }
  match goal with H : match ?X with _ => _ end = _ |- _ => destruct X as [m2|] eqn:E2; [|discriminate] end. specialize (S2 m2 eq_refl).
  destruct (harray m2) as [a|] eqn:Ea; [|discriminate]. destruct (pushNode hash (k, k) a) as [a'|] eqn:P; [|discriminate].
  assert (S3 : selfMap {| hsize := hsize m2; harray := Some a' |}).
  { intros x c y z E. cbn in E. inversion E; subst x. apply (pushNode_self (k, k) a); [reflexivity | | exact P]. intros c' k' v' I J. exact (S2 a c' k' v' Ea I J). }
  clear E2. destruct (N.leb _ _); [exact (resize_self _ _ _ _ S3 H) | inversion H; subst; exact S3].
Qed.
Lemma interns_run : forall l m d s' xs, selfMap m -> run hash equal true (m, d) (ops l) = Some (s', xs) -> interns obj (m, d) l = Some (s', answers l xs).
Proof.
  induction l as [|[k mid|ks] l IH]; intros m d s' xs S H.
  - inversion H; subst. reflexivity.
  - cbn [ops flat_map ops1 app run step] in H. fold (ops l) in H. unfold find in H. cbn [interns fst snd]. unfold intern. unfold insertMaybe in H.
    destruct (findNode hash equal true d m k) as [[[k1 v1]|]|] eqn:F; [| |discriminate]; cbn [step] in H; unfold insertMaybe in H; rewrite F in H.
    + assert (v1 = k1).
      { unfold findNode in F. destruct (harray m) as [a|] eqn:E; [|discriminate]. destruct (nth_error a _) as [c|] eqn:Nn; [|discriminate]. inversion F as [F']. apply chainFind_in in F'. exact (S a c k1 v1 E (nth_error_In _ _ Nn) F'). }
      subst v1.
      match type of H with context [run _ _ _ ?x (ops l)] => destruct (run hash equal true x (ops l)) as [[s2 xs2]|] eqn:R; [|discriminate H] end. inversion H; subst. rewrite (IH m _ s' xs2 S R). reflexivity.
    + destruct (insert hash true d (orb_dead d mid) m k k) as [m1|] eqn:Ins; [|discriminate H]. match type of H with context [run _ _ _ ?x (ops l)] => destruct (run hash equal true x (ops l)) as [[s2 xs2]|] eqn:R; [|discriminate H] end. inversion H; subst.
      rewrite (IH m1 _ s' xs2 (insert_self _ _ _ _ _ S Ins) R). reflexivity.
  - cbn [ops flat_map ops1 app run step] in H. fold (ops l) in H. cbn [interns fst snd]. match type of H with context [run _ _ _ ?x (ops l)] => destruct (run hash equal true x (ops l)) as [[s2 xs2]|] eqn:R; [|discriminate H] end. inversion H; subst. rewrite (IH m _ s' xs2 S R). reflexivity.
Qed.
Lemma allowed_ops : forall l es d, usable d l -> allowed_all equal true (es, d) (ops l).
Proof.
  induction l as [|[k mid|ks] l IH]; intros es d U; cbn [ops flat_map ops1 app allowed_all usable] in *; [exact I| |].
  - destruct U as [U1 U2]. fold (ops l). split; [intros _; apply orb_false_iff in U1; apply U1|]. split; [intros _; exact U1|]. cbn [sstep fst]. destruct (smem equal k es); apply IH; exact U2.
  - split; [exact I|]. fold (ops l). cbn [sstep fst]. apply IH. exact U.
Qed.
Lemma ops_length : forall l, (length (ops l) <= 2 * length l)%nat.
Proof. induction l as [|[k mid|ks] l IH]; cbn [ops flat_map ops1 app length] in *; [lia | fold (ops l); lia ..]. Qed.
Theorem interns_ok : forall l, usable (fun _ => false) l -> Z.of_nat (length l) <= 2 ^ 30 ->
  exists s', interns obj (empty, fun _ => false) l = Some (s', snd (sinterns ([], fun _ => false) l)).
Proof.
  intros l U L. destruct (C03_weak_hashmap nat nat hash equal e_refl e_sym e_trans e_hash (ops l)) as [s' R].
  - apply allowed_ops. exact U.
  - pose proof (ops_length l). apply N2Z.inj_le. rewrite nat_N_Z. change (Z.of_N (2 ^ 31)) with (2 ^ 31). lia.
  - exists s'. rewrite (proj1 (sinterns_answers l _)). apply interns_run; [|exact R]. intros a c k v E. discriminate.
Qed.

(** ** The specification side *)
Definition canon (es : list (nat * nat)) : Prop := (forall k v, In (k, v) es -> v = k) /\ (forall a b, In (a, a) es -> In (b, b) es -> equal a b = true -> a = b).
Lemma sget_some : forall es k v, canon es -> sget equal k es = Some v -> In (v, v) es /\ equal k v = true.
Proof.
  intros es k v [C1 _] H. unfold sget in H. destruct (List.find _ es) as [[a b]|] eqn:F; [|discriminate]. apply List.find_some in F. cbn in *. destruct F as [F1 F2]. inversion H; subst. pose proof (C1 _ _ F1). subst. auto.
Qed.
Lemma sget_none : forall (es : list (nat * nat)) k a b, sget equal k es = None -> In (a, b) es -> equal k a = false.
Proof. intros es k a b H I. unfold sget in H. destruct (List.find _ es) as [[x y]|] eqn:F; [discriminate|]. apply (List.find_none _ _ F) in I. exact I. Qed.
Lemma canon_sub : forall es f, canon es -> canon (filter f es).
Proof. intros es f [C1 C2]. split; [intros k v I; apply filter_In in I; apply C1; tauto | intros a b I J; apply filter_In in I, J; apply C2; tauto]. Qed.
Lemma canon_add : forall es k, canon es -> sget equal k es = None -> canon ((k, k) :: es).
Proof.
  intros es k [C1 C2] N. split.
  - intros a b [E | I]; [inversion E; reflexivity | apply C1; exact I].
  - intros a b [E | I] [F | J] Q; try (inversion E; subst); try (inversion F; subst); auto.
    + rewrite (sget_none es a b b N J) in Q. discriminate.
    + apply e_sym in Q. rewrite (sget_none es b a a N I) in Q. discriminate.
Qed.
(** After [Intern k] answered [r]: [r] has the characters of [k] and is in the map, unless it died. *)
Lemma maybe_step : forall es d k mid r, canon es -> r = match sget equal k es with Some v => v | None => k end ->
  equal k r = true /\ canon (fst (fst (sstep equal true (es, d) (OMaybe k k mid)))) /\ (mid r = false -> In (r, r) (fst (fst (sstep equal true (es, d) (OMaybe k k mid))))).
Proof.
  intros es d k mid r C ->. cbn [sstep]. unfold smem. destruct (sget equal k es) as [v|] eqn:G; cbn [fst skill].
  - destruct (sget_some es k v C G) as [I E]. split; [exact E|]. split; [apply canon_sub; exact C|]. intros M. apply filter_In. cbn. rewrite M. auto.
  - split; [apply e_refl|]. split; [apply canon_sub, canon_add; assumption|]. intros M. apply filter_In. cbn. rewrite M. auto.
Qed.
Lemma same_chars : forall l es d i k mid r, canon es -> nth_error l i = Some (Intern k mid) -> nth_error (snd (sinterns (es, d) l)) i = Some (Some r) -> chars (obj r) = chars (obj k).
Proof.
  induction l as [|o l IH]; intros es d i k mid r C Hi Hr; [destruct i; discriminate|]. destruct o as [k0 mid0|ks]; cbn [sinterns] in Hr.
  - pose proof (maybe_step es d k0 mid0 _ C eq_refl) as [E [C' _]]. destruct (fst (sstep equal true (es, d) (OMaybe k0 k0 mid0))) as [es1 d1] eqn:S1. cbn [fst] in C'.
    specialize (IH es1 d1). destruct (sinterns (es1, d1) l) as [s2 rs] eqn:R. cbn [snd fst] in *. destruct i as [|i]; cbn in Hi, Hr.
    + inversion Hi; inversion Hr; subst. symmetry. apply equal_chars. exact E.
    + exact (IH i k mid r C' Hi Hr).
  - cbn [sstep fst] in Hr. specialize (IH (skill true ks es) (fun x => d x || ks x)). destruct (sinterns (skill true ks es, fun x => d x || ks x) l) as [s2 rs] eqn:R. destruct i as [|i]; cbn in Hi, Hr; [discriminate|].
    exact (IH i k mid r (canon_sub _ _ C) Hi Hr).
Qed.
(** A string in the map that does not die is the answer for all strings with its characters. *)
Lemma found_later : forall l es d r j b mid rb, canon es -> In (r, r) es -> ~ died (firstn j l) r -> nth_error l j = Some (Intern b mid) -> chars (obj b) = chars (obj r) ->
  nth_error (snd (sinterns (es, d) l)) j = Some (Some rb) -> rb = r.
Proof.
  induction l as [|o l IH]; intros es d r j b mid rb C I ND Hj E Hr; [destruct j; discriminate|]. destruct o as [k0 mid0|ks]; cbn [sinterns] in Hr.
  - pose proof (maybe_step es d k0 mid0 _ C eq_refl) as [Q [C' _]].
    assert (KEEP : mid0 r = false -> In (r, r) (fst (fst (sstep equal true (es, d) (OMaybe k0 k0 mid0))))).
    { intros M. cbn [sstep]. unfold smem. destruct (sget equal k0 es); cbn [fst skill]; apply filter_In; cbn; rewrite M; auto. }
    destruct (fst (sstep equal true (es, d) (OMaybe k0 k0 mid0))) as [es1 d1] eqn:S1. cbn [fst] in C', KEEP.
    specialize (IH es1 d1 r). destruct (sinterns (es1, d1) l) as [s2 rs] eqn:R. cbn [snd fst] in *. destruct j as [|j]; cbn in Hj, Hr.
    + inversion Hj; inversion Hr; subst. destruct (sget equal b es) as [v|] eqn:G.
      * destruct (sget_some es b v C G) as [Iv Ev]. apply (proj2 C); [exact Iv | exact I|]. apply equal_chars. apply equal_chars in Ev. congruence.
      * exfalso. pose proof (sget_none es b r r G I) as X. assert (equal b r = true) by (apply equal_chars; exact E). congruence.
    + apply (IH j b mid rb C'); [|intros [o [Io Do]]; apply ND; exists o; split; [right; exact Io | exact Do] | exact Hj | exact E | exact Hr]. apply KEEP. destruct (mid0 r) eqn:M; [|reflexivity]. exfalso. apply ND. exists (Intern k0 mid0). split; [left; reflexivity | exact M].
  - cbn [sstep fst] in Hr. specialize (IH (skill true ks es) (fun x => d x || ks x) r). destruct (sinterns (skill true ks es, fun x => d x || ks x) l) as [s2 rs] eqn:R. destruct j as [|j]; cbn in Hj, Hr; [discriminate|].
    apply (IH j b mid rb (canon_sub _ _ C)); [|intros [o [Io Do]]; apply ND; exists o; split; [right; exact Io | exact Do] | exact Hj | exact E | exact Hr].
    apply filter_In. split; [exact I|]. cbn. destruct (ks r) eqn:M; [|reflexivity]. exfalso. apply ND. exists (Die ks). split; [left; reflexivity | exact M].
Qed.
Lemma same_answer : forall l es d i j a b mid mid' ra rb, canon es -> (i < j)%nat -> nth_error l i = Some (Intern a mid) -> nth_error l j = Some (Intern b mid') ->
  chars (obj a) = chars (obj b) -> nth_error (snd (sinterns (es, d) l)) i = Some (Some ra) -> nth_error (snd (sinterns (es, d) l)) j = Some (Some rb) ->
  ~ died (firstn (j - i) (skipn i l)) ra -> rb = ra.
Proof.
  induction l as [|o l IH]; intros es d i j a b mid mid' ra rb C L Hi Hj E Ra Rb ND; [destruct i; discriminate|]. destruct j as [|j]; [lia|]. cbn [nth_error] in Hj. destruct i as [|i].
  - inversion Hi; subst o. cbn [sinterns] in Ra, Rb. pose proof (maybe_step es d a mid _ C eq_refl) as [Q [C' K]]. destruct (fst (sstep equal true (es, d) (OMaybe a a mid))) as [es1 d1] eqn:S1. cbn [fst] in C', K.
    pose proof (found_later l es1 d1) as FL. destruct (sinterns (es1, d1) l) as [s2 rs] eqn:R. cbn [snd fst nth_error] in *. inversion Ra as [Ra']. rewrite Ra' in *. cbn [skipn firstn] in ND. replace (S j - 0)%nat with (S j) in ND by lia. cbn [firstn] in ND.
    apply (FL ra j b mid' rb C'); [apply K; destruct (mid ra) eqn:M; [|reflexivity]; exfalso; apply ND; exists (Intern a mid); split; [left; reflexivity | exact M] | intros [o [Io Do]]; apply ND; exists o; split; [right; exact Io | exact Do] | exact Hj | | exact Rb].
    apply equal_chars in Q. congruence.
  - cbn [nth_error] in Hi. destruct o as [k0 mid0|ks]; cbn [sinterns] in Ra, Rb.
    + pose proof (maybe_step es d k0 mid0 _ C eq_refl) as [_ [C' _]]. destruct (fst (sstep equal true (es, d) (OMaybe k0 k0 mid0))) as [es1 d1] eqn:S1. specialize (IH es1 d1). destruct (sinterns (es1, d1) l) as [s2 rs] eqn:R. cbn [snd fst nth_error] in *.
      apply (IH i j a b mid mid' ra rb C'); try assumption; lia.
    + cbn [sstep fst] in Ra, Rb. specialize (IH (skill true ks es) (fun x => d x || ks x)). destruct (sinterns (skill true ks es, fun x => d x || ks x) l) as [s2 rs] eqn:R. cbn [snd nth_error] in *.
      apply (IH i j a b mid mid' ra rb (canon_sub _ _ C)); try assumption; lia.
Qed.
End I.
Lemma skipn_skipn_ : forall (A : Type) n m (l : list A), skipn n (skipn m l) = skipn (m + n) l.
Proof. intros A n m. induction m as [|m IH]; intros l; [reflexivity|]. destruct l; cbn; [destruct n; reflexivity | apply IH]. Qed.
