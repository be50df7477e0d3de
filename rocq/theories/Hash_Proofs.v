(** Hash codes do not change. *)
From Verif Require Import Base Hash_Model Hash_Spec.
Local Open Scope Z_scope.
Local Arguments Z.add : simpl never. Local Arguments Z.mul : simpl never. Local Arguments Z.sub : simpl never.
Local Arguments Z.div : simpl never. Local Arguments Z.modulo : simpl never. Local Arguments Z.pow : simpl never.

Lemma lor1 : forall x, x mod 8 = 0 \/ x mod 8 = 1 -> Z.lor x 1 / 8 = x / 8 /\ Z.lor x 1 mod 8 = 1.
Proof.
  intros x H. change 8 with (2 ^ 3) at 1 2 3. rewrite <- !Z.shiftr_div_pow2 by lia. rewrite Z.shiftr_lor. change (Z.shiftr 1 3) with 0. rewrite Z.lor_0_r. split; [reflexivity|].
  change 8 with (2 ^ 3) in *. rewrite <- Z.land_ones in * by lia. rewrite Z.land_lor_distr_l. destruct H as [-> | ->]; reflexivity.
Qed.
Lemma take_small : forall p, takeHash p mod 2 ^ 32 = takeHash p.
Proof. intros p. unfold takeHash. change (2 ^ 31 - 1) with (Z.ones 31). rewrite Z.land_ones by lia. apply Z.mod_small. pose proof (Z.mod_pos_bound p (2 ^ 31)). lia. Qed.

Section P.
Variable cl : Z -> cdesc.
Hypothesis C : classes cl.

Definition len (m : memory) (p : Z) : Z := m (p + words (cl (classOf m p)) - 1).
Definition good (m : memory) (p e : Z) (h : option Z) : Prop :=
  0 <= mark m p <= 3 /\ (0 < elt (cl (classOf m p)) -> 0 <= len m p) /\ e = extendedSize cl m p /\
  match h with
  | None => True
  | Some h => mark m p <> 0 /\ (mark m p = 2 -> h = m (p + baseSize cl m p) mod 2 ^ 32) /\ (mark m p <> 2 -> h = takeHash p)
  end.
Definition same (m m' : memory) (p n : Z) : Prop := forall x, p <= x < p + n -> m' x = m x.

Lemma base_ge : forall m p, (0 < elt (cl (classOf m p)) -> 0 <= len m p) -> words (cl (classOf m p)) <= baseSize cl m p.
Proof.
  intros m p H. unfold baseSize, len in *. destruct (Z.ltb_spec 0 (elt (cl (classOf m p)))); [|lia]. specialize (H H0).
  assert (0 <= (elt (cl (classOf m p)) * m (p + words (cl (classOf m p)) - 1) + 7) / 8); [|lia]. apply Z.div_pos; nia.
Qed.
Lemma base_pos : forall m p, (0 < elt (cl (classOf m p)) -> 0 <= len m p) -> 1 <= baseSize cl m p.
Proof. intros m p H. pose proof (base_ge m p H). destruct (C (classOf m p)). lia. Qed.
Lemma ext_ge : forall m p, baseSize cl m p <= extendedSize cl m p.
Proof. intros. unfold extendedSize. destruct (objectExtended m p); lia. Qed.

(** Two objects with the same header and length have the same size. *)
Lemma base_eq : forall m m' p p', classOf m' p' = classOf m p -> (0 < elt (cl (classOf m p)) -> len m' p' = len m p) -> baseSize cl m' p' = baseSize cl m p.
Proof.
  intros m m' p p' H K. unfold baseSize, len in *. rewrite H in *. destruct (Z.ltb_spec 0 (elt (cl (classOf m p)))) as [L | L]; [|reflexivity]. rewrite (K L). reflexivity.
Qed.
Lemma good_transfer : forall m m' p p' e h, good m p e h -> m' p' = m p -> (0 < elt (cl (classOf m p)) -> len m' p' = len m p) ->
  (mark m p = 2 -> m' (p' + baseSize cl m p) = m (p + baseSize cl m p)) -> (h <> None -> mark m p <> 2 -> p' = p) -> good m' p' e h.
Proof.
  intros m m' p p' e h [G1 [G2 [G3 G4]]] H L X P.
  assert (Ec : classOf m' p' = classOf m p) by (unfold classOf; rewrite H; reflexivity).
  assert (Em : mark m' p' = mark m p) by (unfold mark; rewrite H; reflexivity).
  pose proof (base_eq m m' p p' Ec L) as Eb. unfold good. rewrite Ec, Em, Eb. split; [exact G1|]. split; [intros Y; rewrite L; auto|].
  split; [unfold extendedSize, objectExtended in *; rewrite Em, Eb; exact G3|]. destruct h as [h|]; [|exact I]. destruct G4 as [A [B D]]. split; [exact A|]. split.
  - intros M. rewrite X by exact M. auto.
  - intros M. rewrite P by (congruence || exact M). auto.
Qed.
Lemma good_same : forall m m' p e h, good m p e h -> same m m' p e -> good m' p e h.
Proof.
  intros m m' p e h G S. pose proof G as [G1 [G2 [G3 _]]]. pose proof (base_ge m p G2). pose proof (base_pos m p G2). pose proof (ext_ge m p). destruct (C (classOf m p)) as [C1 C2].
  assert (HH : m' p = m p) by (apply S; lia).
  apply (good_transfer m m' p p e h G HH).
  - intros L. unfold len. assert (Ec : classOf m' p = classOf m p) by (unfold classOf; rewrite HH; reflexivity). rewrite Ec. apply S. specialize (C2 L). lia.
  - intros M. apply S. rewrite G3. unfold extendedSize, objectExtended. rewrite M. cbn. lia.
  - reflexivity.
Qed.

Record inv (s : state) (K : nat -> option Z) : Prop := {
  i_good : forall i p, addr s i = Some p -> (i < count s)%nat /\ good (mem s) p (ext s i) (K i);
  i_apart : forall i j p q, i <> j -> addr s i = Some p -> addr s j = Some q -> apart p (ext s i) q (ext s j);
  i_new : forall i, (count s <= i)%nat -> K i = None }.

Lemma ext_pos : forall s K i p, inv s K -> addr s i = Some p -> 1 <= ext s i.
Proof. intros s K i p I A. destruct (i_good _ _ I i p A) as [_ [_ [G2 [-> _]]]]. pose proof (base_pos _ _ G2). pose proof (ext_ge (mem s) p). lia. Qed.

(** Adding a new object in free memory. *)
Lemma add_object : forall s K m' a n,
  inv s K -> (forall i p, addr s i = Some p -> same (mem s) m' p (ext s i)) -> free s a n -> good m' a n None ->
  inv (St m' (upd (addr s) (count s) (Some a)) (upd (ext s) (count s) n) (S (count s))) K.
Proof.
  intros s K m' a n I S F G. constructor; cbn [mem addr ext count].
  - intros i p. unfold upd. destruct (Nat.eqb_spec i (count s)) as [-> | N]; intros A.
    + inversion A; subst. split; [lia|]. rewrite (i_new _ _ I) by lia. exact G.
    + destruct (i_good _ _ I i p A) as [L G']. split; [lia|]. apply (good_same (mem s)); [exact G' | exact (S i p A)].
  - intros i j p q N. unfold upd. destruct (Nat.eqb_spec i (count s)) as [-> | Ni], (Nat.eqb_spec j (count s)) as [-> | Nj]; intros A B; [congruence | | |].
    + inversion A; subst. apply F. exact B.
    + inversion B; subst. destruct (F i p A); [right | left]; assumption.
    + exact (i_apart _ _ I i j p q N A B).
  - intros i L. apply (i_new _ _ I). lia.
Qed.
Lemma size_base : forall m p c l, classOf m p = c -> (0 < elt (cl c) -> len m p = l) -> sizeOf cl c l = baseSize cl m p.
Proof.
  intros m p c l H K. unfold sizeOf, baseSize, len in *. rewrite H in *. destruct (Z.ltb_spec 0 (elt (cl c))) as [L | L]; [rewrite (K L)|]; reflexivity.
Qed.

(** ** Allocation *)
Lemma size_words : forall c l, 0 <= l -> words (cl c) <= sizeOf cl c l.
Proof. intros c l H. unfold sizeOf. destruct (Z.ltb_spec 0 (elt (cl c))); [|lia]. assert (0 <= (elt (cl c) * l + 7) / 8) by (apply Z.div_pos; nia). lia. Qed.
Lemma make_header : forall m fixed a c l, make cl m fixed a c l a = 8 * c + (if fixed then 3 else 0).
Proof.
  intros m fixed a c l. unfold make, setObjectClass, allocate, put, FixedMark. destruct (C c) as [C1 C2]. destruct (Z.ltb_spec 0 (elt (cl c))).
  - destruct (Z.eqb_spec a (a + words (cl c) - 1)); [lia|]. rewrite !Z.eqb_refl. destruct fixed; reflexivity.
  - rewrite !Z.eqb_refl. destruct fixed; reflexivity.
Qed.
Lemma header_parts : forall c k, 0 <= k < 8 -> (8 * c + k) / 8 = c /\ (8 * c + k) mod 8 = k.
Proof. intros c k H. split; [symmetry; apply (Z.div_unique_pos _ _ _ k); lia | symmetry; apply (Z.mod_unique_pos _ _ c); lia]. Qed.
Lemma make_len : forall m fixed a c l, 0 < elt (cl c) -> make cl m fixed a c l (a + words (cl c) - 1) = l.
Proof. intros m fixed a c l H. unfold make. apply Z.ltb_lt in H. rewrite H. unfold put. rewrite Z.eqb_refl. reflexivity. Qed.
Lemma make_out : forall m fixed a c l x, 0 <= l -> ~ (a <= x < a + sizeOf cl c l) -> make cl m fixed a c l x = m x.
Proof.
  intros m fixed a c l x Hl H. pose proof (size_words c l Hl). destruct (C c) as [C1 C2]. unfold make, setObjectClass, allocate, put, fill.
  destruct (Z.ltb_spec 0 (elt (cl c))) as [L | L]; [specialize (C2 L); destruct (Z.eqb_spec x (a + words (cl c) - 1)); [lia|]|]; (destruct (Z.eqb_spec x a); [lia|]);
    (destruct (Z.leb_spec a x), (Z.ltb_spec x (a + sizeOf cl c l)); cbn; try reflexivity; lia).
Qed.
Lemma make_good : forall m fixed a c l, 0 <= l -> good (make cl m fixed a c l) a (sizeOf cl c l) None.
Proof.
  intros m fixed a c l Hl. set (m' := make cl m fixed a c l). pose proof (make_header m fixed a c l) as H. fold m' in H.
  destruct (header_parts c (if fixed then 3 else 0)) as [E1 E2]; [destruct fixed; lia|].
  assert (Ec : classOf m' a = c) by (unfold classOf; rewrite H; exact E1). assert (Em : mark m' a = if fixed then 3 else 0) by (unfold mark; rewrite H; exact E2).
  assert (El : 0 < elt (cl c) -> len m' a = l) by (intros L; unfold len; rewrite Ec; apply make_len; exact L).
  split; [rewrite Em; destruct fixed; lia|]. split; [rewrite Ec; intros L; rewrite (El L); exact Hl|]. split; [|exact I].
  unfold extendedSize, objectExtended. rewrite Em. replace ((if fixed then 3 else 0) =? ExtendedMark) with false by (destruct fixed; reflexivity). rewrite (size_base m' a c l Ec El). lia.
Qed.

(** ** Copying *)
Lemma copied_ge : forall m p, extendedSize cl m p <= copiedSize cl m p.
Proof. intros. unfold extendedSize, copiedSize. destruct (objectExtended m p); cbn; [lia|]. destruct (hashTaken m p); lia. Qed.
Lemma copy_out : forall m p q x, (0 < elt (cl (classOf m p)) -> 0 <= len m p) -> ~ (q <= x < q + copiedSize cl m p) -> copy cl m p q x = m x.
Proof.
  intros m p q x L H. pose proof (copied_ge m p) as CG. pose proof (ext_ge m p). pose proof (base_pos m p L).
  assert (K : memcpy m q p (extendedSize cl m p) x = m x).
  { unfold memcpy. destruct (Z.leb_spec q x), (Z.ltb_spec x (q + extendedSize cl m p)); cbn; try reflexivity. lia. }
  unfold copy. destruct (hashTaken m p) eqn:T; [|exact K]. unfold put. unfold copiedSize in H. rewrite T, orb_true_r in H.
  destruct (Z.eqb_spec x (q + baseSize cl m p)); [lia|]. destruct (Z.eqb_spec x q); [lia|]. exact K.
Qed.
Lemma copy_in : forall m m' p q x, (0 < elt (cl (classOf m p)) -> 0 <= len m p) -> same m m' p (extendedSize cl m p) -> q <= x < q + copiedSize cl m p -> copy cl m' p q x = copy cl m p q x.
Proof.
  intros m m' p q x L S H. pose proof (base_ge m p L) as BW. pose proof (base_pos m p L) as BP. pose proof (ext_ge m p) as EG. destruct (C (classOf m p)) as [C1 C2].
  assert (HH : m' p = m p) by (apply S; lia). assert (Ec : classOf m' p = classOf m p) by (unfold classOf; rewrite HH; reflexivity).
  assert (Em : mark m' p = mark m p) by (unfold mark; rewrite HH; reflexivity).
  assert (Eb : baseSize cl m' p = baseSize cl m p). { apply base_eq; [exact Ec|]. intros Lt. unfold len. rewrite Ec. apply S. specialize (C2 Lt). lia. }
  assert (Ee : extendedSize cl m' p = extendedSize cl m p) by (unfold extendedSize, objectExtended; rewrite Eb, Em; reflexivity).
  assert (ET : hashTaken m' p = hashTaken m p) by (unfold hashTaken; rewrite Em; reflexivity).
  unfold copy. rewrite Eb, Ee, ET. 
  assert (K : forall y, q <= y < q + extendedSize cl m p -> memcpy m' q p (extendedSize cl m p) y = memcpy m q p (extendedSize cl m p) y).
  { intros y Hy. unfold memcpy. destruct (Z.leb_spec q y), (Z.ltb_spec y (q + extendedSize cl m p)); cbn; try lia. apply S. lia. }
  destruct (hashTaken m p) eqn:T.
  - unfold put. destruct (Z.eqb_spec x (q + baseSize cl m p)); [reflexivity|]. destruct (Z.eqb_spec x q); [rewrite K by lia; reflexivity|]. apply K.
    unfold copiedSize in H. rewrite T, orb_true_r in H. unfold extendedSize. destruct (objectExtended m p); lia.
  - apply K. unfold copiedSize, extendedSize in *. rewrite T, orb_false_r in H. exact H.
Qed.
Lemma copy_good : forall m p q h, objectFixed m p = false -> good m p (extendedSize cl m p) h -> good (copy cl m p q) q (copiedSize cl m p) h.
Proof.
  intros m p q h F G. pose proof G as [G1 [G2 [_ G4]]]. pose proof (base_ge m p G2) as BW. pose proof (base_pos m p G2) as BP. pose proof (ext_ge m p) as EG. destruct (C (classOf m p)) as [C1 C2].
  assert (MC : forall y, 0 <= y < extendedSize cl m p -> memcpy m q p (extendedSize cl m p) (q + y) = m (p + y)).
  { intros y Hy. unfold memcpy. destruct (Z.leb_spec q (q + y)), (Z.ltb_spec (q + y) (q + extendedSize cl m p)); cbn; try lia. f_equal. lia. }
  unfold copy. destruct (hashTaken m p) eqn:T.
  - (* the hash moves into the object *)
    set (m1 := memcpy m q p (extendedSize cl m p)) in *. set (m2 := put (put m1 q (m1 q / 8 * 8 + ExtendedMark)) (q + baseSize cl m p) (takeHash p)).
    unfold hashTaken in T. apply Z.eqb_eq in T. unfold HashTakenMark in T.
    assert (H1 : m1 q = m p) by (replace q with (q + 0) at 1 by lia; rewrite MC by lia; f_equal; lia).
    assert (H2 : m2 q = 8 * (m p / 8) + 2). { unfold m2, put. destruct (Z.eqb_spec q (q + baseSize cl m p)); [lia|]. rewrite Z.eqb_refl, H1. unfold ExtendedMark. lia. }
    destruct (header_parts (m p / 8) 2) as [E1 E2]; [lia|].
    assert (Ec : classOf m2 q = classOf m p) by (unfold classOf; rewrite H2; exact E1). assert (Em : mark m2 q = 2) by (unfold mark; rewrite H2; exact E2).
    assert (El : 0 < elt (cl (classOf m p)) -> len m2 q = len m p).
    { intros L. specialize (C2 L). unfold len. rewrite Ec. unfold m2, put. destruct (Z.eqb_spec (q + words (cl (classOf m p)) - 1) (q + baseSize cl m p)); [lia|].
      destruct (Z.eqb_spec (q + words (cl (classOf m p)) - 1) q); [lia|]. replace (q + words (cl (classOf m p)) - 1) with (q + (words (cl (classOf m p)) - 1)) by lia. unfold m1. rewrite MC by lia. f_equal. lia. }
    pose proof (base_eq m m2 p q Ec El) as Eb. unfold good. rewrite Em, Ec, Eb. split; [lia|]. split; [intros L; rewrite El; auto|]. split.
    + unfold copiedSize, extendedSize, objectExtended, hashTaken. rewrite T, Em, Eb. reflexivity.
    + destruct h as [h|]; [|exact I]. destruct G4 as [_ [_ G4]]. rewrite G4 by lia. split; [lia|]. split; [|lia]. intros _. unfold m2, put. rewrite Z.eqb_refl. symmetry. apply take_small.
  - set (m1 := memcpy m q p (extendedSize cl m p)) in *.
    assert (H1 : m1 q = m p) by (replace q with (q + 0) at 1 by lia; rewrite MC by lia; f_equal; lia).
    assert (Ec : classOf m1 q = classOf m p) by (unfold classOf; rewrite H1; reflexivity).
    assert (CE : copiedSize cl m p = extendedSize cl m p) by (unfold copiedSize, extendedSize; rewrite T, orb_false_r; reflexivity). rewrite CE.
    apply (good_transfer m m1 p q _ _ G H1).
    + intros L. specialize (C2 L). unfold len. rewrite Ec. replace (q + words (cl (classOf m p)) - 1) with (q + (words (cl (classOf m p)) - 1)) by lia. unfold m1. rewrite MC by lia. f_equal. lia.
    + intros M. unfold m1. apply MC. unfold extendedSize, objectExtended. rewrite M. cbn. lia.
    + intros Hh M. exfalso. unfold objectFixed, hashTaken, FixedMark, HashTakenMark in *. apply Z.eqb_neq in F, T. destruct h as [h|]; [|congruence]. destruct G4 as [Z0 _]. lia.
Qed.

(** A whole collection. *)
Section Collect.
Variables (s : state) (K : nat -> option Z) (dest : nat -> option Z).
Hypothesis I : inv s K.
Hypothesis A1 : forall i p q, addr s i = Some p -> dest i = Some q -> q <> p -> objectFixed (mem s) p = false /\ free s q (copiedSize cl (mem s) p).
Hypothesis A2 : forall i j p p' q q', i <> j -> addr s i = Some p -> addr s j = Some p' -> dest i = Some q -> dest j = Some q' -> q <> p -> q' <> p' ->
  apart q (copiedSize cl (mem s) p) q' (copiedSize cl (mem s) p').
Definition moves (i : nat) (p q : Z) : Prop := addr s i = Some p /\ dest i = Some q /\ q <> p.
Lemma object_len : forall i p, addr s i = Some p -> 0 < elt (cl (classOf (mem s) p)) -> 0 <= len (mem s) p.
Proof. intros i p A. destruct (i_good _ _ I i p A) as [_ [_ [G _]]]. exact G. Qed.
Lemma copyAll_ok : forall n,
  (forall x, (forall i p q, (i < n)%nat -> moves i p q -> ~ (q <= x < q + copiedSize cl (mem s) p)) -> copyAll cl (mem s) (addr s) dest n x = mem s x) /\
  (forall i p q x, (i < n)%nat -> moves i p q -> q <= x < q + copiedSize cl (mem s) p -> copyAll cl (mem s) (addr s) dest n x = copy cl (mem s) p q x).
Proof.
  induction n as [|n [IH1 IH2]]; [split; [reflexivity | intros; lia]|]. cbn [copyAll]. set (m := copyAll cl (mem s) (addr s) dest n) in *.
  assert (SRC : forall i p, addr s i = Some p -> same (mem s) m p (ext s i)).
  { intros i p A x Hx. apply IH1. intros j pj q L [M1 [M2 M3]] Hq. destruct (A1 j pj q M1 M2 M3) as [_ F]. destruct (F i p A) as [Y | Y]; lia. }
  destruct (addr s n) as [pn|] eqn:An; [destruct (dest n) as [qn|] eqn:Dn; [destruct (Z.eqb_spec qn pn) as [E | E]|]|].
  2:{ assert (Mn : moves n pn qn) by (repeat split; assumption). destruct (i_good _ _ I n pn An) as [Ln [_ [GL [GE _]]]]. pose proof (SRC n pn An) as Sn. rewrite GE in Sn.
    assert (Szn : copiedSize cl m pn = copiedSize cl (mem s) pn).
    { pose proof (base_ge (mem s) pn GL). pose proof (base_pos (mem s) pn GL). pose proof (ext_ge (mem s) pn). destruct (C (classOf (mem s) pn)) as [C1 C2].
      assert (HH : m pn = mem s pn) by (apply Sn; lia). unfold copiedSize, objectExtended, hashTaken, mark. rewrite HH. f_equal. apply base_eq; [unfold classOf; rewrite HH; reflexivity|].
      intros L. unfold len. replace (classOf m pn) with (classOf (mem s) pn) by (unfold classOf; rewrite HH; reflexivity). apply Sn. specialize (C2 L). lia. }
    assert (GLm : 0 < elt (cl (classOf m pn)) -> 0 <= len m pn).
    { assert (G' : good m pn (ext s n) None); [|apply G']. apply (good_same (mem s)); [|exact (SRC n pn An)]. destruct (i_good _ _ I n pn An) as [_ [Q1 [Q2 [Q3 _]]]]. repeat split; tauto. }
    split.
    - intros x H. rewrite copy_out; [|exact GLm | rewrite Szn; apply (H n pn qn); [lia | exact Mn]]. apply IH1. intros i p q L M. apply (H i p q); [lia | exact M].
    - intros i p q x L M Hx. destruct (Nat.eq_dec i n) as [-> | N].
      + destruct M as [M1 [M2 M3]]. rewrite An in M1. rewrite Dn in M2. inversion M1; inversion M2; subst p q. apply copy_in; assumption.
      + pose proof M as [M1 [M2 M3]]. rewrite copy_out; [apply (IH2 i p q); [lia | exact M | exact Hx] | exact GLm |]. rewrite Szn. destruct (A2 i n p pn q qn N M1 An M2 Dn M3 E) as [Y | Y]; lia. }
  all: (split; [intros x H; apply IH1; intros i p q L M; apply (H i p q); [lia | exact M]|]); intros i p q x L M Hx; apply (IH2 i p q); try assumption;
    (destruct (Nat.eq_dec i n) as [-> | N]; [|lia]); destruct M as [M1 [M2 M3]]; congruence.
Qed.
Lemma collect_inv : inv (fst (apply cl s (Collect dest))) K.
Proof.
  destruct (copyAll_ok (count s)) as [P1 P2]. constructor; cbn [apply fst mem addr ext count].
  - intros i q A. destruct (addr s i) as [p|] eqn:E; [|discriminate]. destruct (i_good _ _ I i p E) as [L G]. split; [exact L|]. rewrite A. destruct (Z.eqb_spec q p) as [-> | N].
    + apply (good_same (mem s)); [exact G|]. intros x Hx. apply P1. intros j pj qj Lj [M1 [M2 M3]] Hq. destruct (A1 j pj qj M1 M2 M3) as [_ F]. destruct (F i p E) as [Y | Y]; lia.
    + destruct (A1 i p q E A N) as [F _]. assert (GE : ext s i = extendedSize cl (mem s) p) by (destruct G as [_ [_ [Q _]]]; exact Q). rewrite GE in G.
      apply (good_same (copy cl (mem s) p q)); [apply copy_good; assumption|]. intros x Hx. apply (P2 i p q); [exact L | repeat split; assumption | exact Hx].
  - intros i j qi qj N A B. destruct (addr s i) as [pi|] eqn:Ei; [|discriminate]. destruct (addr s j) as [pj|] eqn:Ej; [|discriminate]. rewrite A, B.
    destruct (Z.eqb_spec qi pi) as [-> | Ni], (Z.eqb_spec qj pj) as [-> | Nj].
    + exact (i_apart _ _ I i j pi pj N Ei Ej).
    + destruct (A1 j pj qj Ej B Nj) as [_ F]. destruct (F i pi Ei); [right | left]; assumption.
    + destruct (A1 i pi qi Ei A Ni) as [_ F]. apply F. exact Ej.
    + apply (A2 i j); assumption.
  - apply (i_new _ _ I).
Qed.
End Collect.

Definition consistent (K : nat -> option Z) (outs : list (nat * Z)) : Prop := forall i h, In (i, h) outs -> K i = Some h.
Lemma history_inv : forall m s outs, history cl (noMarkedArrayClone cl) m s outs -> exists K, inv s K /\ consistent K outs /\ (forall i, (count s <= i)%nat -> addr s i = None).
Proof.
  intros m s outs H. induction H as [|s outs o H IH AL EX].
  { exists (fun _ => None). split; [constructor; intros; try discriminate; reflexivity|]. split; [intros i h []|]. reflexivity. }
  destruct IH as [K [I [Co NA]]]. destruct o as [fixed a c l | id i v | id | fixed id a | dest]; cbn [allowed noMarkedArrayClone] in AL, EX.
  - (* New *) destruct AL as [Hc [Hl F]]. exists K. cbn [apply fst snd]. rewrite app_nil_r. split; [|split; [exact Co|]].
    + apply add_object; [exact I | | exact F | apply make_good; exact Hl]. intros i p A x Hx. apply make_out; [exact Hl|]. destruct (F i p A); lia.
    + cbn [count addr]. intros i L. unfold upd. destruct (Nat.eqb_spec i (count s)); [lia|]. apply NA. lia.
  - (* Write *) exists K. cbn [apply]. destruct (addr s id) as [p|] eqn:A; cbn [fst snd]; rewrite app_nil_r; [|auto]. destruct (AL p eq_refl) as [B NL]. split; [|auto]. constructor; cbn [mem addr ext count].
    + intros j q Aj. destruct (i_good _ _ I j q Aj) as [L G]. split; [exact L|]. destruct (Nat.eq_dec j id) as [-> | N].
      * rewrite A in Aj. inversion Aj; subst q. destruct (C (classOf (mem s) p)) as [C1 C2].
        assert (HH : put (mem s) (p + i) v p = mem s p) by (unfold put; destruct (Z.eqb_spec p (p + i)); [lia | reflexivity]).
        apply (good_transfer (mem s) _ p p _ _ G HH); [| |reflexivity].
        -- intros Lt. unfold len. replace (classOf (put (mem s) (p + i) v) p) with (classOf (mem s) p) by (unfold classOf; rewrite HH; reflexivity). unfold put.
           destruct (Z.eqb_spec (p + words (cl (classOf (mem s) p)) - 1) (p + i)); [|reflexivity]. specialize (NL Lt). lia.
        -- intros _. unfold put. destruct (Z.eqb_spec (p + baseSize cl (mem s) p) (p + i)); [lia | reflexivity].
      * apply (good_same (mem s)); [exact G|]. intros x Hx. unfold put. destruct (Z.eqb_spec x (p + i)); [|reflexivity]. exfalso.
        destruct (i_good _ _ I id p A) as [_ [_ [_ [GE _]]]]. pose proof (ext_ge (mem s) p). destruct (i_apart _ _ I id j p q (not_eq_sym N) A Aj); lia.
    + intros j k q r N. apply (i_apart _ _ I j k q r N).
    + apply (i_new _ _ I).
  - (* Hash *) cbn [apply]. destruct (addr s id) as [p|] eqn:A; cbn [fst snd]; [|exists K; rewrite app_nil_r; auto].
    destruct (i_good _ _ I id p A) as [L G]. pose proof G as [G1 [G2 [G3 G4]]]. unfold objectHash.
    destruct (objectExtended (mem s) p) eqn:Ex; cbn [fst snd].
    + unfold objectExtended, ExtendedMark in Ex. apply Z.eqb_eq in Ex. set (h := mem s (p + baseSize cl (mem s) p) mod 2 ^ 32).
      exists (upd K id (Some h)). assert (KE : forall j x, K j = Some x -> upd K id (Some h) j = Some x).
      { intros j x Hj. unfold upd. destruct (Nat.eqb_spec j id) as [-> | _]; [|exact Hj]. rewrite Hj in G4. destruct G4 as [_ [G4 _]]. rewrite (G4 Ex). reflexivity. }
      split; [|split; [|exact NA]].
      * constructor; cbn [mem addr ext count].
        -- intros j q Aj. destruct (i_good _ _ I j q Aj) as [Lj Gj]. split; [exact Lj|]. unfold upd. destruct (Nat.eqb_spec j id) as [-> | _]; [|exact Gj]. rewrite A in Aj. inversion Aj; subst q.
           split; [exact G1|]. split; [exact G2|]. split; [exact G3|]. split; [lia|]. split; [reflexivity | intros; lia].
        -- apply (i_apart _ _ I).
        -- intros j Lj. unfold upd. destruct (Nat.eqb_spec j id); [lia|]. apply (i_new _ _ I). exact Lj.
      * intros j x Hj. apply in_app_or in Hj. destruct Hj as [Hj | [Hj | []]]; [apply KE; auto|]. inversion Hj; subst. unfold upd. rewrite Nat.eqb_refl. reflexivity.
    + unfold objectExtended, ExtendedMark in Ex. apply Z.eqb_neq in Ex. exists (upd K id (Some (takeHash p))).
      assert (KE : forall j x, K j = Some x -> upd K id (Some (takeHash p)) j = Some x).
      { intros j x Hj. unfold upd. destruct (Nat.eqb_spec j id) as [-> | _]; [|exact Hj]. rewrite Hj in G4. destruct G4 as [_ [_ G4]]. rewrite (G4 Ex). reflexivity. }
      set (m' := if objectFixed (mem s) p then mem s else markHashTaken (mem s) p).
      assert (HD : classOf m' p = classOf (mem s) p /\ mark m' p <> 0 /\ mark m' p <> 2 /\ 0 <= mark m' p <= 3).
      { unfold m', objectFixed, FixedMark, markHashTaken, HashTakenMark. destruct (Z.eqb_spec (mark (mem s) p) 3) as [M3 | M3]; [repeat split; lia|].
        destruct (lor1 (mem s p)) as [Q1 Q2]; [unfold mark in *; lia|]. unfold classOf, mark, put. rewrite Z.eqb_refl. repeat split; lia. }
      assert (OUT : forall x, x <> p -> m' x = mem s x).
      { intros x Hx. unfold m', markHashTaken, put. destruct (objectFixed (mem s) p); [reflexivity|]. destruct (Z.eqb_spec x p); [lia | reflexivity]. }
      destruct HD as [HC [HM0 [HM2 HM3]]].
      assert (El : 0 < elt (cl (classOf (mem s) p)) -> len m' p = len (mem s) p).
      { intros Lt. unfold len. rewrite HC. apply OUT. destruct (C (classOf (mem s) p)) as [C1 C2]. specialize (C2 Lt). lia. }
      pose proof (base_eq (mem s) m' p p HC El) as Eb.
      split; [|split; [|exact NA]].
      * constructor; cbn [mem addr ext count].
        -- intros j q Aj. destruct (i_good _ _ I j q Aj) as [Lj Gj]. split; [exact Lj|]. unfold upd. destruct (Nat.eqb_spec j id) as [-> | N].
           ++ rewrite A in Aj. inversion Aj; subst q. split; [exact HM3|]. split; [rewrite HC; intros Lt; rewrite (El Lt); auto|]. split.
              ** rewrite G3. unfold extendedSize, objectExtended, ExtendedMark. rewrite Eb. apply Z.eqb_neq in Ex, HM2. rewrite Ex, HM2. reflexivity.
              ** split; [exact HM0|]. split; [intros; lia | reflexivity].
           ++ apply (good_same (mem s)); [exact Gj|]. intros x Hx. apply OUT. intros ->. pose proof (ext_pos s K id p I A). destruct (i_apart _ _ I id j p q (not_eq_sym N) A Aj); lia.
        -- apply (i_apart _ _ I).
        -- intros j Lj. unfold upd. destruct (Nat.eqb_spec j id); [lia|]. apply (i_new _ _ I). exact Lj.
      * intros j x Hj. apply in_app_or in Hj. destruct Hj as [Hj | [Hj | []]]; [apply KE; auto|]. inversion Hj; subst. unfold upd. rewrite Nat.eqb_refl. reflexivity.
  - (* Clone *) cbn [apply]. destruct (addr s id) as [p|] eqn:A; cbn [fst snd]; [|exists K; rewrite app_nil_r; auto]. exists K. rewrite app_nil_r.
    specialize (AL p eq_refl). specialize (EX p eq_refl). destruct (i_good _ _ I id p A) as [L [G1 [G2 [G3 _]]]]. pose proof (base_ge (mem s) p G2) as BW. pose proof (base_pos (mem s) p G2) as BP.
    pose proof (ext_ge (mem s) p) as EG. destruct (C (classOf (mem s) p)) as [C1 C2]. pose proof (AL id p A) as AP. rewrite G3 in AP.
    split; [|split; [exact Co|]; cbn [count addr]; intros i Li; unfold upd; destruct (Nat.eqb_spec i (count s)); [lia|]; apply NA; lia].
    assert (OUT : forall x, ~ (a <= x < a + baseSize cl (mem s) p) -> clone cl (mem s) fixed p a x = mem s x).
    { intros x Hx. unfold clone. destruct (Z.ltb_spec 0 (elt (cl (classOf (mem s) p)))) as [Lt | Lt].
      - set (m1 := memcpy (allocate (mem s) fixed a (baseSize cl (mem s) p)) a p (baseSize cl (mem s) p)).
        assert (M1 : forall y, ~ (a <= y < a + baseSize cl (mem s) p) -> m1 y = mem s y).
        { intros y Hy. unfold m1, memcpy, allocate, put, fill. destruct (Z.leb_spec a y), (Z.ltb_spec y (a + baseSize cl (mem s) p)); cbn; try lia; destruct (Z.eqb_spec y a); try lia; reflexivity. }
        unfold setObjectClass, put, classOf. destruct (Z.eqb_spec x p) as [-> | _]; [|apply M1; exact Hx]. rewrite <- (M1 p) by (destruct AP; lia). pose proof (Z.div_mod (m1 p) 8). lia.
      - assert (BE : baseSize cl (mem s) p = sizeOf cl (classOf (mem s) p) 0) by (symmetry; apply size_base; [reflexivity | lia]).
        unfold memcpy. destruct (Z.leb_spec (a + 1) x), (Z.ltb_spec x (a + 1 + (baseSize cl (mem s) p - 1))); cbn; try lia; apply make_out; lia || (rewrite <- BE; exact Hx). }
    apply add_object; [exact I | | exact AL |].
    + intros i q Ai x Hx. apply OUT. destruct (AL i q Ai); lia.
    + unfold clone. destruct (Z.ltb_spec 0 (elt (cl (classOf (mem s) p)))) as [Lt | Lt].
      * specialize (EX Lt). specialize (C2 Lt). set (m1 := memcpy (allocate (mem s) fixed a (baseSize cl (mem s) p)) a p (baseSize cl (mem s) p)).
        assert (SRC : forall y, p <= y < p + baseSize cl (mem s) p -> allocate (mem s) fixed a (baseSize cl (mem s) p) y = mem s y).
        { intros y Hy. unfold allocate, put, fill. destruct (Z.eqb_spec y a); [destruct AP; lia|]. destruct (Z.leb_spec a y), (Z.ltb_spec y (a + baseSize cl (mem s) p)); cbn; try reflexivity. destruct AP; lia. }
        assert (D : forall k, 0 <= k < baseSize cl (mem s) p -> setObjectClass m1 p (classOf m1 p) (a + k) = mem s (p + k)).
        { intros k Hk. unfold setObjectClass, put. destruct (Z.eqb_spec (a + k) p); [destruct AP; lia|]. unfold m1, memcpy.
          destruct (Z.leb_spec a (a + k)), (Z.ltb_spec (a + k) (a + baseSize cl (mem s) p)); cbn; try lia. replace (p + (a + k - a)) with (p + k) by lia. apply SRC. lia. }
        set (m2 := setObjectClass m1 p (classOf m1 p)) in *.
        assert (HH : m2 a = mem s p) by (replace a with (a + 0) at 1 by lia; rewrite D by lia; f_equal; lia).
        assert (Ec : classOf m2 a = classOf (mem s) p) by (unfold classOf; rewrite HH; reflexivity).
        assert (NE : extendedSize cl (mem s) p = baseSize cl (mem s) p). { unfold extendedSize, objectExtended. rewrite EX. destruct fixed; cbn; lia. }
        rewrite <- NE. apply (good_transfer (mem s) m2 p a _ _); [repeat split; try tauto; auto | exact HH | | |].
        -- intros _. unfold len. rewrite Ec. replace (a + words (cl (classOf (mem s) p)) - 1) with (a + (words (cl (classOf (mem s) p)) - 1)) by lia. rewrite D by lia. f_equal. lia.
        -- intros M. rewrite M in EX. destruct fixed; discriminate.
        -- congruence.
      * assert (BE : baseSize cl (mem s) p = sizeOf cl (classOf (mem s) p) 0) by (symmetry; apply size_base; [reflexivity | lia]). rewrite BE.
        pose proof (make_good (mem s) fixed a (classOf (mem s) p) 0 (Z.le_refl 0)) as MG.
        apply (good_transfer (make cl (mem s) fixed a (classOf (mem s) p) 0) _ a a _ _ MG).
        -- unfold memcpy. destruct (Z.leb_spec (a + 1) a); [lia | reflexivity].
        -- unfold classOf at 1. rewrite make_header. destruct (header_parts (classOf (mem s) p) (if fixed then 3 else 0)) as [Q _]; [destruct fixed; lia|]. rewrite Q. lia.
        -- intros M. exfalso. unfold mark in M. rewrite make_header in M. destruct (header_parts (classOf (mem s) p) (if fixed then 3 else 0)) as [_ Q]; [destruct fixed; lia|]. rewrite Q in M. destruct fixed; lia.
        -- reflexivity.
  - (* Collect *) exists K. destruct AL as [AL1 AL2]. split; [apply collect_inv; assumption|]. cbn [apply snd]. rewrite app_nil_r. split; [exact Co|]. cbn [fst count addr]. intros i Li. rewrite NA by exact Li. reflexivity.
Qed.
End P.
