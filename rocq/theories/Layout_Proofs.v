From Verif Require Import Base Res Layout_Model Layout_Spec.
Local Open Scope Z_scope.
Local Arguments Z.add : simpl never.
Local Arguments Z.sub : simpl never.
Local Arguments Z.mul : simpl never.
Local Arguments Z.modulo : simpl never.
Local Arguments Z.div : simpl never.
Local Arguments Z.of_nat : simpl never.
Local Arguments Z.pow : simpl never.

Lemma u32_id : forall x, 0 <= x < 4294967296 -> u32 x = x.
Proof. intros x H. unfold u32. apply Z.mod_small. exact H. Qed.
Lemma u16_id : forall x, 0 <= x < 65536 -> u16 x = x.
Proof. intros x H. unfold u16. apply Z.mod_small. exact H. Qed.

Definition pow2size (a : Z) : Prop := a = 1 \/ a = 2 \/ a = 4 \/ a = 8.
Lemma size_pow2 : forall c, c <> FVoid -> pow2size (fieldSize c).
Proof. intros [] H; unfold pow2size; cbn; try tauto. Qed.
Lemma size_eq : forall c, fieldSize c = sizeOf c.
Proof. intros []; reflexivity. Qed.

Lemma land_high : forall n k, 0 <= n < 4294967296 -> 0 <= k <= 32 ->
  Z.land n (u32 (Z.lnot (2 ^ k - 1))) = n / 2 ^ k * 2 ^ k.
Proof.
  intros n k Hn Hk. unfold u32. rewrite <- (Z.land_ones _ 32) by lia.
  replace (2 ^ k - 1) with (Z.ones k) by (rewrite Z.ones_equiv; lia).
  rewrite (Z.land_comm (Z.lnot _)), Z.land_assoc. rewrite (Z.land_ones n 32) by lia.
  rewrite Z.mod_small by exact Hn. rewrite <- Z.ldiff_land, Z.ldiff_ones_r by lia.
  rewrite Z.shiftl_mul_pow2, Z.shiftr_div_pow2 by lia. reflexivity.
Qed.
Lemma pad_ok : forall n a, pow2size a -> 0 <= n < 2147483648 -> n <= pad n a < n + a /\ (a | pad n a).
Proof.
  intros n a Ha Hn. unfold pad. rewrite (u32_id (a - 1)) by (unfold pow2size in Ha; lia).
  rewrite (u32_id (n + (a - 1))) by (unfold pow2size in Ha; lia).
  assert (K : exists k, 0 <= k <= 32 /\ a = 2 ^ k) by (destruct Ha as [-> | [-> | [-> | ->]]]; [exists 0 | exists 1 | exists 2 | exists 3]; split; try lia; reflexivity).
  destruct K as [k [Hk E]]. assert (P : Z.land (n + (a - 1)) (u32 (Z.lnot (a - 1))) = (n + (a - 1)) / a * a) by (rewrite E; apply land_high; [rewrite <- E; unfold pow2size in Ha; lia | exact Hk]). rewrite P.
  assert (0 < a) by (unfold pow2size in Ha; lia). split.
  - pose proof (Z.div_mod (n + (a - 1)) a ltac:(lia)). pose proof (Z.mod_pos_bound (n + (a - 1)) a ltac:(lia)). nia.
  - exists ((n + (a - 1)) / a). lia.
Qed.

(** ** Offsets *)
(** [l] is laid out one field after the other from [a] to [b]. *)
Fixpoint chained (a : Z) (l : list (field * Z)) (b : Z) : Prop :=
  match l with
  | [] => a = b
  | (f, o) :: l => a <= o /\ (sizeOf (code f) | o) /\ 0 < sizeOf (code f) /\ chained (o + sizeOf (code f)) l b
  end.
Lemma chained_le : forall l a b, chained a l b -> a <= b.
Proof. induction l as [|[f o] l IH]; cbn; intros a b H; [lia|]. destruct H as [H1 [_ [H2 H3]]]. apply IH in H3. lia. Qed.
Lemma chained_app : forall l l' a b c, chained a l b -> chained b l' c -> chained a (l ++ l') c.
Proof.
  induction l as [|[f o] l IH]; cbn; intros l' a b c H H'; [subst; exact H'|].
  destruct H as [H1 [H2 [H3 H4]]]. repeat (split; auto). eapply IH; eauto.
Qed.
Lemma chained_in : forall l a b f o, chained a l b -> In (f, o) l -> a <= o /\ o + sizeOf (code f) <= b /\ (sizeOf (code f) | o).
Proof.
  induction l as [|[g p] l IH]; cbn; intros a b f o H HI; [tauto|]. destruct H as [H1 [H2 [H3 H4]]]. destruct HI as [E | HI].
  - inversion E; subst. repeat split; auto. apply chained_le in H4. exact H4.
  - destruct (IH _ _ _ _ H4 HI) as [A [B C]]. repeat split; auto. lia.
Qed.
Lemma chained_good : forall l a b, chained a l b -> goodLayout a b l.
Proof.
  intros l a b H. split; [intros; eapply chained_in; eauto|]. revert a H.
  assert (K : forall l a, chained a l b -> forall i j f o f' o', (i < j)%nat -> nth_error l i = Some (f, o) -> nth_error l j = Some (f', o') -> o + sizeOf (code f) <= o').
  { clear l. induction l as [|[g p] l IH]; cbn; intros a H i j f o f' o' L E E'; [destruct i; discriminate|].
    destruct H as [H1 [H2 [H3 H4]]]. destruct j as [|j]; [lia|]. cbn in E'. destruct i as [|i]; cbn in E.
    - inversion E; subst. apply nth_error_In in E'. destruct (chained_in _ _ _ _ _ H4 E'). lia.
    - eapply (IH _ H4 i j); eauto. lia. }
  intros a H i j f o f' o' N E E'. destruct (Nat.lt_ge_cases i j).
  - left. eapply K; eauto.
  - right. eapply (K _ _ H j i); eauto. lia.
Qed.

Definition up8 (x : Z) : Z := (x + 7) / 8 * 8.
Lemma step8 : forall n a, pow2size a -> 0 <= n < 2147483648 -> up8 (pad n a + a) <= up8 n + 8.
Proof.
  intros n a Ha Hn. destruct (pad_ok n a Ha Hn) as [H1 [q Hq]]. unfold up8. destruct Ha as [-> | [-> | [-> | ->]]]; lia.
Qed.
Lemma up8_le : forall n, n <= up8 n < n + 8.
Proof. intros n. unfold up8. lia. Qed.

Lemma offsets_ok : forall fs so mo, valid fs -> 0 <= so -> 0 <= mo ->
  up8 so + 8 * Z.of_nat (length (statics fs)) <= 65535 -> up8 mo + 8 * Z.of_nat (length (instances fs)) <= 65535 ->
  let '(os, so', mo') := offsets fs so mo in
  length os = length fs /\ chained so (placedStatics fs os) so' /\ chained mo (placedInstances fs os) mo' /\
  up8 so' <= up8 so + 8 * Z.of_nat (length (statics fs)) /\ up8 mo' <= up8 mo + 8 * Z.of_nat (length (instances fs)).
Proof.
  induction fs as [|f fs IH]; intros so mo V Hs Hm Bs Bm; [cbn; repeat split; lia|].
  assert (V' : valid fs) by (intros g Hg; apply V; right; exact Hg). assert (Vf : code f <> FVoid) by (apply V; left; reflexivity).
  pose proof (size_pow2 _ Vf) as P. pose proof (up8_le so) as U1. pose proof (up8_le mo) as U2.
  assert (Sz : 1 <= fieldSize (code f) <= 8) by (unfold pow2size in P; lia).
  cbn [offsets]. unfold statics, instances in *. cbn [filter] in *. destruct (static f) eqn:Sf; cbn [negb] in *; cbn [length] in *.
  - rewrite Nat2Z.inj_succ in *. destruct (pad_ok so _ P) as [Q1 Q2]; [lia|]. pose proof (step8 so _ P ltac:(lia)) as Q3.
    pose proof (up8_le (pad so (fieldSize (code f)) + fieldSize (code f))).
    rewrite u32_id by lia. specialize (IH (pad so (fieldSize (code f)) + fieldSize (code f)) mo V' ltac:(lia) Hm ltac:(lia) ltac:(lia)).
    destruct (offsets fs _ mo) as [[os so'] mo'] eqn:E. destruct IH as [I1 [I2 [I3 [I4 I5]]]].
    cbn [length]. split; [congruence|]. unfold placedStatics, placedInstances in *. cbn [combine filter fst]. rewrite Sf. cbn [negb].
    rewrite u16_id by lia. cbn [chained]. rewrite size_eq in *. repeat split; auto; lia.
  - rewrite Nat2Z.inj_succ in *. destruct (pad_ok mo _ P) as [Q1 Q2]; [lia|]. pose proof (step8 mo _ P ltac:(lia)) as Q3.
    pose proof (up8_le (pad mo (fieldSize (code f)) + fieldSize (code f))).
    rewrite u32_id by lia. specialize (IH so (pad mo (fieldSize (code f)) + fieldSize (code f)) V' Hs ltac:(lia) ltac:(lia) ltac:(lia)).
    destruct (offsets fs so _) as [[os so'] mo'] eqn:E. destruct IH as [I1 [I2 [I3 [I4 I5]]]].
    cbn [length]. split; [congruence|]. unfold placedStatics, placedInstances in *. cbn [combine filter fst]. rewrite Sf. cbn [negb].
    rewrite u16_id by lia. cbn [chained]. rewrite size_eq in *. repeat split; auto; lia.
Qed.

(** ** Bit arrays *)
Lemma nth_error_skipn : forall {A} n (l : list A) i, nth_error (skipn n l) i = nth_error l (n + i).
Proof. induction n as [|n IH]; intros l i; [reflexivity|]. destruct l; cbn; [destruct i; reflexivity | apply IH]. Qed.
Definition bit (m : list Z) (k : Z) : bool :=
  match nth_error m (Z.to_nat (k / 32)) with Some x => Z.testbit x (k mod 32) | None => false end.
Definition bits (m : list Z) : Z := 32 * Z.of_nat (length m).
Lemma bitAt_ok : forall m k, 0 <= k < bits m -> bitAt m k = Ok (bit m k).
Proof.
  intros m k H. unfold bitAt, bit, bits in *. destruct (nth_error m (Z.to_nat (k / 32))) eqn:E; [reflexivity|].
  apply nth_error_None in E. lia.
Qed.
Lemma orAt_ok : forall m w b, (w < length m)%nat -> exists m', orAt m w b = Some m' /\ length m' = length m /\
  forall v, nth_error m' v = if Nat.eqb v w then option_map (fun x => Z.lor x b) (nth_error m v) else nth_error m v.
Proof.
  induction m as [|x m IH]; intros w b H; [cbn in H; lia|]. destruct w as [|w]; cbn [orAt].
  - eexists. split; [reflexivity|]. split; [reflexivity|]. intros [|v]; reflexivity.
  - destruct (IH w b) as [m' [E [L N]]]; [cbn in H; lia|]. rewrite E. cbn [option_map]. eexists. split; [reflexivity|]. split; [cbn; congruence|].
    intros [|v]; cbn; [reflexivity | apply N].
Qed.
Lemma setBit_ok : forall m k, 0 <= k < bits m -> exists m', setBit m k = Ok m' /\ length m' = length m /\
  forall j, 0 <= j -> bit m' j = bit m j || (j =? k).
Proof.
  intros m k H. unfold setBit, bits in *. destruct (orAt_ok m (Z.to_nat (k / 32)) (2 ^ (k mod 32))) as [m' [E [L N]]]; [lia|].
  rewrite E. cbn [of_option]. exists m'. split; [reflexivity|]. split; [exact L|]. intros j Hj. unfold bit. rewrite N.
  destruct (Nat.eqb_spec (Z.to_nat (j / 32)) (Z.to_nat (k / 32))) as [Ej | Ej].
  - destruct (nth_error m (Z.to_nat (j / 32))) as [x|] eqn:Ex; cbn [option_map].
    + rewrite Z.lor_spec. f_equal. rewrite Z.pow2_bits_eqb by lia. destruct (Z.eqb_spec (k mod 32) (j mod 32)); destruct (Z.eqb_spec j k); auto; lia.
    + apply nth_error_None in Ex. lia.
  - destruct (Z.eqb_spec j k) as [-> | _]; [congruence|]. rewrite orb_false_r. reflexivity.
Qed.
Lemma bit_repeat : forall n j, bit (repeat 0 n) j = false.
Proof.
  intros n j. unfold bit. destruct (nth_error (repeat 0 n) _) eqn:E; [|reflexivity]. apply nth_error_In, repeat_spec in E. subst. apply Z.bits_0.
Qed.
Lemma copy_ok : forall n src m, 0 <= n -> n <= Z.of_nat (length src) -> n <= Z.of_nat (length m) ->
  exists m', copyWords n src m = Ok m' /\ length m' = length m /\ forall j, 0 <= j -> bit m' j = if j <? 32 * n then bit src j else bit m j.
Proof.
  intros n src m Hn Hs Hm. unfold copyWords. replace (_ && _)%bool with true.
  2: { symmetry. apply andb_true_iff. split; apply Nat.leb_le; lia. }
  eexists. split; [reflexivity|]. split; [rewrite app_length, firstn_length, skipn_length; lia|].
  intros j Hj. unfold bit. destruct (Z.ltb_spec j (32 * n)).
  - rewrite nth_error_app1 by (rewrite firstn_length; lia). rewrite firstn_nth_error_lt by lia. reflexivity.
  - rewrite nth_error_app2 by (rewrite firstn_length; lia). rewrite firstn_length. rewrite nth_error_skipn.
    replace (_ + _)%nat with (Z.to_nat (j / 32)) by lia. reflexivity.
Qed.

(** ** Masks *)
Definition refAt (l : list (field * Z)) (i : Z) : bool :=
  existsb (fun x => negb (static (fst x)) && isObject (code (fst x)) && (snd x / 8 =? i)) l.
Lemma refAt_app : forall l l' i, refAt (l ++ l') i = refAt l i || refAt l' i.
Proof. intros. apply existsb_app. Qed.
Lemma existsb_rev : forall {A} (f : A -> bool) l, existsb f (rev l) = existsb f l.
Proof. intros A f l. induction l as [|x l IH]; [reflexivity|]. cbn. rewrite existsb_app, IH. cbn. destruct (f x), (existsb f l); reflexivity. Qed.
Lemma mark_ok : forall l m, (forall f o, In (f, o) l -> static f = false -> code f = FObject -> 0 <= o / 8 < bits m) ->
  exists m', markFields l m = Ok m' /\ length m' = length m /\ forall j, 0 <= j -> bit m' j = bit m j || refAt l j.
Proof.
  induction l as [|[f o] l IH]; intros m H; cbn [markFields].
  - exists m. split; [reflexivity|]. split; [reflexivity|]. intros. cbn. rewrite orb_false_r. reflexivity.
  - destruct (negb (static f) && isObject (code f)) eqn:E.
    + destruct (setBit_ok m (o / 8)) as [m1 [E1 [L1 B1]]].
      { apply (H f o); [left; reflexivity | |]; destruct (static f), (code f); cbn in E; congruence. }
      rewrite E1. cbn [bind]. destruct (IH m1) as [m' [E2 [L2 B2]]]. { intros. unfold bits. rewrite L1. eapply H; eauto. right; eauto. }
      exists m'. split; [exact E2|]. split; [congruence|]. intros j Hj. rewrite B2, B1 by lia. unfold refAt at 2. cbn [existsb fst snd]. rewrite E. cbn [andb].
      fold (refAt l j). rewrite <- orb_assoc. f_equal. f_equal. apply Z.eqb_sym.
    + destruct (IH m) as [m' [E2 [L2 B2]]]. { intros. eapply H; eauto. right; eauto. }
      exists m'. split; [exact E2|]. split; [congruence|]. intros j Hj. rewrite B2 by lia. unfold refAt at 2. cbn [existsb fst snd]. rewrite E. reflexivity.
Qed.

(** The mask of a class with instance fields [l]. *)
Definition maskFor (c : class) (l : list (field * Z)) : Prop :=
  match objectMask c with
  | None => forall i, refAt l i = false
  | Some m => Z.of_nat (length m) = cdiv (fixedSize c) 256 /\ forall j, 0 <= j -> bit m j = (j =? 0) || refAt l j
  end.
Definition classFor (c : class) (l : list (field * Z)) : Prop :=
  chained 8 l (fixedSize c) /\ (forall x, In x l -> static (fst x) = false) /\ maskFor c l /\ fixedSize c <= 65535.
Lemma cdiv_ok : forall n d, 0 <= n <= 65535 -> 0 < d <= 65536 -> cdiv n d = (n + d - 1) / d.
Proof. intros. unfold cdiv. rewrite u32_id by lia. reflexivity. Qed.
Lemma refAt_in : forall l i, refAt l i = true -> exists f o, In (f, o) l /\ static f = false /\ code f = FObject /\ o / 8 = i.
Proof.
  intros l i H. apply existsb_exists in H. destruct H as [[f o] [HI H]]. cbn in H. apply andb_true_iff in H. destruct H as [H H2].
  exists f, o. repeat split; auto; destruct (static f), (code f); cbn in H; try congruence; lia.
Qed.
Lemma refAt_filter : forall l i, refAt (filter (fun x => negb (static (fst x))) l) i = refAt l i.
Proof.
  intros l i. induction l as [|[f o] l IH]; [reflexivity|]. cbn [filter fst]. unfold refAt in *. destruct (static f) eqn:E; cbn [negb existsb fst]; rewrite IH, E; reflexivity.
Qed.
Lemma refAt_bound : forall l a b i, chained a l b -> refAt l i = true -> a <= 8 * i /\ 8 * i + 8 <= b.
Proof.
  intros l a b i H R. apply refAt_in in R. destruct R as [f [o [HI [_ [C E]]]]]. destruct (chained_in _ _ _ _ _ H HI) as [A [B [q D]]]. rewrite C in *. cbn in *. lia.
Qed.

(** The superclass, or nothing: its size and fields. *)
Definition superFor (s : option class) (l : list (field * Z)) : Prop :=
  match s with Some s => classFor s l | None => l = [] end.
Definition superSize (s : option class) : Z := match s with Some s => fixedSize s | None => 8 end.

Lemma parseMask_ok : forall super l mo fs, superFor super l -> chained (superSize super) (filter (fun x => negb (static (fst x))) fs) mo -> mo <= 65535 ->
  exists c, parseMask super mo fs = Ok c /\ fixedSize c = mo /\ classFor c (l ++ filter (fun x => negb (static (fst x))) fs).
Proof.
  intros super l mo fs HS HC Hmo. set (own := filter (fun x => negb (static (fst x))) fs) in *.
  assert (B8 : 8 <= superSize super) by (destruct super as [s|]; cbn in *; [destruct HS as [HS _]; apply chained_le in HS; exact HS | lia]).
  pose proof (chained_le _ _ _ HC) as B9.
  assert (CH : chained 8 (l ++ own) mo).
  { destruct super as [s|]; cbn in *; [destruct HS as [HS _]; eapply chained_app; eauto | subst l; exact HC]. }
  assert (ST : forall x, In x (l ++ own) -> static (fst x) = false).
  { intros x Hx. apply in_app_or in Hx. destruct Hx as [Hx | Hx].
    - destruct super as [s|]; cbn in HS; [apply HS; exact Hx | subst; destruct Hx].
    - apply filter_In in Hx. destruct (static (fst x)); [destruct Hx; discriminate | reflexivity]. }
  unfold parseMask. rewrite u16_id by lia.
  assert (FR : exists c, (do m <- setBit (repeat 0 (Z.to_nat (cdiv mo 256))) 0;
    let superMask := match super with Some s => objectMask s | None => None end in
    do m <- match super, superMask with
            | Some s, Some sm => copyWords (cdiv (fixedSize s) 256) sm m
            | _, _ => Ok m
            end;
    do m <- markFields (rev fs) m;
    Ok (Cls mo (if (match superMask with Some _ => true | None => false end)
                      || existsb (fun x => negb (static (fst x)) && isObject (code (fst x))) fs
                   then Some m else None)))%res = Ok c /\ fixedSize c = mo /\ classFor c (l ++ own)).
  { rewrite (cdiv_ok mo 256) by lia.
    destruct (setBit_ok (repeat 0 (Z.to_nat ((mo + 256 - 1) / 256))) 0) as [m0 [E0 [L0 B0]]]. { unfold bits. rewrite repeat_length. lia. }
    rewrite E0. cbn [bind]. cbv zeta. rewrite repeat_length in L0.
    assert (C1 : exists m1, match super, match super with Some s => objectMask s | None => None end with
            | Some s, Some sm => copyWords (cdiv (fixedSize s) 256) sm m0
            | _, _ => Ok m0
            end = Ok m1 /\ length m1 = length m0 /\ forall j, 0 <= j -> bit m1 j = (j =? 0) || refAt l j).
    { destruct super as [s|]; cbn [superFor superSize] in *.
      - destruct HS as [H1 [H2 [H3 H4]]]. unfold maskFor in H3. destruct (objectMask s) as [sm|].
        + destruct H3 as [H3 H5]. rewrite (cdiv_ok (fixedSize s) 256) in * by lia. destruct (copy_ok ((fixedSize s + 256 - 1) / 256) sm m0) as [m1 [E1 [L1 B1]]]; try lia.
          exists m1. split; [exact E1|]. split; [exact L1|]. intros j Hj. rewrite B1 by lia. destruct (Z.ltb_spec j (32 * ((fixedSize s + 256 - 1) / 256))); [apply H5; lia|].
          rewrite B0, bit_repeat by lia. destruct (Z.eqb_spec j 0); [reflexivity|]. cbn. destruct (refAt l j) eqn:R; [|reflexivity]. destruct (refAt_bound _ _ _ _ H1 R). lia.
        + exists m0. split; [reflexivity|]. split; [reflexivity|]. intros j Hj. rewrite B0, bit_repeat, H3 by lia. rewrite orb_false_r. reflexivity.
      - exists m0. subst l. split; [reflexivity|]. split; [reflexivity|]. intros j Hj. rewrite B0, bit_repeat by lia. cbn. rewrite orb_false_r. reflexivity. }
    destruct C1 as [m1 [E1 [L1 B1]]]. rewrite E1. cbn [bind].
    destruct (mark_ok (rev fs) m1) as [m2 [E2 [L2 B2]]].
    { intros f o HI Hs Hc. apply in_rev in HI. assert (HO : In (f, o) own) by (apply filter_In; cbn; rewrite Hs; auto).
      destruct (chained_in _ _ _ _ _ HC HO) as [A [B D]]. rewrite Hc in B. cbn in B. unfold bits. rewrite L1, L0. lia. }
    rewrite E2. cbn [bind]. eexists. split; [reflexivity|]. split; [reflexivity|]. split; [exact CH|]. split; [exact ST|]. split; [|exact Hmo].
    unfold maskFor. cbn [objectMask fixedSize].
    assert (RV : forall j, refAt (rev fs) j = refAt own j) by (intros; unfold own; rewrite refAt_filter; apply existsb_rev).
    assert (SM : (exists s sm, super = Some s /\ objectMask s = Some sm) \/ forall i, refAt l i = false).
    { destruct super as [s|]; cbn in HS; [|right; subst l; reflexivity]. destruct HS as [_ [_ [H3 _]]]. unfold maskFor in H3. destruct (objectMask s) as [sm|] eqn:Es; [left; eauto | right; exact H3]. }
    match goal with |- match (if ?b then _ else _) with _ => _ end => destruct b eqn:Eb end.
    - split. rewrite cdiv_ok by lia. lia. intros j Hj. rewrite B2, B1, RV, refAt_app by lia. rewrite orb_assoc. reflexivity.
    - apply orb_false_iff in Eb. destruct Eb as [Eb1 Eb2]. intros i. rewrite refAt_app. destruct SM as [[s [sm [-> Es]]] | SM]; [rewrite Es in Eb1; discriminate|].
      rewrite SM. cbn. unfold own. rewrite refAt_filter. destruct (refAt fs i) eqn:R; [|reflexivity]. exfalso. apply refAt_in in R. destruct R as [f [o [HI [Hs [Hc _]]]]].
      assert (X : existsb (fun x : field * Z => negb (static (fst x)) && isObject (code (fst x))) fs = true) by (apply existsb_exists; exists (f, o); cbn; rewrite Hs, Hc; auto). congruence. }
  destruct super as [s|]; [|exact FR]. cbn [superSize] in *. destruct (Z.eqb_spec mo (fixedSize s)) as [E | _]; [|exact FR].
  assert (own = []) as ->. { destruct own as [|[f o] r]; [reflexivity|]. cbn in HC. destruct HC as [A [_ [B C]]]. apply chained_le in C. lia. }
  eexists. split; [reflexivity|]. split; [reflexivity|]. rewrite app_nil_r in *. cbn in HS. destruct HS as [H1 [H2 [H3 H4]]]. split; [exact CH|]. split; [exact ST|]. split; [|exact Hmo].
  unfold maskFor in *. cbn [objectMask fixedSize]. rewrite E. exact H3.
Qed.

(** ** Walking *)
Lemma filterR_ok : forall f g l, (forall x, In x l -> f x = Ok (g x)) -> filterR f l = Ok (filter g l).
Proof.
  intros f g l. induction l as [|x l IH]; intros H; [reflexivity|]. cbn [filterR filter]. rewrite H by (left; reflexivity). cbn [bind].
  rewrite IH by (intros; apply H; right; assumption). reflexivity.
Qed.
Lemma in_upto : forall a b x, In x (upto a b) <-> a <= x < b.
Proof.
  intros a b x. unfold upto. rewrite in_map_iff. split.
  - intros [k [E H]]. apply in_seq in H. lia.
  - intros H. exists (Z.to_nat (x - a)). split; [lia|]. apply in_seq. lia.
Qed.
Lemma upto_nil : forall a b, b <= a -> upto a b = [].
Proof. intros a b H. unfold upto. replace (Z.to_nat (b - a)) with 0%nat by lia. reflexivity. Qed.
Lemma upto_asc : forall a b, ascending (upto a b).
Proof.
  intros a b i j x y L E E'. unfold upto in *. rewrite nth_error_map in *.
  destruct (nth_error (seq 0 _) i) as [p|] eqn:P in E; [|discriminate]. destruct (nth_error (seq 0 _) j) as [q|] eqn:Q in E'; [|discriminate].
  cbn in *. assert (S1 : forall n s i x, nth_error (seq s n) i = Some x -> x = (s + i)%nat).
  { clear. induction n as [|n IH]; intros s i x H; [destruct i; discriminate|]. destruct i; cbn in H; [inversion H; lia|]. apply IH in H. lia. }
  apply S1 in P, Q. inversion E; inversion E'. lia.
Qed.
Lemma asc_cons : forall x l, (forall y, In y l -> x < y) -> ascending l -> ascending (x :: l).
Proof.
  intros x l H A i j a b L E E'. destruct j as [|j]; [lia|]. cbn in E'. destruct i as [|i]; cbn in E.
  - inversion E; subst. apply H. eapply nth_error_In; eauto.
  - eapply (A i j); eauto. lia.
Qed.
Lemma asc_inv : forall x l, ascending (x :: l) -> (forall y, In y l -> x < y) /\ ascending l.
Proof.
  intros x l A. split.
  - intros y Hy. apply In_nth_error in Hy. destruct Hy as [n Hy]. eapply (A 0%nat (S n)); eauto. lia.
  - intros i j a b L E E'. eapply (A (S i) (S j)); eauto. lia.
Qed.
Lemma asc_filter : forall g l, ascending l -> ascending (filter g l).
Proof.
  intros g l. induction l as [|x l IH]; intros A; [exact A|]. apply asc_inv in A. destruct A as [A1 A2]. cbn. destruct (g x); [|auto].
  apply asc_cons; [|auto]. intros y Hy. apply filter_In in Hy. apply A1. tauto.
Qed.
Lemma asc_app : forall l l', ascending l -> ascending l' -> (forall x y, In x l -> In y l' -> x < y) -> ascending (l ++ l').
Proof.
  intros l l' A B H. induction l as [|x l IH]; [exact B|]. cbn. apply asc_inv in A. destruct A as [A1 A2]. apply asc_cons.
  - intros y Hy. apply in_app_or in Hy. destruct Hy; [auto | apply H; cbn; auto].
  - apply IH; [exact A2|]. intros. apply H; cbn; auto.
Qed.

Lemma walk_plain : forall m n start, 0 <= start -> 0 <= n <= 65535 -> (n + 7) / 8 <= bits m ->
  walk m n 0 0 start = Ok (filter (bit m) (upto start ((n + 7) / 8))).
Proof.
  intros m n start Hs Hn Hb. unfold walk. rewrite cdiv_ok by lia. replace (n + 8 - 1) with (n + 7) by lia.
  change (cdiv 0 8) with 0. rewrite (filterR_ok _ (bit m)).
  2: { intros x Hx. apply in_upto in Hx. apply bitAt_ok. lia. }
  cbn [bind]. rewrite Z.add_0_r. rewrite upto_nil by lia. reflexivity.
Qed.

Lemma ref_holds : forall l a b i, chained a l b -> (forall x, In x l -> static (fst x) = false) -> (refAt l i = true <-> holdsReference l i).
Proof.
  intros l a b i H S. split.
  - intros R. apply refAt_in in R. destruct R as [f [o [HI [_ [C E]]]]]. destruct (chained_in _ _ _ _ _ H HI) as [_ [_ [q D]]]. rewrite C in D. cbn in D.
    exists f. split; [|exact C]. replace (8 * i) with o by lia. exact HI.
  - intros [f [HI C]]. apply existsb_exists. exists (f, 8 * i). split; [exact HI|]. cbn. pose proof (S _ HI) as Sf. cbn in Sf. rewrite Sf, C. cbn. lia.
Qed.

Lemma walk_instance : forall c l start, classFor c l -> 0 <= start ->
  exists r, walkInstance c start = Ok r /\ ascending r /\ forall i, In i r <-> start <= i /\ (i = 0 \/ holdsReference l i).
Proof.
  intros c l start [H1 [H2 [H3 H4]]] Hs. pose proof (chained_le _ _ _ H1) as H5. unfold walkInstance, walkArray. change (0 =? 0) with true. cbv iota.
  unfold maskFor in H3. destruct (objectMask c) as [m|] eqn:Em.
  - destruct H3 as [H3 H6]. rewrite cdiv_ok in H3 by lia. rewrite walk_plain by (unfold bits; lia). eexists. split; [reflexivity|].
    split; [apply asc_filter, upto_asc|]. intros i. rewrite filter_In, in_upto. split.
    + intros [A B]. split; [lia|]. rewrite H6 in B by lia. apply orb_true_iff in B. destruct B as [B | B]; [left; lia|]. right. eapply ref_holds; eauto.
    + intros [A B]. assert (BB : 0 <= i /\ 8 * i < fixedSize c /\ bit m i = true).
      { destruct B as [-> | B]; [repeat split; try lia; rewrite H6 by lia; reflexivity|]. apply (ref_holds _ _ _ _ H1 H2) in B. destruct (refAt_bound _ _ _ _ H1 B).
        repeat split; try lia. rewrite H6 by lia. rewrite B. apply orb_true_r. }
      destruct BB as [B1 [B2 B3]]. split; [lia | exact B3].
  - assert (NH : forall i, ~ holdsReference l i) by (intros i Hi; apply (ref_holds _ _ _ _ H1 H2) in Hi; rewrite H3 in Hi; discriminate).
    eexists. split; [reflexivity|]. split; [intros i j a b L E E'; destruct (start =? 0); destruct i, j; cbn in *; try discriminate; try lia; destruct j; discriminate|].
    intros i. destruct (Z.eqb_spec start 0); cbn; split; intros H; try (destruct H as [A [B | B]]; [|destruct (NH _ B)]); try lia; try tauto.
Qed.

Lemma walk_array : forall n start, 0 <= n -> 0 <= start ->
  exists r, walkArray arrayClass 8 n start = Ok r /\ ascending r /\ forall i, In i r <-> start <= i /\ (i = 0 \/ 2 <= i < 2 + n).
Proof.
  intros n start Hn Hs. unfold walkArray, arrayClass. cbn [objectMask fixedSize]. change (8 =? 0) with false. cbv iota. unfold walk.
  change (cdiv 16 8) with 2. change (cdiv 8 8) with 1. rewrite (filterR_ok _ (bit [5])).
  2: { intros x Hx. apply in_upto in Hx. apply bitAt_ok. change (bits [5]) with 32. lia. }
  cbn [bind]. change (existsR (bitAt [5]) (upto 2 (2 + 1))) with (@Ok bool true). cbn [bind].
  assert (F : forall k, k = 0 -> (fun i : Z => (do js <- filterR (fun j : Z => bitAt [5] (2 + j)) (upto k 1); Ok (map (fun j : Z => 2 + i * 1 + j) js))%res) = fun i => Ok [2 + i * 1 + 0]) by (intros k ->; reflexivity).
  assert (G : forall l, flatR (fun i => Ok [2 + i * 1 + 0]) l = Ok (map (fun i => 2 + i * 1 + 0) l)) by (induction l as [|x l IH]; [reflexivity|]; cbn [flatR]; rewrite IH; reflexivity).
  assert (K : exists k, (let '(arrayStart, elementStart) := if 2 <? start then ((start - 2) / 1, (start - 2) mod 1) else (0, 0) in
     (do b <- flatR (fun i : Z => (do js <- filterR (fun j : Z => bitAt [5] (2 + j)) (upto elementStart 1); Ok (map (fun j : Z => 2 + i * 1 + j) js))%res) (upto arrayStart n);
     Ok (filter (bit [5]) (upto start 2) ++ b))%res) = Ok (filter (bit [5]) (upto start 2) ++ map (fun i => 2 + i * 1 + 0) (upto k n)) /\ k = Z.max 0 (start - 2)).
  { destruct (Z.ltb_spec 2 start).
    - exists ((start - 2) / 1). rewrite F by (apply Z.mod_1_r). rewrite G. cbn [bind]. split; [reflexivity|]. rewrite Z.div_1_r. lia.
    - exists 0. rewrite F by reflexivity. rewrite G. cbn [bind]. split; [reflexivity | lia]. }
  destruct K as [k [K1 K2]]. rewrite K1. eexists. split; [reflexivity|]. split.
  - apply asc_app.
    + apply asc_filter, upto_asc.
    + intros i j a b L E E'. rewrite nth_error_map in E, E'. destruct (nth_error (upto k n) i) as [p|] eqn:P; [|discriminate]. destruct (nth_error (upto k n) j) as [q|] eqn:Q; [|discriminate].
      pose proof (upto_asc k n i j p q L P Q). cbn in E, E'. inversion E; inversion E'. lia.
    + intros x y Hx Hy. apply filter_In in Hx. destruct Hx as [Hx _]. apply in_upto in Hx. apply in_map_iff in Hy. destruct Hy as [z [E Hz]]. apply in_upto in Hz. lia.
  - intros i. rewrite in_app_iff, filter_In, in_upto, in_map_iff. split.
    + intros [[A B] | [z [E Hz]]].
      * split; [lia|]. left. destruct (Z.eq_dec i 1) as [-> | ]; [vm_compute in B; discriminate | lia].
      * apply in_upto in Hz. lia.
    + intros [A [B | B]].
      * left. subst i. split; [lia|]. replace start with 0 in * by lia. reflexivity.
      * right. exists (i - 2). split; [lia|]. apply in_upto. lia.
Qed.
Lemma walk_parray : forall s n start, walkArray primitiveArrayClass s n start = Ok (if start =? 0 then [0] else []).
Proof. reflexivity. Qed.

(** ** Memory *)
Lemma getn_ext : forall n m m' a, (forall x, a <= x < a + Z.of_nat n -> m x = m' x) -> getn m a n = getn m' a n.
Proof.
  induction n as [|n IH]; intros m m' a H; [reflexivity|]. cbn [getn]. rewrite H by lia. f_equal. f_equal. apply IH. intros. apply H. lia.
Qed.
Lemma get_ext : forall n m m' a, 0 <= n -> (forall x, a <= x < a + n -> m x = m' x) -> get m a n = get m' a n.
Proof. intros. unfold get. apply getn_ext. intros. apply H0. lia. Qed.
Lemma getn_bytes : forall n v a b m, (forall x, b <= x < b + Z.of_nat n -> m x = (v / 256 ^ (x - a)) mod 256) -> a <= b ->
  getn m b n = (v / 256 ^ (b - a)) mod 256 ^ Z.of_nat n.
Proof.
  induction n as [|n IH]; intros v a b m H Hab; [cbn; rewrite Z.mod_1_r; reflexivity|].
  cbn [getn]. rewrite H by lia. rewrite (IH v a (b + 1) m) by (try lia; intros; apply H; lia).
  replace (b + 1 - a) with (Z.succ (b - a)) by lia. rewrite Z.pow_succ_r by lia. rewrite (Z.mul_comm 256 (256 ^ (b - a))).
  rewrite <- (Z.div_div v (256 ^ (b - a)) 256) by (try lia; apply Z.pow_nonzero; lia). rewrite Nat2Z.inj_succ, Z.pow_succ_r by lia.
  set (w := v / 256 ^ (b - a)). rewrite Z.rem_mul_r by (try lia; apply Z.pow_nonzero; lia). reflexivity.
Qed.
Lemma get_put : forall m a n v, 0 <= n -> get (put m a n v) a n = v mod 256 ^ n.
Proof.
  intros m a n v Hn. unfold get. rewrite (getn_bytes _ v a a) by (try lia; intros x Hx; unfold put; replace (_ && _) with true by lia; reflexivity).
  rewrite Z.sub_diag, Z.pow_0_r, Z.div_1_r, Z2Nat.id by lia. reflexivity.
Qed.
Lemma put_out : forall m a n v x, x < a \/ a + n <= x -> put m a n v x = m x.
Proof. intros. unfold put. replace (_ && _) with false by lia. reflexivity. Qed.
Lemma get_put_out : forall m a n v b k, 0 <= k -> b + k <= a \/ a + n <= b -> get (put m a n v) b k = get m b k.
Proof. intros. apply get_ext; [lia|]. intros. apply put_out. lia. Qed.

(** ** Singletons *)
(** [s] has [n] values and a mask. *)
Definition wfs (n : Z) (s : singleton) : Prop := 0 < n <= 65535 /\ slength s = n + (n + 2 + 63) / 64.
Definition mbit (s : singleton) (k : Z) : bool := Z.testbit (get (body s) (8 * count s + 4 * (k / 32)) 4) (k mod 32).
Lemma wfs_count : forall n s, wfs n s -> count s = n /\ maskSize s = (n + 2 + 63) / 64.
Proof.
  intros n s [H E]. unfold count, maskSize. destruct (Z.eqb_spec (slength s) 0); [lia|]. rewrite u32_id by lia. unfold cdiv. rewrite u32_id by lia.
  assert (X : (slength s + 2 + 65 - 1) / 65 = (n + 2 + 63) / 64) by lia. rewrite X. lia.
Qed.
Lemma store_ok : forall s a n v, 0 <= a -> a + n <= 8 * slength s -> store s a n v = Ok (Sng (slength s) (put (body s) a n v)).
Proof. intros. unfold store. replace (_ && _) with true by lia. reflexivity. Qed.
Lemma make_ok : forall n, 0 < n <= 65535 -> exists s, makeSingleton n = Ok s /\ wfs n s /\ (forall x, x < 8 * n -> body s x = 0) /\
  forall k, 0 <= k < n + 2 -> mbit s k = (k =? 0).
Proof.
  intros n Hn. unfold makeSingleton. destruct (Z.eqb_spec n 0); [lia|].
  assert (E : maskSizeFor n = (n + 2 + 63) / 64). { unfold maskSizeFor, cdiv. destruct (Z.eqb_spec n 0); [lia|]. rewrite !u32_id by (rewrite ?u32_id; lia). f_equal. lia. }
  rewrite E. set (s0 := Sng _ _). assert (W : wfs n s0) by (split; [exact Hn | reflexivity]). destruct (wfs_count _ _ W) as [C M].
  rewrite store_ok by (rewrite C; cbn [slength s0]; lia). eexists. split; [reflexivity|]. split; [split; [exact Hn | reflexivity]|].
  set (s1 := Sng _ _). assert (W1 : wfs n s1) by (split; [exact Hn | reflexivity]). destruct (wfs_count _ _ W1) as [C1 M1]. split.
  - intros x Hx. unfold s1. cbn [body]. rewrite put_out by lia. reflexivity.
  - intros k Hk. unfold mbit. rewrite C1. unfold s1. cbn [body]. rewrite C. destruct (Z_lt_ge_dec k 32).
    + replace (k / 32) with 0 by lia. rewrite Z.mul_0_r, Z.add_0_r, get_put by lia. change (1 mod 256 ^ 4) with (2 ^ 0). rewrite Z.pow2_bits_eqb by lia. replace (k mod 32) with k by lia. apply Z.eqb_sym.
    + rewrite get_put_out by lia. rewrite (get_ext 4 _ (fun _ => 0)) by (try lia; reflexivity). change (get (fun _ => 0) _ 4) with 0. rewrite Z.bits_0. lia.
Qed.
Lemma mark_singleton : forall n s i, wfs n s -> 0 <= i < n -> exists s', markObject s i = Ok s' /\ wfs n s' /\
  (forall x, x < 8 * n -> body s' x = body s x) /\ forall k, 0 <= k < n + 2 -> mbit s' k = mbit s k || (k =? i + 2).
Proof.
  intros n s i W Hi. destruct (wfs_count _ _ W) as [C M]. destruct W as [W1 W2]. unfold markObject. rewrite C.
  rewrite store_ok by lia. eexists. split; [reflexivity|]. set (s1 := Sng _ _). assert (W' : wfs n s1) by (split; [exact W1 | exact W2]). split; [exact W'|].
  destruct (wfs_count _ _ W') as [C1 M1]. split.
  - intros x Hx. unfold s1. cbn [body]. apply put_out. lia.
  - intros k Hk. unfold mbit. rewrite C, C1. unfold s1. cbn [body]. destruct (Z.eq_dec (k / 32) ((i + 2) / 32)) as [E | E].
    + rewrite E. rewrite get_put by lia. change (256 ^ 4) with (2 ^ 32). rewrite Z.mod_pow2_bits_low by lia. rewrite Z.lor_spec. f_equal. rewrite Z.pow2_bits_eqb by lia.
      destruct (Z.eqb_spec ((i + 2) mod 32) (k mod 32)), (Z.eqb_spec k (i + 2)); auto; lia.
    + rewrite get_put_out by lia. destruct (Z.eqb_spec k (i + 2)); [subst k; congruence|]. rewrite orb_false_r. reflexivity.
Qed.
Lemma store_value : forall n s a k v, wfs n s -> 0 <= a -> 0 <= k -> a + k <= 8 * n -> exists s', store s a k v = Ok s' /\ wfs n s' /\
  body s' = put (body s) a k v /\ forall j, 0 <= j < n + 2 -> mbit s' j = mbit s j.
Proof.
  intros n s a k v W Ha Hk Hn. destruct (wfs_count _ _ W) as [C M]. destruct W as [W1 W2]. rewrite store_ok by lia. eexists. split; [reflexivity|].
  set (s1 := Sng _ _). assert (W' : wfs n s1) by (split; [exact W1 | exact W2]). destruct (wfs_count _ _ W') as [C1 M1]. split; [exact W'|]. split; [reflexivity|].
  intros j Hj. unfold mbit. rewrite C, C1. unfold s1. cbn [body]. rewrite get_put_out by lia. reflexivity.
Qed.

Definition srefAt (l : list (field * Z)) (k : Z) : bool := existsb (fun x => isObject (code (fst x)) && (snd x / 8 =? k)) l.
Lemma pad_shift : forall n a, pow2size a -> 16 <= n < 2147483648 -> pad (n - 16) a = pad n a - 16.
Proof.
  intros n a Ha Hn. destruct (pad_ok n a Ha ltac:(lia)) as [A [q B]]. destruct (pad_ok (n - 16) a Ha ltac:(lia)) as [A' [q' B']].
  destruct Ha as [-> | [-> | [-> | ->]]]; lia.
Qed.
Lemma fill_ok : forall fs so mo os so' mo' n s, valid fs -> 16 <= so -> up8 so + 8 * Z.of_nat (length (statics fs)) <= 65535 -> offsets fs so mo = (os, so', mo') ->
  chained so (placedStatics fs os) so' -> so' <= 65535 -> so' - 16 <= 8 * n -> wfs n s ->
  exists s', fillStatics fs (so - 16) s = Ok s' /\ wfs n s' /\ (forall x, x < so - 16 -> body s' x = body s x) /\
  (forall f o, In (f, o) (placedStatics fs os) -> get (body s') (o - 16) (sizeOf (code f)) =
     match constant f with Some v => v mod 256 ^ sizeOf (code f) | None => get (body s) (o - 16) (sizeOf (code f)) end) /\
  forall k, 0 <= k < n + 2 -> mbit s' k = mbit s k || srefAt (placedStatics fs os) k.
Proof.
  induction fs as [|f fs IH]; intros so mo os so' mo' n s V Hso B0 E CH B1 B2 W.
  - cbn in E. inversion E; subst. cbn [fillStatics]. exists s. split; [reflexivity|]. split; [exact W|]. split; [reflexivity|]. split; [intros ? ? []|].
    intros. cbn. rewrite orb_false_r. reflexivity.
  - assert (V' : valid fs) by (intros g Hg; apply V; right; exact Hg). assert (Vf : code f <> FVoid) by (apply V; left; reflexivity).
    pose proof (size_pow2 _ Vf) as P. assert (Sz : 1 <= fieldSize (code f) <= 8) by (unfold pow2size in P; lia).
    pose proof (up8_le so). unfold statics in B0. cbn [filter] in B0.
    cbn [offsets] in E. cbn [fillStatics]. destruct (static f) eqn:Sf; [cbn [length] in B0; rewrite Nat2Z.inj_succ in B0|]; fold (statics fs) in B0.
    + destruct (offsets fs _ mo) as [[os1 so1] mo1] eqn:E1. inversion E; subst os so1 mo1. clear E.
      unfold placedStatics in CH |- *. cbn [combine filter fst] in CH |- *. rewrite Sf in CH |- *. fold (placedStatics fs os1) in CH |- *. cbn [chained] in CH.
      destruct (pad_ok so _ P ltac:(lia)) as [Q1 Q2]. rewrite (pad_shift so _ P) by lia. pose proof (step8 so _ P ltac:(lia)) as Q3. pose proof (up8_le (pad so (fieldSize (code f)) + fieldSize (code f))).
      destruct CH as [D1 [D2 [D3 D4]]]. pose proof (chained_le _ _ _ D4) as D5. rewrite u16_id in * by lia. rewrite u32_id in E1 by (rewrite size_eq in *; lia).
      rewrite size_eq in *. set (sz := sizeOf (code f)) in *. set (p := pad so sz) in *.
      assert (S1 : exists s1, match constant f with Some v => match code f with FVoid => Abort | _ => store s (p - 16) sz v end | None => Ok s end = Ok s1 /\ wfs n s1 /\
        (forall x, x < p - 16 \/ p - 16 + sz <= x < 8 * n -> body s1 x = body s x) /\
        get (body s1) (p - 16) sz = match constant f with Some v => v mod 256 ^ sz | None => get (body s) (p - 16) sz end /\ forall j, 0 <= j < n + 2 -> mbit s1 j = mbit s j).
      { destruct (constant f) as [v|].
        - destruct (store_value n s (p - 16) sz v W) as [s1 [F1 [F2 [F3 F4]]]]; try lia. exists s1. split; [destruct (code f); try exact F1; congruence|].
          split; [exact F2|]. rewrite F3. split; [intros; apply put_out; lia|]. split; [apply get_put; lia | exact F4].
        - exists s. repeat split; auto; apply W. }
      destruct S1 as [s1 [F1 [F2 [F3 [F4 F5]]]]]. rewrite F1. cbn [bind].
      assert (S2 : exists s2, (if isObject (code f) then markObject s1 ((p - 16) / 8) else Ok s1) = Ok s2 /\ wfs n s2 /\ (forall x, x < 8 * n -> body s2 x = body s1 x) /\
        forall k, 0 <= k < n + 2 -> mbit s2 k = mbit s1 k || (isObject (code f) && (p / 8 =? k))).
      { destruct (isObject (code f)) eqn:Ob.
        - assert (sz = 8) by (unfold sz; destruct (code f); try discriminate; reflexivity). destruct (mark_singleton n s1 ((p - 16) / 8) F2 ltac:(lia)) as [s2 [G1 [G2 [G3 G4]]]].
          exists s2. repeat split; auto; try apply G2. intros k Hk. rewrite G4 by lia. f_equal. cbn. lia.
        - exists s1. repeat split; auto; try apply F2. intros. rewrite orb_false_r. reflexivity. }
      destruct S2 as [s2 [G1 [G2 [G3 G4]]]]. rewrite G1. cbn [bind]. rewrite u32_id by lia. replace (p - 16 + sz) with (p + sz - 16) by lia.
      destruct (IH (p + sz) mo os1 so' mo' n s2 V' ltac:(lia) ltac:(lia) E1 D4 B1 B2 G2) as [s' [H1 [H2 [H3 [H4 H5]]]]].
      exists s'. split; [exact H1|]. split; [exact H2|]. split; [intros x Hx; rewrite H3, G3, F3 by lia; reflexivity|]. split.
      * intros g o [Eg | HI].
        -- inversion Eg; subst g o. fold sz. rewrite <- F4. apply get_ext; [lia|]. intros x Hx. rewrite H3, G3 by lia. reflexivity.
        -- rewrite (H4 _ _ HI). destruct (constant g); [reflexivity|]. destruct (chained_in _ _ _ _ _ D4 HI) as [I1 [I2 _]].
           assert (0 <= sizeOf (code g)) by (destruct (code g); cbn; lia).
           apply get_ext; [lia|]. intros x Hx. rewrite G3, F3 by lia. reflexivity.
      * intros k Hk. rewrite H5, G4, F5 by lia. unfold srefAt at 2. cbn [existsb fst snd]. fold (srefAt (placedStatics fs os1) k). rewrite <- orb_assoc. reflexivity.
    + destruct (offsets fs so _) as [[os1 so1] mo1] eqn:E1. inversion E; subst os so1 mo1. clear E.
      unfold placedStatics in CH |- *. cbn [combine filter fst] in CH |- *. rewrite Sf in CH |- *. fold (placedStatics fs os1) in CH |- *.
      eapply IH; eauto.
Qed.

Lemma upto_nth : forall a b k, 0 <= k < b - a -> nth_error (upto a b) (Z.to_nat k) = Some (a + k).
Proof.
  intros a b k H. unfold upto. rewrite nth_error_map.
  assert (S1 : forall n s i, (i < n)%nat -> nth_error (seq s n) i = Some (s + i)%nat).
  { clear. induction n as [|n IH]; intros s i L; [lia|]. destruct i; cbn; [f_equal; lia|]. rewrite IH by lia. f_equal. lia. }
  rewrite S1 by lia. cbn. f_equal. lia.
Qed.
Lemma upto_length : forall a b, length (upto a b) = Z.to_nat (b - a).
Proof. intros. unfold upto. rewrite map_length, seq_length. reflexivity. Qed.
Lemma mask_words : forall n s, wfs n s -> n + 2 <= bits (maskWords s) /\ forall k, 0 <= k < n + 2 -> bit (maskWords s) k = mbit s k.
Proof.
  intros n s W. destruct (wfs_count _ _ W) as [C M]. destruct W as [W1 W2]. unfold bits, maskWords. rewrite map_length, upto_length, M. split; [lia|].
  intros k Hk. unfold bit, mbit. rewrite nth_error_map, upto_nth by lia. cbn [option_map]. rewrite Z.add_0_l. reflexivity.
Qed.
Lemma walk_singleton : forall n s start, wfs n s -> n <= 8189 -> 0 <= start ->
  walkSingleton s start = Ok (filter (mbit s) (upto start (n + 2))).
Proof.
  intros n s start W Hn Hs. destruct (mask_words _ _ W) as [M1 M2]. destruct (wfs_count _ _ W) as [C M]. unfold walkSingleton. rewrite C.
  assert (0 < n <= 65535 /\ slength s = n + (n + 2 + 63) / 64) as [W1 W2] by exact W.
  destruct (Z.eqb_spec (slength s) 0); [lia|]. rewrite walk_plain by lia. replace (((n + 2) * 8 + 7) / 8) with (n + 2) by lia. f_equal.
  apply filter_ext_in. intros k Hk. apply in_upto in Hk. apply M2. lia.
Qed.

Lemma in_combine_nth : forall {A B} (l : list A) (l' : list B) k a b, nth_error l k = Some a -> nth_error l' k = Some b -> In (a, b) (combine l l').
Proof.
  induction l as [|x l IH]; intros [|y l'] [|k] a b H H'; cbn in *; try discriminate; [left; congruence | right; eapply IH; eauto].
Qed.
Lemma static_ok : forall self fs mo os so' mo', valid fs -> Z.of_nat (length (statics fs)) <= 8188 -> offsets fs 24 mo = (os, so', mo') ->
  chained 24 (placedStatics fs os) so' -> up8 so' <= 24 + 8 * Z.of_nat (length (statics fs)) -> length os = length fs ->
  exists st, staticTable self fs so' = Ok st /\
  match st with
  | None => statics fs = []
  | Some s => statics fs <> [] /\ goodLayout 24 (16 + 8 * count s) (placedStatics fs os) /\ count s <= slength s /\
      get (body s) 0 8 = self mod 2 ^ 64 /\
      (forall f o, In (f, o) (placedStatics fs os) ->
         get (body s) (o - 16) (sizeOf (code f)) = match constant f with Some v => v mod 256 ^ sizeOf (code f) | None => 0 end) /\
      forall start, 0 <= start -> exists r, walkSingleton s start = Ok r /\ ascending r /\
        forall i, In i r <-> start <= i /\ (i = 0 \/ i = 2 \/ holdsReference (placedStatics fs os) i)
  end.
Proof.
  intros self fs mo os so' mo' V Hc E CH B L. unfold staticTable. destruct (existsb static fs) eqn:Ex.
  - assert (NE : statics fs <> []). { apply existsb_exists in Ex. destruct Ex as [f [Hf Sf]]. intros N. assert (In f (statics fs)) by (apply filter_In; auto). rewrite N in H. destruct H. }
    assert (NP : placedStatics fs os <> []).
    { apply existsb_exists in Ex. destruct Ex as [f [Hf Sf]]. apply In_nth_error in Hf. destruct Hf as [k Hk].
      assert (Hk' : (k < length os)%nat) by (rewrite L; apply nth_error_Some; congruence). destruct (nth_error_lt_ex os k Hk') as [o Ho].
      pose proof (in_combine_nth _ _ _ _ _ Hk Ho) as HI.
      intros N. assert (In (f, o) (placedStatics fs os)) by (apply filter_In; auto). rewrite N in H. destruct H. }
    pose proof (chained_le _ _ _ CH) as B1. pose proof (up8_le so') as U. assert (B2 : 25 <= so').
    { destruct (placedStatics fs os) as [|[f o] l]; [congruence|]. cbn in CH. destruct CH as [A1 [_ [A2 A3]]]. apply chained_le in A3. lia. }
    rewrite u32_id by lia. unfold cdiv. rewrite u32_id by lia. set (n := (so' - 16 + 8 - 1) / 8).
    assert (Hn : 0 < n <= 8189) by (unfold n; lia). assert (Hn2 : so' - 16 <= 8 * n) by (unfold n; lia).
    destruct (make_ok n ltac:(lia)) as [s0 [E0 [W0 [Z0 M0]]]]. rewrite E0. cbn [bind].
    destruct (store_value n s0 0 8 self W0) as [s1 [E1 [W1 [P1 M1]]]]; try lia. rewrite E1. cbn [bind].
    destruct (mark_singleton n s1 0 W1 ltac:(lia)) as [s2 [E2 [W2 [P2 M2]]]]. rewrite E2. cbn [bind].
    change 8 with (24 - 16) at 1.
    destruct (fill_ok fs 24 mo os so' mo' n s2 V ltac:(lia) ltac:(change (up8 24) with 24; lia) E CH ltac:(lia) Hn2 W2) as [s3 [E3 [W3 [P3 [V3 M3]]]]].
    rewrite E3. cbn [bind]. eexists. split; [reflexivity|]. cbv iota. destruct (wfs_count _ _ W3) as [C3 _]. rewrite C3.
    assert (slength s3 = n + (n + 2 + 63) / 64) as L3 by apply W3.
    split; [exact NE|]. split; [|split; [lia|split; [|split]]].
    + destruct (chained_good _ _ _ CH) as [G1 G2]. split; [|exact G2]. intros f o HI. destruct (G1 f o HI) as [A1 [A2 A3]]. repeat split; auto. lia.
    + transitivity (get (body s1) 0 8). { apply get_ext; [lia|]. intros x Hx. rewrite P3, P2 by lia. reflexivity. }
      rewrite P1, get_put by lia. reflexivity.
    + intros f o HI. rewrite (V3 f o HI). destruct (constant f); [reflexivity|]. destruct (chained_in _ _ _ _ _ CH HI) as [I1 [I2 _]].
      assert (0 <= sizeOf (code f)) by (destruct (code f); cbn; lia).
      transitivity (get (fun _ => 0) (o - 16) (sizeOf (code f))).
      * apply get_ext; [lia|]. intros x Hx. rewrite P2, P1 by lia. rewrite put_out by lia. apply Z0. lia.
      * destruct (code f); reflexivity.
    + intros start Hs. rewrite (walk_singleton n) by (auto; lia). eexists. split; [reflexivity|]. split; [apply asc_filter, upto_asc|].
      assert (MB : forall k, 0 <= k < n + 2 -> mbit s3 k = (k =? 0) || (k =? 2) || srefAt (placedStatics fs os) k).
      { intros k Hk. rewrite M3, M2, M1, M0 by lia. reflexivity. }
      assert (SR : forall k, srefAt (placedStatics fs os) k = true <-> holdsReference (placedStatics fs os) k).
      { intros k. unfold srefAt. rewrite existsb_exists. split.
        - intros [[f o] [HI Hx]]. cbn in Hx. apply andb_true_iff in Hx. destruct Hx as [X1 X2]. assert (C : code f = FObject) by (destruct (code f); try discriminate; reflexivity).
          destruct (chained_in _ _ _ _ _ CH HI) as [_ [_ [q D]]]. rewrite C in D. cbn in D. exists f. split; [|exact C]. replace (8 * k) with o by lia. exact HI.
        - intros [f [HI C]]. exists (f, 8 * k). split; [exact HI|]. cbn. rewrite C. cbn. lia. }
      intros i. rewrite filter_In, in_upto. split.
      * intros [A1 A2]. split; [lia|]. rewrite MB in A2 by lia. apply orb_true_iff in A2. destruct A2 as [A2 | A2]; [lia|]. right. right. apply SR. exact A2.
      * intros [A1 A2]. assert (BB : 0 <= i < n + 2 /\ ((i =? 0) || (i =? 2) || srefAt (placedStatics fs os) i) = true).
        { destruct A2 as [-> | [-> | A2]]; [split; [lia | reflexivity] | split; [lia | reflexivity]|].
          pose proof A2 as A3. apply SR in A2. rewrite A2, orb_true_r. destruct A3 as [f [HI C]]. destruct (chained_in _ _ _ _ _ CH HI) as [I1 [I2 _]]. rewrite C in I2. cbn in I2. split; [lia | reflexivity]. }
        destruct BB as [BB1 BB2]. rewrite MB by exact BB1. split; [lia | exact BB2].
  - eexists. split; [reflexivity|]. cbv iota. unfold statics. apply filter_none. intros f Hf. destruct (static f) eqn:Sf; [|reflexivity].
    assert (existsb static fs = true) by (apply existsb_exists; eauto). congruence.
Qed.

(** ** One class, and a chain of classes *)
Lemma parse_ok : forall self super l fs, superFor super l -> valid fs -> Z.of_nat (length (statics fs)) <= 8188 ->
  up8 (superSize super) + 8 * Z.of_nat (length (instances fs)) <= 65535 ->
  exists os c st, parseFieldTable self super fs = Ok (os, c, st) /\ length os = length fs /\
    chained (superSize super) (placedInstances fs os) (fixedSize c) /\ classFor c (l ++ placedInstances fs os) /\
    up8 (fixedSize c) <= up8 (superSize super) + 8 * Z.of_nat (length (instances fs)) /\
    match st with
  | None => statics fs = []
  | Some s => statics fs <> [] /\ goodLayout 24 (16 + 8 * count s) (placedStatics fs os) /\ count s <= slength s /\
      get (body s) 0 8 = self mod 2 ^ 64 /\
      (forall f o, In (f, o) (placedStatics fs os) ->
         get (body s) (o - 16) (sizeOf (code f)) = match constant f with Some v => v mod 256 ^ sizeOf (code f) | None => 0 end) /\
      forall start, 0 <= start -> exists r, walkSingleton s start = Ok r /\ ascending r /\
        forall i, In i r <-> start <= i /\ (i = 0 \/ i = 2 \/ holdsReference (placedStatics fs os) i)
  end.
Proof.
  intros self super l fs HS V Hs Hi. unfold parseFieldTable. fold (superSize super).
  assert (B8 : 8 <= superSize super) by (destruct super as [s|]; cbn in *; [destruct HS as [HS _]; apply chained_le in HS; exact HS | lia]).
  pose proof (offsets_ok fs 24 (superSize super) V ltac:(lia) ltac:(lia) ltac:(change (up8 24) with 24; lia) Hi) as O.
  destruct (offsets fs 24 (superSize super)) as [[os so'] mo'] eqn:E. destruct O as [O1 [O2 [O3 [O4 O5]]]]. change (up8 24) with 24 in O4.
  destruct (static_ok self fs _ os so' mo' V Hs E O2 O4 O1) as [st [S1 S2]]. rewrite S1. cbn [bind]. pose proof (up8_le mo').
  destruct (parseMask_ok super l mo' (combine fs os) HS O3 ltac:(lia)) as [c [P1 [P2 P3]]]. rewrite P1. cbn [bind].
  exists os, c, st. subst mo'. repeat (split; auto).
Qed.
Definition validChain (chain : list (list field)) : Prop := forall fs, In fs chain -> valid fs /\ Z.of_nat (length (statics fs)) <= 8188.
Lemma chain_ok : forall chain super l, superFor super l -> validChain chain -> up8 (superSize super) + 8 * instanceCount chain <= 65535 ->
  exists offs c, loadChain super chain = Ok (offs, c) /\ map (@length Z) offs = map (@length field) chain /\ superFor c (l ++ placedChain chain offs) /\
    up8 (superSize c) <= up8 (superSize super) + 8 * instanceCount chain /\ (chain <> [] -> exists d, c = Some d).
Proof.
  induction chain as [|fs chain IH]; intros super l HS V B.
  - exists [], super. cbn. rewrite app_nil_r. repeat split; auto. unfold instanceCount; cbn. lia. congruence.
  - destruct (V fs (or_introl eq_refl)) as [V1 V2]. unfold instanceCount in *. cbn [concat] in *. unfold instances in *. rewrite filter_app, app_length, Nat2Z.inj_add in *.
    destruct (parse_ok 0 super l fs HS V1 V2) as [os [c [st [P1 [P2 [P3 [P4 [P5 _]]]]]]]]; [unfold instances; lia|]. cbn [loadChain]. rewrite P1. cbn [bind].
    destruct (IH (Some c) (l ++ placedInstances fs os) P4) as [offs [c' [Q1 [Q2 [Q3 [Q4 Q5]]]]]]; [intros g Hg; apply V; right; exact Hg | cbn [superSize]; unfold instances in *; lia|].
    rewrite Q1. cbn [bind]. exists (os :: offs), c'. split; [reflexivity|]. split; [cbn; congruence|]. split; [cbn [placedChain]; rewrite app_assoc; exact Q3|].
    split; [cbn [superSize] in Q4; unfold instances in *; lia|]. intros _. destruct chain; [|apply Q5; discriminate]. cbn in Q1. inversion Q1. eauto.
Qed.
