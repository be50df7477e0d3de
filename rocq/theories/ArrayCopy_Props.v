(** Properties of System.arraycopy.  Its promise is in ArrayCopy_Spec. *)
From Coq Require Import ZArith Lia Bool List.
Import ListNotations.
From Verif Require Import ArrayCopy_Model ArrayCopy_Spec ArrayCopy_Proofs.
Local Open Scope Z_scope.

(** C115: between arrays of one class, or two arrays of references, with ranges inside them,
    the elements of the range are copied, also when source and destination are the same array
    and overlap; nothing else changes; and every reference stored is reported to the collector. *)
Theorem array_copy_copies : forall s d so d0 n, wellFormed s -> wellFormed d -> alike (aClass s) (aClass d) ->
  0 <= n -> inside s d so d0 n ->
  exists b m, arrayCopy (Some s) so (Some d) d0 n = Copied b m /\
    copied (arrayElementSize (aClass d)) (aBody s) so (aBody d) b d0 n /\
    (objectMask (aClass d) = true -> reported (arrayElementSize (aClass d)) (aBody d) b m).
Proof.
  intros s d so d0 n [Es [Ls [Bs Ws]]] [Ed [Ld [Bd Wd]]] Ha Hn [I1 [I2 [I3 I4]]].
  unfold arrayCopy. rewrite (compatible_alike s d Es Ed Ha). cbn [negb].
  pose proof (alike_size _ _ Ha) as Hes.
  replace (arrayElementSize (aClass s) =? 0) with false by (symmetry; apply Z.eqb_neq; lia).
  rewrite Hes in *. set (es := arrayElementSize (aClass d)) in *.
  destruct (Z.ltb_spec 0 n) as [Hpos|Hz].
  2:{ replace (n <? 0) with false by (symmetry; apply Z.ltb_ge; lia). eexists. eexists. split; [reflexivity|]. split.
      - split; [reflexivity|]. intros i Hi. replace ((d0 <=? i) && (i <? d0 + n)) with false; [reflexivity|].
        symmetry. rewrite andb_false_iff, Z.leb_gt, Z.ltb_ge. lia.
      - intros _ i Hi H. contradiction. }
  replace (0 <=? so) with true by (symmetry; apply Z.leb_le; lia). cbn [negb].
  replace (intMax <? so + n) with false by (symmetry; apply Z.ltb_ge; lia).
  replace ((so <? so + n) && (so + n <=? aLength s) && (0 <=? d0)) with true.
  2:{ symmetry. rewrite !andb_true_iff, Z.ltb_lt, !Z.leb_le. lia. }
  cbn [negb]. replace (intMax <? d0 + n) with false by (symmetry; apply Z.ltb_ge; lia).
  replace ((d0 <? d0 + n) && (d0 + n <=? aLength d)) with true.
  2:{ symmetry. rewrite !andb_true_iff, Z.ltb_lt, !Z.leb_le. lia. }
  cbn [negb].
  assert (P1 : (so + n) * es <= aLength s * es) by (apply Z.mul_le_mono_nonneg_r; lia).
  assert (P2 : (d0 + n) * es <= aLength d * es) by (apply Z.mul_le_mono_nonneg_r; lia).
  assert (P3 : 0 <= so * es) by (apply Z.mul_nonneg_nonneg; lia).
  assert (P4 : 0 <= d0 * es) by (apply Z.mul_nonneg_nonneg; lia).
  assert (P5 : 0 <= n * es) by (apply Z.mul_nonneg_nonneg; lia).
  assert (D1 := Z.mul_add_distr_r so n es). assert (D2 := Z.mul_add_distr_r d0 n es).
  rewrite !mul32_small by lia. unfold copyBytes, len.
  replace ((so * es + n * es <=? Z.of_nat (length (aBody s))) && (d0 * es + n * es <=? Z.of_nat (length (aBody d)))) with true.
  2:{ symmetry. rewrite andb_true_iff, !Z.leb_le. lia. }
  assert (C : copied es (aBody s) so (aBody d)
    (firstn (Z.to_nat (d0 * es)) (aBody d) ++ firstn (Z.to_nat (n * es)) (skipn (Z.to_nat (so * es)) (aBody s))
      ++ skipn (Z.to_nat (d0 * es + n * es)) (aBody d)) d0 n).
  { apply splice_ok; auto; unfold len; lia. }
  eexists. eexists. split; [reflexivity|]. split; [exact C|].
  intros Hm i Hi Hne. rewrite Hm. exists (d0, n). split; [reflexivity|]. cbn [fst snd].
  destruct C as [_ C]. rewrite C in Hne by lia.
  destruct ((d0 <=? i) && (i <? d0 + n)) eqn:E; [|contradiction].
  rewrite andb_true_iff, Z.leb_le, Z.ltb_lt in E. lia.
Qed.

(** C115: a negative length, and a range that leaves its array, throw, and change nothing
    (offsets and lengths whose sum is an int, see C116). *)
Theorem array_copy_rejects : forall s d so d0 n, wellFormed s -> wellFormed d -> alike (aClass s) (aClass d) ->
  n <> 0 -> so + n <= intMax -> d0 + n <= intMax -> n < 0 \/ ~ inside s d so d0 n ->
  arrayCopy (Some s) so (Some d) d0 n = Thrown IndexOutOfBounds.
Proof.
  intros s d so d0 n [Es [Ls [Bs Ws]]] [Ed [Ld [Bd Wd]]] Ha Hn0 M1 M2 Hbad.
  unfold arrayCopy. rewrite (compatible_alike s d Es Ed Ha). cbn [negb].
  replace (arrayElementSize (aClass s) =? 0) with false by (symmetry; apply Z.eqb_neq; lia).
  destruct (Z.ltb_spec 0 n) as [Hpos|Hz].
  2:{ replace (n <? 0) with true by (symmetry; apply Z.ltb_lt; lia). reflexivity. }
  destruct (Z.leb_spec 0 so); [|reflexivity]. cbn [negb].
  replace (intMax <? so + n) with false by (symmetry; apply Z.ltb_ge; lia).
  destruct ((so <? so + n) && (so + n <=? aLength s) && (0 <=? d0)) eqn:E; [|reflexivity]. cbn [negb].
  replace (intMax <? d0 + n) with false by (symmetry; apply Z.ltb_ge; lia).
  destruct ((d0 <? d0 + n) && (d0 + n <=? aLength d)) eqn:E2; [|reflexivity].
  exfalso. rewrite !andb_true_iff, !Z.ltb_lt, !Z.leb_le in *. unfold inside in Hbad. lia.
Qed.

(** C115: null is rejected, and so is what is not an array. *)
Theorem array_copy_rejects_null : forall s d so d0 n, s = None \/ d = None ->
  arrayCopy s so d d0 n = Thrown NullPointer.
Proof. intros [s|] [d|] so d0 n [H|H]; try discriminate; reflexivity. Qed.
Theorem array_copy_rejects_objects : forall s d so d0 n,
  arrayElementSize (aClass s) = 0 \/ arrayElementSize (aClass d) = 0 ->
  arrayCopy (Some s) so (Some d) d0 n = Thrown ArrayStore.
Proof.
  intros s d so d0 n H. unfold arrayCopy, compatibleArrayTypes.
  destruct H as [->| ->]; simpl; [reflexivity|]. rewrite andb_false_r. reflexivity.
Qed.

(** An overlapping copy within one array of shorts: elements 0-2 to 1-3. *)
Definition shorts := Array shortArray 4 [1;0; 2;0; 3;0; 4;0].
Example shorts_well_formed : wellFormed shorts /\ alike (aClass shorts) (aClass shorts) /\ inside shorts shorts 0 1 3.
Proof. unfold wellFormed, alike, inside, intMax; cbn; repeat split; try lia; auto. Qed.
Example overlapping_copy : arrayCopy (Some shorts) 0 (Some shorts) 1 3 = Copied [1;0; 1;0; 2;0; 3;0] None.
Proof. reflexivity. Qed.
Example range_too_long : arrayCopy (Some shorts) 2 (Some shorts) 0 3 = Thrown IndexOutOfBounds.
Proof. reflexivity. Qed.

(** C116, refuted: a copy never writes outside the destination, whatever the arrays. *)
Definition array_copy_is_safe := forall s d so d0 n, wellFormed s -> wellFormed d ->
  - intMax - 1 <= so <= intMax -> - intMax - 1 <= d0 <= intMax -> - intMax - 1 <= n <= intMax ->
  arrayCopy (Some s) so (Some d) d0 n <> Undefined.
(** An int[4] copied to a byte[4] writes sixteen bytes into a body of four. *)
Theorem copy_between_primitive_arrays_overflows_refuted : ~ array_copy_is_safe.
Proof.
  intro H. refine (H (Array intArray 4 (repeat 7 16)) (Array byteArray 4 (repeat 0 4)) 0 0 4 _ _ _ _ _ _);
    try (unfold wellFormed, intMax; cbn; lia). vm_compute. reflexivity.
Qed.
(** Even within one array, an offset and a length whose sum is not an int are undefined. *)
Theorem copy_length_overflows_refuted :
  ~ (forall s so d0 n, wellFormed s -> - intMax - 1 <= so <= intMax -> - intMax - 1 <= d0 <= intMax ->
     - intMax - 1 <= n <= intMax -> arrayCopy (Some s) so (Some s) d0 n <> Undefined).
Proof.
  intro H. refine (H shorts 1 0 intMax _ _ _ _ _); try (unfold wellFormed, intMax; cbn; lia). vm_compute. reflexivity.
Qed.

(** C117, refuted: arrays of different element types are refused, and an array of references
    holds only instances of its element class. *)
Definition different_types_are_refused := forall s d so d0 n, wellFormed s -> wellFormed d ->
  classId (aClass s) <> classId (aClass d) -> objectMask (aClass s) && objectMask (aClass d) = false ->
  arrayCopy (Some s) so (Some d) d0 n = Thrown ArrayStore.
(** A long becomes a reference: a long[1] is copied to an Object[1]. *)
Theorem long_becomes_a_reference_refuted : ~ different_types_are_refused.
Proof.
  intro H. specialize (H (Array longArray 1 (repeat 65 8)) (Array (refArray 1) 1 (repeat 0 8)) 0 0 1).
  assert (arrayCopy (Some (Array longArray 1 (repeat 65 8))) 0 (Some (Array (refArray 1) 1 (repeat 0 8))) 0 1
          = Copied (repeat 65 8) (Some (0, 1))) as E by (vm_compute; reflexivity).
  rewrite E in H. discriminate H; try (unfold wellFormed, intMax; cbn; lia); cbn; auto; lia.
Qed.
(** [instance r c]: the reference whose bytes are [r] is null or an instance of the element
    class of the array class [c]. *)
Definition holds (instance : list Z -> Z -> Prop) (c : class) (n : Z) (body : list Z) : Prop :=
  forall i, 0 <= i < n -> instance (element 8 body i) (classId c).
Definition arrays_hold_their_class := forall instance s d so d0 n b m,
  wellFormed s -> wellFormed d -> objectMask (aClass s) = true -> objectMask (aClass d) = true ->
  holds instance (aClass s) (aLength s) (aBody s) -> holds instance (aClass d) (aLength d) (aBody d) ->
  arrayCopy (Some s) so (Some d) d0 n = Copied b m -> holds instance (aClass d) (aLength d) b.
(** A String, in an Object[1], is copied to an Integer[1]. *)
Theorem element_types_are_not_checked_refuted : ~ arrays_hold_their_class.
Proof.
  intro H.
  set (instance := fun (r : list Z) (c : Z) => c = 9 \/ r = repeat 0 8).
  specialize (H instance (Array (refArray 1) 1 (repeat 5 8)) (Array (refArray 2) 1 (repeat 0 8)) 0 0 1 (repeat 5 8) (Some (0, 1))).
  assert (K : holds instance (refArray 2) 1 (repeat 5 8)).
  { apply H; try (unfold wellFormed, intMax; cbn; lia); try reflexivity.
    - intros i Hi. left. reflexivity.
    - intros i Hi. right. replace i with 0 by (cbn in Hi; lia). reflexivity. }
  specialize (K 0 ltac:(lia)). destruct K as [K|K]; vm_compute in K; discriminate.
Qed.
(** A length of zero is accepted with offsets that are not in the arrays. *)
Theorem empty_range_is_not_checked_refuted :
  ~ (forall s d so d0 n, wellFormed s -> wellFormed d -> alike (aClass s) (aClass d) -> so + n <= intMax -> d0 + n <= intMax ->
     ~ inside s d so d0 n -> arrayCopy (Some s) so (Some d) d0 n = Thrown IndexOutOfBounds).
Proof.
  intro H. specialize (H shorts shorts (-1) 9 0). discriminate H; try (unfold wellFormed, intMax; cbn; lia).
  - left. reflexivity.
  - unfold inside. lia.
Qed.

Definition ArrayCopy_theorems := (array_copy_copies, array_copy_rejects, array_copy_rejects_null, array_copy_rejects_objects,
  copy_between_primitive_arrays_overflows_refuted, copy_length_overflows_refuted, long_becomes_a_reference_refuted,
  element_types_are_not_checked_refuted, empty_range_is_not_checked_refuted).
Print Assumptions ArrayCopy_theorems.
