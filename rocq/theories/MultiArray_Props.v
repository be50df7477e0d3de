(** multianewarray: what a program can rely on. *)
From Coq Require Import List NArith ZArith Arith Bool Lia.
From Verif Require Import ClassLoad_Spec Alloc_Model MultiArray_Model MultiArray_Spec MultiArray_Proofs.
Import ListNotations.
Local Open Scope nat_scope.

Lemma nonneg_check : forall counts, (forall c, In c counts -> (0 <= c)%Z) ->
  existsb (fun c => (c <? 0)%Z) (rev counts) = false.
Proof.
  intros counts P. destruct (existsb _ (rev counts)) eqn:E; [|reflexivity]. exfalso.
  apply existsb_exists in E. destruct E as [x [I X]]. apply in_rev in I. apply P in I. apply Z.ltb_lt in X. lia.
Qed.

Lemma multianewarray_good : forall t counts h,
  counts <> [] -> length counts <= rank t -> (forall c, In c counts -> (0 <= c)%Z) ->
  exists h', multianewarray t counts h = Array (length h) h' /\
    (forall x, x < length h -> nth_error h' x = nth_error h x) /\
    good (arrayBytes 16 8 (hd 0%Z counts)) h' counts t (length h) (length h').
Proof.
  intros t [|c cs] h NE K P; [congruence|]. unfold multianewarray. rewrite (nonneg_check _ P). cbn [hd newArray].
  set (nw := mkArr t c (arrayBytes 16 8 c) (fun _ => None)).
  destruct (populate_ok (c :: cs) c cs t (length h) (h ++ [nw]) nw eq_refl P K) as [h' [E [_ [U G]]]]; try reflexivity.
  - rewrite app_length; cbn; lia.
  - rewrite nth_error_app2, Nat.sub_diag by lia. reflexivity.
  - rewrite E. exists h'. split; [reflexivity|]. split; [|exact G].
    intros x X. rewrite U by exact X. apply nth_error_app1; exact X.
Qed.

(** C149. For every type of enough dimensions and every counts not below zero: the new array is full. Every sequence of
    indices within the counts leads to an array, of the type with as many dimensions less and of the length asked for;
    the elements of the arrays of the last level are null (or zero); and no object that was there before is changed. *)
Theorem multianewarray_full : forall t counts h,
  counts <> [] -> length counts <= rank t -> (forall c, In c counts -> (0 <= c)%Z) ->
  exists a h', multianewarray t counts h = Array a h' /\
    (forall x, x < length h -> nth_error h' x = nth_error h x) /\
    forall path, leads counts path ->
      exists b r, reach h' a path = Some b /\ length h <= b /\ nth_error h' b = Some r /\
        a_type r = below (length path) t /\ a_length r = nth (length path) counts 0%Z /\
        (S (length path) = length counts -> forall i, a_refs r i = None).
Proof.
  intros t counts h NE K P. destruct (multianewarray_good t counts h NE K P) as [h' [E [U G]]].
  exists (length h), h'. split; [exact E|]. split; [exact U|]. intros path Lp.
  destruct (good_reach _ _ _ _ _ _ _ G Lp) as [b [r [H1 [H2 [H3 [H4 [H5 [H6 [H7 H8]]]]]]]]].
  exists b, r. repeat (split; [assumption|]). exact H8.
Qed.

(** C149. No two sequences of indices lead to one array: rows are not shared. *)
Theorem multianewarray_unshared : forall t counts h a h',
  counts <> [] -> length counts <= rank t -> multianewarray t counts h = Array a h' ->
  forall p q, leads counts p -> leads counts q -> reach h' a p = reach h' a q -> p = q.
Proof.
  intros t counts h a h' NE K E p q Lp Lq Q.
  assert (P : forall c, In c counts -> (0 <= c)%Z).
  { intros c I. unfold multianewarray in E. destruct (existsb _ (rev counts)) eqn:X; [discriminate E|].
    destruct (Z.lt_ge_cases c 0) as [L|L]; [|exact L]. exfalso.
    assert (existsb (fun c => (c <? 0)%Z) (rev counts) = true); [|congruence].
    apply existsb_exists. exists c. split; [apply in_rev; rewrite rev_involutive; exact I|apply Z.ltb_lt; exact L]. }
  destruct (multianewarray_good t counts h NE K P) as [h1 [E1 [_ G]]].
  rewrite E in E1. inversion E1; subst a h1. exact (good_inj _ _ _ _ _ _ _ _ G Lp Lq Q).
Qed.

(** C149. NegativeArraySizeException exactly if a count is below zero, whichever it is, even if no array of that length
    would have been needed. *)
Theorem multianewarray_negative : forall t counts h, counts <> [] -> length counts <= rank t ->
  (multianewarray t counts h = NegativeSize <-> exists c, In c counts /\ (c < 0)%Z).
Proof.
  intros t counts h NE K. split.
  - intro E. destruct (existsb (fun c => (c <? 0)%Z) (rev counts)) eqn:X.
    + apply existsb_exists in X. destruct X as [c [I L]]. exists c. split; [apply in_rev; exact I|apply Z.ltb_lt; exact L].
    + unfold multianewarray in E. rewrite X in E. destruct (newArray t (hd 0%Z counts) (hd 0%Z counts) h) as [a h1].
      destruct (populate counts t a h1); discriminate E.
  - intros [c [I L]]. unfold multianewarray.
    assert (X : existsb (fun c => (c <? 0)%Z) (rev counts) = true).
    { apply existsb_exists. exists c. split; [apply in_rev; rewrite rev_involutive; exact I|apply Z.ltb_lt; exact L]. }
    rewrite X. reflexivity.
Qed.

(** C150, as far as it holds. The memory of every array made covers header and elements, if no count asks for more than 4
    GiB less 40 bytes of elements. *)
Theorem multianewarray_memory_partial : forall t counts h a h',
  counts <> [] -> length counts <= rank t -> (forall c, In c counts -> (0 <= c /\ c * 8 + 40 <= 2 ^ 32)%Z) ->
  multianewarray t counts h = Array a h' ->
  forall path b r, leads counts path -> reach h' a path = Some b -> nth_error h' b = Some r ->
  (16 + a_length r * elementSize (a_type r) <= a_bytes r)%Z.
Proof.
  intros t counts h a h' NE K P E path b r Lp R N.
  destruct (multianewarray_good t counts h NE K) as [h1 [E1 [_ G]]]; [intros c I; apply P; exact I|].
  rewrite E in E1. inversion E1; subst a h1.
  destruct (good_reach _ _ _ _ _ _ _ G Lp) as [b' [r' [H1 [H2 [H3 [H4 [H5 [H6 [H7 H8]]]]]]]]].
  assert (b' = b) by congruence. subst b'. assert (r' = r) by congruence. subst r'.
  assert (IN : In (a_length r) counts).
  { rewrite H6. apply nth_In. clear -Lp. induction Lp; cbn; lia. }
  destruct (P _ IN) as [P1 P2]. pose proof (elementSize_pos (a_type r)) as S'.
  rewrite H7. destruct path as [|i path].
  - destruct counts as [|c cs]; [congruence|]. cbn in H6. cbn [hd]. rewrite H6 in *.
    pose proof (words_cover c ltac:(lia) ltac:(lia)). nia.
  - apply below_cover; [exact P1|]. nia.
Qed.

(** C150 refuted. new long[1][1 << 29] and new int[1][1 << 30] make arrays whose memory is their header alone. *)
Theorem multianewarray_memory_refuted :
  exists c n, (0 <= n < 2 ^ 31)%Z /\
  match multianewarray (TArrayOf (TPrims c)) [1; n]%Z [] with
  | Array a h => match reach h a [0] with
                 | Some b => match nth_error h b with
                             | Some r => a_length r = n /\ elementSize (a_type r) = 4%Z /\ a_bytes r = 16%Z
                             | None => False
                             end
                 | None => False
                 end
  | _ => False
  end.
Proof. exists 73%N, (2 ^ 30)%Z. split; [lia|]. vm_compute. repeat split. Qed.

(** new int[2][3][]: six arrays below the two rows would be three dimensions; here two rows of three nulls *)
Definition tIII : type := TArrayOf (TArrayOf (TPrims 73%N)).
Example two_by_three : exists h', multianewarray tIII [2; 3]%Z [mkArr (TPrims 66%N) 5 24 (fun _ => None)] = Array 1 h' /\
  length h' = 4 /\ reach h' 1 [0] = Some 2 /\ reach h' 1 [1] = Some 3 /\ reach h' 1 [2] = None /\
  leads [2; 3]%Z [1] /\ below 1 tIII = TArrayOf (TPrims 73%N).
Proof.
  eexists. split; [reflexivity|]. repeat (split; [vm_compute; reflexivity|]).
  split; [apply leads_on; [lia|apply leads_here]|reflexivity].
Qed.

Example full_cube : exists h', multianewarray tIII [2; 2; 5]%Z [] = Array 0 h' /\ length h' = 7.
Proof. eexists. split; vm_compute; reflexivity. Qed.

Definition MultiArray_theorems :=
  (multianewarray_full, multianewarray_unshared, multianewarray_negative, multianewarray_memory_partial,
   multianewarray_memory_refuted).
Print Assumptions MultiArray_theorems.
