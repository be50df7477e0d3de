(** Properties of java.lang.String. [chars s] are the characters of a string, whatever the array behind it and its window;
    [wf s]: the window lies in the array and, if the array is of bytes, they are below 128, which the constructors see to.
    [Some]: returned, [None]: thrown. *)
From Coq Require Import List ZArith Bool Lia.
From Verif Require Import JString_Model JString_Spec JString_Proofs.
Import ListNotations.
Local Open Scope Z_scope.

(** C153. Searching: the first or last occurrence of a character or a text that is not empty, -1 if there is none *)
Theorem indexOf_char_is_first : forall s c start, wf s -> 0 <= start ->
  exists r, indexOfChar s c start = Some r /\ firstFrom (fun i => hasAt (chars s) i c) start r.
Proof. intros s c start W I. apply indexOfCharLoop_ok; [exact W|exact I|reflexivity]. Qed.

Theorem lastIndexOf_char_is_last : forall s c last, wf s ->
  exists r, lastIndexOfChar s c last = Some r /\ lastUpTo (fun i => hasAt (chars s) i c) last r.
Proof.
  intros s c last W. unfold lastIndexOfChar. cbv zeta. destruct (Z.leb_spec (len s) last) as [L|L].
  - destruct (lastIndexOfCharLoop_ok _ s c (len s - 1) W ltac:(lia) eq_refl) as [r [E F]]. exists r. split; [exact E|].
    assert (X : forall i, len s - 1 < i -> ~ hasAt (chars s) i c).
    { intros i I H. apply hasAt_range in H. rewrite chars_size in H by exact W. lia. }
    destruct F as [[F1 F2]|[F1 [F2 F3]]]; [left; split; [exact F1|]|right; split; [lia|]; split; [exact F2|]]; intros i I;
      (destruct (Z_lt_le_dec (len s - 1) i); [apply X; assumption|]); [apply F2|apply F3]; lia.
  - apply lastIndexOfCharLoop_ok; [exact W|lia|reflexivity].
Qed.

Theorem indexOf_is_first : forall s p start, wf s -> wf p -> chars p <> [] -> 0 <= start ->
  exists r, indexOf s p start = Some r /\ firstFrom (occursAt (chars p) (chars s)) start r.
Proof. exact indexOf_ok. Qed.

Theorem lastIndexOf_is_last : forall s p last, wf s -> wf p -> chars p <> [] ->
  exists r, lastIndexOf s p last = Some r /\ lastUpTo (occursAt (chars p) (chars s)) last r.
Proof.
  intros s p last WS WP N. unfold lastIndexOf.
  destruct (Z.eqb_spec (len p) 0) as [E|E].
  { exfalso. apply N. pose proof (chars_size p WP) as Z. unfold size in Z. destruct (chars p); [reflexivity|cbn in Z; lia]. }
  cbv zeta.
  destruct (lastIndexOfLoop_ok _ s p (Z.min (len s - len p) last) WS WP ltac:(lia) eq_refl) as [r [R F]].
  exists r. split; [exact R|].
  assert (X : forall i, len s - len p < i -> ~ occursAt (chars p) (chars s) i).
  { intros i I H. apply occurs_range in H. rewrite !chars_size in H by assumption. lia. }
  destruct F as [[F1 F2]|[F1 [F2 F3]]]; [left; split; [exact F1|]|right; split; [lia|]; split; [exact F2|]]; intros i I;
    (destruct (Z_lt_le_dec (len s - len p) i); [apply X; assumption|]); [apply F2|apply F3]; lia.
Qed.

Theorem contains_occurs : forall s p, wf s -> wf p ->
  exists r, contains s p = Some r /\ (r = true <-> exists i, occursAt (chars p) (chars s) i).
Proof.
  intros s p WS WP. unfold contains. destruct (chars p) as [|x l] eqn:E.
  - pose proof (chars_size p WP) as Z. rewrite E in Z. unfold indexOf. rewrite <- Z. cbn.
    exists true. split; [reflexivity|]. split; [|reflexivity]. intros _. exists 0. split; [lia|]. exists [], (chars s).
    split; reflexivity.
  - destruct (indexOf_ok s p 0 WS WP) as [r [R F]]; [congruence|lia|]. rewrite R. rewrite <- E. eexists. split; [reflexivity|].
    destruct F as [[F1 F2]|[F1 [F2 F3]]].
    + subst r. cbn. split; [discriminate|]. intros [i H]. exfalso. apply (F2 i); [destruct H; lia|exact H].
    + split; [intros _; exists r; exact F2|]. intros _. destruct (Z.eqb_spec r (-1)); [lia|reflexivity].
Qed.

(** Comparing: the documented number, which orders the texts totally; equal strings are those of the same text *)
Theorem compareTo_documented : forall s p r, wf s -> wf p -> compareTo s p = Some r <-> compared (chars s) (chars p) r.
Proof.
  intros s p r WS WP. rewrite compareTo_cmp by assumption. split.
  - intro E. injection E as <-. apply cmp_compared.
  - intro C. f_equal. symmetry. apply compared_cmp; exact C.
Qed.

Theorem compareTo_orders : forall s p q, wf s -> wf p -> wf q -> exists x y z,
  compareTo s p = Some x /\ compareTo p q = Some y /\ compareTo s q = Some z /\ compareTo p s = Some (- x) /\
  (x = 0 <-> chars s = chars p) /\ (x <= 0 -> y <= 0 -> z <= 0).
Proof.
  intros s p q WS WP WQ. exists (cmp (chars s) (chars p)), (cmp (chars p) (chars q)), (cmp (chars s) (chars q)).
  rewrite !compareTo_cmp by assumption. rewrite (cmp_opposite (chars s) (chars p)).
  split; [reflexivity|]. split; [reflexivity|]. split; [reflexivity|]. split; [reflexivity|].
  split; [apply cmp_zero|apply cmp_trans].
Qed.

Theorem equals_same_text : forall s p, wf s -> wf p -> exists r, equals s p = Some r /\ (r = true <-> chars s = chars p).
Proof. exact equals_cmp. Qed.

(** Cutting *)
Theorem substring_is_part : forall s i j, wf s ->
  match substring s i j with
  | Some u => 0 <= i <= j /\ j <= size (chars s) /\ wf u /\ chars u = part i j (chars s)
  | None => ~ (0 <= i <= j /\ j <= size (chars s))
  end.
Proof.
  intros s i j W. rewrite chars_size by exact W.
  destruct (Z_lt_le_dec i 0) as [A|A].
  { unfold substring. replace (i <? 0) with true by (symmetry; apply Z.ltb_lt; lia). lia. }
  destruct (Z_lt_le_dec (len s) j) as [B|B].
  { unfold substring. replace (i <? 0) with false by (symmetry; apply Z.ltb_ge; lia).
    replace (len s <? j) with true by (symmetry; apply Z.ltb_lt; lia). lia. }
  destruct (Z_lt_le_dec j i) as [C|C].
  { unfold substring. replace (i <? 0) with false by (symmetry; apply Z.ltb_ge; lia).
    replace (len s <? j) with false by (symmetry; apply Z.ltb_ge; lia).
    replace (j - i <? 0) with true by (symmetry; apply Z.ltb_lt; lia). lia. }
  destruct (substring_ok s i j W ltac:(lia) B) as [u [E [WU CU]]]. rewrite E. tauto.
Qed.

Theorem startsWith_prefix : forall s p, wf s -> wf p ->
  exists r, startsWith s p = Some r /\ (r = true <-> exists b, chars s = chars p ++ b).
Proof.
  intros s p WS WP. pose proof (chars_size s WS) as ZS. pose proof (chars_size p WP) as ZP.
  pose proof WP as (_ & LP & _). unfold startsWith. destruct (Z.leb_spec (len p) (len s)) as [L|L].
  - destruct (substring_ok s 0 (len p) WS ltac:(lia) L) as [u [E [WU CU]]]. rewrite E, compareTo_cmp by assumption.
    eexists. split; [reflexivity|]. rewrite Z.eqb_eq, cmp_zero, CU. split.
    + intro H. unfold part in H. cbn [Z.to_nat skipn] in H. rewrite <- H. eexists. symmetry. apply firstn_skipn.
    + intros [b H]. rewrite H, <- ZP. apply part_left.
  - exists false. split; [reflexivity|]. split; [discriminate|]. intros [b H]. rewrite H, size_app in ZS.
    unfold size in *. lia.
Qed.

Theorem endsWith_suffix : forall s p, wf s -> wf p ->
  exists r, endsWith s p = Some r /\ (r = true <-> exists a, chars s = a ++ chars p).
Proof.
  intros s p WS WP. pose proof (chars_size s WS) as ZS. pose proof (chars_size p WP) as ZP.
  pose proof WP as (_ & LP & _). unfold endsWith, substringFrom. destruct (Z.leb_spec (len p) (len s)) as [L|L].
  - destruct (substring_ok s (len s - len p) (len s) WS ltac:(lia) ltac:(lia)) as [u [E [WU CU]]].
    rewrite E, compareTo_cmp by assumption.
    eexists. split; [reflexivity|]. rewrite Z.eqb_eq, cmp_zero, CU. split.
    + intro H. exists (firstn (Z.to_nat (len s - len p)) (chars s)). rewrite <- H. unfold part.
      rewrite (firstn_all2 (skipn _ _)); [symmetry; apply firstn_skipn|]. rewrite skipn_length. unfold size in *. lia.
    + intros [a H]. replace (len s - len p) with (size a) by (rewrite <- ZS, <- ZP, H, size_app; lia).
      rewrite <- ZS, H. apply part_right.
  - exists false. split; [reflexivity|]. split; [discriminate|]. intros [b H]. rewrite H, size_app in ZS.
    unfold size in *. lia.
Qed.

Theorem trim_cuts_blanks : forall s, wf s -> exists u a b, trim s = Some u /\ wf u /\
  chars s = a ++ chars u ++ b /\ Forall blank a /\ Forall blank b /\
  (chars u = [] \/ (exists x m, chars u = x :: m /\ ~ blank x) /\ (exists m y, chars u = m ++ [y] /\ ~ blank y)).
Proof.
  intros s W. pose proof (chars_size s W) as ZS. unfold trim.
  destruct (trimStart_ok (Z.to_nat (len s)) s 0 W) as [st [E1 F1]]; [lia|lia|]. rewrite E1.
  destruct (trimEnd_ok (Z.to_nat (len s)) s (len s - 1) W) as [r [E2 F2]]; [lia|lia|]. rewrite E2. clear E1 E2.
  assert (DEC : forall x, ~ ~ blank x -> blank x).
  { intros x H. destruct (isWhitespace x) eqn:X; [apply blank_iff; exact X|]. exfalso. apply H. intro B.
    apply blank_iff in B. congruence. }
  assert (WE : wf emptyString) by (repeat split; cbn; try lia; constructor).
  destruct F1 as [[F1 N1]|[F1 [P1 N1]]].
  - subst st. destruct F2 as [[F2 N2]|[F2 [P2 N2]]].
    2:{ exfalso. apply (N1 r); [|exact P2]. destruct P2 as [c [[P2 _] _]]. exact P2. }
    subst r. cbn. exists emptyString, (chars s), []. split; [reflexivity|]. split; [exact WE|].
    split; [rewrite app_nil_r; reflexivity|]. split; [|split; [constructor|left; reflexivity]].
    apply Forall_forall. intros x I. apply In_nth_error in I as [k K]. apply DEC. intro B.
    apply (N1 (Z.of_nat k)); [lia|]. exists x. split; [|exact B]. split; [lia|]. rewrite Nat2Z.id. exact K.
  - destruct F2 as [[F2 N2]|[F2 [P2 N2]]].
    { exfalso. apply (N2 st); [|exact P1]. destruct P1 as [c [P1 _]]. apply hasAt_range in P1. lia. }
    assert (R0 : 0 <= r) by (destruct P2 as [c [[P2 _] _]]; exact P2).
    assert (ST : st <= r).
    { destruct (Z_lt_le_dec r st) as [Q|Q]; [|exact Q]. exfalso. apply (N1 r); [lia|exact P2]. }
    destruct (Z.eqb_spec r (-1)); [lia|]. replace (r + 1 <=? st) with false by (symmetry; apply Z.leb_gt; lia).
    destruct (substring_ok s st (r + 1) W) as [u [E [WU CU]]]; [lia|lia|]. rewrite E.
    set (t := chars s) in *. unfold size in ZS.
    exists u, (firstn (Z.to_nat st) t), (skipn (Z.to_nat (r + 1)) t). split; [reflexivity|]. split; [exact WU|].
    assert (SP : t = firstn (Z.to_nat st) t ++ chars u ++ skipn (Z.to_nat (r + 1)) t).
    { rewrite CU. unfold part. rewrite <- (firstn_skipn (Z.to_nat st) t) at 1. f_equal.
      rewrite <- (firstn_skipn (Z.to_nat (r + 1 - st)) (skipn (Z.to_nat st) t)) at 1. f_equal.
      replace (Z.to_nat (r + 1)) with (Z.to_nat st + Z.to_nat (r + 1 - st))%nat by lia.
      generalize (Z.to_nat st) as x, (Z.to_nat (r + 1 - st)) as y. clearbody t. clear. intros x y. revert t.
      induction x as [|x IH]; intro t; [reflexivity|]. destruct t as [|z t]; cbn [skipn Nat.add]; [apply skipn_nil|apply IH]. }
    split; [exact SP|]. split; [|split].
    + apply Forall_forall. intros x I. apply In_nth_error in I as [k K]. apply DEC. intro B.
      assert (KL : (k < Z.to_nat st)%nat).
      { assert (H : nth_error (firstn (Z.to_nat st) t) k <> None) by congruence. apply nth_error_Some in H.
        rewrite firstn_length in H. lia. }
      rewrite nth_error_firstn' in K by exact KL.
      apply (N1 (Z.of_nat k)); [lia|]. exists x. split; [|exact B]. split; [lia|]. rewrite Nat2Z.id. exact K.
    + apply Forall_forall. intros x I. apply In_nth_error in I as [k K]. apply DEC. intro B.
      assert (KL : (k < length t - Z.to_nat (r + 1))%nat).
      { assert (H : nth_error (skipn (Z.to_nat (r + 1)) t) k <> None) by congruence. apply nth_error_Some in H.
        rewrite skipn_length in H. exact H. }
      rewrite nth_error_skipn' in K.
      apply (N2 (r + 1 + Z.of_nat k)); [lia|]. exists x. split; [|exact B]. split; [lia|].
      replace (Z.to_nat (r + 1 + Z.of_nat k)) with (Z.to_nat (r + 1) + k)%nat by lia. exact K.
    + right. split.
      * destruct P1 as [x [[_ H] B]]. rewrite CU. unfold part.
        replace (Z.to_nat (r + 1 - st)) with (S (Z.to_nat (r - st))) by lia.
        assert (H' : nth_error (skipn (Z.to_nat st) t) 0 = Some x) by (rewrite nth_error_skipn', Nat.add_0_r; exact H).
        destruct (skipn (Z.to_nat st) t) as [|y m]; [discriminate|]. cbn in H'. injection H' as ->.
        exists x, (firstn (Z.to_nat (r - st)) m). split; [reflexivity|exact B].
      * destruct P2 as [y [[_ H] B]].
        assert (H' : nth_error (chars u) (Z.to_nat (r - st)) = Some y).
        { rewrite CU. unfold part. rewrite nth_error_firstn', nth_error_skipn' by lia.
          replace (Z.to_nat st + Z.to_nat (r - st))%nat with (Z.to_nat r) by lia. exact H. }
        assert (LU : length (chars u) = S (Z.to_nat (r - st))).
        { rewrite CU. unfold part. rewrite firstn_length, skipn_length. lia. }
        apply nth_error_split in H' as [l1 [l2 [H1 H2]]]. exists l1, y. split; [|exact B].
        rewrite H1 in LU. rewrite app_length in LU. cbn [length] in LU. destruct l2; [exact H1|cbn in LU; lia].
Qed.

(** Replacing a text by another: every occurrence, from the beginning on; the empty text is found around every character *)
Theorem replace_replaces : forall s p r, wf s -> wf p -> chars p <> [] ->
  exists out, replace s p r = Some out /\ replaced (chars p) (chars r) (chars s) out.
Proof.
  intros s p r WS WP N. unfold replace.
  destruct (Z.eqb_spec (len p) 0) as [E|E].
  { exfalso. apply N. pose proof (chars_size p WP) as Z. unfold size in Z. destruct (chars p); [reflexivity|cbn in Z; lia]. }
  apply replaceLoop_ok; try assumption. lia.
Qed.

Theorem replace_of_empty : forall s p r, wf s -> wf p -> chars p = [] ->
  replace s p r = Some (fold_right (fun c out => chars r ++ c :: out) (chars r) (chars s)).
Proof.
  intros s p r WS WP N. unfold replace. pose proof (chars_size p WP) as Z. rewrite N in Z. rewrite <- Z. cbn [size length Z.of_nat Z.eqb].
  rewrite infuseLoop_ok; try assumption; try lia; [reflexivity|]. destruct WS as (_ & L & _). exact L.
Qed.

(** Replacing characters, if the array is of chars or both characters are below 128 *)
Theorem replace_char_replaces : forall s x y, wf s -> (exists c, data s = Chars c) \/ (0 <= x < 128 /\ 0 <= y < 128) ->
  0 <= y < 65536 ->
  let u := mkS (replaceChar s x y) 0 (len s) in
  wf u /\ chars u = map (fun c => if c =? x then y else c) (chars s).
Proof.
  intros [d o n] x y (O & L & W & F) H Y. cbn [data offset len] in *. unfold replaceChar; cbn [data len].
  assert (TB : forall z, 0 <= z < 128 -> toByte z = z).
  { intros z Z. unfold toByte. rewrite Z.mod_small by lia. replace (128 <=? z) with false by (symmetry; apply Z.leb_gt; lia).
    reflexivity. }
  assert (FI : forall (P : Z -> Prop) (l : list Z), Forall P l -> Forall P (window l (mkS d o n))).
  { intros P l FL. apply Forall_forall. intros z I. rewrite Forall_forall in FL. apply FL. unfold window in I; cbn [len offset] in I.
    rewrite <- (firstn_skipn (Z.to_nat o) l). apply in_or_app. right.
    rewrite <- (firstn_skipn (Z.to_nat n) (skipn (Z.to_nat o) l)). apply in_or_app. left. exact I. }
  assert (WL : forall l, o + n <= Z.of_nat (length l) -> length (window l (mkS d o n)) = Z.to_nat n).
  { intros l LL. unfold window; cbn [len offset]. rewrite firstn_length, skipn_length. lia. }
  destruct d as [b|c]; unfold arrayLength in W.
  - destruct H as [[c H]|[X Y']]; [discriminate|]. rewrite !TB by assumption.
    pose proof (FI _ _ F) as FW. pose proof (WL b W) as LW. split.
    + split; [cbn; lia|]. split; [exact L|]. split.
      * unfold arrayLength; cbn [data offset len]. rewrite map_length, LW. lia.
      * cbn [data]. apply Forall_map. eapply Forall_impl; [|exact FW]. cbn beta. intros z Z. destruct (z =? x); lia.
    + unfold chars; cbn [data]. unfold window at 1; cbn [len offset]. cbn [Z.to_nat skipn].
      rewrite firstn_all2 by (rewrite map_length, LW; lia). rewrite !map_map.
      apply map_ext_in. intros z Z. rewrite Forall_forall in FW. specialize (FW z Z). cbn beta in FW.
      rewrite (Z.mod_small z) by lia. destruct (z =? x); [apply Z.mod_small; lia|apply Z.mod_small; lia].
  - pose proof (FI _ _ F) as FW. pose proof (WL c W) as LW. split.
    + split; [cbn; lia|]. split; [exact L|]. split.
      * unfold arrayLength; cbn [data offset len]. rewrite map_length, LW. lia.
      * cbn [data]. apply Forall_map. eapply Forall_impl; [|exact FW]. cbn beta. intros z Z. destruct (z =? x); lia.
    + unfold chars; cbn [data]. unfold window at 1; cbn [len offset]. cbn [Z.to_nat skipn].
      rewrite firstn_all2 by (rewrite map_length, LW; lia). reflexivity.
Qed.

(** C154. startsWith(p, start) cuts [start, p.length) instead of p.length characters: wherever p really is found beyond
    index 0, the answer is not true *)
Theorem startsWith_at_refuted : forall s p start, wf s -> wf p -> 0 < start -> chars p <> [] ->
  occursAt (chars p) (chars s) start -> startsWithAt s p start <> Some true.
Proof.
  intros s p start WS WP ST N H. pose proof (chars_size p WP) as ZP. pose proof (chars_size s WS) as ZS.
  apply occurs_range in H. rewrite ZP, ZS in H. unfold startsWithAt.
  replace (len p + start <=? len s) with true by (symmetry; apply Z.leb_le; lia).
  pose proof (substring_is_part s start (len p) WS) as X. destruct (substring s start (len p)) as [u|]; [|discriminate].
  destruct X as (I & J & WU & CU). rewrite compareTo_cmp by assumption. cbn [isZero]. intro E. injection E as E.
  apply Z.eqb_eq in E. apply cmp_zero in E. assert (size (chars u) = size (chars p)) by congruence.
  rewrite CU, ZP in H0. unfold part, size in H0. rewrite firstn_length, skipn_length in H0. lia.
Qed.

(** charAt of the length of a substring reads the character behind it instead of throwing *)
Theorem charAt_of_length_refuted : forall s k u, wf s -> 0 < k < len s -> substring s 0 k = Some u ->
  exists c, charAt u (size (chars u)) = Some c /\ hasAt (chars s) k c.
Proof.
  intros s k u W K E. pose proof (substring_ok s 0 k W ltac:(lia) ltac:(lia)) as [u' [E' [WU _]]].
  assert (u' = u) by congruence. subst u'. clear E'. rewrite chars_size by exact WU.
  destruct (charAt_some s k W ltac:(lia)) as [c [C H]]. exists c. split; [|exact H].
  unfold substring in E. replace (0 <? 0) with false in E by reflexivity.
  replace (len s <? k) with false in E by (symmetry; apply Z.ltb_ge; lia).
  replace (k - 0 <? 0) with false in E by (symmetry; apply Z.ltb_ge; lia).
  replace (k =? len s) with false in E by (symmetry; apply Z.eqb_neq; lia).
  replace (k - 0 =? 0) with false in E by (symmetry; apply Z.eqb_neq; lia). cbn [Z.eqb andb] in E.
  unfold construct in E. destruct (offset s + 0 <? 0); [discriminate|].
  destruct (arrayLength (data s) <? offset s + 0 + (k - 0)); [discriminate|]. destruct (k - 0 <? 0); [discriminate|].
  injection E as <-. unfold charAt in *. cbn [len data offset].
  replace (k <? 0) with false in C by (symmetry; apply Z.ltb_ge; lia).
  replace (len s <? k) with false in C by (symmetry; apply Z.ltb_ge; lia).
  replace (k - 0) with k by lia. replace (k <? 0) with false by (symmetry; apply Z.ltb_ge; lia).
  replace (k <? k) with false by (symmetry; apply Z.ltb_ge; lia). cbn [orb] in *. rewrite Z.add_0_r. exact C.
Qed.

(** replacing characters of an array of bytes takes them modulo 256: U+0161 is replaced where 'a' is, and by U+4E2D comes '-' *)
Theorem replace_char_refuted :
  let abc := mkS (Bytes [97; 98; 99]) 0 3 in
  wf abc /\ replaceChar abc 353 120 = Bytes [120; 98; 99] /\ replaceChar abc 97 20013 = Bytes [45; 98; 99].
Proof.
  cbv zeta. split; [|split; vm_compute; reflexivity].
  repeat split; cbn; try lia. repeat constructor; lia.
Qed.

(** the documentation lets a start below zero count as zero and cuts a start beyond the end *)
Theorem indexOf_negative_start_refuted : forall s c start, start < 0 -> 0 <= len s -> indexOfChar s c start = None.
Proof.
  intros s c start L LS. unfold indexOfChar. destruct (Z.to_nat (len s - start)) eqn:E; [lia|]. cbn [indexOfCharLoop].
  unfold charAt. replace (start <? 0) with true by (symmetry; apply Z.ltb_lt; lia). reflexivity.
Qed.
Theorem indexOf_empty_refuted : forall s start, indexOf s emptyString start = Some start.
Proof. reflexivity. Qed.

(** trim leaves control characters that the documentation calls white space, here a vertical tab *)
Theorem trim_control_refuted : trim (mkS (Bytes [11; 97]) 0 2) = Some (mkS (Bytes [11; 97]) 0 2).
Proof. vm_compute. reflexivity. Qed.

(** regions out of the text are to give false *)
Theorem regionMatches_refuted : regionMatches (mkS (Bytes [97; 98]) 0 2) 1 (mkS (Bytes [98; 98]) 0 2) 0 2 = None.
Proof. vm_compute. reflexivity. Qed.

(** ** Examples: "  banana " as a window on a larger array of bytes, "an" as one of chars *)
Definition banana : str := mkS (Bytes [120; 32; 32; 98; 97; 110; 97; 110; 97; 32; 121]) 1 9.
Definition an : str := mkS (Chars [1000; 97; 110]) 1 2.
Example banana_wf : wf banana /\ wf an /\ chars an <> [].
Proof. split; [|split]; [| |discriminate]; repeat split; cbn; try lia; repeat constructor; lia. Qed.
Example banana_searched : indexOf banana an 0 = Some 3 /\ indexOf banana an 4 = Some 5 /\ indexOf banana an 6 = Some (-1) /\
  lastIndexOf banana an 100 = Some 5 /\ lastIndexOf banana an 4 = Some 3 /\ indexOfChar banana 110 5 = Some 6 /\
  lastIndexOfChar banana 98 100 = Some 2 /\ contains banana an = Some true.
Proof. vm_compute. repeat split. Qed.
Example banana_replaced : replace banana an (mkS (Bytes [88]) 0 1) = Some [32; 32; 98; 88; 88; 97; 32] /\
  trim banana = Some (mkS (Bytes [120; 32; 32; 98; 97; 110; 97; 110; 97; 32; 121]) 3 6) /\
  compareTo banana an = Some (-65) /\ replace an emptyString (mkS (Bytes [46]) 0 1) = Some [46; 97; 46; 110; 46].
Proof. vm_compute. repeat split. Qed.
Example banana_at : occursAt (chars an) (chars banana) 3 /\ startsWithAt banana an 3 = None.
Proof.
  split; [|vm_compute; reflexivity]. split; [lia|]. exists [32; 32; 98], [97; 110; 97; 32]. vm_compute. split; reflexivity.
Qed.

Definition jstring_theorems := (indexOf_char_is_first, lastIndexOf_char_is_last, indexOf_is_first, lastIndexOf_is_last,
  contains_occurs, compareTo_documented, compareTo_orders, equals_same_text, substring_is_part, startsWith_prefix,
  endsWith_suffix, trim_cuts_blanks, replace_replaces, replace_of_empty, replace_char_replaces, startsWith_at_refuted,
  charAt_of_length_refuted, replace_char_refuted, indexOf_negative_start_refuted, indexOf_empty_refuted, trim_control_refuted,
  regionMatches_refuted).
Print Assumptions jstring_theorems.
