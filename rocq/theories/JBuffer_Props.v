From Coq Require Import ZArith List Bool Lia.
From Verif Require Import JNum_Model JBuffer_Model JBuffer_Spec JBuffer_Proofs.
Import ListNotations.
Local Open Scope Z_scope.

(** * C165: a ByteBuffer is a window with a position and a limit

    A buffer on [w], lying between the bytes [pre] and [post] of an array or of memory: along
    every history of tame calls, values are put and got most significant byte first, at the
    position or at the index given; a call that does not fit throws and changes nothing; flip,
    clear, rewind and compact move position, limit and bytes as documented; and the bytes of
    [pre] and [post] are never changed. *)
Theorem C165_buffer_is_a_window : forall d pre w post l,
  Forall (fun c => 0 <= c < 256) w -> Z.of_nat (length (pre ++ w ++ post)) < 2 ^ 31 ->
  follows d pre post l (wrapOf d (pre ++ w ++ post) (Z.of_nat (length pre)) (Z.of_nat (length w))) {| window := w; apos := 0; alim := length w |}.
Proof.
  intros d pre w post l F M. apply run_ok. split; [|split; [exact F|exact M]].
  unfold shows, wrapOf; cbn. repeat split; auto; lia.
Qed.
(** What is put is got back, whatever the buffer. *)
Theorem C165_buffer_round_trip : forall d pre post b a p n v,
  shows d pre post b a -> Forall (fun c => 0 <= c < 256) (window a) -> Z.of_nat (length (pre ++ window a ++ post)) < 2 ^ 31 ->
  (0 < n)%nat -> (p + n <= alim a)%nat ->
  snd (exec (GetAt (Z.of_nat p) n) (fst (exec (PutAt (Z.of_nat p) n v) b))) = Got (signed n v) /\
  (- 2 ^ (8 * Z.of_nat n - 1) <= v < 2 ^ (8 * Z.of_nat n - 1) -> signed n v = v).
Proof.
  intros d pre post b a p n v S F M N0 P.
  assert (K : 2 ^ (8 * Z.of_nat n) = 2 * 2 ^ (8 * Z.of_nat n - 1)).
  { rewrite <- Z.pow_succ_r by lia. f_equal; lia. }
  assert (0 < 2 ^ (8 * Z.of_nat n - 1)) by (apply Z.pow_pos_nonneg; lia).
  split; [|intro V; unfold signed; rewrite Z.mod_small; lia].
  assert (S0 := S). destruct S0 as (D & E & B & C & Q & L & R & O).
  assert (LL : (length (window a) <= length (pre ++ window a ++ post))%nat) by (rewrite !app_length; lia).
  cbn [exec]. unfold checkPut. rewrite R, L, wrap_small by lia.
  replace ((Z.of_nat p <? 0) || (Z.of_nat (alim a) <? Z.of_nat p + Z.of_nat n)) with false by lia.
  rewrite (put_in d pre post n v b a p) by (first [lia | (split; [exact S|split; assumption])]). cbn [fst].
  pose proof (overwrite_length (window a) p (bytesOf n v)) as OL. rewrite bytesOf_length in OL.
  unfold checkGet. cbn [limit setMem]. rewrite L, wrap_small by lia.
  replace (Z.of_nat (alim a) - Z.of_nat p <? Z.of_nat n) with false by lia.
  rewrite (get_in d pre post n _ {| window := overwrite (window a) p (bytesOf n v); apos := apos a; alim := alim a |} p).
  - cbn [snd window]. f_equal.
    replace (part (overwrite (window a) p (bytesOf n v)) p n) with (bytesOf n v).
    + destruct (bytesOf_ok n v) as (_ & _ & ->). unfold signed. rewrite K. rewrite Zplus_mod_idemp_l. reflexivity.
    + unfold part, overwrite. rewrite skipn_app, skipn_all2 by (rewrite firstn_length; lia).
      replace (p - length (firstn p (window a)))%nat with 0%nat by (rewrite firstn_length; lia). cbn [skipn app].
      rewrite firstn_app, bytesOf_length, Nat.sub_diag. cbn [firstn]. rewrite app_nil_r. symmetry. apply firstn_all2. rewrite bytesOf_length; lia.
  - unfold good, shows. cbn. repeat split; auto; try lia.
    + apply overwrite_bytes; [exact F|apply bytesOf_ok].
    + rewrite !app_length in *. lia.
  - cbn. lia.
Qed.
(** A buffer in the middle of an array: two numbers in, flip, one out, compact, the rest. *)
Example buffer_somewhere :
  let b0 := wrapOf false [9; 0; 0; 0; 0; 0; 0; 9] 1 6 in
  let b1 := fst (exec (Put 2 (-2)) b0) in
  let b2 := fst (exec (Put 4 258) b1) in
  let b3 := fst (exec Flip b2) in
  let b4 := fst (exec (Get 2) b3) in
  let b5 := fst (exec Compact b4) in
  mem b2 = [9; 255; 254; 0; 0; 1; 2; 9] /\ snd (exec (Put 1 0) b2) = Overflow /\
  snd (exec (Get 2) b3) = Got (-2) /\ mem b5 = [9; 0; 0; 1; 2; 1; 2; 9] /\ position b5 = 4 /\ limit b5 = 6 /\
  snd (exec (GetAt 0 4) b5) = Got 258 /\ snd (exec (GetAt 3 4) b5) = OutOfBounds /\
  tame false Compact {| window := [255; 254; 0; 0; 1; 2]; apos := 2; alim := 6 |}.
Proof. vm_compute. repeat split; auto. Qed.

(** * C166: no call reaches outside the window

    False. get of a negative index reads before the window: bytes of the array that are not of
    the buffer, or any memory before a direct buffer. *)
Theorem C166_get_checks_its_index_refuted : exists pre w post,
  snd (exec (GetAt (-1) 1) (wrapOf false (pre ++ w ++ post) (Z.of_nat (length pre)) (Z.of_nat (length w)))) = Got 7 /\ ~ In 7 w /\
  snd (exec (GetAt (-9) 1) (wrapOf true (pre ++ w ++ post) (Z.of_nat (length pre)) (Z.of_nat (length w)))) = Wild.
Proof. exists [7], [1; 2], []. split; [reflexivity|]. split; [|reflexivity]. simpl. lia. Qed.
(** put at an index near 2^31 passes the check and writes outside a direct buffer, for every such buffer. *)
Theorem C166_put_checks_its_index_refuted : forall pre w post v, Z.of_nat (length (pre ++ w ++ post)) < 2 ^ 31 - 1 ->
  snd (exec (PutAt (2 ^ 31 - 1) 1 v) (wrapOf true (pre ++ w ++ post) (Z.of_nat (length pre)) (Z.of_nat (length w)))) = Wild.
Proof.
  intros pre w post v M. cbn [exec]. unfold checkPut, wrapOf. cbn [readonly limit].
  replace (wrap32 (2 ^ 31 - 1 + Z.of_nat 1)) with (- 2 ^ 31) by reflexivity.
  replace ((2 ^ 31 - 1 <? 0) || (Z.of_nat (length w) <? - 2 ^ 31)) with false by (symmetry; apply orb_false_iff; split; apply Z.ltb_ge; lia).
  cbn [rawPut]. unfold doPut, place. cbn [direct base mem].
  replace ((0 <=? Z.of_nat (length pre) + (2 ^ 31 - 1)) && (Z.of_nat (length pre) + (2 ^ 31 - 1) <? Z.of_nat (length (pre ++ w ++ post)))) with false; [reflexivity|].
  symmetry. apply andb_false_iff. right. apply Z.ltb_ge. lia.
Qed.
(** A position beyond the limit, or a limit beyond the capacity, is accepted, and the next put writes past the window. *)
Theorem C166_limit_is_checked_refuted : exists b, b = wrapOf false ([1; 2] ++ [7]) 0 2 /\
  snd (exec (SetLimit 3) b) = Done /\ mem (fst (exec (PutBytes [4; 5; 6]) (fst (exec (SetLimit 3) b)))) = [4; 5; 6].
Proof. eexists. split; [reflexivity|]. split; reflexivity. Qed.
(** A direct buffer read into an array stays where it was, so the next read gives the same bytes
    again, for every direct buffer. *)
Theorem C166_direct_get_advances_refuted : forall b n, direct b = true -> fst (exec (GetBytes n) b) = b.
Proof.
  intros b n D. cbn [exec]. destruct (checkGet _ _ _ _); [reflexivity|]. destruct (range _ _ _); [|reflexivity]. now rewrite D.
Qed.
(** A slice of a writable buffer cannot be written, for every buffer and every put. *)
Theorem C166_slice_is_writable_refuted : forall b n v, exec (Put n v) (slice b) = (slice b, ReadOnly).
Proof. reflexivity. Qed.
(** compact of a direct buffer copies with memcpy over itself when more remains than was read. *)
Theorem C166_direct_compact_refuted : exists b,
  b = fst (exec (SetPosition 1) (wrapOf true [1; 2; 3; 4] 0 4)) /\ snd (exec Compact b) = Wild.
Proof. eexists. split; reflexivity. Qed.

Definition JBuffer_theorems :=
  (C165_buffer_is_a_window, C165_buffer_round_trip, C166_get_checks_its_index_refuted, C166_put_checks_its_index_refuted, C166_limit_is_checked_refuted,
   C166_direct_get_advances_refuted, C166_slice_is_writable_refuted, C166_direct_compact_refuted).
Print Assumptions JBuffer_theorems.
