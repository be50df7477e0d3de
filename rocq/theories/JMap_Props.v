(** The hash map of the class library: C93, C94 and C95. *)
From Coq Require Import List ZArith Bool Lia.
From Verif Require Import Res Chain JNum_Model JMap_Model JMap_Spec JMap_Proofs JMap_Iter JMap_Hist.
Import ListNotations.
Local Open Scope Z_scope.
Local Arguments Z.pow : simpl never.

(** ** C93 *)
(** Whatever capacity (at most 2^30) the map was made with, every history of calls runs to its end,
    and its results are those of a partial function on keys that starts empty. *)
Theorem hash_map_is_a_map : forall {K V} (hash : K -> Z) equal (equalV : V -> V -> bool) capacity fuel os,
  lawful hash equal -> capacity <= 2 ^ 30 -> (31 < fuel)%nat ->
  exists m rs m' f, newMap fuel capacity = Ok m /\ run hash equal equalV m os = Ok (rs, m') /\
    history equal equalV (fun _ => None) os rs f.
Proof.
  intros K V hash equal equalV capacity fuel os L Hc Hf.
  destruct (@newMap_ok K V hash equal fuel capacity Hf Hc) as [m [E H]].
  destruct (run_ok hash equal equalV L os m _ H) as [rs [m' [f [E2 [S _]]]]]. exists m, rs, m', f. auto.
Qed.

(** ** C94 *)
(** After any such history a loop over the entries sees each entry exactly once, whatever it removes
    through the iterator, whether or not hasNext() is called again before remove(); afterwards exactly
    the entries it removed are gone. *)
Theorem iteration_visits_each_entry_once : forall {K V} (hash : K -> Z) equal (equalV : V -> V -> bool) capacity fuel m os rs m',
  lawful hash equal -> capacity <= 2 ^ 30 -> (31 < fuel)%nat -> newMap fuel capacity = Ok m ->
  run hash equal equalV m os = Ok (rs, m') ->
  forall peek p, exists seen m2 f, history equal equalV (fun _ => None) os rs f /\
    walk peek p m' = Ok (seen, m2) /\ lists equal seen f /\
    forall k, get hash equal m2 k =
      Ok (if existsb (fun e => equal k (fst e) && p (fst e) (snd e)) seen then None else f k).
Proof.
  intros K V hash equal equalV capacity fuel m os rs m' L Hc Hf E R peek p.
  destruct (@newMap_ok K V hash equal fuel capacity Hf Hc) as [m0 [E0 H]]. rewrite E in E0. inversion E0; subst m0.
  destruct (run_ok hash equal equalV L os m _ H) as [rs' [m1 [f [E2 [S H1]]]]]. rewrite R in E2. inversion E2; subst.
  destruct (apply_ok hash equal equalV L m1 f (Walk peek p) H1) as [r [m2 [g [E3 [[l [-> [Ll Hg]]] [ids [G F]]]]]]].
  cbn [apply] in E3. destruct (walk peek p m1) as [[seen m2']| | | ] eqn:W; try discriminate. cbn in E3. inversion E3; subst.
  exists l, m2, f. split; [exact S|]. split; [reflexivity|]. split; [exact Ll|].
  intros k. destruct (get_ok hash equal L m2 ids g k G F) as [Q _]. rewrite Q, Hg. reflexivity.
Qed.

(** *** the hypotheses are met: keys with colliding hashes, growing, shrinking and removing while looping *)
Lemma mod_lawful : lawful (fun k => k mod 4) Z.eqb.
Proof.
  constructor; intros; try rewrite Z.eqb_eq in *; subst; auto.
Qed.
Example a_history : 
  (do m <- newMap 40 5;
   do r <- run (fun k => k mod 4) Z.eqb Z.eqb m
     (List.map (fun n => Put (Z.of_nat n) (Z.of_nat (2 * n))) (seq 0 40)%nat ++
      [Size; Get 7; Remove 7; Get 7; Walk true (fun k _ => Z.even k); Size; ContainsKey 8; ContainsValue 22; Put 9 1; Get 9;
       Clear; Size; Get 9]);
   Ok (skipn 40 (fst r)))%res =
  Ok [RInt 40; RVal (Some 14); RVal (Some 14); RVal None;
      RSeen [(36, 72); (32, 64); (12, 24); (8, 16); (4, 8); (0, 0); (16, 32); (20, 40); (24, 48); (28, 56);
             (37, 74); (33, 66); (13, 26); (9, 18); (5, 10); (1, 2); (17, 34); (21, 42); (25, 50); (29, 58);
             (38, 76); (34, 68); (14, 28); (10, 20); (6, 12); (2, 4); (18, 36); (22, 44); (26, 52); (30, 60);
             (39, 78); (35, 70); (31, 62); (11, 22); (3, 6); (15, 30); (19, 38); (23, 46); (27, 54)];
      RInt 19; RBool false; RBool true; RVal (Some 18); RVal (Some 1); RUnit; RInt 0; RVal None].
Proof. vm_compute. reflexivity. Qed.

(** ** C95 *)
(** *** HashSet.remove answers the wrong way round, for every set and element *)
Theorem set_remove_result_refuted : forall {K} (hash : K -> Z) equal (equalV : unit -> unit -> bool) capacity fuel m os rs m' k,
  lawful hash equal -> capacity <= 2 ^ 30 -> (31 < fuel)%nat -> newMap fuel capacity = Ok m ->
  run hash equal equalV m os = Ok (rs, m') ->
  exists was m2, containsKey hash equal m' k = Ok was /\ setRemove hash equal m' k = Ok (negb was, m2).
Proof.
  intros K hash equal equalV capacity fuel m os rs m' k L Hc Hf E R.
  destruct (@newMap_ok K unit hash equal fuel capacity Hf Hc) as [m0 [E0 H]]. rewrite E in E0. inversion E0; subst m0.
  destruct (run_ok hash equal equalV L os m _ H) as [rs' [m1 [f [E2 [S [ids [G F]]]]]]]. rewrite R in E2. inversion E2; subst.
  destruct (get_ok hash equal L m1 ids f k G F) as [_ Q].
  destruct (remove_ok hash equal L m1 ids f k G F) as [m2 [ids2 [E3 _]]].
  exists (match f k with Some _ => true | None => false end), m2. split; [exact Q|].
  unfold setRemove. rewrite E3. cbn. destruct (f k); reflexivity.
Qed.
(** add answers correctly *)
Theorem set_add_result : forall {K} (hash : K -> Z) equal (equalV : unit -> unit -> bool) capacity fuel m os rs m' k,
  lawful hash equal -> capacity <= 2 ^ 30 -> (31 < fuel)%nat -> newMap fuel capacity = Ok m ->
  run hash equal equalV m os = Ok (rs, m') ->
  exists was m2, containsKey hash equal m' k = Ok was /\ setAdd hash equal m' k = Ok (negb was, m2) /\
    containsKey hash equal m2 k = Ok true.
Proof.
  intros K hash equal equalV capacity fuel m os rs m' k L Hc Hf E R.
  destruct (@newMap_ok K unit hash equal fuel capacity Hf Hc) as [m0 [E0 H]]. rewrite E in E0. inversion E0; subst m0.
  destruct (run_ok hash equal equalV L os m _ H) as [rs' [m1 [f [E2 [S [ids [G F]]]]]]]. rewrite R in E2. inversion E2; subst.
  destruct (get_ok hash equal L m1 ids f k G F) as [_ Q].
  destruct (put_ok hash equal L m1 ids f k tt G F) as [m2 [ids2 [E3 [G2 F2]]]].
  exists (match f k with Some _ => true | None => false end), m2. split; [exact Q|].
  split; [unfold setAdd; rewrite E3; cbn; destruct (f k); reflexivity|].
  destruct (get_ok hash equal L m2 ids2 _ k G2 F2) as [_ Q2]. rewrite Q2. unfold added. rewrite (eq_refl_ _ _ L). reflexivity.
Qed.

(** *** entrySet().contains and remove look at the key only *)
Theorem entry_contains_ignores_value_refuted : forall {K V} (hash : K -> Z) equal (m : @map K V) k v w,
  entryContains hash equal m (k, v) = entryContains hash equal m (k, w) /\
  entryRemove hash equal m (k, v) = entryRemove hash equal m (k, w).
Proof. intros. split; reflexivity. Qed.
Theorem entry_of_another_value_refuted :
  (do m <- newMap 40 0;
   do r <- put (fun k => k) Z.eqb m 1 2;
   do c <- entryContains (fun k => k) Z.eqb (snd r) (1, 3);
   do d <- entryRemove (fun k => k) Z.eqb (snd r) (1, 3);
   do g <- get (fun k => k) Z.eqb (snd d) 1;
   Ok (c, fst d, g))%res = Ok (true, true, None).
Proof. vm_compute. reflexivity. Qed.

(** *** a map made with a capacity over 2^30 is never made: the loop for the power of two does not end *)
Theorem huge_capacity_never_returns_refuted : forall K V fuel capacity, 2 ^ 30 < capacity < 2 ^ 31 ->
  @newMap K V fuel capacity = Fuel.
Proof.
  intros K V fuel capacity H. unfold newMap. destruct (Z.ltb_spec 0 capacity); [|lia].
  assert (P : forall fuel r, r = 0 \/ r = - 2 ^ 31 \/ (exists k, 0 <= k <= 30 /\ r = 2 ^ k) -> pow2From fuel r capacity = Fuel).
  { induction fuel0 as [|n IH]; intros r Hr; [reflexivity|]. cbn [pow2From].
    assert (B : r <= 2 ^ 30).
    { destruct Hr as [->|[->|[k [Hk ->]]]]; try lia. apply Z.pow_le_mono_r; lia. }
    destruct (Z.ltb_spec r capacity); [|lia]. apply IH. rewrite Z.shiftl_mul_pow2 by lia.
    destruct Hr as [->|[->|[k [Hk ->]]]]; [left; reflexivity|left; reflexivity|right].
    destruct (Z.eq_dec k 30) as [->|N]; [left; reflexivity|right; exists (k + 1)]. split; [lia|].
    rewrite <- Z.pow_add_r by lia. apply wrap_small. split; [apply Z.pow_nonneg; lia|apply Z.pow_lt_mono_r; lia]. }
  unfold nextPowerOfTwo. rewrite P; [reflexivity|]. right. right. exists 0. split; [lia|reflexivity].
Qed.

(** *** WeakHashMap: when the key of one entry is collected, entries of live keys are lost *)
Definition weakHash (k : option Z) : Z := match k with Some z => z | None => 0 end.
Definition weakEqual (a b : option Z) : bool :=
  match a, b with Some x, Some y => x =? y | None, None => true | _, _ => false end.
Theorem weak_map_keeps_live_entries_refuted :
  lawful weakHash weakEqual /\
  exists m0 m1 m2 m3 : @map (option Z) Z, newMap 40 0 = Ok m0 /\
    put weakHash weakEqual m0 (Some 1) 10 = Ok (None, m1) /\ put weakHash weakEqual m1 (Some 17) 20 = Ok (None, m2) /\
    get weakHash weakEqual m2 (Some 17) = Ok (Some 20) /\
    poll (collectKey m2 0) [0%nat] = Ok m3 /\
    get weakHash weakEqual m3 (Some 17) = Ok None /\ size m3 = 1.
Proof.
  split.
  - constructor; unfold weakEqual, weakHash; intros.
    + destruct a; [apply Z.eqb_refl|reflexivity].
    + destruct a, b; try discriminate; auto. rewrite Z.eqb_eq in *. congruence.
    + destruct a, b, c; try discriminate; auto. rewrite Z.eqb_eq in *. congruence.
    + destruct a, b; try discriminate; auto. rewrite Z.eqb_eq in *. congruence.
  - do 4 eexists. split; [vm_compute; reflexivity|]. split; [vm_compute; reflexivity|].
    split; [vm_compute; reflexivity|]. split; [vm_compute; reflexivity|]. split; [vm_compute; reflexivity|].
    split; vm_compute; reflexivity.
Qed.

Definition jmap_theorems := (@hash_map_is_a_map, @iteration_visits_each_entry_once, @set_remove_result_refuted, @set_add_result,
  @entry_contains_ignores_value_refuted, entry_of_another_value_refuted, huge_capacity_never_returns_refuted, weak_map_keeps_live_entries_refuted).
Print Assumptions jmap_theorems.
