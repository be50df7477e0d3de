(** Property theorems C04, C05, C06: the persistent red-black tree of src/util.cpp.

    [insertAll compare init [] kvs] runs a history of insertions starting from the
    sentinal-only tree and returns the final heap together with every root ever
    published (most recent first).  [insertable] (RBTree_Proofs.v) says that each new
    (key, value) lies strictly on one side of every value already present, for the
    caller's ordering [R] of values. *)
From Verif Require Import Base Res RBTree_Model RBTree_Proofs.

(** C04, C05, C06 together: after any history, every version [i] of the tree - read in
    the final heap, i.e. after all later insertions - answers every query exactly as the
    list of the first [i+1] inserted values does, visiting at most 2*log2(i+2) nodes;
    in particular no insertion aborts (depth limit 100), faults or loops. *)
Theorem C04_C05_every_version_is_its_contents :
  forall (K V : Type) (compare : K -> V -> Z) (R : V -> V -> Prop),
  (forall v1 v2 k, R v1 v2 -> (compare k v1 <= 0)%Z -> (compare k v2 < 0)%Z) ->
  forall kvs : list (K * V),
  insertable compare R [] kvs -> (N.of_nat (length kvs) < 2 ^ 50)%N ->
  exists h roots, insertAll compare init [] kvs = Ok (h, roots)
    /\ length roots = length kvs
    /\ forall i root, nth_error (rev roots) i = Some root ->
         forall key fuel, (2 * Nat.log2 (i + 2) <= fuel)%nat ->
         treeQuery compare fuel h root key sentinal
         = Ok (List.find (fun v => (compare key v =? 0)%Z) (map snd (firstn (S i) kvs))).
Proof. intros K V compare R HR kvs. exact (history_ok compare R HR kvs). Qed.
Print Assumptions C04_C05_every_version_is_its_contents.

(** C04/C06, one insertion into any good tree (red-black, sorted, at most 2^50-1 values):
    the result is good again and holds the old values plus the new one, no existing
    node is modified. *)
Theorem C05_insert_leaves_old_nodes_alone :
  forall (K V : Type) (compare : K -> V -> Z) (R : V -> V -> Prop),
  (forall v1 v2 k, R v1 v2 -> (compare k v1 <= 0)%Z -> (compare k v2 < 0)%Z) ->
  forall s h root vs key value,
  wfh s h -> (s < next h)%nat -> Good R s h root vs -> (2 * Nat.log2 (length vs + 1) <= 100)%nat ->
  (forall v', In v' vs -> separated compare R key value v') ->
  exists h' root', treeInsert compare h root key value s = Ok (h', root')
    /\ wfh s h' /\ (next h <= next h')%nat
    /\ (forall x, (x < next h)%nat -> mem h' x = mem h x)
    /\ Good R s h' root' (value :: vs).
Proof. intros K V compare R HR. exact (treeInsert_ok compare R HR). Qed.
Print Assumptions C05_insert_leaves_old_nodes_alone.

(** C06: a red-black tree with [n] values has depth at most 2*log2(n+1). *)
Theorem C06_depth_logarithmic :
  forall (V : Type) (t : @tree V) m vs, rb t m -> isred t = false -> Permutation (inorder t) vs ->
  (depth t <= 2 * Nat.log2 (length vs + 1))%nat.
Proof. intros V. exact good_depth. Qed.
Print Assumptions C06_depth_logarithmic.

(** The instance the VM uses (src/compile.cpp:381-402): values are the address ranges of
    compiled methods; lookup by instruction pointer. *)
Definition before (m1 m2 : Z * Z) : Prop := (fst m1 + snd m1 <= fst m2)%Z /\ (0 < snd m2)%Z /\ (0 < snd m1)%Z.

Fixpoint disjointRanges (seen ms : list (Z * Z)) : Prop :=
  match ms with
  | [] => True
  | m :: r => (0 < snd m)%Z
      /\ (forall m', In m' seen -> (0 < snd m')%Z /\ ((fst m + snd m <= fst m')%Z \/ (fst m' + snd m' <= fst m)%Z))
      /\ disjointRanges (m :: seen) r
  end.

Lemma before_mono : forall v1 v2 k, before v1 v2 ->
  (compareIpToMethodBounds k v1 <= 0)%Z -> (compareIpToMethodBounds k v2 < 0)%Z.
Proof.
  intros [s1 z1] [s2 z2] k (H1 & H2 & H3) H. cbn [fst snd] in *. unfold compareIpToMethodBounds in *.
  destruct (k <? s1)%Z eqn:E1.
  - replace (k <? s2)%Z with true by (symmetry; apply Z.ltb_lt; lia). lia.
  - destruct (k <? s1 + z1)%Z eqn:E2; [|lia].
    replace (k <? s2)%Z with true by (symmetry; apply Z.ltb_lt; lia). lia.
Qed.

Lemma disjoint_insertable : forall ms seen, disjointRanges seen ms ->
  insertable compareIpToMethodBounds before seen (map (fun m => (fst m, m)) ms).
Proof.
  induction ms as [|m ms IH]; intros seen H; cbn [map insertable disjointRanges] in *; [exact I|].
  destruct H as (Hz & Hd & Hr). split; [|apply IH; assumption].
  intros m' Hm'. destruct (Hd m' Hm') as (Hz' & Hor). destruct m as [s z], m' as [s' z'].
  unfold separated, before, compareIpToMethodBounds. cbn [fst snd] in *.
  destruct Hor as [Hle|Hle]; [left|right]; split; auto.
  - replace (s <? s')%Z with true by (symmetry; apply Z.ltb_lt; lia). lia.
  - replace (s <? s')%Z with false by (symmetry; apply Z.ltb_ge; lia).
    replace (s <? s' + z')%Z with false by (symmetry; apply Z.ltb_ge; lia). lia.
Qed.

(** C04, as used for stack unwinding: the method found for an instruction pointer is the
    one whose compiled code contains it, in every published version of the method tree. *)
Theorem C04_method_for_ip : forall ms : list (Z * Z),
  disjointRanges [] ms -> (N.of_nat (length ms) < 2 ^ 50)%N ->
  exists h roots, insertAll compareIpToMethodBounds init [] (map (fun m => (fst m, m)) ms) = Ok (h, roots)
    /\ length roots = length ms
    /\ forall i root, nth_error (rev roots) i = Some root ->
         forall ip, treeQuery compareIpToMethodBounds 102 h root ip sentinal
         = Ok (List.find (fun m => (fst m <=? ip)%Z && (ip <? fst m + snd m)%Z) (firstn (S i) ms)).
Proof.
  intros ms Hd Hn.
  destruct (history_ok compareIpToMethodBounds before before_mono (map (fun m => (fst m, m)) ms)
             (disjoint_insertable ms [] Hd)) as (h & roots & H1 & H2 & H3); [rewrite map_length; assumption|].
  exists h, roots. split; [assumption|]. rewrite map_length in H2. split; [assumption|].
  intros i root Hr ip. rewrite (H3 i root Hr).
  - f_equal. rewrite <- firstn_map, map_map. cbn [snd]. rewrite map_id.
    clear. induction (firstn (S i) ms) as [|[s z] l IH]; [reflexivity|].
    cbn [List.find]. unfold compareIpToMethodBounds at 1. cbn [fst snd].
    destruct (ip <? s)%Z eqn:E1.
    + replace (s <=? ip)%Z with false by (symmetry; apply Z.leb_gt; lia). cbn [andb]. exact IH.
    + replace (s <=? ip)%Z with true by (symmetry; apply Z.leb_le; lia). cbn [andb].
      destruct (ip <? s + z)%Z; [reflexivity|exact IH].
  - assert (Hi : (i < length ms)%nat).
    { rewrite <- H2, <- (rev_length roots). apply nth_error_Some. congruence. }
    assert (Hl : (N.log2 (N.of_nat (i + 2)) <= 51)%N).
    { transitivity (N.log2 (2 ^ 51)%N); [apply N.log2_le_mono|rewrite N.log2_pow2; lia].
      transitivity (2 ^ 50 + 1)%N; [lia|]. vm_compute. discriminate. }
    assert (Hp : (0 < i + 2)%nat) by lia.
    assert (Nat.log2 (i + 2) < 52)%nat; [|lia].
    apply (proj1 (Nat.log2_lt_pow2 _ 52 Hp)).
    assert (N.of_nat (i + 2) < N.of_nat (2 ^ 52))%N; [|lia].
    rewrite Nat2N.inj_pow. change (N.of_nat 2 ^ N.of_nat 52)%N with (2 ^ 52)%N.
    apply N.lt_trans with (2 ^ 50 + 2)%N; [lia|reflexivity].
Qed.
Print Assumptions C04_method_for_ip.

(** Non-vacuity: eight method ranges inserted in an order that triggers recolouring and
    all rotations; two versions queried in the final heap. *)
Definition demoMethods : list (Z * Z) :=
  [(500, 10); (100, 10); (300, 10); (200, 10); (250, 10); (900, 10); (700, 10); (600, 50)]%Z.
Example demo_disjoint : disjointRanges [] demoMethods.
Proof. cbn. repeat match goal with |- _ /\ _ => split | |- forall _, _ => intros ? ?Hm | H : _ \/ _ |- _ => destruct H | H : False |- _ => destruct H | H : _ = _ |- _ => subst; cbn | |- True => exact I end; lia. Qed.
Example demo_query :
  match insertAll compareIpToMethodBounds init [] (map (fun m => (fst m, m)) demoMethods) with
  | Ok (h, r8 :: r7 :: _) =>
      treeQuery compareIpToMethodBounds 6 h r8 649%Z sentinal = Ok (Some (600, 50)%Z)
      /\ treeQuery compareIpToMethodBounds 6 h r7 649%Z sentinal = Ok None
      /\ treeQuery compareIpToMethodBounds 6 h r7 255%Z sentinal = Ok (Some (250, 10)%Z)
  | _ => False
  end.
Proof. vm_compute. auto. Qed.
