(** C36: the arena allocator. C71: its 32-bit size arithmetic. *)
From Coq Require Import List ZArith Bool Lia.
From Verif Require Import Zone_Model Zone_Spec Zone_Proofs.
Import ListNotations.
Local Open Scope Z_scope.

(** As long as the arena holds at most 2^30 bytes: live blocks do not overlap, ... *)
Theorem C36_blocks_disjoint : forall z bs, Run z bs -> ForallOrdPairs disjoint bs.
Proof.
  intros z bs H. destruct (run_inv z bs H) as ([IT IG IN IF IM IP] & _ & _). exact (tiled_disjoint _ _ IT IN (tiled_pos8 _ _ IT IP) IP).
Qed.
(** ... each lies, word aligned, inside the memory obtained for one live segment, ... *)
Theorem C36_blocks_inside : forall z bs b, Run z bs -> In b bs -> inside z b.
Proof.
  intros z bs [[p o] l] H Hin. destruct (run_inv z bs H) as ([IT IG IN IF IM IP] & _ & _).
  destruct (tiled_in _ _ IT (tiled_pos8 _ _ IT IP) IP p o l Hin) as (s & Hs & E & Ho & Hl & H8). exists s. repeat (split; [assumption|]).
  rewrite Forall_forall in IG. destruct (IG s Hs) as (A & _ & C & _). lia.
Qed.
(** ... allocation succeeds, whatever the underlying allocator answers, ... *)
Theorem C36_allocate_total : forall z bs a1 a2 n r, Run z bs -> 0 < n -> rounded n r -> total bs + r <= 2 ^ 30 ->
  exists p off z', allocate a1 a2 n z = (Some (p, off), z') /\ Run z' ((p, off, r) :: bs).
Proof.
  intros z bs a1 a2 n r H Hn Hr Ht. destruct (run_inv z bs H) as (I & L & _). destruct (alloc_inv z bs a1 a2 n r I L Hn Hr Ht) as (p & o & z' & E & _).
  exists p, o, z'. split; auto. eapply run_alloc; eauto.
Qed.
(** ... peek of the bytes of the last blocks finds the oldest of them, pop removes exactly them, ... *)
Theorem C36_peek_pop : forall z bs k n b, Run z bs -> nth_error bs k = Some b -> 0 <= n -> rounded n (total (firstn (S k) bs)) ->
  peek n z = Some (fst b) /\ exists z', pop n z = Some z' /\ Run z' (skipn (S k) bs).
Proof.
  intros z bs k n b H Hb Hn Hr. destruct (run_inv z bs H) as (I & L & T).
  assert (Hk : (S k <= length bs)%nat) by (apply nth_error_Some; congruence).
  assert (Hne : segs z <> []). { intro E. pose proof (i_tiled _ _ I) as X. rewrite E in X. inversion X; subst. destruct k; discriminate. }
  destruct (pop_inv z bs (S k) n I L Hk T Hn Hr Hne) as (z' & E & _ & _ & P). split. eapply P; eauto. exists z'. split; auto. eapply run_pop; eauto.
Qed.
(** ... and every segment obtained is returned once, with the size it was obtained with. *)
Theorem C36_frees_what_it_got : forall z bs, Run z bs ->
  NoDup (map fst (freed (dispose z))) /\ forall i n, In (i, n) (got z) <-> In (i, n) (freed (dispose z)).
Proof.
  intros z bs H. destruct (run_inv z bs H) as (_ & [LG LU LP LO] & _). cbn. rewrite map_app, map_rev, map_map. cbn. split.
  - apply (Permutation.Permutation_NoDup (l := map fst (freed z) ++ map id (segs z))); auto. rewrite Permutation.Permutation_app_comm. apply Permutation.Permutation_app_tail. apply Permutation.Permutation_rev.
  - intros i n. rewrite LP, in_app_iff, <- in_rev, in_map_iff. split.
    + intros [A|(s & A & <- & <-)]; auto. left. exists s. auto.
    + intros [(s & E & A)|A]; auto. injection E as <- <-. right. exists s. auto.
Qed.
(** Non-vacuity: three blocks over two segments, then the last two popped at once. *)
Definition z1 := snd (allocate true true 100 (create 4096)).
Definition z2 := snd (allocate true true 5000 z1).
Definition z3 := snd (allocate true true 7 z2).
Example run3 : Run z3 [(1%nat, 5000, 8); (1%nat, 0, 5000); (0%nat, 0, 104)].
Proof.
  eapply run_alloc with (a1 := true) (a2 := true) (n := 7) (z := z2). eapply run_alloc with (a1 := true) (a2 := true) (n := 5000) (z := z1).
  eapply run_alloc with (a1 := true) (a2 := true) (n := 100). apply run_new with (mf := 4096). all: try (vm_compute; repeat split; try discriminate; reflexivity).
Qed.
Example pop2 : option_map (fun z => map (fun s => (id s, position s)) (segs z)) (pop 5008 z3) = Some [(1%nat, 0); (0%nat, 104)].
Proof. reflexivity. Qed.

(** C71: a request of 4 GiB or more, or a few bytes less, returns a block that is not inside its segment;
    so does any request once the last segment has 2 GiB: the size of the next one is computed as 0. *)
Theorem C71_large_request_refuted : exists n p off z', 0 < n /\ allocate true true n (create 4096) = (Some (p, off), z') /\
  ~ exists s, In s (segs z') /\ id s = p /\ header + off + n <= real s.
Proof.
  exists (2 ^ 32 + 16), 0%nat, 0. eexists. split; [reflexivity|]. split; [vm_compute; reflexivity|].
  intros (s & Hs & _ & H). cbn in Hs. destruct Hs as [<-|[]]. vm_compute in H. congruence.
Qed.
Theorem C71_growth_refuted : exists p off z z' q, allocate true true (2 ^ 31 - 24) (create 4096) = (Some q, z) /\
  allocate true true 16 z = (Some (p, off), z') /\ ~ exists s, In s (segs z') /\ id s = p /\ header + off + 16 <= real s.
Proof.
  exists 1%nat, 0. eexists _, _, _. split; [vm_compute; reflexivity|]. split; [vm_compute; reflexivity|].
  intros (s & Hs & E & H). cbn in Hs. destruct Hs as [<-|[<-|[]]]; [vm_compute in H; congruence|discriminate].
Qed.
Print Assumptions C36_blocks_disjoint.
Print Assumptions C36_blocks_inside.
Print Assumptions C36_allocate_total.
Print Assumptions C36_peek_pop.
Print Assumptions C36_frees_what_it_got.
Print Assumptions C71_large_request_refuted.
Print Assumptions C71_growth_refuted.
