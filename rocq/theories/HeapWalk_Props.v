(** Properties C96 and C97: walking and dumping the heap. *)
From Coq Require Import List ZArith Bool Lia Permutation.
From Verif Require Import Res Chain HeapWalk_Model HeapWalk_Spec HeapSet_Proofs HeapWalk_Proofs.
Import ListNotations.
Local Open Scope nat_scope.

Lemma num_isNumber : forall vs p n, NoDup vs -> ~ In 0 vs -> num vs p = Some n -> isNumber vs p n.
Proof.
  intros vs p n D Z H. unfold num in H. destruct (Nat.eqb_spec p 0) as [->|Np]; [left; split; congruence|]. right.
  destruct (pos_range _ _ _ H) as [_ I]. apply In_nth_error in I. destruct I as [i Hi]. exists i. split; [|exact Hi].
  rewrite (pos_nth _ _ _ D Hi) in H. congruence.
Qed.
Lemma isNumber_num : forall vs p n, NoDup vs -> ~ In 0 vs -> isNumber vs p n -> num vs p = Some n.
Proof.
  intros vs p n D Z [[-> ->]|[i [-> H]]]; [reflexivity|]. unfold num.
  destruct (Nat.eqb_spec p 0) as [->|_]; [exfalso; apply Z; eapply nth_error_In; eauto|]. apply pos_nth; auto.
Qed.
Lemma start : forall capacity0 all, isPow capacity0 -> exists c, makeWalker capacity0 = Ok c /\ st all c [] [].
Proof.
  intros capacity0 all P. destruct (make_ok capacity0 P) as [c [E [K [S1 S2]]]]. exists c. split; [exact E|].
  constructor; try (rewrite S1; reflexivity); auto; try (unfold stackOk; rewrite S1); try constructor; intros x [].
Qed.

(** C96.  Whatever the shape of the heap (shared objects, cycles, any depth) and the roots, the walk ends without reading outside
    its tables, announces every object reachable from the roots exactly once and no other, and the walker's map
    afterwards has exactly those objects (and null, numbered 0), numbered 1, 2, ... in the order they were
    announced; every number told to the visitor is that number. *)
Theorem heap_walk_announces_each_reachable_object_once : forall capacity0 chunk h all roots,
  isPow capacity0 -> 0 < chunk -> finite h all -> (forall r, In r roots -> r = 0 \/ In r all) ->
  exists N c0 es c, makeWalker capacity0 = Ok c0 /\
    (forall fuel, N <= fuel -> visitRoots capacity0 chunk h fuel c0 roots = Ok (es, c)) /\
    NoDup (news es) /\
    (forall x, In x (news es) <-> exists r, In r roots /\ reach h r x) /\
    (forall x, In x (0 :: news es) -> exists n, mapFind c x = Ok (Some n) /\ isNumber (news es) x n) /\
    (forall x, ~ In x (0 :: news es) -> mapFind c x = Ok None) /\
    (forall p n, In (ENew p n) es \/ In (EOld p n) es \/ (exists o, In (EPush p n o) es) -> isNumber (news es) p n).
Proof.
  intros capacity0 chunk h all roots P Hc F Hr. destruct (start capacity0 all P) as [c0 [E0 S0]].
  destruct (roots_ok capacity0 chunk h (fun _ => 0) (fun _ => None) all P Hc F roots c0 [] S0) as [N [c [ws [es [S [C [D L]]]]]]]; [intros x ch []|exact Hr|].
  destruct D as [rn rr rnw rns rs rrp]. cbn [app] in *. exists N, c0, es, c. rewrite rnw.
  assert (Dup := s_dup _ _ _ _ S). assert (Z0 := s_zero _ _ _ _ S).
  split; [exact E0|]. split; [exact L|]. split; [exact Dup|]. split; [|split; [|split]].
  - intros x. split; [apply rr|]. intros [r [R1 R2]]. eapply closed_reach; eauto.
  - intros x Hx. assert (Q : num ws x <> None) by (apply num_in; destruct Hx as [<-|Hx]; auto).
    destruct (find_ok c (num ws) x (s_knows _ _ _ _ S)) as [_ Fd]. destruct (Fd _ (nm_num _ _ Q)) as [[j Ej] En].
    exists (nm ws x). split; [unfold mapFind; rewrite Ej; cbn [bind]; rewrite En; reflexivity|].
    apply num_isNumber; auto. apply nm_num. exact Q.
  - intros x Hx. destruct (find_ok c (num ws) x (s_knows _ _ _ _ S)) as [Fd _]. unfold mapFind. rewrite Fd; [reflexivity|].
    destruct (num ws x) eqn:E; [|reflexivity]. exfalso. apply Hx. assert (Q : num ws x <> None) by congruence. apply num_in in Q.
    destruct Q; [left; auto|right; auto].
  - intros p n H. apply num_isNumber; auto. rewrite Forall_forall in rns.
    destruct H as [H|[H|[o H]]]; apply rns in H; exact H.
Qed.

(** C97.  The object graph can be rebuilt from the bytes of the dump alone: reading them back gives the
    descriptions of exactly the reachable objects in order, the roots, and for each object the objects its
    fields refer to in order; as long as the numbers, sizes and name lengths fit the four bytes the file has for them. *)
Theorem heap_dump_rebuilds_the_object_graph : forall capacity0 chunk h all roots size name,
  isPow capacity0 -> 0 < chunk -> finite h all -> (forall r, In r roots -> r = 0 \/ In r all) ->
  (Z.of_nat (length all) < 2 ^ 32)%Z -> (forall p, Z.of_nat (size p) < 2 ^ 32)%Z ->
  (forall p s, name p = Some s -> (Z.of_nat (length s) < 2 ^ 32)%Z) ->
  exists N c0 es c, makeWalker capacity0 = Ok c0 /\
    (forall fuel, N <= fuel -> visitRoots capacity0 chunk h fuel c0 roots = Ok (es, c)) /\
    exists vs ts, let bytes := dumpBytes size name es in
    NoDup vs /\ (forall x, In x vs <-> exists r, In r roots /\ reach h r x) /\
    readTokens (S (length bytes)) bytes = Some ts /\
    described ts = map (fun ip => (S (fst ip), size (snd ip), name (snd ip))) (combine (seq 0 (length vs)) vs) /\
    Forall2 (isNumber vs) roots (gRoots (rebuild ts)) /\
    (forall i x, nth_error vs i = Some x -> Forall2 (isNumber vs) (children h x) (targets (gEdges (rebuild ts)) (S i))) /\
    (forall m n, In (m, n) (gEdges (rebuild ts)) -> 1 <= m <= length vs).
Proof.
  intros capacity0 chunk h all roots size name P Hc F Hr B1 B2 B3. destruct (start capacity0 all P) as [c0 [E0 S0]].
  destruct (roots_ok capacity0 chunk h size name all P Hc F roots c0 [] S0) as [N [c [ws [es [S [C [D L]]]]]]]; [intros x ch []|exact Hr|].
  destruct D as [rn rr rnw rns rs [D [[Ea Eb] Rep]]]. cbn [app] in *. exists N, c0, es, c. split; [exact E0|]. split; [exact L|].
  exists ws, (map (tokenOf size name) es). cbn zeta.
  assert (Dup := s_dup _ _ _ _ S). assert (Z0 := s_zero _ _ _ _ S).
  assert (Len : length ws <= length all) by (apply NoDup_incl_length; [exact Dup|apply (s_all _ _ _ _ S)]).
  assert (F2 : forall l, (forall x, In x l -> num ws x <> None) -> Forall2 (isNumber ws) l (map (nm ws) l)).
  { induction l as [|y l IH]; intros H; constructor; [|apply IH; intros; apply H; right; assumption].
    apply num_isNumber; auto. apply nm_num. apply H. left. reflexivity. }
  assert (Rep0 := Rep (Graph [] [] [] 0)). cbn [gRoots gEdges app] in Rep0. destruct Rep0 as [G1 G2].
  change (replay size name es (Graph [] [] [] 0)) with (rebuild (map (tokenOf size name) es)) in G1, G2.
  split; [exact Dup|]. split; [|split; [|split; [|split; [|split]]]].
  - intros x. split; [apply rr|]. intros [r [R1 R2]]. eapply closed_reach; eauto.
  - apply readTokens_ok; [exact rs| |pose proof (bytes_long size name es); lia].
    rewrite Forall_forall in rns |- *. intros e He. specialize (rns e He).
    assert (NB : forall p n, num ws p = Some n -> (Z.of_nat n < 2 ^ 32)%Z).
    { intros p n H. unfold num in H. destruct (Nat.eqb p 0); [inversion H; cbn; lia|]. destruct (pos_range _ _ _ H). lia. }
    destruct e as [|p n|p n|p n o|]; cbn in *; auto; [|eapply NB; eauto].
    split; [eapply NB; eauto|]. split; [apply B2|]. destruct (name p) eqn:En; [eapply B3; eauto|exact I].
  - assert (G : described (map (tokenOf size name) es) = map (fun p => (nm ws p, size p, name p)) (news es)).
    { clear - rns. induction rns as [|e es He _ IH]; [reflexivity|]. destruct e as [|p n|p n|p n o|]; cbn in *; auto.
      f_equal; [|exact IH]. unfold nm. rewrite He. reflexivity. }
    rewrite G, rnw. clear - Dup Z0.
    assert (Gn : forall l k, (forall i x, nth_error l i = Some x -> nm ws x = S (k + i)) ->
      map (fun p => (nm ws p, size p, name p)) l = map (fun ip => (S (fst ip), size (snd ip), name (snd ip))) (combine (seq k (length l)) l)).
    { induction l as [|y l IH]; intros k H; [reflexivity|]. cbn. f_equal; [rewrite (H 0 y eq_refl); do 3 f_equal; lia|].
      apply IH. intros i x Hx. rewrite (H (S i) x Hx). lia. }
    apply Gn. intros i x Hx. unfold nm. rewrite (isNumber_num ws x (S i) Dup Z0); [reflexivity|]. right. eauto.
  - rewrite G1. apply F2. exact rn.
  - intros i x Hx. assert (Hin : In x ws) by (eapply nth_error_In; eauto).
    assert (En : nm ws x = Datatypes.S i) by (unfold nm; rewrite (isNumber_num ws x (Datatypes.S i) Dup Z0); [reflexivity|right; eauto]).
    rewrite G2, <- En, (Ea x Hin). apply F2. intros y Hy. eapply C; eauto.
  - intros m n H. rewrite G2 in H. destruct (le_lt_dec 1 m) as [M1|M1]; [destruct (le_lt_dec m (length ws)) as [M2|M2]; [lia|]|];
      exfalso; [assert (T : targets D m = []) by (apply Eb; [tauto|right; exact M2])|assert (T : targets D m = []) by (apply Eb; [tauto|left; cbn; lia])];
      assert (X : In n (targets D m)) by (unfold targets; apply in_map_iff; exists (m, n); split; [reflexivity|]; apply filter_In; cbn; rewrite Nat.eqb_refl; auto);
      rewrite T in X; contradiction.
Qed.

(** A heap with a cycle, a shared object and a null field: 8 -> 16, null, 24; 16 -> 8; 24 -> 16, 24; and an unreachable 32. *)
Definition sampleHeap (p : nat) : list (Z * nat) :=
  if Nat.eqb p 8 then [(1%Z, 16); (2%Z, 0); (3%Z, 24)]
  else if Nat.eqb p 16 then [(1%Z, 8)]
  else if Nat.eqb p 24 then [(2%Z, 16); (5%Z, 24)]
  else if Nat.eqb p 32 then [(1%Z, 8)] else [].
Example sample_finite : finite sampleHeap [8; 16; 24; 32].
Proof.
  split.
  - intros p. unfold sampleHeap. repeat destruct (Nat.eqb p _); cbn; repeat split; lia.
  - intros p c [<-|[<-|[<-|[<-|[]]]]]; cbn; intuition lia.
Qed.
Example sample_walk : exists c0 es c, makeWalker 1 = Ok c0 /\ visitRoots 1 1 sampleHeap 40 c0 [0; 8; 24] = Ok (es, c) /\
  news es = [8; 16; 24] /\
  rebuild (map (tokenOf (fun _ => 3) (fun _ => None)) es) = Graph [0; 1; 3] [(1, 2); (2, 1); (1, 0); (1, 3); (3, 2); (3, 3)] [] 3.
Proof. eexists _, _, _. split; [vm_compute; reflexivity|]. split; [vm_compute; reflexivity|]. vm_compute. auto. Qed.

Example first_capacity : isPow 4096.
Proof. exists 12. reflexivity. Qed.

Definition heapwalk_theorems := (heap_walk_announces_each_reachable_object_once, heap_dump_rebuilds_the_object_graph).
Print Assumptions heapwalk_theorems.
