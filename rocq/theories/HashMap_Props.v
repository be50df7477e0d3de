(** Property theorems C01, C02, C03: the VM hash map.

    [run hash equal weak] executes a history on the model of src/util.cpp;
    [srun equal weak] executes it on an association list (HashMap_Spec.v).
    [weak = false]: class hashMap; [weak = true]: class weakHashMap. *)
From Verif Require Import Base Math_Model HashMap_Model HashMap_Spec HashMap_Proofs.
Local Open Scope N_scope.

(** C01: every history of a strong map gives, call by call, the results of a finite map. *)
Theorem C01_hashmap_is_finite_map :
  forall (K V : Type) (hash : K -> N) (equal : K -> K -> bool),
  (forall k, equal k k = true) ->
  (forall a b, equal a b = true -> equal b a = true) ->
  (forall a b c, equal a b = true -> equal b c = true -> equal a c = true) ->
  (forall a b, equal a b = true -> hash a = hash b) ->
  forall ops : list (op K V),
  allowed_all equal false ([], fun _ => false) ops ->
  N.of_nat (length ops) <= 2 ^ 31 ->
  exists s', run hash equal false (empty, fun _ => false) ops
             = Some (s', snd (srun equal false ([], fun _ => false) ops)).
Proof. intros K V hash equal H1 H2 H3 H4 ops. exact (refines hash equal false H1 H2 H3 H4 ops). Qed.
Print Assumptions C01_hashmap_is_finite_map.

(** C01, raw insertion of a key that is already present: a later resize reverses the
    chain and the older value is found again. *)
Theorem C01_raw_duplicate_insert_refuted :
  exists (ops : list (op N N)) s' xs,
    run (fun k => k) N.eqb false (empty, fun _ => false)
        (ops ++ [OInsert 7 1 (fun _ => false); OInsert 7 2 (fun _ => false); OFind 7]) = Some (s', xs)
    /\ last xs RUnit = RVal (Some 1).
Proof.
  exists []. eexists. eexists.
  split; [vm_compute; reflexivity|vm_compute; reflexivity].
Qed.
Print Assumptions C01_raw_duplicate_insert_refuted.

(** C02: bookkeeping, for strong maps (exact count) and weak maps (upper bound). *)
Theorem C02_hashmap_bookkeeping :
  forall (K V : Type) (hash : K -> N) (equal : K -> K -> bool) (weak : bool),
  (forall k, equal k k = true) ->
  (forall a b, equal a b = true -> equal b a = true) ->
  (forall a b c, equal a b = true -> equal b c = true -> equal a c = true) ->
  (forall a b, equal a b = true -> hash a = hash b) ->
  forall (ops : list (op K V)) s' xs,
  allowed_all equal weak ([], fun _ => false) ops ->
  N.of_nat (length ops) <= 2 ^ 31 ->
  run hash equal weak (empty, fun _ => false) ops = Some (s', xs) ->
  let m := fst s' in
  let entries := match harray m with None => [] | Some a => concat a end in
  (forall a, harray m = Some a ->
     (exists p, N.of_nat (length a) = 2 ^ p)
     /\ (forall i c kv, nth_error a i = Some c -> In kv c ->
           N.of_nat i = N.land (hash (fst kv)) (N.of_nat (length a) - 1)))
  /\ N.of_nat (length entries) <= hsize m
  /\ (weak = false -> hsize m = N.of_nat (length entries)
        /\ hsize m = N.of_nat (length (fst (fst (srun equal weak ([], fun _ => false) ops)))))
  /\ alen m <= umax 16 (N.of_nat (length ops)).
Proof. intros K V hash equal weak H1 H2 H3 H4. exact (bookkeeping hash equal weak H1 H2 H3 H4). Qed.
Print Assumptions C02_hashmap_bookkeeping.

(** C02, weak maps: the count can exceed the number of entries: a resize drops the
    entries of collected keys without decrementing the count. *)
Theorem C02_weak_count_refuted :
  exists (ops : list (op N N)) s' xs,
    allowed_all N.eqb true ([], fun _ => false) ops /\
    run (fun k => k) N.eqb true (empty, fun _ => false) ops = Some (s', xs)
    /\ hsize (fst s') = 8
    /\ length (match harray (fst s') with None => [] | Some a => concat a end) = 1%nat.
Proof.
  exists (map (fun i => OInsert i 0 (fun _ => false)) [1;2;3;4;5;6;7]
          ++ [ODie (fun k => k <? 8); OInsert 8 50 (fun _ => false)]).
  eexists. eexists. split; [|split; [vm_compute; reflexivity|split; vm_compute; reflexivity]].
  vm_compute. repeat split; intros; discriminate || reflexivity.
Qed.
Print Assumptions C02_weak_count_refuted.

(** C03: weak maps, for every interleaving with key deaths: results are those of a
    finite map from which the dead keys' entries vanish at the moment of death. *)
Theorem C03_weak_hashmap :
  forall (K V : Type) (hash : K -> N) (equal : K -> K -> bool),
  (forall k, equal k k = true) ->
  (forall a b, equal a b = true -> equal b a = true) ->
  (forall a b c, equal a b = true -> equal b c = true -> equal a c = true) ->
  (forall a b, equal a b = true -> hash a = hash b) ->
  forall ops : list (op K V),
  allowed_all equal true ([], fun _ => false) ops ->
  N.of_nat (length ops) <= 2 ^ 31 ->
  exists s', run hash equal true (empty, fun _ => false) ops
             = Some (s', snd (srun equal true ([], fun _ => false) ops)).
Proof. intros K V hash equal H1 H2 H3 H4 ops. exact (refines hash equal true H1 H2 H3 H4 ops). Qed.
Print Assumptions C03_weak_hashmap.

(** C01 (iteration): the iterator yields every stored entry exactly once and stops. *)
Theorem C01_iterator_visits_all :
  forall (K V : Type) (m : hmap K V) (fuel : nat),
  let entries := match harray m with None => [] | Some a => concat a end in
  (length entries <= fuel)%nat -> itRun fuel (itStart m) = entries.
Proof. intros K V m fuel. exact (iterate_all m fuel). Qed.
Print Assumptions C01_iterator_visits_all.

(** Non-vacuity: a history with collisions (hash = k mod 3), growth, replacement, removal. *)
Definition demo : list (op N N) :=
  map (fun i => OInsert i (i * 10) (fun _ => false)) [1;2;3;4;5;6;7;8;9]
  ++ [OReplace 4 44 (fun _ => false); OMaybe 5 0 (fun _ => false); ORemove 7; OFind 4; OFind 7; OFind 5].
Example demo_allowed : allowed_all N.eqb false ([], fun _ => false) demo /\
  exists s', run (fun k => k mod 3) N.eqb false (empty, fun _ => false) demo
  = Some (s', repeat RUnit 9 ++ [RBool false; RBool false; RVal (Some 70); RVal (Some 44); RVal None; RVal (Some 50)]).
Proof.
  split; [vm_compute; repeat split; intros; discriminate|].
  eexists. vm_compute. reflexivity.
Qed.
Example demo_weak : let ops := [OInsert 1 10 (fun _ => false); OInsert 2 20 (fun k => k =? 1);
      OFind 2; ORemove 2; OReplace 3 3 (fun _ => false); OFind 3] in
  allowed_all N.eqb true ([], fun _ => false) ops /\
  exists s', run (fun k => 0) N.eqb true (empty, fun _ => false) ops
  = Some (s', [RUnit; RUnit; RVal (Some 20); RVal (Some 20); RBool true; RVal (Some 3)]).
Proof.
  split; [vm_compute; repeat split; intros; try discriminate; reflexivity|].
  eexists. vm_compute. reflexivity.
Qed.
