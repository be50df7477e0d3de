From Coq Require Import ZArith Lia Bool List Sorted.
From Verif Require Import FrameTable_Model FrameTable_Spec FrameTable_Proofs.
Import ListNotations.
Local Open Scope Z_scope.

(** C107.  At every call of a compiled method, the collector visits exactly the slots
    in the map of that call, except those of the arguments passed. *)
Theorem collector_visits_the_slots_of_the_call : forall mapSize calls,
  inOrder mapSize calls -> fits mapSize (Z.of_nat (length calls)) ->
  exists table, makeTable mapSize calls = Some table
    /\ forall e, In e calls -> visit mapSize table (offset e) = Some (slotsOf mapSize e).
Proof.
  intros s es H F. destruct (table_ok s es H F) as (table & E & A). exists table. split; [exact E|].
  intros e I. destruct (In_nth_error es e I) as [p Ep]. exact (A p e Ep).
Qed.

Definition threeCalls : list elem :=
  [{| offset := 17; bits := 5; argumentIndex := 3 |};
   {| offset := 40; bits := 2 ^ 39 + 9; argumentIndex := 40 |};
   {| offset := 41; bits := 2 ^ 39 + 9; argumentIndex := 39 |}].
Example threeCalls_meet : inOrder 40 threeCalls /\ fits 40 3.
Proof.
  split; [split|].
  - repeat constructor.
  - repeat constructor; cbn; lia.
  - unfold fits. change ((3 * 40 + 31) / 32) with 4. lia.
Qed.
Example threeCalls_visited :
  option_map (fun t => map (fun e => visit 40 t (offset e)) threeCalls) (makeTable 40 threeCalls)
  = Some [Some [0; 2]; Some [0; 3; 39]; Some [0; 3]].
Proof. vm_compute. reflexivity. Qed.

(** Every method of at most 2000 slots and 16000 calls fits. *)
Example usual_methods_fit : forall s n, 0 <= s <= 2000 -> 0 <= n <= 16000 -> fits s n.
Proof.
  intros s n Hs Hn. unfold fits.
  assert (n * s <= 32000000) by nia.
  assert (0 <= (n * s + 31) / 32 <= 1000001).
  { split; [apply Z.div_pos; nia|]. apply Z.div_le_upper_bound; lia. }
  nia.
Qed.

(** C108.  A class file may declare 65535 locals and a stack of 65535 slots; the
    collector finds the map of every call of such a method.  It does not: with eight
    calls the size of the table does not fit in 32 bits, and the lookup aborts. *)
Definition everyCallIsFound : Prop := forall maxLocals maxStack calls,
  0 <= maxLocals < 2 ^ 16 -> 0 <= maxStack < 2 ^ 16 -> (length calls < 2 ^ 16)%nat ->
  inOrder (maxLocals + maxStack) calls ->
  exists table, makeTable (maxLocals + maxStack) calls = Some table
    /\ forall e, In e calls -> visit (maxLocals + maxStack) table (offset e) <> None.

Definition eightCalls : list elem :=
  map (fun i => {| offset := 5 + 10 * Z.of_nat i; bits := 0; argumentIndex := 0 |}) (seq 0 8).

Lemma eightCalls_lost :
  (match makeTable 131070 eightCalls with
   | Some table => match visit 131070 table 5 with None => true | Some _ => false end
   | None => true end) = true.
Proof. vm_compute. reflexivity. Qed.

Theorem every_call_is_found_refuted : ~ everyCallIsFound.
Proof.
  intros H. destruct (H 65535 65535 eightCalls ltac:(lia) ltac:(lia)) as (table & E & A).
  - apply Nat.ltb_lt. vm_compute. reflexivity.
  - split; cbn; repeat constructor; cbn; lia.
  - change (65535 + 65535) with 131070 in *.
    pose proof eightCalls_lost as L. rewrite E in L.
    specialize (A {| offset := 5; bits := 0; argumentIndex := 0 |} ltac:(left; reflexivity)).
    cbn [offset] in A. destruct (visit 131070 table 5); congruence.
Qed.

Definition frameTable_theorems := (collector_visits_the_slots_of_the_call, every_call_is_found_refuted).
Print Assumptions frameTable_theorems.
