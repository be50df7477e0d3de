(** C120: ConcurrentLinkedQueue. *)
From Coq Require Import ZArith Lia Bool List Permutation.
Import ListNotations.
From Verif Require Import JQueue_Model JQueue_Spec JQueue_Proofs.

(** Whatever calls are made by however many threads, and however their steps interleave,
    each call acts at one moment on a first-in first-out queue. *)
Theorem queue_is_linearizable : forall es c, In c (calls (run es)) -> fifo c.
Proof.
  intros es c H. destruct (iCalls _ (inv_run es) c H) as [_ I]. unfold fifo.
  destruct (op c) as [v|[|]]; unfold addInv, pollInv in I; destruct (at_ c); try contradiction; try tauto; auto.
Qed.

(** Nothing is lost and nothing is delivered twice: what was put in is what was taken out and
    what is there. *)
Theorem queue_keeps_everything : forall es,
  Permutation (flat_map put (calls (run es))) (flat_map taken (calls (run es)) ++ contents (sh (run es))).
Proof.
  intro es. unfold run.
  assert (B : inv {| sh := initial; calls := [] |}) by (apply (inv_run [])).
  assert (P : Permutation (flat_map put (calls {| sh := initial; calls := [] |}))
    (flat_map taken (calls {| sh := initial; calls := [] |}) ++ contents (sh {| sh := initial; calls := [] |}))) by constructor.
  revert B P. generalize {| sh := initial; calls := [] |}. induction es as [|e es IH]; intros y B P; [exact P|].
  cbn [fold_left]. apply IH; [apply inv_next; exact B|]. clear IH es.
  pose proof (inv_next e y B) as B'. destruct B as [G C]. destruct e as [o|i]; cbn [next_] in *.
  - cbn [sh calls] in *. rewrite !flat_map_app. cbn [flat_map]. destruct o as [v|[|]]; cbn; rewrite !app_nil_r; exact P.
  - destruct (nth_error (calls y) i) as [c|] eqn:E; [|exact P]. destruct (running c) eqn:Er; [|exact P].
    pose proof (C c (nth_error_In _ _ E)) as [_ Cc].
    destruct (step (op c) (at_ c) (sh y)) as [s' p] eqn:Es. cbn [sh calls] in *.
    set (c' := {| op := op c; at_ := p; during := contents s' :: during c;
                  changes := if sameList (contents (sh y)) (contents s') then changes c
                             else (contents (sh y), contents s') :: changes c |}) in *.
    destruct (iCalls _ B' c') as [_ C']. { cbn [calls]. apply in_or_app. right. left. reflexivity. }
    assert (O : forall l, flat_map put (map (observe (contents s')) l) = flat_map put l /\
                          flat_map taken (map (observe (contents s')) l) = flat_map taken l).
    { induction l as [|a l [IH1 IH2]]; [split; reflexivity|]. cbn [map flat_map]. rewrite IH1, IH2.
      unfold observe. destruct (running a); split; reflexivity. }
    assert (D : calls y = firstn i (calls y) ++ c :: skipn (S i) (calls y)).
    { rewrite <- (firstn_skipn i (calls y)) at 1. f_equal. clear -E. revert i E.
      induction (calls y) as [|a l IH]; intros i E; [destruct i; discriminate|].
      destruct i; cbn in *; [injection E as ->; reflexivity|apply IH; exact E]. }
    rewrite D, !flat_map_app in P. cbn [flat_map] in P. rewrite !flat_map_app. cbn [flat_map].
    destruct (O (firstn i (calls y))) as [-> ->]. destruct (O (skipn (S i) (calls y))) as [-> ->].
    generalize dependent (flat_map put (firstn i (calls y))). generalize dependent (flat_map put (skipn (S i) (calls y))).
    generalize dependent (flat_map taken (firstn i (calls y))). generalize dependent (flat_map taken (skipn (S i) (calls y))).
    intros t2 t1 p2 p1 P.
    assert (T0 : taken c = []).
    { unfold taken. destruct (op c) as [|[|]]; auto. unfold running in Er. destruct (at_ c); auto; discriminate. }
    assert (PC : put c' ++ taken c' = [] /\ put c = [] /\ contents s' = contents (sh y) \/
                 put c' = put c /\ taken c' = [] /\ contents s' = contents (sh y) \/
                 (exists v, put c' = [v] /\ put c = [] /\ taken c' = [] /\ contents s' = contents (sh y) ++ [v]) \/
                 (exists v, put c' = [] /\ put c = [] /\ taken c' = [v] /\ contents (sh y) = v :: contents s')).
    { unfold sameList in c'. destruct (list_eq_dec Z.eq_dec (contents (sh y)) (contents s')) as [Q|Q].
      - right. left. split; [reflexivity|]. split; [|auto]. unfold taken. subst c'. cbn [op at_ changes] in *.
        destruct (op c) as [|[|]]; auto. unfold running in Er. unfold pollInv in Cc. destruct p; auto.
        destruct (at_ c); try contradiction; try discriminate; try (rewrite Cc; reflexivity); destruct Cc as [-> _]; reflexivity.
      - right. right. unfold put, taken. subst c'. cbn [op at_ changes sh] in *. destruct (op c) as [v|rm].
        + left. exists v. unfold addInv in C'. cbn [at_ changes] in C'.
          assert (K : exists l, (contents (sh y), contents s') :: changes c = [(l, l ++ [v])]).
          { destruct p; try contradiction; try discriminate; try (destruct C' as [_ C']; exact C'); try (destruct C' as [C' _]; discriminate). }
          destruct K as [l K]. injection K as K1 K2 K3. rewrite K3, K2, K1. auto.
        + right. unfold pollInv in C'. cbn [at_ changes during] in C'.
          destruct p; try contradiction; try discriminate; try (destruct C' as [C' _]; discriminate).
          destruct rm; [|destruct C' as [C' _]; discriminate].
          destruct C' as [[l C']|[_ [C' _]]]; [|discriminate]. injection C' as K1 K2 K3. exists v. rewrite K1, K2. auto. }
    rewrite T0 in P. cbn [app] in P. destruct PC as [[H1 [H2 H3]]|[[H1 [H2 H3]]|[[v [H1 [H2 [H3 H4]]]]|[v [H1 [H2 [H3 H4]]]]]]].
    + apply app_eq_nil in H1. destruct H1 as [-> ->]. rewrite H2 in P. rewrite H3. exact P.
    + rewrite H1, H2, H3. exact P.
    + rewrite H1, H3, H4. rewrite H2 in P. cbn [app] in *. rewrite app_assoc. rewrite <- Permutation_middle.
      rewrite <- Permutation_cons_append. constructor. exact P.
    + rewrite H1, H3. rewrite H2, H4 in P. cbn [app] in *. rewrite <- app_assoc. rewrite <- app_comm_cons.
      rewrite <- app_assoc in P. etransitivity; [exact P|]. apply Permutation_app_head. apply Permutation_sym, Permutation_middle.
Qed.

(** Two calls of add race: the first links its node, the second finds the tail behind, helps and
    links after it; a call of poll made meanwhile finds the queue empty before they do,
    another gets the first element, and peek sees the second. *)
Definition steps (c n : nat) : list event := repeat (Go c) n.
Definition demo : list event :=
  [Start (Poll true)] ++ steps 0 4 ++ [Start (Add 7); Start (Add 8)] ++ steps 1 6 ++ steps 2 2 ++ steps 0 1 ++ steps 2 20
  ++ [Start (Poll true)] ++ steps 3 20 ++ [Start (Poll false)] ++ steps 4 20.
Example queue_witness :
  map at_ (calls (run demo)) = [Returned 0; ASwing 0 1; Returned 1; Returned 7; Returned 8] /\
  contents (sh (run demo)) = [8%Z] /\
  map changes (calls (run demo)) = [[]; [([], [7%Z])]; [([7%Z], [7%Z; 8%Z])]; [([7%Z; 8%Z], [8%Z])]; []].
Proof. vm_compute. auto. Qed.

Definition jqueue_theorems := (queue_is_linearizable, queue_keeps_everything, queue_witness).
Print Assumptions jqueue_theorems.
