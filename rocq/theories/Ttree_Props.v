(** C46, C81, C82: the tree of threads. *)
From Coq Require Import ZArith List Bool Lia Permutation.
From Verif Require Import Res Ttree_Model Ttree_Spec Ttree_Proofs.
Import ListNotations.
Local Open Scope Z_scope.

(** ** C81: while the first thread lives and starts succeed *)

(** The threads form one tree, and the counters count them. *)
Theorem C81_tree : forall a es s, history a es s -> Forall (ordinary a) es ->
  rootThread s = a /\ exists t, consistent s t /\ counted s t.
Proof.
  intros a es s H F. destruct (history_ok a es s H F) as [(t&C&Ct&_) E]. split; eauto.
Qed.

(** No link refers to a thread that has been disposed of. *)
Theorem C81_links : forall a es s, history a es s -> Forall (ordinary a) es ->
  forall b x, mem s b = Some x ->
    (parent x = 0 \/ mem s (parent x) <> None) /\ (child x = 0 \/ mem s (child x) <> None) /\
    (peer x = 0 \/ mem s (peer x) <> None).
Proof.
  intros a es s H F b x Hx. destruct (C81_tree a es s H F) as [_ (t&[R Nd A]&_)].
  destruct (rep_links _ _ _ _ R (or_introl eq_refl) b) as (x'&Hx'&L); [apply A; congruence|].
  assert (x' = x) as -> by congruence. exact L.
Qed.

(** A walk from the root visits every thread exactly once. *)
Theorem C81_walk : forall a es s, history a es s -> Forall (ordinary a) es ->
  exists k l, visitAll k (mem s) (rootThread s) = Ok l /\ NoDup l /\
    forall b, In b l <-> mem s b <> None.
Proof.
  intros a es s H F. destruct (C81_tree a es s H F) as [_ (t&C&_)].
  destruct (visit_all _ _ C) as (k&l&V&P). destruct C as [_ Nd A]. exists k, l. split; [auto|]. split.
  - eapply Permutation_NoDup; [symmetry; exact P|exact Nd].
  - intros b. rewrite A. split; apply Permutation_in; auto. now symmetry.
Qed.

(** The collector succeeds, and disposes of exactly the dead threads that are not protected. *)
Theorem C81_collect : forall a es s, history a es s -> Forall (ordinary a) es ->
  exists n f s', killZombies n f s (rootThread s) = Ok s' /\
    forall b, mem s' b <> None <-> exists x, mem s b = Some x /\ isDead x = false.
Proof.
  intros a es s H F. destruct (history_ok a es s H F) as [(t&C&_&Rl&_) E].
  pose proof (live_not_dead _ _ C Rl) as Hd.
  destruct (collect_ok s t C Hd) as (f0&s1&Run&C'&_).
  exists (length (nodes t)), f0, s1. split; [apply Run; lia|].
  intros b. destruct C' as [_ _ A']. rewrite A'. pose proof (kill_tree_nodes t Hd) as P.
  rewrite <- ids_nodes. unfold ids. split.
  - intros Hi. eapply Permutation_in in Hi; [|apply Permutation_map; exact P].
    apply in_map_iff in Hi as ([[c st] sys]&<-&Hi). cbn [fst]. apply filter_In in Hi as [Hi Ha].
    destruct C as [R _ _]. assert (Hi' : In (c, st, sys) (nodesL [t])) by (cbn; now rewrite app_nil_r).
    destruct (rep_node _ _ _ _ R _ _ _ Hi') as (x&Hx&<-&<-). exists x. split; auto.
    unfold alive in Ha. unfold isDead. unfold dead in Ha. now apply negb_true_iff in Ha.
  - intros (x&Hx&Hdx). pose proof (node_of _ _ _ _ C Hx) as Hn.
    eapply Permutation_in; [symmetry; apply Permutation_map; exact P|].
    apply in_map_iff. exists (b, state x, system x). split; auto. apply filter_In. split; auto.
    unfold alive, dead. apply negb_true_iff. exact Hdx.
Qed.

(** A thread can always be started. *)
Theorem C81_start : forall a es s p q, history a es s -> Forall (ordinary a) es ->
  isLive s q -> p <> 0 -> mem s p = None -> exists s', addThread s p q = Ok s'.
Proof.
  intros a es s p q H F (y&Hy&_) Hp Mp. destruct (C81_tree a es s H F) as [_ (t&C&_)].
  destruct (add_ok s t p q y C Hp Mp Hy) as (s'&_&E&_). eauto.
Qed.

(** ** An ordinary history: threads 2 and 3 are started by 1, 4 and 5 by 2; 2 and 5 exit; the
    collector runs: 4 becomes a child of 1. *)
Definition run (s : machine) (e : event) : machine :=
  let r := match e with
           | Start p q => addThread s p q
           | StartFails p q l => bind (addThread s p q) (fun s1 => bind (addAll s1 l) (fun s2 => removeThread s2 p))
           | Exit o d => exitThread s o d
           | Protect o b => setSystem s o b
           | CollectThreads => killZombies 9 9 s (rootThread s)
           end in
  match r with Ok s' => s' | _ => s end.
Definition ev1 := [Start 2 1; Start 3 1; Start 4 2; Start 5 2; Exit 2 false; Exit 5 true; CollectThreads].
Definition s1 := fold_left run ev1 (initial 1).
Lemma s1_history : history 1 ev1 s1 /\ Forall (ordinary 1) ev1.
Proof.
  split.
  - apply (h_step 1 [Start 2 1; Start 3 1; Start 4 2; Start 5 2; Exit 2 false; Exit 5 true]
             (fold_left run [Start 2 1; Start 3 1; Start 4 2; Start 5 2; Exit 2 false; Exit 5 true] (initial 1))).
    2: { apply (s_collect _ 9 9). reflexivity. }
    apply (h_step 1 [Start 2 1; Start 3 1; Start 4 2; Start 5 2; Exit 2 false]
             (fold_left run [Start 2 1; Start 3 1; Start 4 2; Start 5 2; Exit 2 false] (initial 1))).
    2: { apply s_exit; [eexists; split; reflexivity|reflexivity|reflexivity]. }
    apply (h_step 1 [Start 2 1; Start 3 1; Start 4 2; Start 5 2]
             (fold_left run [Start 2 1; Start 3 1; Start 4 2; Start 5 2] (initial 1))).
    2: { apply s_exit; [eexists; split; reflexivity|reflexivity|reflexivity]. }
    apply (h_step 1 [Start 2 1; Start 3 1; Start 4 2]
             (fold_left run [Start 2 1; Start 3 1; Start 4 2] (initial 1))).
    2: { apply s_start; [eexists; split; reflexivity|discriminate|reflexivity|reflexivity|reflexivity]. }
    apply (h_step 1 [Start 2 1; Start 3 1] (fold_left run [Start 2 1; Start 3 1] (initial 1))).
    2: { apply s_start; [eexists; split; reflexivity|discriminate|reflexivity|reflexivity|reflexivity]. }
    apply (h_step 1 [Start 2 1] (fold_left run [Start 2 1] (initial 1))).
    2: { apply s_start; [eexists; split; reflexivity|discriminate|reflexivity|reflexivity|reflexivity]. }
    apply (h_step 1 [] (initial 1)).
    2: { apply s_start; [eexists; split; reflexivity|discriminate|reflexivity|reflexivity|reflexivity]. }
    apply h_start. discriminate.
  - repeat constructor; cbn; discriminate.
Qed.
Example C81_s1 : visitAll 9 (mem s1) 1 = Ok [4; 3; 1] /\ threadCount s1 = 3 /\ liveCount s1 = 3 /\
  mem s1 2 = None /\ mem s1 5 = None.
Proof. vm_compute. repeat split. Qed.

(** ** C46: the first thread exits while others run *)

(** After the first thread has been disposed of, the parent links of its children refer to it,
    a walk from the new root misses threads, and the next exit makes the collector read freed
    memory. *)
Definition ev2 := [Start 2 1; Start 3 1; Start 4 1; Exit 1 false; CollectThreads].
Definition s2 := fold_left run ev2 (initial 1).
Lemma s2_history : history 1 ev2 s2.
Proof.
  apply (h_step 1 [Start 2 1; Start 3 1; Start 4 1; Exit 1 false]
             (fold_left run [Start 2 1; Start 3 1; Start 4 1; Exit 1 false] (initial 1))).
  2: { apply (s_collect _ 9 9). reflexivity. }
  apply (h_step 1 [Start 2 1; Start 3 1; Start 4 1]
             (fold_left run [Start 2 1; Start 3 1; Start 4 1] (initial 1))).
  2: { apply s_exit; [eexists; split; reflexivity|reflexivity|reflexivity]. }
  apply (h_step 1 [Start 2 1; Start 3 1] (fold_left run [Start 2 1; Start 3 1] (initial 1))).
  2: { apply s_start; [eexists; split; reflexivity|discriminate|reflexivity|reflexivity|reflexivity]. }
  apply (h_step 1 [Start 2 1] (fold_left run [Start 2 1] (initial 1))).
  2: { apply s_start; [eexists; split; reflexivity|discriminate|reflexivity|reflexivity|reflexivity]. }
  apply (h_step 1 [] (initial 1)).
  2: { apply s_start; [eexists; split; reflexivity|discriminate|reflexivity|reflexivity|reflexivity]. }
  apply h_start. discriminate.
Qed.
Theorem C46_root_exit_refuted : exists es s, history 1 es s /\
  (forall p q l, ~ In (StartFails p q l) es) /\
  (exists b x, mem s b = Some x /\ state x = Live /\ parent x <> 0 /\ mem s (parent x) = None) /\
  (exists b k l, isLive s b /\ visitAll k (mem s) (rootThread s) = Ok l /\ ~ In b l) /\
  (exists o s', step s (Exit o false) s' /\
     forall n f, (2 < n)%nat -> (2 < f)%nat -> killZombies n f s' (rootThread s') = UB).
Proof.
  exists ev2, s2. split; [apply s2_history|]. split; [|split; [|split]].
  - intros p q l Hi. cbn in Hi. intuition discriminate.
  - exists 4, (Thread 1 0 3 Live false). repeat split. discriminate.
  - exists 2, 9%nat, [4]. split; [eexists; split; reflexivity|]. split; [reflexivity|].
    cbn. intuition discriminate.
  - exists 4, (run s2 (Exit 4 false)). split.
    + apply s_exit; [eexists; split; reflexivity|reflexivity|reflexivity].
    + intros n f Hn Hf. destruct f as [|[|[|f]]]; try lia. destruct n as [|[|[|n]]]; try lia. reflexivity.
Qed.

(** ** C82: a thread that cannot be started *)

(** When the system cannot start a thread, the thread count drops by one too many ... *)
Theorem C82_count_refuted : exists s t, history 1 [StartFails 2 1 []] s /\ consistent s t /\
  Z.of_nat (length (nodes t)) = 1 /\ threadCount s = 0.
Proof.
  exists (run (initial 1) (StartFails 2 1 [])), (T 1 Live false []).
  assert (H : history 1 ([] ++ [StartFails 2 1 []]) (run (initial 1) (StartFails 2 1 []))).
  { eapply h_step; [apply h_start; discriminate|].
    eapply s_startFails; try reflexivity; try discriminate.
    - eexists; split; reflexivity.
    - intros i x y Hn. destruct i; discriminate.
    - constructor. }
  split; [exact H|]. split; [|split; reflexivity].
  constructor.
  - set (m := mem _).
    assert (E : m 1 = Some (Thread 0 0 0 Live false)) by reflexivity.
    exact (rep_cons m 0 1 (Thread 0 0 0 Live false) [] [] ltac:(discriminate) E eq_refl
             (rep_nil m 1) (rep_nil m 0)).
  - cbn. constructor; auto. constructor.
  - intros a.
    assert (E : run (initial 1) (StartFails 2 1 []) =
      Machine 1 0 1 (put (put (put (put (mem (initial 1)) 2 (Some (Thread 1 0 0 Live false)))
        1 (Some (Thread 0 2 0 Live false))) 1 (Some (Thread 0 0 0 Live false))) 2 None)) by reflexivity.
    rewrite E. cbn [mem]. unfold put, initial. cbn [mem addrs nodesL nodes flat_map map app fst In].
    destruct (a =? 2) eqn:E2;
      [apply Z.eqb_eq in E2; subst; split; [intros []; reflexivity|intros [|[]]; discriminate]|].
    destruct (a =? 1) eqn:E1.
    + apply Z.eqb_eq in E1; subst. split; [auto|discriminate].
    + apply Z.eqb_neq in E1. split; [intros []; reflexivity|]. intros [|[]]; congruence.
Qed.

(** ... and a thread added meanwhile to the same parent is lost. *)
Theorem C82_lost_refuted : exists s, history 1 [StartFails 2 1 [(3, 1)]] s /\
  isLive s 3 /\ exists k, visitAll k (mem s) (rootThread s) = Ok [1].
Proof.
  exists (run (initial 1) (StartFails 2 1 [(3, 1)])).
  assert (H : history 1 ([] ++ [StartFails 2 1 [(3, 1)]]) (run (initial 1) (StartFails 2 1 [(3, 1)]))).
  { eapply h_step; [apply h_start; discriminate|].
    eapply s_startFails; try reflexivity; try discriminate.
    - eexists; split; reflexivity.
    - intros i x y Hn. destruct i as [|[|i]]; inversion Hn; subst.
      split; [discriminate|]. split; [reflexivity|]. eexists; split; reflexivity.
    - repeat constructor. intros []. }
  split; [exact H|]. split; [eexists; split; reflexivity|]. exists 9%nat. reflexivity.
Qed.

Definition Ttree_theorems := (C81_tree, C81_links, C81_walk, C81_collect, C81_start,
  C46_root_exit_refuted, C82_count_refuted, C82_lost_refuted).
Print Assumptions Ttree_theorems.
