(** C18, C19: garbage collection does not change the program. *)
From Coq Require Import List Bool Arith ZArith Lia.
From Verif Require Import Chain Gc_Model Gc_Spec Gc_Proofs Gc_Whole Gc_Run.
Import ListNotations.

(** The objects a program with [n] local references can reach. *)
Definition reachable (n : nat) (s : state) : nat -> Prop := Live (graphOf (hp s) (seq 0 n)) (fun _ => False).

(** After any program (allocations, loads, stores, earlier collections) a collection, minor or major,
    terminates, and some [f] maps the reachable graph one to one onto the reachable graph afterwards. *)
Theorem C18_collection_preserves_reachable_graph : forall n mj ops s out, 0 < n -> exec n ops empty = Some (s, out) ->
  exists s' f, gc mj n s = Some s' /\
    Preserves f (reachable n s) (graphOf (hp s) (seq 0 n)) (graphOf (hp s') (seq 0 n)) /\
    (forall x, reachable n s x -> lay (hp s') (f x) = lay (hp s) x) /\
    (forall y, reachable n s' y <-> exists x, reachable n s x /\ y = f x).
Proof.
  intros n mj ops s out Hn E. destruct (gc_ok n Hn mj s (exec_wf n Hn ops empty s out (empty_wf n Hn) E)) as (s' & f & E' & _ & HS).
  exists s', f. split; auto. split. apply (s_pres _ _ _ _ HS). split. apply (s_lay _ _ _ _ HS). intros y. split.
  - exact (sim_onto n Hn f s s' HS y).
  - intros (x & Hx & ->). apply (sim_live n Hn f s s' HS x Hx).
Qed.

(** A major collection keeps nothing else: every copy it makes is the copy of a reachable object, and
    every fixed object it keeps is reachable. *)
Theorem C18_major_collection_frees_the_rest : forall e h rs fuel, Ready e h [] rs -> major e = true -> base e < fuel ->
  exists h' f, collect2 e fuel h [] rs = Some h' /\
    Preserves f (live e h rs) (graphOf h rs) (graphOf h' rs) /\
    (forall c, base e <= c < next h' -> exists x, live e h rs x /\ f x = c) /\
    (forall x, mk h' x = true -> live e h rs x) /\
    (forall x, live e h rs x -> match loc_ e x with Fixed _ => f x = x /\ mk h' x = true | _ => base e <= f x < next h' end).
Proof.
  intros e h rs fuel HR HM Hf. destruct (collection e h [] rs fuel HR Hf) as (h' & f & E & HP & _ & HL & HC & Hk & _).
  exists h', f. repeat (split; [assumption|]). intros x Hx. specialize (HL x Hx). rewrite HM in HL. destruct (loc_ e x); try tauto.
  destruct HL as [? [?|[X _]]]; auto. congruence.
Qed.

(** The program cannot tell: wherever collections are put, the outputs are those of the program without. *)
Theorem C18_collections_are_invisible : forall n ops, 0 < n ->
  exists s s' out, exec n (filter (fun o => negb (isGc o)) ops) empty = Some (s, out) /\ exec n ops empty = Some (s', out).
Proof. intros n ops Hn. exact (run_ok n Hn ops). Qed.

(** The write barrier and the collector together keep the remembered set complete: in every state a
    program reaches, a slot of an old object that refers to a young one is remembered. *)
Theorem C19_remembered_set_complete : forall n ops s out, 0 < n -> exec n ops empty = Some (s, out) ->
  forall o i y, o < base (here s) -> old (loc_ (here s) o) = true -> In i (lay (hp s) o) -> ptr (mem (hp s) o i) = Some y ->
    old (loc_ (here s) y) = false -> rem (hp s) o i = true.
Proof. intros n ops s out Hn E. exact (w_rem n s (exec_wf n Hn ops empty s out (empty_wf n Hn) E)). Qed.

(** A minor collection that is given every slot of an old object referring to a young one keeps all that
    the roots or any old object lead to; old objects do not move. *)
Theorem C19_minor_collection : forall e h dirty rs fuel, Ready e h dirty rs -> major e = false -> base e < fuel ->
  exists h' f, collect2 e fuel h dirty rs = Some h' /\
    Preserves f (live e h rs) (graphOf h rs) (graphOf h' rs) /\
    (forall x, x < base e -> old (loc_ e x) = true -> f x = x) /\
    (forall c, base e <= c < next h' -> exists x, live e h rs x /\ f x = c).
Proof.
  intros e h dirty rs fuel HR HM Hf. destruct (collection e h dirty rs fuel HR Hf) as (h' & f & E & HP & _ & HL & HC & _).
  exists h', f. repeat (split; [assumption|]). split; [|assumption]. intros x Hx Ho.
  assert (Hlive : live e h rs x) by (apply live_kept; split; auto). specialize (HL x Hlive). rewrite HM in HL.
  destruct (loc_ e x) eqn:L; cbn in Ho; try discriminate; tauto.
Qed.

(** Non-vacuity: locals 0..3; a class-like object in 0 whose class word is null, a cycle through 1 and 2, a
    fixed object in 3; minor collections until they are old; then a young object stored into an old one and
    dropped from the locals, a minor and a major collection; it is found again, with its contents. *)
Definition cycle : list op :=
  [ONew 0 1 [] false; ONew 1 0 [1; 2] false; ONew 2 0 [1; 2] false; OStore 1 1 2; OStore 2 1 1; OPut 2 3 7%Z; ONew 3 0 [1] true; OStore 3 1 1;
   OGc false; OGc false; OGc false; OGc false; OGc false; OGc false; OGc false; OGc false].
Definition later : list op :=
  [ONew 0 1 [] false; OPut 0 5 42%Z; OStore 1 2 0; OStore 3 1 0; ONull 0; OGc false; ONull 2; OGc true;
   OLoad 0 1 2; OGet 0 5; OLoad 2 3 1; OSame 0 2; OLoad 2 1 1; OGet 2 3; OLoad 2 2 1; OSame 1 2].
Example cycle_becomes_old : match exec 4 cycle empty with
  | Some (s, _) => match ptr (root (hp s) 1), ptr (root (hp s) 3) with
      | Some x, Some y => old (loc_ (here s) x) = true /\ old (loc_ (here s) y) = true | _, _ => False end
  | None => False end.
Proof. vm_compute. auto. Qed.
Example later_outputs : match exec 4 (cycle ++ later) empty with
  | Some (_, out) => filter (fun r => match r with OutNone => false | _ => true end) out = [OutZ 42; OutB true; OutZ 7; OutB true]
  | None => False end.
Proof. vm_compute. reflexivity. Qed.
Example store_is_remembered : match exec 4 (cycle ++ firstn 4 later) empty with
  | Some (s, _) => length (dirtySlots (here s) (hp s)) = 2 | None => False end.
Proof. vm_compute. reflexivity. Qed.
(** Without the remembered slot the young object would be lost: the barrier is what saves it. *)
Example forgotten_is_lost : match exec 4 (cycle ++ firstn 4 later) empty with
  | Some (s, _) => let h0 := setRoot (hp s) 0 (Ref None 0) in
     let h := H (mem h0) (root h0) (next h0) (lay h0) (home h0) (pend h0) (marked h0) (mk h0) (fun _ _ => false) in
     match gc false 4 (St (here s) h), ptr (root h 1) with
     | Some s', Some x => match ptr (mem (hp s') x 2) with Some y => y < base (here s) /\ y <> x /\ mem (hp s') y 5 = Data 42 /\ loc_ (here s') y = New | None => False end
     | _, _ => False end
  | None => False end.
Proof. vm_compute. repeat split; auto; try lia; try discriminate. Qed.

Definition all_theorems := (C18_collection_preserves_reachable_graph, C18_major_collection_frees_the_rest,
  C18_collections_are_invisible, C19_remembered_set_complete, C19_minor_collection).
Print Assumptions all_theorems.
