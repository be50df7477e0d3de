From Coq Require Import ZArith List Bool Lia.
From Verif Require Import Res Jref_Model LocalRef_Model LocalRef_Spec LocalRef_Proofs.
Import ListNotations.
Local Open Scope Z_scope.

(** C110.  As long as native code deletes only references of its newest frame, every
    reference it holds is not null and denotes its object. *)
Theorem local_references_denote_their_objects : forall p f v o,
  reach newestHeld start p -> In f (held p) -> In (v, o) f -> v <> 0 /\ deref (state p) v = Some o.
Proof.
  intros p f v o R Hf Hv. destruct (reach_good p R) as [st G].
  rewrite (g_held _ _ G) in Hf. destruct (stackOk_held _ _ _ _ f (v, o) (g_stack _ _ G) Hf Hv) as [X1 X2].
  cbn in X1, X2. split; [|exact X2]. intros ->. exact (Jref_Proofs.wf_zero _ _ (g_wf _ _ G) X1).
Qed.

(** Every function on local references ends and does nothing undefined. *)
Theorem local_reference_functions_succeed : forall p e,
  reach newestHeld start p -> legal newestHeld p e ->
  exists v s n, forall fuel, (n <= fuel)%nat -> exec fuel (state p) e = Ok (v, s).
Proof.
  intros p e R Le. destruct (reach_good p R) as [st G].
  destruct (exec_good p st e G Le) as (v & s & (n & En) & _). eauto.
Qed.

(** Popping a frame leaves the references that there were when it was pushed. *)
Theorem popping_restores_the_references : forall p l q a fuel v s,
  reach newestHeld start p -> cellsOf (state p) l ->
  reachAbove newestHeld (length (held p)) (after p Push 0 (pushFrame (state p))) q ->
  length (held q) = S (length (held p)) -> legal newestHeld q (Pop 0 a) ->
  exec fuel (state q) (Pop 0 a) = Ok (v, s) -> made (after q (Pop 0 a) v s) < 2 ^ 32 - 1 ->
  exists l', cellsOf s l' /\ map fst l' = map fst l.
Proof.
  intros p l q a fuel v s R C RA L Le E M. destruct (reach_good p R) as [base G].
  assert (LB : length (held p) = length base) by (rewrite (g_held _ _ G), map_length; reflexivity).
  destruct (exec_good p base Push G (l_push _ _)) as (v0 & s0 & (n & En) & H).
  specialize (En n (le_n _)). cbn in En. injection En as <- <-.
  destruct (H (proj2 (g_made _ _ G))) as (st1 & G1 & ->).
  rewrite LB in RA. destruct (above_good _ base q G1 RA) as (tops & NT & G2).
  destruct (step_good q _ (Pop 0 a) fuel v s G2 Le E M) as (st3 & G3 & C3).
  cbn [changes] in C3. destruct C3 as (top & below & rest & below' & C1 & -> & l0 & F1 & F2). rewrite (F2 eq_refl) in F1. cbn in F1.
  assert (LQ : length tops = 1%nat).
  { rewrite (g_held _ _ G2), map_length, app_length in L. lia. }
  destruct tops as [|t0 [|? ?]]; try discriminate. cbn in C1. injection C1 as <- C1.
  destruct (good_cellsOf _ _ G3) as [l' C']. exists l'. split; [exact C'|].
  rewrite (cellsOf_fst _ _ _ G3 C'), (cellsOf_fst _ _ _ G C). rewrite C1.
  unfold allCells. cbn. rewrite F1. reflexivity.
Qed.

(** An example: two objects, one referenced in both frames, a result handed out. *)
Fixpoint execs (s : lstate) (es : list op) : res (list Z * lstate) :=
  match es with
  | [] => Ok ([], s)
  | e :: r => match exec 10 s e with
              | Ok (v, s1) => match execs s1 r with Ok (vs, s2) => Ok (v :: vs, s2) | x => x end
              | Abort => Abort | UB => UB | Fuel => Fuel end
  end.
Example frames_run :
  match execs (state start) [New 5 100; Push; New 5 200; New 6 200; Delete 100; Pop 200 300; New 7 400] with
  | Ok (vs, s) => (vs, map (deref s) [100; 200; 300; 400], root (rs s))
  | _ => ([], [], 0) end
  = ([100; 0; 100; 200; 0; 300; 400], [Some 5; None; Some 6; Some 7], 400).
Proof. vm_compute. reflexivity. Qed.

(** C111.  Native code may delete every local reference it holds.  It may not: when a
    reference of an outer frame is deleted and was the newest one there, popping the
    inner frame disposes of everything and goes on beyond the end of the list. *)
Definition every_reference_may_be_deleted : Prop := forall p e,
  reach anyHeld start p -> legal anyHeld p e -> exists fuel v s, exec fuel (state p) e = Ok (v, s).

Definition badProgram (n : nat) : program :=
  let p1 := match exec 10 (state start) (New 5 100) with Ok (v, s) => after start (New 5 100) v s | _ => start end in
  let p2 := match exec 10 (state p1) Push with Ok (v, s) => after p1 Push v s | _ => start end in
  let p3 := match exec 10 (state p2) (Delete 100) with Ok (v, s) => after p2 (Delete 100) v s | _ => start end in
  nth n [p1; p2; p3] start.

Lemma bad_pop : forall fuel x, popFrame fuel (state (badProgram 2)) <> Ok x.
Proof. intros [|fuel] x E; vm_compute in E; discriminate. Qed.

Theorem every_reference_may_be_deleted_refuted : ~ every_reference_may_be_deleted.
Proof.
  intros H.
  assert (R1 : reach anyHeld start (badProgram 0)).
  { eapply (re_step anyHeld start start (New 5 100) 10); [apply re_refl|constructor; split; [lia|reflexivity]|reflexivity|vm_compute; reflexivity]. }
  assert (R2 : reach anyHeld start (badProgram 1)).
  { eapply (re_step anyHeld start (badProgram 0) Push 10); [exact R1|constructor|reflexivity|vm_compute; reflexivity]. }
  assert (R3 : reach anyHeld start (badProgram 2)).
  { eapply (re_step anyHeld start (badProgram 1) (Delete 100) 10); [exact R2| |reflexivity|vm_compute; reflexivity].
    constructor. exists [(100, 5)], 5. split; [right; left; reflexivity|left; reflexivity]. }
  destruct (H (badProgram 2) (Pop 0 300) R3) as (fuel & v & s & E).
  - eapply l_pop; [reflexivity|left; reflexivity|]. intros fuel s' E. exfalso. exact (bad_pop fuel s' E).
  - cbn [exec] in E. unfold popLocalFrame in E. cbn [Z.eqb] in E.
    destruct (popFrame fuel (state (badProgram 2))) as [x| | |] eqn:P; try discriminate. exact (bad_pop fuel x P).
Qed.

(** The arguments of a native method are addresses on the stack, not cells; deleting one
    is as undefined as deleting anything that is no cell. *)
Theorem argument_may_be_deleted_refuted :
  ~ (forall s argument, argument <> 0 -> cells (rs s) argument = None ->
       exists fuel v s', exec fuel s (Delete argument) = Ok (v, s')).
Proof.
  intros H. destruct (H (state start) 8 ltac:(lia) eq_refl) as (fuel & v & s' & E). vm_compute in E. discriminate.
Qed.

(** C112.  When the last reference to an object has been deleted, no cell keeps the
    object alive.  False: a reference made again in an inner frame counts for ever. *)
Definition deleting_frees_the_object : Prop := forall p, reach newestHeld start p ->
  concat (held p) = [] -> cellsOf (state p) [].

Definition leak (n : nat) : program :=
  let go := fun p e => match exec 10 (state p) e with Ok (v, s) => after p e v s | _ => start end in
  let p1 := go start (New 5 100) in
  let p2 := go p1 Push in
  let p3 := go p2 (New 5 200) in
  let p4 := go p3 (Pop 0 300) in
  let p5 := go p4 (Delete 100) in
  nth n [p1; p2; p3; p4; p5] start.

Theorem deleting_frees_the_object_refuted : ~ deleting_frees_the_object.
Proof.
  intros H.
  assert (R1 : reach newestHeld start (leak 0)).
  { eapply (re_step newestHeld start start (New 5 100) 10); [apply re_refl|constructor; split; [lia|reflexivity]|reflexivity|vm_compute; reflexivity]. }
  assert (R2 : reach newestHeld start (leak 1)).
  { eapply (re_step newestHeld start (leak 0) Push 10); [exact R1|constructor|reflexivity|vm_compute; reflexivity]. }
  assert (R3 : reach newestHeld start (leak 2)).
  { eapply (re_step newestHeld start (leak 1) (New 5 200) 10); [exact R2|constructor; split; [lia|reflexivity]|reflexivity|vm_compute; reflexivity]. }
  assert (R4 : reach newestHeld start (leak 3)).
  { eapply (re_step newestHeld start (leak 2) (Pop 0 300) 10); [exact R3| |reflexivity|vm_compute; reflexivity].
    eapply l_pop; [reflexivity|left; reflexivity|]. intros [|fuel] s' E; [vm_compute in E; discriminate|].
    assert (E2 : popFrame 1 (state (leak 2)) = Ok s').
    { destruct fuel; exact E. }
    vm_compute in E2. injection E2 as <-. split; [lia|reflexivity]. }
  assert (R5 : reach newestHeld start (leak 4)).
  { eapply (re_step newestHeld start (leak 3) (Delete 100) 10); [exact R4| |reflexivity|vm_compute; reflexivity].
    constructor. exists [(100, 5)], [], 5. split; [reflexivity|left; reflexivity]. }
  specialize (H (leak 4) R5 eq_refl). unfold cellsOf in H.
  assert (RT : root (rs (state (leak 4))) = 100) by (vm_compute; reflexivity). rewrite RT in H. inversion H.
Qed.

(** The references that a native method made are gone when it has ended.  False if it
    ends with an exception. *)
Definition native_method_leaves_nothing : Prop := forall fuel s threw s' l,
  cellsOf s l ->
  forall o a v s1, unused s a -> exec fuel s (New o a) = Ok (v, s1) ->
  endNative fuel s1 (root (rs s)) threw = Ok s' -> exists l', cellsOf s' l' /\ map fst l' = map fst l.

Theorem native_method_leaves_nothing_refuted : ~ native_method_leaves_nothing.
Proof.
  intros H.
  destruct (exec 10 (state start) (New 5 100)) as [[v s1]| | |] eqn:E; try (vm_compute in E; discriminate).
  destruct (H 10%nat (state start) true s1 [] (cf_nil _) 5 100 v s1) as (l' & C & M); auto.
  { split; [lia|reflexivity]. }
  destruct l'; [|discriminate]. unfold cellsOf in C.
  assert (RT : root (rs s1) = 100) by (vm_compute in E; injection E as <- <-; reflexivity). rewrite RT in C. inversion C.
Qed.

Definition localRef_theorems := (local_references_denote_their_objects, local_reference_functions_succeed,
  popping_restores_the_references, every_reference_may_be_deleted_refuted, argument_may_be_deleted_refuted,
  deleting_frees_the_object_refuted, native_method_leaves_nothing_refuted).
Print Assumptions localRef_theorems.
