(** The order of the machine code of a method. *)
From Coq Require Import List Arith Bool Lia Permutation.
Import ListNotations.
From Verif Require Import CLayout_Model CLayout_Spec CLayout_Proofs.

(** Whatever order the pieces were made in, if no instruction is gone back to directly behind the code of the instruction before it, the
    machine code is ordered by bytecode instruction, each piece in it exactly once. *)
Theorem machine_code_in_bytecode_order (count : nat) (evs : list nat) :
  (forall i, In i evs -> i < count) -> 0 < length evs -> nth 0 evs 0 = 0 -> orderly (nextOf count evs) evs ->
  layout count evs = Some (inOrder count evs) /\ Permutation (inOrder count evs) (seq 0 (length evs)).
Proof. intros A B C D. split; [exact (layout_ok count evs A B C D)|exact (inOrder_all count evs A)]. Qed.
(** Code for 4, 3, 5, then again for 4, before 1: five blocks, three chains. *)
Example machine_code_in_bytecode_order_case :
  layout 9 [0; 4; 3; 5; 4; 8; 1; 2; 4] = Some [0; 6; 7; 2; 1; 4; 8; 3; 5] /\ orderly (nextOf 9 [0; 4; 3; 5; 4; 8; 1; 2; 4]) [0; 4; 3; 5; 4; 8; 1; 2; 4].
Proof.
  split; [vm_compute; reflexivity|]. intros p L N LA q Q E. cbn [length] in L. do 9 (try destruct p as [|p]); try lia; try (vm_compute in N; discriminate);
  do 9 (try destruct q as [|q]); try lia; vm_compute in E; discriminate.
Qed.

(** A method without a tableswitch, compiled from any number of entries: the walk over its bytecode ends, makes code for each instruction
    it visits once, and that code is put in the order of the bytecode. *)
Theorem method_without_tableswitch_in_order (len : nat) (code : nat -> instr) (entries : list nat) :
  (forall i d cs, i < len -> code i <> Table d cs) ->
  exists fuel vis evs, events len code fuel entries = Some (vis, evs) /\
    (forall fuel', fuel <= fuel' -> events len code fuel' entries = Some (vis, evs)) /\
    NoDup evs /\ (forall j, In (S j) evs <-> In j vis) /\
    option_map (map (fun p => nth p evs 0)) (layout (S len) evs) = Some (filter (fun i => existsb (Nat.eqb i) evs) (seq 0 (S len))).
Proof.
  intro NT. destruct (events_end len code entries [] [0]) as [fuel [[vis evs] E]]. exists fuel, vis, evs. split; [exact E|]. split; [intros f' L; exact (emitAll_mono len code _ _ L _ _ _ _ E)|].
  destruct (events_ok len code _ _ _ _ E) as [A [B [C [D F]]]]. assert (F0 : fits len [] [0]) by (split; [intros i [<-|[]]; left; reflexivity|intros j []]).
  assert (ND : NoDup evs) by (apply (emitAll_once len code NT _ _ _ _ _ _ E F0); repeat constructor; auto). split; [exact ND|].
  split; [intro j; split; [intro I; destruct (A _ I) as [X|[j' [X J]]]; [discriminate|inversion X; subst; exact J]|intro I; apply B; exact I]|].
  rewrite (layout_ok (S len) evs F C D (together_orderly _ _ (nodup_together _ ND))). cbn [option_map]. f_equal. exact (inOrder_once (S len) evs ND).
Qed.
(** A loop with a branch back, a lookupswitch and a handler: [0: goto 6; 3: nop; 4: goto 9; 6: if 3; 9: lookupswitch; 20: return; 21: athrow]. *)
Definition looping (i : nat) : instr :=
  match i with 0 => Goto 6 | 3 => Plain 1 | 4 => Goto 9 | 6 => Branch 3 3 | 9 => Lookup 20 [6; 20] | _ => Stop end.
Example method_without_tableswitch_in_order_case :
  events 22 looping 100 [0; 21] = Some ([21; 20; 9; 4; 3; 6; 0], [0; 1; 7; 4; 5; 10; 21; 22]) /\
  layout 23 [0; 1; 7; 4; 5; 10; 21; 22] = Some [0; 1; 3; 4; 2; 5; 6; 7].
Proof. split; vm_compute; reflexivity. Qed.

(** The same does not hold with a tableswitch: [0: goto 4; 3: return; 4: tableswitch default 3].  The first code of the tableswitch, which the
    goto jumps to, is not put anywhere. *)
Definition backDefault (i : nat) : instr := match i with 0 => Goto 4 | 3 => Stop | _ => Table 3 [3] end.
Theorem tableswitch_laid_out_refuted :
  ~ (forall len code entries fuel vis evs, events len code fuel entries = Some (vis, evs) ->
     exists l, layout (S len) evs = Some l /\ Permutation l (seq 0 (length evs))).
Proof.
  intro H. destruct (H 20 backDefault [0] 100 [3; 4; 0] [0; 1; 5; 4; 5; 5] ltac:(vm_compute; reflexivity)) as [l [E P]].
  vm_compute in E. inversion E; subst l. apply Permutation_length in P. discriminate P.
Qed.

Definition CLayout_theorems := (machine_code_in_bytecode_order, method_without_tableswitch_in_order, tableswitch_laid_out_refuted).
Print Assumptions CLayout_theorems.
