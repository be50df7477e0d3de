(** Exception handlers and line numbers of compiled methods. *)
From Coq Require Import List Arith Bool Lia.
Import ListNotations.
From Verif Require Import CLayout_Model CLayout_Spec CLayout_Proofs EHT_Model EHT_Spec EHT_Proofs.

(** Compiling a method and the handlers of everything compiled comes to an end. *)
Theorem compile_terminates {T} (len : nat) (code : nat -> instr) (table : list (entry T)) :
  exists fuel r, forall fuel', fuel <= fuel' -> compileMethod len code fuel' table = Some r.
Proof. apply compile_ends. Qed.

(** An exception thrown in machine code of instruction [b], whose return address is behind [a], goes to the compiled handler of the entry that the
    class file says, or on if there is none.  The handler is compiled. *)
Theorem exceptions_reach_their_handler_in_order {T} (len : nat) (code : nat -> instr) (fuel : nat) (table : list (entry T)) (vis evs : list nat) (size : nat -> nat) (match_ : T -> bool) :
  wellFormed len table -> compileMethod len code fuel table = Some (vis, evs) -> orderly (nextOf (S len) evs) evs ->
  Forall (fun e => eEnd e = len \/ In (eEnd e) vis) table ->
  forall a b, belongs (pieces len size evs) a = Some (S b) ->
  findHandler match_ (translate len size vis evs table) (S a) = option_map (machineIp len size evs) (handlerFor match_ table b) /\
  (forall h, handlerFor match_ table b = Some h -> In h vis).
Proof.
  intros W C O E a b B. destruct (compile_ok _ _ _ _ _ _ C) as [A1 [A2 [A3 [A4 [A5 [A6 [A7 _]]]]]]]. destruct (pieces_ok len size evs A3 A4 A5 O) as [P1 P2].
  assert (V : forall j, In (S j) (map fst (pieces len size evs)) <-> In j vis) by (intro j; rewrite P2; apply A1). split; [eapply dispatch_ok; eassumption|].
  intros h H. unfold handlerFor in H. destruct (find _ table) as [e|] eqn:F; [|discriminate]. cbn in H. inversion H; subst h. apply find_some in F. destruct F as [F1 F2].
  rewrite !andb_true_iff, Nat.leb_le, Nat.ltb_lt in F2. unfold wellFormed in W. rewrite Forall_forall in W. destruct (W e F1) as [_ [_ HL]]. destruct (A7 e F1) as [X|X]; [exact (X HL)|].
  exfalso. apply (forwards_none _ _ _ X b); [lia|]. apply V. apply (belongs_in _ _ _ B).
Qed.
(** For methods without a tableswitch. *)
Theorem exceptions_reach_their_handler {T} (len : nat) (code : nat -> instr) (fuel : nat) (table : list (entry T)) (vis evs : list nat) (size : nat -> nat) (match_ : T -> bool) :
  (forall i d cs, i < len -> code i <> Table d cs) ->
  wellFormed len table -> compileMethod len code fuel table = Some (vis, evs) -> Forall (fun e => eEnd e = len \/ In (eEnd e) vis) table ->
  forall a b, belongs (pieces len size evs) a = Some (S b) ->
  findHandler match_ (translate len size vis evs table) (S a) = option_map (machineIp len size evs) (handlerFor match_ table b) /\
  (forall h, handlerFor match_ table b = Some h -> In h vis).
Proof.
  intros NT W C E. apply (exceptions_reach_their_handler_in_order len code fuel table vis evs size match_ W C); [|exact E].
  apply together_orderly, nodup_together. apply (compile_ok _ _ _ _ _ _ C). exact NT.
Qed.
(** [0: goto 5; 3: nop; 4: return; 5: if 3; 8: goto 3; 11: astore; 12: goto 4], handled in nested regions, the inner one, behind its handler, first. *)
Definition guarded (i : nat) : instr := match i with 0 => Goto 5 | 3 => Plain 1 | 5 => Branch 3 3 | 8 => Goto 3 | 11 => Plain 1 | 12 => Goto 4 | _ => Stop end.
Definition guards : list (entry nat) := [{| eStart := 5; eEnd := 8; eHandler := 11; eType := 1 |}; {| eStart := 3; eEnd := 15; eHandler := 12; eType := 2 |}; {| eStart := 13; eEnd := 15; eHandler := 0; eType := 2 |}].
Example exceptions_reach_their_handler_case :
  exists vis evs, compileMethod 15 guarded 100 guards = Some (vis, evs) /\ wellFormed 15 guards /\ Forall (fun e => eEnd e = 15 \/ In (eEnd e) vis) guards /\
  let size i := S i in
  belongs (pieces 15 size evs) 14 = Some (S 5) /\
  findHandler (Nat.eqb 1) (translate 15 size vis evs guards) 15 = Some (machineIp 15 size evs 11) /\
  findHandler (Nat.eqb 2) (translate 15 size vis evs guards) 15 = Some (machineIp 15 size evs 12) /\
  findHandler (Nat.eqb 3) (translate 15 size vis evs guards) 15 = None.
Proof.
  eexists _, _. split; [vm_compute; reflexivity|]. split; [repeat (constructor; [cbn; lia|]); constructor|]. split; [repeat (constructor; [cbn; tauto|]); constructor|].
  vm_compute. repeat split; reflexivity.
Qed.

(** It does not hold if the instruction behind a region is not compiled, as nothing reaches it: [0: aload_0; 1: athrow; 2: nop; 3: areturn], handler 3
    for the region from 0 to 2.  The exception thrown by athrow is not caught. *)
Definition deadEnd (i : nat) : instr := match i with 0 => Plain 1 | 1 => Stop | 2 => Plain 1 | _ => Stop end.
Theorem region_before_dead_code_refuted :
  ~ (forall T len code fuel (table : list (entry T)) vis evs size match_, (forall i d cs, i < len -> code i <> Table d cs) ->
     wellFormed len table -> compileMethod len code fuel table = Some (vis, evs) -> forall a b, belongs (pieces len size evs) a = Some (S b) ->
     findHandler match_ (translate len size vis evs table) (S a) = option_map (machineIp len size evs) (handlerFor match_ table b)).
Proof.
  intro H. specialize (H unit 4 deadEnd 100 [{| eStart := 0; eEnd := 2; eHandler := 3; eType := tt |}] [3; 1; 0] [0; 1; 2; 4] (fun _ => 4) (fun _ => true)).
  assert (NT : forall i d cs, i < 4 -> deadEnd i <> Table d cs) by (intros i d cs _; do 4 (try destruct i as [|i]); discriminate).
  specialize (H NT ltac:(repeat (constructor; [cbn; lia|]); constructor) ltac:(vm_compute; reflexivity) 9 1 ltac:(vm_compute; reflexivity)). vm_compute in H. discriminate H.
Qed.

(** The line of instruction [b], which the entry [ip, line] of an ascending table covers, is found at its machine code, if another instruction or
    more bytes of [b] lie before the next entry; for the last entry, if the instruction at [ip] is compiled. *)
Theorem line_numbers_kept_partial {T} (len : nat) (code : nat -> instr) (fuel : nat) (table : list (entry T)) (vis evs : list nat) (size : nat -> nat) front ip line r :
  (forall i d cs, i < len -> code i <> Table d cs) -> compileMethod len code fuel table = Some (vis, evs) ->
  ascending (front ++ (ip, line) :: r) ->
  forall a b, belongs (pieces len size evs) a = Some (S b) -> ip <= b -> match r with (ip', _) :: _ => b + 1 < ip' | [] => In ip vis end ->
  lineAt (front ++ (ip, line) :: r) b = Some line /\ lineAt (lines len size vis evs (front ++ (ip, line) :: r)) a = Some line.
Proof.
  intros NT C A a b B L K. destruct (compile_ok _ _ _ _ _ _ C) as [A1 [A2 [A3 [A4 [A5 [A6 _]]]]]].
  destruct (pieces_ok len size evs A3 A4 A5 (together_orderly _ _ (nodup_together _ (A6 NT)))) as [P1 P2].
  assert (V : forall j, In (S j) (map fst (pieces len size evs)) <-> In j vis) by (intro j; rewrite P2; apply A1). pose proof (fun H => lines_ok len size vis evs b a P1 V B front ip line r A L H) as R. destruct (R K). auto.
Qed.
Example line_numbers_kept_case : lines 15 (fun i => S i) [12; 11; 4; 3; 8; 5; 0] [0; 1; 6; 4; 5; 9; 12; 13] [(0, 7); (3, 8); (5, 9); (11, 10)] = [(1, 7); (3, 8); (12, 9); (21, 10)].
Proof. vm_compute. reflexivity. Qed.

(** Not in general: [0: iload_0; 1: iload_1; 2: idiv; 3: ireturn], with idiv in a line of its own. *)
Definition division (i : nat) : instr := match i with 3 => Stop | _ => Plain 1 end.
Theorem line_numbers_kept_refuted :
  ~ (forall len code fuel (table : list (entry unit)) vis evs size ls, (forall i d cs, i < len -> code i <> Table d cs) -> compileMethod len code fuel table = Some (vis, evs) ->
     ascending ls -> (forall e, In e ls -> In (fst e) vis) -> forall a b, belongs (pieces len size evs) a = Some (S b) -> lineAt (lines len size vis evs ls) a = lineAt ls b).
Proof.
  intro H. assert (NT : forall i d cs, i < 4 -> division i <> Table d cs) by (intros i d cs _; do 4 (try destruct i as [|i]); discriminate).
  specialize (H 4 division 100 [] [3; 2; 1; 0] [0; 1; 2; 3; 4] (fun _ => 4) [(0, 10); (2, 11); (3, 12)] NT ltac:(vm_compute; reflexivity) ltac:(cbn; lia) ltac:(cbn; intuition (subst; cbn; tauto)) 13 2 ltac:(vm_compute; reflexivity)).
  vm_compute in H. discriminate H.
Qed.

Definition EHT_theorems := (@compile_terminates, @exceptions_reach_their_handler_in_order, @exceptions_reach_their_handler, region_before_dead_code_refuted, @line_numbers_kept_partial, line_numbers_kept_refuted).
Print Assumptions EHT_theorems.
