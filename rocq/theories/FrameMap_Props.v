(** The maps that tell the collector which slots of a frame hold references. *)
From Verif Require Import Base FrameMap_Model FrameMap_Spec FrameMap_Proofs FrameMap_Log
  FrameMap_Sound FrameMap_Fix FrameMap_Complete FrameMap_Term.
Local Open Scope nat_scope.

(** C103.  The calculation of the maps ends for every method, and the number of
    passes allowed does not matter once it is large enough. *)
Lemma dirtyLoop_more : forall m tl vis evs f g s s' s'',
  dirtyLoop f m tl vis evs s = Some s' -> dirtyLoop g m tl vis evs s = Some s'' -> s' = s''.
Proof.
  induction f as [|f IH]; intros g s s' s'' H1 H2; [discriminate|].
  destruct g as [|g]; [discriminate|]. cbn [dirtyLoop] in *. destruct (dirty s); [|congruence].
  destruct (pass m tl vis evs (setMaps s (maps s) false)) as [s1|]; [|discriminate].
  eapply IH; eassumption.
Qed.

Theorem frame_map_calculation_ends : forall m, slotsOk m ->
  exists f, (exists fuel, frameMaps fuel m = Some f)
    /\ forall fuel g, frameMaps fuel m = Some g -> g = f.
Proof.
  intros m SO. destruct (frameMaps_terminates m SO) as [fuel [f E]]. exists f. split; [eauto|].
  intros fuel' g E'. unfold frameMaps in *. destruct (compileCode m) as [c|]; [|discriminate].
  destruct (dirtyLoop fuel m _ _ _ _) as [s|] eqn:D1; [|discriminate].
  destruct (dirtyLoop fuel' m _ _ _ _) as [s'|] eqn:D2; [|discriminate].
  rewrite (dirtyLoop_more _ _ _ _ _ _ _ _ _ D1 D2) in *. congruence.
Qed.

(** C104.  Without exception handlers the map of every call that can be reached has
    exactly the slots that hold a reference on all paths to the call. *)
Theorem frame_maps_of_methods_without_handlers : forall m, slotsOk m -> handlers m = [] ->
  exists fuel f, frameMaps fuel m = Some f
    /\ forall e, (exists s, at_ m e s) ->
         forall i, (i < localSize m + maxStack m)%N ->
           (N.testbit (f e) i = true <-> forall s, at_ m e s -> s i = true).
Proof.
  intros m SO Hh. destruct (frameMaps_terminates m SO) as [fuel [f E]]. exists fuel, f. split; [exact E|].
  assert (IH : forall ip, isHandler m ip = false) by (intros; unfold isHandler; rewrite Hh; reflexivity).
  assert (HB : handlersByException m) by (split; intros; apply IH).
  assert (HL : handlersLive m) by (intros h H; rewrite Hh in H; destruct H).
  assert (S : sound m f).
  { eapply frameMaps_sound; try eassumption.
    - intros h H. rewrite Hh in H. destruct H.
    - intros c h l1 st l2 ip k _ H. rewrite Hh in H. destruct H.
    - left. exact Hh. }
  intros e Hex i Li. split.
  - intros Hi s Hs. apply (S e s i Hs Hi).
  - intros Ha. apply (frameMaps_misses_nothing m HB HL fuel f E e i Hex Li Ha).
Qed.

(** C105.  With handlers, no reference is missed: a slot that holds a reference on
    all paths to a call is in the map of the call. *)
Theorem frame_maps_miss_no_reference : forall m fuel f,
  handlersByException m -> handlersLive m -> frameMaps fuel m = Some f -> misses_nothing m f.
Proof. intros m fuel f HB HL E. exact (frameMaps_misses_nothing m HB HL fuel f E). Qed.

(** C106.  With handlers, nothing but references is in the maps, provided that
    handlers lie outside their ranges, that all calls of a range have been compiled
    when its handler is, and that compilation of the code outside the handlers does
    not end by coming back to compiled code. *)
Theorem frame_maps_have_only_references_partial : forall m fuel f,
  handlersByException m -> notInOwnRange m -> rangeStable m -> lastPathLeaves m ->
  frameMaps fuel m = Some f -> sound m f.
Proof. exact frameMaps_sound. Qed.

(** Each of the last three conditions is needed. *)
Definition ins (e : list effect) (n : option nat) : insn := {| effects := e; branches := []; next := n |}.

(** Object o = ...; for (;;) { f(); try { g(); } catch (E e) { int i = 0; } h(); }
    where i takes the slot of o. *)
Definition loopMethod : method := {|
  code := [ins [EMark 3; EClear 3; EMark 2] (Some 1);
           ins [ETrace] (Some 2);
           ins [ETrace] (Some 3);
           ins [] (Some 6);
           ins [EClear 3; EMark 1] (Some 5);
           ins [EMark 3; EClear 3; EClear 2] (Some 6);
           ins [ETrace] (Some 7);
           ins [ETrace] (Some 1)];
  handlers := [{| hstart := 2; hend := 3; hip := 4 |}];
  localSize := 3; maxStack := 2; params := [(0%N, true); (1%N, true)] |}.

(** A handler that lies in its range, stores a number in the slot of an object and
    makes a call. *)
Definition selfMethod : method := {|
  code := [ins [EMark 3; EClear 3; EMark 2] (Some 1);
           ins [ETrace] (Some 2);
           ins [] (Some 5);
           ins [EClear 3; EMark 1; EMark 3; EClear 3; EClear 2] (Some 4);
           ins [ETrace] (Some 5);
           ins [] None];
  handlers := [{| hstart := 1; hend := 5; hip := 3 |}];
  localSize := 3; maxStack := 2; params := [(0%N, true); (1%N, true)] |}.

(** The handler of the second range jumps into the first range, whose handler has
    been compiled by then. *)
Definition lateMethod : method := {|
  code := [ins [EMark 3; EClear 3; EMark 2] (Some 1);
           ins [ETrace] (Some 3);
           ins [ETrace] None;
           ins [] None;
           ins [] None;
           ins [EClear 3; EMark 1; EMark 3; EClear 3; EClear 2] (Some 2);
           ins [EClear 3; EMark 1] (Some 7);
           ins [ETrace] None];
  handlers := [{| hstart := 1; hend := 3; hip := 6 |}; {| hstart := 1; hend := 2; hip := 5 |}];
  localSize := 3; maxStack := 2; params := [(0%N, true); (1%N, true)] |}.

Lemma step1 : forall m ip i s n, reach m ip s -> nth_error (code m) ip = Some i -> next i = Some n ->
  reach m n (after s (doing m ip i)).
Proof.
  intros m ip i s n R E N. eapply reach_succ; [exact R|exact E|]. unfold succs. rewrite N. apply in_or_app. right. left. reflexivity.
Qed.
Lemma call1 : forall m ip i s post, reach m ip s -> nth_error (code m) ip = Some i ->
  doing m ip i = ETrace :: post -> at_ m (ip, 0) s.
Proof. intros m ip i s post R E D. exact (at_call m ip i s [] post R E D). Qed.


(** The conditions can be checked by computation. *)
Fixpoint stableFrom (h : handler) (l : list event) : bool :=
  match l with
  | [] => true
  | PushExceptionHandlerEvent st en :: l2 =>
      (if (en =? handlerEnd st h) && (hstart h <=? st) && (st <? hend h)
       then forallb (fun ev => match ev with
                               | TraceEvent (ip, _) => negb ((hstart h <=? ip) && (ip <? handlerEnd st h))
                               | _ => true end) l2
       else true) && stableFrom h l2
  | _ :: l2 => stableFrom h l2
  end.
Lemma stableFrom_ok : forall h l l1 st l2 ip k, stableFrom h l = true ->
  l = l1 ++ PushExceptionHandlerEvent st (handlerEnd st h) :: l2 -> hstart h <= st < hend h ->
  In (TraceEvent (ip, k)) l2 -> ~ (hstart h <= ip < handlerEnd st h).
Proof.
  intros h l l1 st l2 ip k C E Hr Hi [H1 H2]. subst l. induction l1 as [|e l1 IH].
  - cbn [app stableFrom] in C. rewrite Nat.eqb_refl in C. destruct Hr as [Hr1 Hr2].
    apply Nat.leb_le in Hr1. apply Nat.ltb_lt in Hr2. rewrite Hr1, Hr2 in C. cbn [andb] in C.
    apply andb_prop in C. destruct C as [C _]. rewrite forallb_forall in C. specialize (C _ Hi). cbv beta iota in C.
    apply Nat.leb_le in H1. apply Nat.ltb_lt in H2. rewrite H1, H2 in C. discriminate.
  - apply IH. cbn [app stableFrom] in C. destruct e; try exact C. apply andb_prop in C. tauto.
Qed.
Lemma rangeStable_check : forall m,
  match compileCode m with Some c => forallb (fun h => stableFrom h (log c)) (handlers m) | None => true end = true ->
  rangeStable m.
Proof.
  intros m C c h l1 st l2 ip k E Hh L Hr Hi. rewrite E in C. rewrite forallb_forall in C.
  eapply stableFrom_ok; eauto.
Qed.
Lemma lastPathLeaves_check : forall m,
  match comp (S (S (length (code m)))) m 0 false (fun _ => 0) with
  | Some (es, v) => match last es PopContextEvent with IpEvent ip => v ip =? 1 | _ => true end
  | None => true
  end = true -> lastPathLeaves m.
Proof.
  intros m C. right. intros es v E es' ip L. rewrite E in C. subst es. rewrite last_last in C. apply Nat.eqb_eq. exact C.
Qed.
Definition slotsOkb (m : method) : bool :=
  forallb (fun i => forallb (fun e => match e with EMark i | EClear i => (i <? localSize m + maxStack m)%N | ETrace => true end)
                            (effects i)) (code m)
  && forallb (fun p : N * bool => (fst p <? localSize m + maxStack m)%N) (params m)
  && (0 <? maxStack m)%N.
Lemma slotsOk_check : forall m, slotsOkb m = true -> slotsOk m.
Proof.
  intros m C. unfold slotsOkb in C. apply andb_prop in C. destruct C as [C C3]. apply andb_prop in C.
  destruct C as [C1 C2]. rewrite forallb_forall in C1, C2. split; [|split].
  - intros i0 e i Hi He Hx. specialize (C1 _ Hi). rewrite forallb_forall in C1. specialize (C1 _ He).
    destruct Hx as [-> | ->]; apply N.ltb_lt; exact C1.
  - intros p Hp. apply N.ltb_lt. exact (C2 p Hp).
  - intros _. apply N.ltb_lt. exact C3.
Qed.
Definition byExceptionb (m : method) : bool :=
  negb (isHandler m 0)
  && forallb (fun i => forallb (fun n => negb (isHandler m n)) (succs i)) (code m).
Lemma byException_check : forall m, byExceptionb m = true -> handlersByException m.
Proof.
  intros m C. unfold byExceptionb in C. apply andb_prop in C. destruct C as [C1 C2].
  rewrite forallb_forall in C2. split; [apply negb_true_iff; exact C1|].
  intros ip i n E Hn. apply nth_error_In in E. specialize (C2 _ E). rewrite forallb_forall in C2.
  apply negb_true_iff. exact (C2 n Hn).
Qed.
Definition outsideb (m : method) : bool :=
  forallb (fun h => negb ((hstart h <=? hip h) && (hip h <? hend h))) (handlers m).
Lemma outside_check : forall m, outsideb m = true -> notInOwnRange m.
Proof.
  intros m C h Hh [H1 H2]. unfold outsideb in C. rewrite forallb_forall in C. specialize (C h Hh).
  apply Nat.leb_le in H1. apply Nat.ltb_lt in H2. rewrite H1, H2 in C. discriminate.
Qed.

(** One map, at one call, against one path. *)
Lemma not_sound : forall m e i s fuel, at_ m e s -> s i = false ->
  match frameMaps fuel m with Some f => N.testbit (f e) i | None => false end = true ->
  exists f, frameMaps fuel m = Some f /\ ~ sound m f.
Proof.
  intros m e i s fuel A F C. destruct (frameMaps fuel m) as [f|]; [|discriminate]. exists f. split; [reflexivity|].
  intros S0. specialize (S0 e s i A C). congruence.
Qed.

Lemma throw1 : forall m ip k s h, at_ m (ip, k) s -> In h (handlers m) -> hstart h <= ip < hend h ->
  reach m (hip h) (handlerSlots m s).
Proof. intros. eapply reach_throw; eassumption. Qed.

Lemma loopMethod_path : exists s, at_ loopMethod (1, 0) s /\ s 2%N = false.
Proof.
  pose proof (reach_entry loopMethod) as R0.
  pose proof (step1 _ _ _ _ 1 R0 eq_refl eq_refl) as R1.
  pose proof (step1 _ _ _ _ 2 R1 eq_refl eq_refl) as R2.
  pose proof (call1 _ _ _ _ _ R2 eq_refl eq_refl) as C2.
  pose proof (throw1 _ _ _ _ {| hstart := 2; hend := 3; hip := 4 |} C2 (or_introl eq_refl) ltac:(cbn; lia)) as R4.
  cbn [hip] in R4.
  pose proof (step1 _ _ _ _ 5 R4 eq_refl eq_refl) as R5.
  pose proof (step1 _ _ _ _ 6 R5 eq_refl eq_refl) as R6.
  pose proof (step1 _ _ _ _ 7 R6 eq_refl eq_refl) as R7.
  pose proof (step1 _ _ _ _ 1 R7 eq_refl eq_refl) as R8.
  pose proof (call1 _ _ _ _ _ R8 eq_refl eq_refl) as C8.
  eexists. split; [exact C8|]. vm_compute. reflexivity.
Qed.

Lemma selfMethod_path : exists s, at_ selfMethod (3, 0) s /\ s 2%N = false.
Proof.
  pose proof (reach_entry selfMethod) as R0.
  pose proof (step1 _ _ _ _ 1 R0 eq_refl eq_refl) as R1.
  pose proof (call1 _ _ _ _ _ R1 eq_refl eq_refl) as C1.
  pose proof (throw1 _ _ _ _ {| hstart := 1; hend := 5; hip := 3 |} C1 (or_introl eq_refl) ltac:(cbn; lia)) as R3.
  cbn [hip] in R3.
  pose proof (step1 _ _ _ _ 4 R3 eq_refl eq_refl) as R4.
  pose proof (call1 _ _ _ _ _ R4 eq_refl eq_refl) as C4.
  pose proof (throw1 _ _ _ _ {| hstart := 1; hend := 5; hip := 3 |} C4 (or_introl eq_refl) ltac:(cbn; lia)) as R5.
  cbn [hip] in R5.
  pose proof (call1 _ _ _ _ _ R5 eq_refl eq_refl) as C5.
  eexists. split; [exact C5|]. vm_compute. reflexivity.
Qed.

Lemma lateMethod_path : exists s, at_ lateMethod (7, 0) s /\ s 2%N = false.
Proof.
  pose proof (reach_entry lateMethod) as R0.
  pose proof (step1 _ _ _ _ 1 R0 eq_refl eq_refl) as R1.
  pose proof (call1 _ _ _ _ _ R1 eq_refl eq_refl) as C1.
  pose proof (throw1 _ _ _ _ {| hstart := 1; hend := 2; hip := 5 |} C1 (or_intror (or_introl eq_refl)) ltac:(cbn; lia)) as R5.
  cbn [hip] in R5.
  pose proof (step1 _ _ _ _ 2 R5 eq_refl eq_refl) as R2.
  pose proof (call1 _ _ _ _ _ R2 eq_refl eq_refl) as C2.
  pose proof (throw1 _ _ _ _ {| hstart := 1; hend := 3; hip := 6 |} C2 (or_introl eq_refl) ltac:(cbn; lia)) as R6.
  cbn [hip] in R6.
  pose proof (step1 _ _ _ _ 7 R6 eq_refl eq_refl) as R7.
  pose proof (call1 _ _ _ _ _ R7 eq_refl eq_refl) as C7.
  eexists. split; [exact C7|]. vm_compute. reflexivity.
Qed.

Theorem frame_maps_have_only_references_refuted :
  ~ (forall m fuel f, slotsOk m -> handlersByException m -> notInOwnRange m -> rangeStable m ->
       frameMaps fuel m = Some f -> sound m f)
  /\ ~ (forall m fuel f, slotsOk m -> handlersByException m -> rangeStable m -> lastPathLeaves m ->
       frameMaps fuel m = Some f -> sound m f)
  /\ ~ (forall m fuel f, slotsOk m -> handlersByException m -> notInOwnRange m -> lastPathLeaves m ->
       frameMaps fuel m = Some f -> sound m f).
Proof.
  split; [|split]; intros H.
  - destruct loopMethod_path as [s [A F]]. destruct (not_sound loopMethod (1, 0) 2%N s 10 A F) as [f [E N]]; [vm_compute; reflexivity|].
    apply N. apply (H _ _ _ (slotsOk_check loopMethod ltac:(vm_compute; reflexivity)) (byException_check loopMethod ltac:(vm_compute; reflexivity))
      (outside_check loopMethod ltac:(vm_compute; reflexivity)) (rangeStable_check loopMethod ltac:(vm_compute; reflexivity)) E).
  - destruct selfMethod_path as [s [A F]]. destruct (not_sound selfMethod (3, 0) 2%N s 10 A F) as [f [E N]]; [vm_compute; reflexivity|].
    apply N. apply (H _ _ _ (slotsOk_check selfMethod ltac:(vm_compute; reflexivity)) (byException_check selfMethod ltac:(vm_compute; reflexivity))
      (rangeStable_check selfMethod ltac:(vm_compute; reflexivity)) (lastPathLeaves_check selfMethod ltac:(vm_compute; reflexivity)) E).
  - destruct lateMethod_path as [s [A F]]. destruct (not_sound lateMethod (7, 0) 2%N s 10 A F) as [f [E N]]; [vm_compute; reflexivity|].
    apply N. apply (H _ _ _ (slotsOk_check lateMethod ltac:(vm_compute; reflexivity)) (byException_check lateMethod ltac:(vm_compute; reflexivity))
      (outside_check lateMethod ltac:(vm_compute; reflexivity)) (lastPathLeaves_check lateMethod ltac:(vm_compute; reflexivity)) E).
Qed.

(** A method that meets all conditions: a loop with a branch out of it, a range, and
    a handler that stores a number over a reference and joins the code after it. *)
Definition goodMethod : method := {|
  code := [ins [EMark 3; EClear 3; EMark 2] (Some 1);
           {| effects := [ETrace]; branches := [1; 4]; next := Some 2 |};
           ins [ETrace; EMark 3; EClear 3] (Some 3);
           ins [] (Some 6);
           ins [ETrace] None;
           ins [EClear 3; EClear 2] (Some 6);
           ins [ETrace; EClear 1; ETrace] None];
  handlers := [{| hstart := 2; hend := 3; hip := 5 |}];
  localSize := 3; maxStack := 2; params := [(0%N, true); (1%N, true)] |}.
Example goodMethod_meets :
  slotsOk goodMethod /\ handlersByException goodMethod /\ notInOwnRange goodMethod
  /\ rangeStable goodMethod /\ lastPathLeaves goodMethod /\ handlersLive goodMethod.
Proof.
  split; [apply slotsOk_check; vm_compute; reflexivity|]. split; [apply byException_check; reflexivity|].
  split; [apply outside_check; vm_compute; reflexivity|]. split; [apply rangeStable_check; reflexivity|].
  split; [apply lastPathLeaves_check; vm_compute; reflexivity|].
  intros h [<-|[]]. cbn [hip].
  pose proof (reach_entry goodMethod) as R0.
  pose proof (step1 _ _ _ _ 1 R0 eq_refl eq_refl) as R1.
  pose proof (step1 _ _ _ _ 2 R1 eq_refl eq_refl) as R2.
  pose proof (call1 _ _ _ _ _ R2 eq_refl eq_refl) as C2.
  pose proof (throw1 _ _ _ _ {| hstart := 2; hend := 3; hip := 5 |} C2 (or_introl eq_refl) ltac:(cbn; lia)) as R4.
  eexists. exact R4.
Qed.
Example goodMethod_maps :
  match frameMaps 10 goodMethod with
  | Some f => map f [(1, 0); (2, 0); (4, 0); (5, 0); (6, 0); (6, 1)]
  | None => []
  end = [7; 7; 7; 15; 3; 1]%N.
Proof. vm_compute. reflexivity. Qed.
Example plainMethod_meets :
  let m := {| code := code goodMethod; handlers := []; localSize := 3; maxStack := 2; params := params goodMethod |} in
  slotsOk m /\ handlers m = [] /\ exists s, at_ m (6, 1) s.
Proof.
  split; [apply slotsOk_check; vm_compute; reflexivity|]. split; [reflexivity|].
  set (m := {| code := code goodMethod; handlers := []; localSize := 3; maxStack := 2; params := params goodMethod |}).
  pose proof (reach_entry m) as R0.
  pose proof (step1 _ _ _ _ 1 R0 eq_refl eq_refl) as R1.
  pose proof (step1 _ _ _ _ 2 R1 eq_refl eq_refl) as R2.
  pose proof (step1 _ _ _ _ 3 R2 eq_refl eq_refl) as R3.
  pose proof (step1 _ _ _ _ 6 R3 eq_refl eq_refl) as R6.
  eexists. exact (at_call m 6 _ _ [ETrace; EClear 1] [] R6 eq_refl eq_refl).
Qed.

Definition FrameMap_theorems :=
  (frame_map_calculation_ends, frame_maps_of_methods_without_handlers, frame_maps_miss_no_reference,
   frame_maps_have_only_references_partial, frame_maps_have_only_references_refuted).
Print Assumptions FrameMap_theorems.
