(** C11, C12, C73, C74 *)
From Verif Require Import Base Res Layout_Model Layout_Spec Layout_Proofs.
Local Open Scope Z_scope.

(** C11. A chain of classes, root first, with at most 8190 instance fields altogether (and at most 8188 static fields in
    each class): every class loads, every field gets an offset, and the instance fields of the whole chain lie behind the
    object header, inside the instance, aligned, without overlap. *)
Theorem C11_instance_layout : forall chain, chain <> [] ->
  (forall fs, In fs chain -> valid fs /\ Z.of_nat (length (statics fs)) <= 8188) -> instanceCount chain <= 8190 ->
  exists offs c, loadChain None chain = Ok (offs, Some c) /\ map (@length Z) offs = map (@length field) chain /\
    goodLayout 8 (fixedSize c) (placedChain chain offs).
Proof.
  intros chain N V B. destruct (chain_ok chain None [] eq_refl V) as [offs [c [E [L [S [_ K]]]]]]; [change (up8 (superSize None)) with 8; lia|].
  destruct (K N) as [d ->]. exists offs, d. split; [exact E|]. split; [exact L|]. exact (chained_good _ _ _ (proj1 S)).
Qed.

(** The fields a class adds lie behind everything it inherits, whose offsets are those of the superclass. *)
Theorem C11_after_superclass : forall chain fs offs c,
  (forall fs', In fs' (chain ++ [fs]) -> valid fs' /\ Z.of_nat (length (statics fs')) <= 8188) ->
  instanceCount (chain ++ [fs]) <= 8190 -> loadChain None chain = Ok (offs, Some c) ->
  exists os c', loadChain None (chain ++ [fs]) = Ok (offs ++ [os], Some c') /\ fixedSize c <= fixedSize c' /\
    goodLayout (fixedSize c) (fixedSize c') (placedInstances fs os).
Proof.
  intros chain fs offs c V B E.
  assert (B' : instanceCount chain + instanceCount [fs] <= 8190).
  { unfold instanceCount, instances in *. rewrite concat_app, filter_app, app_length, Nat2Z.inj_add in B. lia. }
  destruct (chain_ok chain None [] eq_refl) as [offs' [c0 [E' [L [S [U _]]]]]].
  { intros g Hg. apply V, in_or_app. left. exact Hg. } { change (up8 (superSize None)) with 8. unfold instanceCount in *. lia. }
  rewrite E in E'. inversion E'; subst offs' c0. clear E'. change (up8 (superSize None)) with 8 in U.
  destruct (V fs) as [V1 V2]; [apply in_or_app; right; left; reflexivity|].
  destruct (parse_ok 0 (Some c) _ fs S V1 V2) as [os [c' [st [P1 [P2 [P3 _]]]]]].
  { cbn [superSize] in *. unfold instanceCount in *. cbn [concat] in B'. rewrite app_nil_r in B'. lia. }
  exists os, c'. split; [|split; [apply chained_le in P3; exact P3 | apply chained_good; exact P3]].
  clear - E P1. revert E P1. generalize (@None class). revert offs. induction chain as [|g chain IH]; intros offs s E P1; cbn [loadChain app] in *.
  - inversion E; subst. cbn [loadChain]. rewrite P1. reflexivity.
  - destruct (parseFieldTable 0 s g) as [[[o k] st']| | |] eqn:Ep; cbn [bind] in *; try discriminate.
    destruct (loadChain (Some k) chain) as [[l d]| | |] eqn:El; cbn [bind] in *; try discriminate. inversion E; subst. rewrite (IH _ _ El P1). reflexivity.
Qed.

(** The static fields of a class lie in the value part of its static table, behind the table's header and class word. *)
Theorem C11_static_layout : forall self chain fs offs super,
  loadChain None chain = Ok (offs, super) ->
  (forall fs', In fs' (chain ++ [fs]) -> valid fs' /\ Z.of_nat (length (statics fs')) <= 8188) ->
  instanceCount (chain ++ [fs]) <= 8190 ->
  exists os c st, parseFieldTable self super fs = Ok (os, c, st) /\ length os = length fs /\
    match st with
    | None => statics fs = []
    | Some s => goodLayout 24 (16 + 8 * count s) (placedStatics fs os) /\ count s <= slength s
    end.
Proof.
  intros self chain fs offs super E V B.
  assert (B' : instanceCount chain + instanceCount [fs] <= 8190).
  { unfold instanceCount, instances in *. rewrite concat_app, filter_app, app_length, Nat2Z.inj_add in B. lia. }
  destruct (chain_ok chain None [] eq_refl) as [offs' [c0 [E' [L [S [U _]]]]]].
  { intros g Hg. apply V, in_or_app. left. exact Hg. } { change (up8 (superSize None)) with 8. unfold instanceCount in *. lia. }
  rewrite E in E'. inversion E'; subst offs' c0. change (up8 (superSize None)) with 8 in U.
  destruct (V fs) as [V1 V2]; [apply in_or_app; right; left; reflexivity|].
  destruct (parse_ok self super _ fs S V1 V2) as [os [c' [st [P1 [P2 [P3 [P4 [P5 P6]]]]]]]].
  { unfold instanceCount in *. cbn [concat] in B'. rewrite app_nil_r in B'. lia. }
  exists os, c', st. split; [exact P1|]. split; [exact P2|]. destruct st; [|exact P6]. tauto.
Qed.

(** C12. Walking an instance visits, each once, exactly the class word and the words that hold a reference field declared
    by the class or inherited; a walk resumed at [start] visits the rest. *)
Theorem C12_instance : forall chain offs c start,
  (forall fs, In fs chain -> valid fs /\ Z.of_nat (length (statics fs)) <= 8188) -> instanceCount chain <= 8190 ->
  loadChain None chain = Ok (offs, Some c) -> 0 <= start ->
  exists r, walkInstance c start = Ok r /\ ascending r /\
    forall i, In i r <-> start <= i /\ (i = 0 \/ holdsReference (placedChain chain offs) i).
Proof.
  intros chain offs c start V B E Hs.
  destruct (chain_ok chain None [] eq_refl V) as [offs' [c0 [E' [L [S _]]]]]; [change (up8 (superSize None)) with 8; lia|].
  rewrite E in E'. inversion E'; subst. exact (walk_instance _ _ _ S Hs).
Qed.

(** Walking a static table visits exactly its class word, the class it belongs to and the static reference fields. *)
Theorem C12_static : forall self chain fs offs super os c s start,
  loadChain None chain = Ok (offs, super) ->
  (forall fs', In fs' (chain ++ [fs]) -> valid fs' /\ Z.of_nat (length (statics fs')) <= 8188) ->
  instanceCount (chain ++ [fs]) <= 8190 -> parseFieldTable self super fs = Ok (os, c, Some s) -> 0 <= start ->
  exists r, walkSingleton s start = Ok r /\ ascending r /\
    forall i, In i r <-> start <= i /\ (i = 0 \/ i = 2 \/ holdsReference (placedStatics fs os) i).
Proof.
  intros self chain fs offs super os c s start E V B P Hs.
  assert (B' : instanceCount chain + instanceCount [fs] <= 8190).
  { unfold instanceCount, instances in *. rewrite concat_app, filter_app, app_length, Nat2Z.inj_add in B. lia. }
  destruct (chain_ok chain None [] eq_refl) as [offs' [c0 [E' [L [S [U _]]]]]].
  { intros g Hg. apply V, in_or_app. left. exact Hg. } { change (up8 (superSize None)) with 8. unfold instanceCount in *. lia. }
  rewrite E in E'. inversion E'; subst offs' c0. change (up8 (superSize None)) with 8 in U.
  destruct (V fs) as [V1 V2]; [apply in_or_app; right; left; reflexivity|].
  destruct (parse_ok self super _ fs S V1 V2) as [os' [c' [st [P1 [P2 [P3 [P4 [P5 P6]]]]]]]].
  { unfold instanceCount in *. cbn [concat] in B'. rewrite app_nil_r in B'. lia. }
  rewrite P in P1. inversion P1; subst. apply P6. exact Hs.
Qed.

(** Walking an array of [n] references visits the class word and every element; of primitives, the class word only. *)
Theorem C12_arrays : forall n start, 0 <= n -> 0 <= start ->
  (exists r, walkArray arrayClass 8 n start = Ok r /\ ascending r /\ forall i, In i r <-> start <= i /\ (i = 0 \/ 2 <= i < 2 + n)) /\
  forall size, walkArray primitiveArrayClass size n start = Ok (if start =? 0 then [0] else []).
Proof. intros n start Hn Hs. split; [exact (walk_array n start Hn Hs) | intros; apply walk_parray]. Qed.

(** C73. After loading, each static field holds the constant its ConstantValue attribute names, truncated to the size of
    the field, and zero without such an attribute; the word before them holds the class. *)
Theorem C73_initial_statics : forall self chain fs offs super os c s,
  loadChain None chain = Ok (offs, super) ->
  (forall fs', In fs' (chain ++ [fs]) -> valid fs' /\ Z.of_nat (length (statics fs')) <= 8188) ->
  instanceCount (chain ++ [fs]) <= 8190 -> parseFieldTable self super fs = Ok (os, c, Some s) ->
  get (body s) 0 8 = self mod 2 ^ 64 /\
  forall f o, In (f, o) (placedStatics fs os) ->
    get (body s) (o - 16) (sizeOf (code f)) = match constant f with Some v => v mod 256 ^ sizeOf (code f) | None => 0 end.
Proof.
  intros self chain fs offs super os c s E V B P.
  assert (B' : instanceCount chain + instanceCount [fs] <= 8190).
  { unfold instanceCount, instances in *. rewrite concat_app, filter_app, app_length, Nat2Z.inj_add in B. lia. }
  destruct (chain_ok chain None [] eq_refl) as [offs' [c0 [E' [L [S [U _]]]]]].
  { intros g Hg. apply V, in_or_app. left. exact Hg. } { change (up8 (superSize None)) with 8. unfold instanceCount in *. lia. }
  rewrite E in E'. inversion E'; subst offs' c0. change (up8 (superSize None)) with 8 in U.
  destruct (V fs) as [V1 V2]; [apply in_or_app; right; left; reflexivity|].
  destruct (parse_ok self super _ fs S V1 V2) as [os' [c' [st [P1 [P2 [P3 [P4 [P5 P6]]]]]]]].
  { unfold instanceCount in *. cbn [concat] in B'. rewrite app_nil_r in B'. lia. }
  rewrite P in P1. inversion P1; subst. tauto.
Qed.

(** C74 refuted: offsets and sizes are kept in 16 bits. With 8192 long fields the last one is placed over the object
    header and the instance size is 8 bytes; with 8190 long static fields the last one is placed over the header of the
    static table. *)
Definition longs (st : bool) (n : Z) : list field := repeat (Fld FLong st None) (Z.to_nat n).
Theorem C74_many_instance_fields_refuted : exists fs os c st, valid fs /\ Z.of_nat (length fs) = 8192 /\
  parseFieldTable 0 (Some (Cls 8 None)) fs = Ok (os, c, st) /\ nth_error os (Z.to_nat 8191) = Some 0 /\ fixedSize c = 8.
Proof.
  exists (longs false 8192).
  assert (K : match parseFieldTable 0 (Some (Cls 8 None)) (longs false 8192) with Ok (o, c, _) => nth_error o (Z.to_nat 8191) = Some 0 /\ fixedSize c = 8 | _ => False end) by (vm_compute; split; reflexivity).
  destruct (parseFieldTable 0 (Some (Cls 8 None)) (longs false 8192)) as [[[os c] st]| | |] eqn:E; try destruct K.
  exists os, c, st. split; [intros f Hf; apply repeat_spec in Hf; subst; discriminate|]. split; [reflexivity|]. split; [reflexivity|]. split; assumption.
Qed.
Theorem C74_many_static_fields_refuted : exists fs os c st, valid fs /\ Z.of_nat (length fs) = 8190 /\
  parseFieldTable 0 (Some (Cls 8 None)) fs = Ok (os, c, st) /\ nth_error os (Z.to_nat 8189) = Some 0.
Proof.
  exists (longs true 8190). 
  assert (K : match parseFieldTable 0 (Some (Cls 8 None)) (longs true 8190) with Ok (o, _, _) => nth_error o (Z.to_nat 8189) | _ => None end = Some 0) by (vm_compute; reflexivity).
  destruct (parseFieldTable 0 (Some (Cls 8 None)) (longs true 8190)) as [[[os c] st]| | |] eqn:E; try discriminate K.
  exists os, c, st. split; [intros f Hf; apply repeat_spec in Hf; subst; discriminate|]. split; [reflexivity|]. split; [reflexivity|]. exact K.
Qed.

(** Not vacuous: a root class without fields and two subclasses; a byte, a reference, a long and a static int constant. *)
Definition ex_chain : list (list field) :=
  [[]; [Fld FByte false None; Fld FObject false None; Fld FInt true (Some 300); Fld FObject true None];
   [Fld FShort false None; Fld FLong false None; Fld FObject false None]].
Example ex_loads : loadChain None ex_chain = Ok ([[]; [8; 16; 24; 32]; [24; 32; 40]], Some (Cls 48 (Some [37]))).
Proof. reflexivity. Qed.
Example ex_valid : (forall fs, In fs ex_chain -> valid fs /\ Z.of_nat (length (statics fs)) <= 8188) /\ instanceCount ex_chain <= 8190.
Proof. split; [|vm_compute; discriminate]. intros fs [<- | [<- | [<- | []]]]; (split; [intros f Hf; cbn in Hf; repeat destruct Hf as [<- | Hf]; try discriminate; destruct Hf | vm_compute; discriminate]). Qed.
Example ex_walk : walkInstance (Cls 48 (Some [37])) 0 = Ok [0; 2; 5].
Proof. reflexivity. Qed.
Example ex_static : exists os c s, parseFieldTable 7 (Some (Cls 8 None)) (nth 1 ex_chain []) = Ok (os, c, Some s) /\
  get (body s) (24 - 16) 4 = 300 /\ walkSingleton s 0 = Ok [0; 2; 4].
Proof. eexists _, _, _. split; [reflexivity|]. split; vm_compute; reflexivity. Qed.

Definition layout_theorems := (C11_instance_layout, C11_after_superclass, C11_static_layout, C12_instance, C12_static, C12_arrays,
  C73_initial_statics, C74_many_instance_fields_refuted, C74_many_static_fields_refuted).
Print Assumptions layout_theorems.
