(** C155, C156: the constant pool of a class file. *)
From Coq Require Import NArith List Bool Lia.
From Verif Require Import Res Stream_Model CPool_Model CPool_Spec CPool_Proofs.
Import ListNotations.
Local Open Scope N_scope.

(** C155: whatever surrounds it in the file, and in whatever order its entries stand and refer
    to each other, a legal pool is read without a fault. Every index holds the constant the
    format gives it; the dynamic calls are listed in order; the stream stands behind the pool;
    and the bits tell, for every index, whether the collector finds an object there and
    whether it is a number of floating point. *)
Theorem C155_pool_read : forall es before_ after_ depth,
  legal es -> (4 <= depth)%nat ->
  let file := before_ ++ poolBytes es ++ after_ in
  Forall (fun b => b < 256) file -> N.of_nat (length file) < 2 ^ 32 ->
  let s := newStream file (N.of_nat (length file)) in
  exists r, parsePool depth (setPosition s (N.of_nat (length before_))) = Ok r
    /\ entries r = map (slotOf es) (slots es)
    /\ invocations r = dynamics es
    /\ rest r = setPosition s (N.of_nat (length before_ + length (poolBytes es)))
    /\ (forall i, N.testbit (objectBits r) (i + 2) = isObject (nth (N.to_nat i) (slots es) None))
    /\ (forall i, N.testbit (floatBits r) i = nth (N.to_nat i) (floating es) false).
Proof.
  intros es a b depth Hl Hd file Hb Hs s.
  destruct (parsePool_ok file Hb Hs es depth (N.of_nat (length a)) Hl Hd) as (r & E & R1 & R2 & R3 & _ & R5 & R6).
  { exists a, b. auto. }
  exists r. split; [exact E|]. split; [exact R1|]. split; [exact R2|]. split; [|auto].
  rewrite R3. unfold mk, s, setPosition, withPos, newStream. cbn [data ssize errors]. f_equal. lia.
Qed.

(** The object made for [c] entries gives back that count, and its three parts (the entries,
    the bits of floats, the bits of objects with two for the header) have room. *)
Theorem C155_pool_layout : forall c, 0 < c -> c < 2 ^ 16 ->
  exists len, makeSingletonOfSize (add32 c (poolMaskSize c)) = Ok len /\ poolSize len = c
    /\ len = c + poolMaskSize c + singletonMaskSize (c + poolMaskSize c)
    /\ singletonCount len = c + poolMaskSize c
    /\ c <= 64 * poolMaskSize c /\ c + poolMaskSize c + 2 <= 64 * singletonMaskSize (c + poolMaskSize c).
Proof. exact (sizes [] eq_refl). Qed.

(** A pool that uses every kind of entry; names stand before and behind their uses. *)
Definition demo : list entry :=
  [ Member Method 3 5; MethodHandle 6 1; Class 4; Utf8 [65]; NameAndType 4 6; Utf8 [40; 41; 86];
    Long 4294967298; Double 5; Float 7; Integer 9; String 4; MethodType 6; InvokeDynamic 2 5 ].
Example C155_demo : legal demo
  /\ nth 0 (map (slotOf demo) (slots demo)) (Word 0) = Obj (OReference 0 (Some [65]) (Some [65]) (Some [40; 41; 86]))
  /\ nth 6 (map (slotOf demo) (slots demo)) (Word 0) = Word 4294967298
  /\ nth 7 (map (slotOf demo) (slots demo)) (Word 1) = Word 0
  /\ dynamics demo = [OInvocation 2 [65] [40; 41; 86]]
  /\ exists r, parsePool 4 (fileOf (poolBytes demo)) = Ok r /\ entries r = map (slotOf demo) (slots demo).
Proof.
  split.
  - split; [vm_compute; reflexivity|]. repeat (constructor; [split; [vm_compute; auto 10|vm_compute; discriminate]|]). constructor.
  - repeat (split; [vm_compute; reflexivity|]). eexists. split; vm_compute; reflexivity.
Qed.

(** C156: a file whose pool is not legal is refused, that is, reading comes back with an error
    and touches nothing outside. It does not hold: the code knows no error but ending the
    process. *)
Definition refusesAll : Prop := forall file, Forall (fun b => b < 256) file ->
  exists depth, parsePool depth (fileOf file) <> UB /\ parsePool depth (fileOf file) <> Fuel
    /\ parsePool depth (fileOf file) <> Abort.
(** A class naming itself recurses for ever. *)
Theorem C156_recursion_refuted : forall depth, parsePool depth (fileOf selfNamed) = Fuel.
Proof. exact selfNamed_loops. Qed.
(** Index 0, an index beyond the pool, the second index of a long, an entry of another kind,
    and a count of 0 use memory outside the tables or words that are no objects. *)
Theorem C156_memory_refuted : forall depth,
  parsePool (S (S depth)) (fileOf [0; 2; 7; 0; 0]) = UB
  /\ parsePool (S (S depth)) (fileOf [0; 2; 7; 0; 9]) = UB
  /\ parsePool (S (S depth)) (fileOf [0; 4; 5; 0; 0; 0; 0; 0; 0; 0; 1; 7; 0; 2]) = UB
  /\ parsePool (S (S depth)) (fileOf [0; 3; 7; 0; 2; 3; 0; 0; 0; 8]) = UB
  /\ parsePool (S (S depth)) (fileOf [0; 0]) = UB.
Proof. intros depth. repeat split; reflexivity. Qed.
(** A file that ends too early, and an entry of a kind the code does not know, as newer
    compilers write (CONSTANT_Dynamic, 17), end the process. *)
Theorem C156_abort_refuted : forall depth,
  parsePool (S (S depth)) (fileOf [0; 2; 7; 0]) = Abort
  /\ parsePool (S (S depth)) (fileOf [0; 2; 17; 0; 0; 0; 1]) = Abort.
Proof. intros depth. repeat split; reflexivity. Qed.
Theorem C156_refuses_refuted : ~ refusesAll.
Proof.
  intros H. destruct (H selfNamed) as (depth & _ & F & _); [repeat constructor|]. apply F, selfNamed_loops.
Qed.

Definition CPool_theorems := (C155_pool_read, C155_pool_layout, C156_recursion_refuted, C156_memory_refuted,
  C156_abort_refuted, C156_refuses_refuted).
Print Assumptions CPool_theorems.
