(** Loading classes by name: what a program can rely on. *)
From Coq Require Import List NArith ZArith Arith Bool Lia.
From Verif Require Import ClassLoad_Model ClassLoad_Spec ClassLoad_Proofs.
Import ListNotations.
Local Open Scope nat_scope.

(** Setting: a tree of system loaders ([ls], boot loader 0 at its root), the classes [s0] the VM starts with and the map
    [boot] of their names; [wf] says that the tree is one, that class files define the class they are found for and that
    the boot loader can find the classes the VM starts with; [bootArrays] that the array classes among these are those of
    the primitive types. [hasClass ls l n]: loader [l] finds a class file for [n]. [lineage ls l]: [l] and its ancestors. *)

(** C146. Whatever classes were asked for before, by whatever names: asking a loader for a type gives the class of that
    name, defined by the loader nearest to the root that has the class the type is made of; it gives none if none of them
    has; and it does not stop the VM. *)
Theorem class_of_type : forall ls boot s0, wf ls boot s0 -> bootArrays boot ->
  forall rs s, requests ls boot rs (start s0) = Some s ->
  forall l t, proper t ->
  exists s' r, resolveClass ls boot l (typeName t) s = Done s' r /\
    match definerOf (hasClass ls) 0 (lineage ls l) t with
    | None => r = None
    | Some d => exists c, r = Some c /\ c_name (classAt s' c) = typeName t /\ c_loader (classAt s' c) = d
    end.
Proof.
  intros ls boot s0 W BA rs s R l t P.
  destruct (requests_keeps ls boot s0 W rs _ _ (start_inv ls boot s0) R) as [I _].
  destruct (type_answer ls boot s0 W BA l t s P I) as [s' [r [E [_ [_ A]]]]].
  exists s', r; split; [exact E|]. destruct (definerOf _ _ _ _) as [d|]; [|exact A].
  destruct A as [c [Er [_ [G1 [G2 _]]]]]. exists c; repeat split; assumption.
Qed.

(** C146. Two answers, at any two moments and from any two loaders, are one class exactly when the types are the same and
    the defining loaders are: no loader ever has two classes for one type. *)
Theorem one_class_per_type : forall ls boot s0, wf ls boot s0 -> bootArrays boot ->
  forall rs1 s1 l1 t1 s2 c1 rs2 s3 l2 t2 s4 c2,
  proper t1 -> proper t2 ->
  requests ls boot rs1 (start s0) = Some s1 -> resolveClass ls boot l1 (typeName t1) s1 = Done s2 (Some c1) ->
  requests ls boot rs2 s2 = Some s3 -> resolveClass ls boot l2 (typeName t2) s3 = Done s4 (Some c2) ->
  (c1 = c2 <-> t1 = t2 /\ definerOf (hasClass ls) 0 (lineage ls l1) t1 = definerOf (hasClass ls) 0 (lineage ls l2) t2).
Proof.
  intros ls boot s0 W BA rs1 s1 l1 t1 s2 c1 rs2 s3 l2 t2 s4 c2 P1 P2 R1 E1 R2 E2.
  destruct (requests_keeps ls boot s0 W rs1 _ _ (start_inv ls boot s0) R1) as [I1 _].
  destruct (type_answer ls boot s0 W BA l1 t1 s1 P1 I1) as [s2' [r1 [F1 [I2 [X1 A1]]]]].
  assert (s2' = s2 /\ r1 = Some c1) as [-> ->] by (rewrite E1 in F1; inversion F1; split; congruence).
  destruct (requests_keeps ls boot s0 W rs2 _ _ I2 R2) as [I3 X2].
  destruct (type_answer ls boot s0 W BA l2 t2 s3 P2 I3) as [s4' [r2 [F2 [I4 [X3 A2]]]]].
  assert (s4' = s4 /\ r2 = Some c2) as [-> ->] by (rewrite E2 in F2; inversion F2; split; congruence).
  destruct (definerOf (hasClass ls) 0 (lineage ls l1) t1) as [d1|] eqn:D1; [|discriminate A1].
  destruct (definerOf (hasClass ls) 0 (lineage ls l2) t2) as [d2|] eqn:D2; [|discriminate A2].
  destruct A1 as [c [Q G1]]. injection Q as <-. destruct A2 as [c [Q G2]]. injection Q as <-.
  pose proof (good_ext s2 s4 _ _ _ (ext_trans _ _ _ X2 X3) G1) as G1'.
  split.
  - intros <-. destruct G1' as [_ [N1 [L1 _]]], G2 as [_ [N2 [L2 _]]].
    split; [apply typeName_inj; congruence|congruence].
  - intros [<- Q]. injection Q as <-. exact (good_one ls boot s0 s4 d1 (typeName t1) c1 c2 I4 G1' G2).
Qed.

(** C146. The element class of an array class is the class the same loader answers for the element type. *)
Theorem array_of_elements : forall ls boot s0, wf ls boot s0 -> bootArrays boot ->
  forall rs s l t s1 c, proper t ->
  requests ls boot rs (start s0) = Some s -> resolveClass ls boot l (typeName (TArrayOf t)) s = Done s1 (Some c) ->
  forall rs' s2, requests ls boot rs' s1 = Some s2 ->
  exists s3 e, resolveClass ls boot l (typeName t) s2 = Done s3 (Some e) /\ c_elem (classAt s3 c) = Some e.
Proof.
  intros ls boot s0 W BA rs s l t s1 c P R E rs' s2 R'.
  destruct (requests_keeps ls boot s0 W rs _ _ (start_inv ls boot s0) R) as [I _].
  destruct (type_answer ls boot s0 W BA l (TArrayOf t) s P I) as [s1' [r [F [I1 [_ A]]]]].
  assert (s1' = s1 /\ r = Some c) as [-> ->] by (rewrite E in F; inversion F; split; congruence).
  destruct (requests_keeps ls boot s0 W rs' _ _ I1 R') as [I2 X2].
  destruct (type_answer ls boot s0 W BA l t s2 P I2) as [s3 [r3 [F3 [I3 [X3 A3]]]]].
  change (definerOf (hasClass ls) 0 (lineage ls l) (TArrayOf t)) with (definerOf (hasClass ls) 0 (lineage ls l) t) in A.
  destruct (definerOf (hasClass ls) 0 (lineage ls l) t) as [d|]; [|discriminate A].
  destruct A as [c' [Q G]]. injection Q as <-. destruct A3 as [e [-> G3]].
  pose proof (good_ext s1 s3 _ _ _ (ext_trans _ _ _ X2 X3) G) as G'.
  destruct (good_elem ls boot s0 BA s3 d t c P I3 G') as [e' [Ee U]].
  exists s3, e. split; [exact F3|]. rewrite (U e G3). exact Ee.
Qed.

(** C146. Making an array of a class (anewarray, Array.newInstance) uses the array class of that very class, whichever
    loader answered it, and it is the class that loader answers for the array type. *)
Theorem array_class_of_class : forall ls boot s0, wf ls boot s0 -> bootArrays boot ->
  forall rs s l t s1 e, proper t ->
  requests ls boot rs (start s0) = Some s -> resolveClass ls boot l (typeName t) s = Done s1 (Some e) ->
  forall rs' s2, requests ls boot rs' s1 = Some s2 ->
  exists s3 c, resolveObjectArrayClass ls boot e s2 = Done s3 (Some c) /\
    c_name (classAt s3 c) = typeName (TArrayOf t) /\ c_elem (classAt s3 c) = Some e /\
    exists s4, resolveClass ls boot l (typeName (TArrayOf t)) s3 = Done s4 (Some c).
Proof.
  intros ls boot s0 W BA rs s l t s1 e P R E rs' s2 R'.
  destruct (requests_keeps ls boot s0 W rs _ _ (start_inv ls boot s0) R) as [I _].
  destruct (type_answer ls boot s0 W BA l t s P I) as [s1' [r [F [I1 [_ A]]]]].
  assert (s1' = s1 /\ r = Some e) as [-> ->] by (rewrite E in F; inversion F; split; congruence).
  destruct (requests_keeps ls boot s0 W rs' _ _ I1 R') as [I2 X2].
  destruct (definerOf (hasClass ls) 0 (lineage ls l) t) as [d|] eqn:D; [|discriminate A].
  destruct A as [e' [Q G]]. injection Q as <-.
  pose proof (good_ext s1 s2 _ _ _ X2 G) as G2.
  unfold resolveObjectArrayClass. destruct G2 as [G2a [G2b [G2c G2d]]]. rewrite G2b, G2c, (arrayNameOf_type t P).
  assert (G2 : good s2 d (typeName t) e) by (repeat split; assumption).
  destruct (type_answer ls boot s0 W BA d (TArrayOf t) s2 P I2) as [s3 [r3 [F3 [I3 [X3 A3]]]]].
  change (definerOf (hasClass ls) 0 (lineage ls d) (TArrayOf t)) with (definerOf (hasClass ls) 0 (lineage ls d) t) in A3.
  rewrite (definer_idem ls boot s0 W BA l t d P D) in A3. destruct A3 as [c [-> G3]].
  exists s3, c. split; [exact F3|].
  destruct (good_elem ls boot s0 BA s3 d t c P I3 G3) as [e' [Ee U]].
  split; [exact (proj1 (proj2 G3))|]. split; [rewrite (U e (good_ext s2 s3 _ _ _ X3 G2)); exact Ee|].
  destruct (type_answer ls boot s0 W BA l (TArrayOf t) s3 P I3) as [s4 [r4 [F4 [I4 [X4 A4]]]]].
  change (definerOf (hasClass ls) 0 (lineage ls l) (TArrayOf t)) with (definerOf (hasClass ls) 0 (lineage ls l) t) in A4.
  rewrite D in A4. destruct A4 as [c4 [-> G4]]. exists s4. rewrite F4. do 2 f_equal.
  exact (good_one ls boot s0 s4 d _ c4 c I4 G4 (good_ext s3 s4 _ _ _ X4 G3)).
Qed.

(** C147 refuted. Class.forName with a name of one bracket and a letter that stands for no type ends the process: the name
    is not refused with ClassNotFoundException. *)
Theorem unknown_letter_aborts_refuted : forall ls boot s0, wf ls boot s0 -> bootArrays boot ->
  forall rs s, requests ls boot rs (start s0) = Some s ->
  forall l x, ~ In x letters -> x <> 76%N -> x <> 91%N -> resolveClass ls boot l [91%N; x] s = Aborted.
Proof.
  intros ls boot s0 W BA rs s R l x NL N1 N2.
  destruct (requests_keeps ls boot s0 W rs _ _ (start_inv ls boot s0) R) as [I _].
  apply (resolve_ok ls boot s0 W l _ s BAbort I). apply b_abort; [reflexivity| |].
  - destruct (boot [91%N; x]) as [e|] eqn:B; [|reflexivity]. exfalso.
    destruct (proj1 (BA [91%N; x] eq_refl)) as [c [L E]]; [congruence|]. injection E as E. subst c. exact (NL L).
  - unfold elementSpec. assert (Q : brackets [91%N; x] = 1).
    { cbn. apply N.eqb_neq in N2. unfold chBracket. rewrite N2. reflexivity. }
    rewrite Q. cbn. apply N.eqb_neq in N1. unfold chL. rewrite N1. reflexivity.
Qed.

(** C148 refuted. A user's loader never remembers: every call of loadClass that reaches its findClass makes one more class,
    whatever classes there are already. *)
Theorem loadClass_defines_again_refuted : forall ls boot l first files n s fname,
  ls l = LUser None first files -> files n = Some fname ->
  exists s', loadClass ls boot l n s = Done s' (Some (length (classes s))) /\
    classAt s' (length (classes s)) = mkCls fname l 0%N None /\
    findLoadedClass s' l fname = Some (length (classes s)).
Proof.
  intros ls boot l first files n s fname L F.
  unfold loadClass, enough. cbn [load]. rewrite L. unfold userFindClass. rewrite F.
  assert (Q : exists s', defineClass l fname s = Done s' (Some (length (classes s))) /\
     classAt s' (length (classes s)) = mkCls fname l 0%N None /\ findLoadedClass s' l fname = Some (length (classes s))).
  { unfold defineClass. eexists; split; [reflexivity|]. unfold saveLoadedClass.
    rewrite add_last. split; [|unfold findLoadedClass; cbn; rewrite Nat.eqb_refl; cbn; rewrite nameEq_refl; reflexivity].
    change (classAt (addClass s (mkCls fname l 0%N None)) (length (classes s)) = mkCls fname l 0%N None).
    apply add_last. }
  destruct Q as [s' [E Q]]. exists s'. split; [|exact Q].
  destruct first; cbn [bindOut]; [rewrite E; reflexivity|exact E].
Qed.

(** ** A VM: Object is in the boot class path, A in the application's, B in the jar of a URLClassLoader (loader 2), and
    loader 3 has an Object of its own and asks its own jar first. *)
Definition nObject : name := [79]%N.
Definition nA : name := [65]%N.
Definition nB : name := [98]%N.

Definition files1 (k : name) : name -> option name := fun n => if nameEq n k then Some n else None.
Definition vm (l : nat) : loader :=
  match l with
  | 0 => LSys None (fun n => if nameEq n nObject then Some n else if nameEq n [70]%N then Some n else None)
  | 1 => LSys (Some 0) (files1 nA)
  | _ => LSys (Some 1) (files1 nB)
  end.
Definition vmUser (l : nat) : loader :=
  match l with
  | 2 => LUser (Some 1) false (files1 nB)
  | 3 => LUser (Some 1) true (files1 [70]%N)
  | _ => vm l
  end.
Fixpoint indexOf (k : nat) (names : list name) (n : name) : option nat :=
  match names with
  | [] => None
  | m :: r => if nameEq m n then Some k else indexOf (S k) r n
  end.
Definition startNames : list name := nObject :: map (fun c => [91%N; c]) letters.
Definition startClasses : list cls := map (fun n => mkCls n 0 0%N None) startNames.
Definition vmBoot : name -> option nat := indexOf 0 startNames.

Lemma vmBoot_cases : forall n e, vmBoot n = Some e -> nth_error startNames e = Some n.
Proof.
  intros n e. unfold vmBoot. unfold startNames, letters. cbn [map indexOf].
  repeat (match goal with |- context [nameEq ?a n] => destruct (nameEq a n) eqn:?Q end;
          [intro E; inversion E; subst e; match goal with H : nameEq _ n = true |- _ => apply nameEq_true in H; subst n end; reflexivity|]).
  discriminate.
Qed.

Example vm_wf : wf vm vmBoot startClasses.
Proof.
  constructor.
  - intros [|[|l]]; cbn [vm]; eexists; eexists; (split; [reflexivity|]); (split; [first [reflexivity|lia]|]);
    unfold files1; intros n f; cbv beta;
    repeat match goal with |- context [nameEq ?a ?b] => destruct (nameEq a b) end; congruence.
  - intros n e B. apply vmBoot_cases in B.
    assert (L : e < length startNames) by (apply nth_error_Some; congruence).
    unfold startClasses. rewrite map_length. split; [exact L|].
    assert (Q : nth e (map (fun n0 => mkCls n0 0 0%N None) startNames) (mkCls [] 0 0%N None) = mkCls n 0 0%N None).
    { apply nth_error_nth. rewrite nth_error_map, B. reflexivity. }
    rewrite Q. split; [reflexivity|]. split; [reflexivity|]. intro A.
    eexists; eexists; split; [reflexivity|]. unfold startNames in B.
    destruct e as [|e]; cbn [nth_error] in B.
    + injection B as <-. vm_compute. discriminate.
    + exfalso. rewrite nth_error_map in B. destruct (nth_error letters e); [|discriminate B].
      injection B as <-. discriminate A.
Qed.

Example vm_bootArrays : bootArrays vmBoot.
Proof.
  intros n A. split.
  - intro H. destruct (vmBoot n) as [e|] eqn:B; [|congruence]. apply vmBoot_cases in B. unfold startNames in B.
    destruct e as [|e]; cbn [nth_error] in B.
    + injection B as <-. discriminate A.
    + rewrite nth_error_map in B. destruct (nth_error letters e) as [c|] eqn:Q; [|discriminate B].
      exists c. split; [eapply nth_error_In; exact Q|]. injection B as <-. reflexivity.
  - intros [c [L ->]]. unfold letters in L. cbn in L.
    repeat (destruct L as [<-|L]; [vm_compute; discriminate|]). contradiction.
Qed.

(** Arrays of arrays of the application's class A, asked of loader 2 after others *)
Definition tAA : type := TArrayOf (TArrayOf (TClass nA)).
Example tAA_fine : proper tAA /\ typeName tAA = [91; 91; 76; 65; 59]%N /\
  definerOf (hasClass vm) 0 (lineage vm 2) tAA = Some 1.
Proof.
  split; [|split; reflexivity]. split; [discriminate|]. intros c [<-|[]]; repeat split; discriminate.
Qed.
Example tAA_answer :
  match requests vm vmBoot [(1, nA); (2, [91; 66]%N); (0, nA); (2, [91; 76; 65; 59]%N)] (start startClasses) with
  | Some s => match resolveClass vm vmBoot 2 (typeName tAA) s with
              | Done s' (Some c) => classAt s' c = mkCls (typeName tAA) 1 2%N (Some 10) /\
                                    c_elem (classAt s' 10) = Some 9 /\ classAt s' 9 = mkCls nA 1 0%N None
              | _ => False
              end
  | None => False
  end.
Proof. vm_compute. repeat split. Qed.

(** C147 refuted, computed: a lone bracket ends the process; a name without its semicolon, or with something behind it, is
    an array class, and not the one of the right name; [256] brackets make a class that does not count as an array. *)
Example bracket_aborts : resolveClass vm vmBoot 1 [91]%N (start startClasses) = Aborted.
Proof. vm_compute. reflexivity. Qed.

Theorem malformed_names_accepted_refuted :
  exists n1 n2 c1 c2 c3 e, n1 <> typeName (TArrayOf (TClass nA)) /\ n2 <> typeName (TArrayOf (TClass nA)) /\
  match resolveClass vm vmBoot 1 (typeName (TArrayOf (TClass nA))) (start startClasses) with
  | Done s1 a1 =>
      match resolveClass vm vmBoot 1 n1 s1 with
      | Done s2 a2 =>
          match resolveClass vm vmBoot 1 n2 s2 with
          | Done s3 a3 =>
              a1 = Some c1 /\ a2 = Some c2 /\ a3 = Some c3 /\ c1 <> c2 /\ c2 <> c3 /\ c1 <> c3 /\
              c_elem (classAt s3 c1) = Some e /\ c_elem (classAt s3 c2) = Some e /\ c_elem (classAt s3 c3) = Some e
          | _ => False
          end
      | _ => False
      end
  | _ => False
  end.
Proof.
  exists [91; 76; 65]%N, [91; 76; 65; 59; 59]%N, 10, 11, 12, 9. split; [discriminate|]. split; [discriminate|].
  vm_compute. repeat (split; [first [reflexivity|discriminate]|]). reflexivity.
Qed.

(** C147 refuted. An array class of 256 dimensions is made (a type has at most 255, JVMS 4.3.2), and the count of its
    dimensions, which tells arrays from other objects, is zero. *)
Theorem array_of_256_dimensions_refuted : forall ls boot s0, wf ls boot s0 -> bootArrays boot ->
  forall rs s, requests ls boot rs (start s0) = Some s ->
  forall l n d, plainName n -> definerOf (hasClass ls) 0 (lineage ls l) (TClass n) = Some d ->
  exists s' c, resolveClass ls boot l (typeName (Nat.iter 256 TArrayOf (TClass n))) s = Done s' (Some c) /\
    c_elem (classAt s' c) <> None /\ c_dims (classAt s' c) = 0%N.
Proof.
  intros ls boot s0 W BA rs s R l n d P D.
  assert (ITER : forall k, proper (Nat.iter k TArrayOf (TClass n)) /\
                   baseClass (Nat.iter k TArrayOf (TClass n)) = Some n /\ depth (Nat.iter k TArrayOf (TClass n)) = k).
  { induction k as [|k [A [B C]]]; [split; [exact P|split; reflexivity]|].
    cbn [Nat.iter nat_rect proper baseClass depth]. split; [exact A|split; [exact B|f_equal; exact C]]. }
  destruct (requests_keeps ls boot s0 W rs _ _ (start_inv ls boot s0) R) as [I _].
  change (Nat.iter 256 TArrayOf (TClass n)) with (TArrayOf (Nat.iter 255 TArrayOf (TClass n))).
  destruct (ITER 255) as [A [B C]].
  remember (Nat.iter 255 TArrayOf (TClass n)) as t eqn:T.
  assert (NT : exists t', t = TArrayOf t') by (exists (Nat.iter 254 TArrayOf (TClass n)); exact T).
  clear T ITER.
  destruct (type_answer ls boot s0 W BA l (TArrayOf t) s A I) as [s' [r [F [I1 [_ Q]]]]].
  unfold definerOf in Q, D. cbn [baseClass] in Q, D. rewrite B, D in Q.
  destruct Q as [c [-> [G1 [G2 [G3 G4]]]]].
  destruct (i_array _ _ _ _ I1 _ _ _ G4 eq_refl (boot_array_none boot BA t A)) as [en [dims [e [E1 [E2 [E3 _]]]]]].
  exists s', c. split; [exact F|]. split; [congruence|]. rewrite E3.
  rewrite (elementSpec_type t A), B, C in E1. destruct NT as [t' ->]. injection E1 as _ <-. reflexivity.
Qed.

(** C148 refuted, computed: the class B the VM linked is not the one a later use finds, because the program called
    loadClass in between. *)
Theorem linked_class_changes_refuted :
  exists c1 c2,
  match resolveClass vmUser vmBoot 2 nB (start startClasses) with
  | Done s1 a1 =>
      match loadClass vmUser vmBoot 2 nB s1 with
      | Done s2 a2 =>
          match resolveClass vmUser vmBoot 2 nB s2 with
          | Done s3 a3 => a1 = Some c1 /\ a2 = Some c2 /\ a3 = Some c2 /\ c1 <> c2 /\
                          c_name (classAt s3 c1) = nB /\ c_name (classAt s3 c2) = nB /\
                          c_loader (classAt s3 c1) = 2 /\ c_loader (classAt s3 c2) = 2
          | _ => False
          end
      | _ => False
      end
  | _ => False
  end.
Proof. exists 9, 10. vm_compute. repeat (split; [first [reflexivity|discriminate]|]). reflexivity. Qed.

(** C148 refuted: Class.forName does not find the array class of a class it has just found. *)
Theorem array_not_found_refuted :
  match loadClass vmUser vmBoot 2 nB (start startClasses) with
  | Done s1 a1 =>
      match loadClass vmUser vmBoot 2 (typeName (TArrayOf (TClass nB))) s1 with
      | Done s2 a2 => a1 <> None /\ a2 = None
      | _ => False
      end
  | _ => False
  end.
Proof. vm_compute. split; [discriminate|reflexivity]. Qed.

(** C148 refuted: loader 3 has a class of its own under a name the boot loader has too. Once the boot loader has made the
    array class of its own one, arrays made by code of loader 3 have the wrong element class. *)
Theorem array_of_foreign_elements_refuted :
  let tF := TClass [70]%N in
  exists c e e',
  match resolveClass vmUser vmBoot 0 (typeName (TArrayOf tF)) (start startClasses) with
  | Done s1 _ =>
      match resolveClass vmUser vmBoot 3 (typeName tF) s1 with
      | Done s2 a2 =>
          match resolveClass vmUser vmBoot 3 (typeName (TArrayOf tF)) s2 with
          | Done s3 a3 => a2 = Some e /\ a3 = Some c /\ c_elem (classAt s3 c) = Some e' /\ e' <> e /\
                          c_loader (classAt s3 e) = 3 /\ c_loader (classAt s3 e') = 0
          | _ => False
          end
      | _ => False
      end
  | _ => False
  end.
Proof. exists 10, 11, 9. vm_compute. repeat (split; [first [reflexivity|discriminate]|]). reflexivity. Qed.

Definition ClassLoad_theorems :=
  (class_of_type, one_class_per_type, array_of_elements, array_class_of_class, unknown_letter_aborts_refuted,
   loadClass_defines_again_refuted, malformed_names_accepted_refuted, array_of_256_dimensions_refuted,
   linked_class_changes_refuted, array_not_found_refuted, array_of_foreign_elements_refuted).
Print Assumptions ClassLoad_theorems.
