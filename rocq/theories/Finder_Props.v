(** C33, C34, C35, C72: finding classes on the class path and in jars. *)
From Coq Require Import List ZArith Bool Lia.
From Verif Require Import Finder_Model Finder_Spec Finder_Proofs.
Import ListNotations.
Local Open Scope Z_scope.

(** The index of any central directory finds the last entry with the name, or nothing if there is none. *)
Theorem C33_lookup : forall es name, ascii name -> exists x, build es = Some x /\ isLast es name (findNode x name).
Proof.
  intros es name H. destruct (build_good es) as (x & E & G & N & _). exists x. split; auto. rewrite <- N. apply findNode_ok; auto. rewrite (hash_ascii name H). auto.
Qed.
(** Opening the bytes of an archive indexes exactly its central directory, in order. *)
Theorem C33_open : forall a es, archive a es -> openJar a = build es.
Proof. exact open_ok. Qed.
Theorem C33_archive_lookup : forall a es name, archive a es -> ascii name -> exists x, openJar a = Some x /\ isLast es name (findNode x name).
Proof. intros a es name H Hn. rewrite (open_ok a es H). exact (C33_lookup es name Hn). Qed.
Definition small : bytes := [80; 75; 3; 4] ++ header (Entry [65; 46; 99] 0) (repeat 0 24) (repeat 0 8) [1; 2] [] ++ header (Entry [66] 7) (repeat 0 24) (repeat 0 8) [] [9]
  ++ endRecord (repeat 0 12) 4 [0; 0].
Example small_is_archive : archive small [Entry [65; 46; 99] 0; Entry [66] 7].
Proof.
  exists [80; 75; 3; 4], (header (Entry [65; 46; 99] 0) (repeat 0 24) (repeat 0 8) [1; 2] [] ++ header (Entry [66] 7) (repeat 0 24) (repeat 0 8) [] [9] ++ []), (repeat 0 12), [0; 0], [].
  split; [reflexivity|]. split. { repeat (apply h_cons; [reflexivity|reflexivity|reflexivity|reflexivity|reflexivity|split; [discriminate|reflexivity]|]). constructor. } repeat (split; [reflexivity|]). intros p H. match type of H with ?a < _ <= ?b => let a' := eval vm_compute in a in let b' := eval vm_compute in b in change (a' < p <= b') in H end. lia.
Qed.
Example small_finds : option_map (fun x => (findNode x [66], findNode x [67])) (openJar small) = Some (Some (Entry [66] 7), None).
Proof. vm_compute. reflexivity. Qed.

(** C34: with any names, as long as there are at most 256 entries; *)
Theorem C34_lookup_small_partial : forall es name, (length es <= 256)%nat -> exists x, build es = Some x /\ isLast es name (findNode x name).
Proof.
  intros es name H. destruct (build_good es) as (x & E & G & N & C). exists x. split; auto. rewrite <- N. apply findNode_ok; auto. apply bucket_small. apply G. apply C. lia.
Qed.
(** with 257 an entry with a non-ASCII name is not found. *)
Definition many : list entry := map (fun i => Entry [1 + Z.of_nat i mod 100; 1 + Z.of_nat i / 100] 0) (seq 0 256) ++ [Entry [230; 151; 165] 1].
Theorem C34_nonascii_refuted : exists es name e, In e es /\ fileName e = name /\ exists x, build es = Some x /\ findNode x name = None.
Proof.
  exists many, [230; 151; 165], (Entry [230; 151; 165] 1). split. apply in_or_app. right. left. auto. split; auto.
  destruct (build many) as [x|] eqn:E; [|vm_compute in E; discriminate]. exists x. split; auto.
  assert (H : match build many with Some x => match findNode x [230; 151; 165] with None => true | Some _ => false end | None => false end = true) by (vm_compute; reflexivity).
  rewrite E in H. destruct (findNode x [230; 151; 165]); congruence.
Qed.

(** C35: the tokens of a path are its non-empty segments, in order. *)
Theorem C35_tokens : forall d s segs, segments d s segs -> tokens (length s) d s = filter nonempty segs.
Proof. intros d s segs (Hne & -> & HF). apply tokens_ok; auto. Qed.
(** The finder answers with the first element that has the name. *)
Theorem C35_first_wins : forall R (path : list (bytes -> option R)) name r, lookup path name = Some r <->
  exists l1 e l2, path = l1 ++ e :: l2 /\ e name = Some r /\ Forall (fun e' => e' name = None) l1.
Proof.
  intros R path name r. induction path as [|e path IH]; cbn.
  - split. discriminate. intros ([|? ?] & ? & ? & E & _); discriminate.
  - destruct (e name) eqn:E.
    + split. intros H. injection H as ->. exists [], e, path. auto. intros ([|e' l1] & e2 & l2 & Ep & E2 & F); cbn in Ep; injection Ep as -> ->. congruence. inversion F; subst. congruence.
    + rewrite IH. split.
      * intros (l1 & e2 & l2 & -> & E2 & F). exists (e :: l1), e2, l2. auto.
      * intros ([|e' l1] & e2 & l2 & Ep & E2 & F); cbn in Ep; injection Ep as -> ->. congruence. inversion F; subst. exists l1, e2, l2. auto.
Qed.
Theorem C35_none : forall R (path : list (bytes -> option R)) name, lookup path name = None <-> Forall (fun e => e name = None) path.
Proof.
  intros R path name. induction path as [|e path IH]; cbn. split; auto. destruct (e name) eqn:E. split. discriminate. intros F; inversion F; congruence. rewrite IH. split; intros F; [constructor; auto|inversion F; auto].
Qed.
(** The path is expanded, jars followed by what their manifests name, whenever the manifests have no cycle. *)
Theorem C35_expansion : forall fs rank sep path, acyclic fs rank -> exists f l, parsePath f fs sep path = Some l /\ Expands fs (tokens (length path) sep path) l.
Proof.
  intros fs rank sep path HA. unfold parsePath. set (ts := tokens (length path) sep path). assert (H : exists n, Forall (fun t => (rank t < n)%nat) ts).
  { clear. induction ts as [|t ts [n IH]]. exists 0%nat. constructor. exists (S (Nat.max n (rank t))). constructor. lia. eapply Forall_impl; [|exact IH]. cbn. intros; lia. }
  destruct H as [n H]. destruct (expand_total fs rank HA n ts H) as (f & l & E). exists f, l. split; auto. eapply expands_fun; eauto.
Qed.
(** The Class-Path values read from a manifest: those of its lines; with continuation lines, the value is the
    concatenation. *)
Theorem C35_manifest : forall ls f, Forall isLine ls -> (forall l, In l ls -> hd 0 l <> 32) -> (length ls < f)%nat -> classPaths f (text ls) = flat_map classPathOf ls.
Proof. intros ls f H1 H2 H3. exact (proj1 (classPaths_ok ls H1 H2 f H3)). Qed.
Theorem C35_manifest_continued : forall v cs ls f, v <> [] -> Forall (fun b => isEol b = false) v -> Forall (fun c => Forall (fun b => isEol b = false) c) cs -> Forall isLine ls ->
  (forall l, In l ls -> hd 0 l <> 32) -> exists more, classPaths (S f) (text ((prefix ++ v) :: map (cons 32) cs ++ ls)) = (v ++ concat cs) :: more.
Proof. exact first_classPath. Qed.
Example path_example : segments 58 [58; 97; 58; 58; 98; 99; 58] [[]; [97]; []; [98; 99]; []] /\ tokens 7 58 [58; 97; 58; 58; 98; 99; 58] = [[97]; [98; 99]].
Proof. split; [|reflexivity]. split. discriminate. split. reflexivity. repeat constructor; cbn; intuition discriminate. Qed.
Definition twoJars (t : bytes) : file := match t with [97] => Jar [[98]] | [98] => Jar [] | [100] => Directory | _ => Missing end.
Example twoJars_acyclic : acyclic twoJars (fun t => match t with [97] => 1%nat | _ => 0%nat end).
Proof.
  intros t cp u E Hu. unfold twoJars in E. destruct t as [|c [|]]; try discriminate; destruct c as [|p|p]; try discriminate; repeat (destruct p; try discriminate); injection E as <-; cbn in Hu; intuition (subst; auto).
Qed.
Example twoJars_path : parsePath 5 twoJars 58 [97; 58; 100; 58; 120] = Some [EJar [97]; EJar [98]; EDir [100]].
Proof. reflexivity. Qed.

(** C72: a jar whose manifest names itself makes the expansion endless. *)
Theorem C72_cyclic_class_path_refuted : exists fs path, forall f, parsePath f fs 58 path = None.
Proof.
  exists (fun t => match t with [97] => Jar [[97]] | _ => Missing end), [97]. intros f. unfold parsePath. apply (cycle_none _ [97] [[97]]); auto; left; auto.
Qed.
Definition all_theorems := (C33_lookup, C33_open, C33_archive_lookup, C34_lookup_small_partial, C34_nonascii_refuted, C35_tokens, C35_first_wins, C35_none, C35_expansion, C35_manifest, C35_manifest_continued, C72_cyclic_class_path_refuted).
Print Assumptions all_theorems.
