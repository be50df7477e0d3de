(** C49, C78: string equality, hashing and interning. *)
From Verif Require Import Base HashMap_Model Str_Model Str_Spec Str_Proofs.
Local Open Scope Z_scope.

(** C49: two strings are equal exactly if they have the same characters, whatever arrays and offsets they use, and the hash
    code is the one java.lang.String documents, cached or not; hence equal strings have the same hash code. *)
Theorem C49_equal : forall a b, valid a -> valid b -> ascii a -> ascii b -> stringEqual a b = true <-> chars a = chars b.
Proof. exact equal_ok. Qed.
Theorem C49_hash : forall s, valid s -> ascii s -> snd (stringHash s) = javaHash (chars s) mod 2 ^ 32 /\ valid (fst (stringHash s)) /\ chars (fst (stringHash s)) = chars s.
Proof. exact hash_java. Qed.
Theorem C49_equal_hash : forall a b, valid a -> valid b -> ascii a -> ascii b -> stringEqual a b = true -> snd (stringHash a) = snd (stringHash b).
Proof. intros a b Va Vb Aa Ab H. apply (equal_ok a b Va Vb Aa Ab) in H. rewrite (proj1 (hash_java a Va Aa)), (proj1 (hash_java b Vb Ab)), H. reflexivity. Qed.
(** The characters handed to native code are the characters of the string. *)
Theorem C49_chars : forall s start n, valid s -> ascii s -> 0 <= start -> 0 <= n -> start + n <= len s ->
  stringChars s start n = subslice (chars s) start n ++ [0].
Proof.
  intros s start n V A H1 H2 H3. destruct V as [V1 [V2 [V3 _]]].
  assert (SS : forall l, subslice (subslice l (offset s) (len s)) start n = subslice l (offset s + start) n).
  { intros l. unfold subslice. rewrite skipn_firstn_comm, firstn_firstn, skipn_skipn_. f_equal; [lia | f_equal; lia]. }
  unfold stringChars, chars, ascii in *. destruct (data s) as [b|c]; rewrite SS; [|reflexivity]. f_equal. apply map_id_in. intros x Hx. apply Z.mod_small.
  pose proof (proj1 (Forall_forall _ _) (Forall_sub _ _ (offset s + start) n A) x Hx). cbn in *. lia.
Qed.

(** C49, interning: in every history of interning (up to 2^30 calls) and of strings dying, on objects [obj]: no call fails,
    each answer has the characters of its argument, and two strings with the same characters get the same object as long as
    the first answer has not died in between. *)
Theorem C49_intern : forall obj l,
  (forall k, valid (obj k) /\ ascii (obj k)) -> usable (fun _ => false) l -> Z.of_nat (length l) <= 2 ^ 30 ->
  exists s' answers, interns obj (empty, fun _ => false) l = Some (s', answers) /\
    (forall i k mid r, nth_error l i = Some (Intern k mid) -> nth_error answers i = Some (Some r) -> chars (obj r) = chars (obj k)) /\
    (forall i j a b mid mid' ra rb, (i < j)%nat -> nth_error l i = Some (Intern a mid) -> nth_error l j = Some (Intern b mid') ->
       nth_error answers i = Some (Some ra) -> nth_error answers j = Some (Some rb) -> chars (obj a) = chars (obj b) ->
       ~ died (firstn (j - i) (skipn i l)) ra -> rb = ra).
Proof.
  intros obj l OK U L. destruct (interns_ok obj OK l U L) as [s' R]. exists s', (snd (sinterns obj ([], fun _ => false) l)). split; [exact R|].
  assert (C0 : canon obj []) by (split; [intros k v [] | intros a b []]).
  split; [intros i k mid r Hi Hr; exact (same_chars obj OK l [] _ i k mid r C0 Hi Hr)|].
  intros i j a b mid mid' ra rb Lt Hi Hj Ra Rb E ND. exact (same_answer obj OK l [] _ i j a b mid mid' ra rb C0 Lt Hi Hj E Ra Rb ND).
Qed.

(** Non-vacuity: "hi" as bytes inside a larger array and as chars; the first object is answered for both. *)
Definition hiB := Str (Bytes [120; 104; 105; 121]) 1 2 0.
Definition hiC := Str (Chars [104; 105]) 0 2 3329.
Definition noC := Str (Chars [110; 111]) 0 2 0.
Definition exObj (k : nat) : str := match k with O => hiB | 1%nat => hiC | _ => noC end.
Example C49_objects : forall k, valid (exObj k) /\ ascii (exObj k).
Proof. intros [|[|k]]; (split; [|cbn; try exact I; repeat constructor; lia]); repeat split; try (cbn; lia); try (cbn; repeat constructor; lia); first [left; reflexivity | right; vm_compute; reflexivity]. Qed.
Example C49_history : usable (fun _ => false) [Intern 0 (fun _ => false); Intern 2 (fun _ => false); Intern 1 (fun _ => false)] /\
  match interns exObj (empty, fun _ => false) [Intern 0 (fun _ => false); Intern 2 (fun _ => false); Intern 1 (fun _ => false)] with
  | Some (_, r) => r = [Some 0%nat; Some 2%nat; Some 0%nat] | None => False end.
Proof. split; [cbn; auto | vm_compute; reflexivity]. Qed.

(** C78: with bytes above 127, which makeString (machine.cpp:4452-4467) lets in, equality and hash code part: stringEqual reads a
    byte as a signed number, stringHash as an unsigned one. Equal strings then have different hash codes, and interning
    keeps both in a large enough table. *)
Definition highB := Str (Bytes [-61]) 0 1 0.
Definition highC := Str (Chars [65475]) 0 1 0.
Definition manyObj (k : nat) : str := match k with O => highB | 1%nat => highC | _ => Str (Chars [Z.of_nat k]) 0 1 0 end.
(** The two hash codes differ by a multiple of 256, so it takes a table of 512 buckets to tell them apart. *)
Definition many : list iop := map (fun k => Intern k (fun _ => false)) ([0%nat] ++ seq 2 600 ++ [1%nat]).
Lemma manyObj_valid : forall k, (k < 602)%nat -> valid (manyObj k).
Proof.
  intros [|[|k]] H; (split; [cbn; lia|]); (split; [cbn; lia|]); (split; [cbn; lia|]); (split; [|left; reflexivity]); cbn [manyObj data highB highC]; repeat constructor; try lia. 
Qed.
Theorem C78_high_bytes_refuted :
  valid highB /\ valid highC /\ stringEqual highB highC = true /\ snd (stringHash highB) <> snd (stringHash highC).
Proof.
  split; [repeat split; cbn; try lia; repeat constructor; lia|]. split; [repeat split; cbn; try lia; repeat constructor; lia|].
  split; [reflexivity|]. vm_compute; discriminate.
Qed.
Theorem C78_intern_refuted :
  exists obj l s' answers, (forall k mid, In (Intern k mid) l -> valid (obj k)) /\ usable (fun _ => false) l /\ (forall k, ~ died l k) /\
    interns obj (empty, fun _ => false) l = Some (s', answers) /\
    exists i j a b mid mid', nth_error l i = Some (Intern a mid) /\ nth_error l j = Some (Intern b mid') /\ stringEqual (obj a) (obj b) = true /\
      nth_error answers i = Some (Some a) /\ nth_error answers j = Some (Some b) /\ a <> b.
Proof.
  assert (R : match interns manyObj (empty, fun _ => false) many with
              | Some (s', r) => nth_error r 0 = Some (Some 0%nat) /\ nth_error r 601 = Some (Some 1%nat) | None => False end) by (vm_compute; auto).
  destruct (interns manyObj (empty, fun _ => false) many) as [[s' r]|] eqn:E; [|contradiction]. destruct R as [R1 R2].
  exists manyObj, many, s', r. split.
  { intros k mid H. apply manyObj_valid. unfold many in H. apply in_map_iff in H. destruct H as [x [Hx Ix]]. inversion Hx; subst x. apply in_app_or in Ix. destruct Ix as [[<- | []] | Ix]; [lia|].
    apply in_app_or in Ix. destruct Ix as [Ix | [<- | []]]; [apply in_seq in Ix; lia | lia]. }
  split; [vm_compute; tauto|]. split.
  { intros k [o [Io D]]. unfold many in Io. apply in_map_iff in Io. destruct Io as [x [<- _]]. discriminate. }
  split; [exact E|]. exists 0%nat, 601%nat, 0%nat, 1%nat, (fun _ => false), (fun _ => false). repeat split; auto.
Qed.
Definition str_theorems := (C49_equal, C49_hash, C49_equal_hash, C49_chars, C49_intern, C78_high_bytes_refuted, C78_intern_refuted).
Print Assumptions str_theorems.
