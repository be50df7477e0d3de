(** Proofs about the heap walker: its set of objects. *)
From Coq Require Import List ZArith Bool Lia Permutation.
From Verif Require Import Res Chain JMap_Model JMap_Proofs.
From Coq Require Import List.
From Verif Require Import HeapWalk_Model HeapWalk_Spec.
Import ListNotations.
Local Open Scope nat_scope.

Lemma hash_range : forall p c, isPow c -> hashOf p c < c.
Proof.
  intros p c [k ->]. unfold hashOf.
  assert (E : (Z.of_nat (2 ^ k) - 1 = Z.ones (Z.of_nat k))%Z).
  { rewrite Z.ones_equiv, Nat2Z.inj_pow. lia. }
  rewrite E, Z.land_ones by lia.
  pose proof (Z.mod_pos_bound (Z.shiftr (Z.of_nat p) 3) (2 ^ Z.of_nat k) ltac:(apply Z.pow_pos_nonneg; lia)) as B.
  apply Nat2Z.inj_lt. rewrite Z2Nat.id by lia. rewrite Nat2Z.inj_pow. lia.
Qed.

Definition nxt (s : set) (j : nat) : option nat :=
  match nth_error (entries s) j with Some e => enext e | None => None end.
Definition content (s : set) : list (nat * nat) := map (fun e => (evalue e, enumber e)) (entries s).
Definition keys (s : set) : list nat := map evalue (entries s).

Definition inPlace (s : set) (bs : list (list nat)) : Prop :=
  forall n l j e, nth_error bs n = Some l -> In j l -> nth_error (entries s) j = Some e ->
    hashOf (evalue e) (capacity s) = n.
Record setInv (s : set) : Prop := {
  i_pow : isPow (capacity s);
  i_chains : exists bs, Rch (nxt s) (index s) bs /\ Permutation (concat bs) (seq 0 (length (entries s))) /\ inPlace s bs;
  i_room : length (entries s) <= capacity s;
  i_nodup : NoDup (keys s) }.

Lemma findLoop_ok : forall l fuel s p c, chain (nxt s) c l -> (forall j, In j l -> j < length (entries s)) ->
  length l <= fuel -> exists r, findLoop fuel s p c = Ok r /\
    match r with
    | Some j => In j l /\ exists e, nth_error (entries s) j = Some e /\ evalue e = p
    | None => forall j e, In j l -> nth_error (entries s) j = Some e -> evalue e <> p
    end.
Proof.
  induction l as [|i l IH]; intros fuel s p c C A Hf; cbn in C.
  - subst. destruct fuel; cbn; exists None; (split; [reflexivity|intros j e []]).
  - destruct C as [-> C]. destruct fuel as [|fuel]; [simpl in Hf; lia|]. cbn [findLoop].
    destruct (nth_error (entries s) i) as [e|] eqn:E; [|apply nth_error_None in E; specialize (A i (or_introl eq_refl)); lia].
    cbn [of_option bind]. destruct (Nat.eqb_spec (evalue e) p).
    + exists (Some i). split; [reflexivity|]. split; [simpl; auto|eauto].
    + assert (Q : enext e = nxt s i) by (unfold nxt; rewrite E; reflexivity). rewrite Q.
      destruct (IH fuel s p (nxt s i) C) as [r [E1 H]].
      { intros j Hj. apply A. simpl. auto. } { simpl in Hf. lia. }
      exists r. split; [exact E1|]. destruct r as [j|].
      * destruct H as [H1 H2]. split; [simpl; auto|exact H2].
      * intros j e' [<-|Hj] He; [congruence|eauto].
Qed.

Lemma in_seq_len : forall n (l : list nat) j, Permutation l (seq 0 n) -> (In j l <-> j < n).
Proof.
  intros n l j P. split; intros H.
  - eapply Permutation_in in H; [|exact P]. apply in_seq in H. lia.
  - eapply Permutation_in; [apply Permutation_sym; exact P|]. apply in_seq. lia.
Qed.

Lemma findIn_ok : forall s p, setInv s -> exists r, findIn s p = Ok r /\
  match r with
  | Some j => exists e, nth_error (entries s) j = Some e /\ evalue e = p
  | None => ~ In p (keys s)
  end.
Proof.
  intros s p I. destruct (i_chains _ I) as [bs [R [P Pl]]]. unfold findIn.
  pose proof (hash_range p _ (i_pow _ I)) as Hr.
  destruct (nth_error (index s) (hashOf p (capacity s))) as [c|] eqn:E; [|apply nth_error_None in E; unfold capacity in *; lia].
  cbn [of_option bind]. destruct (rch_split _ _ _ _ _ R E) as [a1 [a2 [b1 [l [b2 [Ea [Eb [L1 [L2 [R1 [C R2]]]]]]]]]]].
  assert (Nl : nth_error bs (hashOf p (capacity s)) = Some l).
  { rewrite Eb, nth_error_app2, L2, Nat.sub_diag by lia. reflexivity. }
  assert (Sub : forall j, In j l -> In j (concat bs)).
  { intros j Hj. rewrite Eb, concat_mid, !in_app_iff. auto. }
  assert (ND : NoDup (concat bs)). { eapply Permutation_NoDup; [apply Permutation_sym; exact P|apply seq_NoDup]. }
  destruct (findLoop_ok l (S (length (entries s))) s p c C) as [r [E1 H]].
  - intros j Hj. apply (in_seq_len _ _ _ P). auto.
  - assert (length l <= length (concat bs)) by (rewrite Eb, concat_mid, !app_length; lia).
    rewrite (Permutation_length P), seq_length in H. lia.
  - exists r. split; [exact E1|]. destruct r as [j|]; [apply H|].
    intros Hk. unfold keys in Hk. apply in_map_iff in Hk. destruct Hk as [e [E2 He]]. apply In_nth_error in He. destruct He as [j Hj].
    assert (In j (concat bs)). { apply (in_seq_len _ _ _ P). apply nth_error_Some. congruence. }
    apply in_concat in H0. destruct H0 as [l' [H1 H2]]. apply In_nth_error in H1. destruct H1 as [n Hn].
    pose proof (Pl _ _ _ _ Hn H2 Hj) as Q. rewrite E2 in Q. subst n. assert (l' = l) by congruence. subst l'.
    exact (H j e H2 Hj E2).
Qed.

Lemma nth_error_snoc : forall {A} (l : list A) x j, nth_error (l ++ [x]) j =
  if Nat.eqb j (length l) then Some x else nth_error l j.
Proof.
  intros A l x j. destruct (Nat.eqb_spec j (length l)).
  - subst. rewrite nth_error_app2, Nat.sub_diag by lia. reflexivity.
  - destruct (Nat.lt_ge_cases j (length l)).
    + apply nth_error_app1. assumption.
    + assert (Q : nth_error l j = None) by (apply nth_error_None; lia). rewrite Q. apply nth_error_None. rewrite app_length. cbn. lia.
Qed.

Lemma addTo_ok : forall s p n, setInv s -> length (entries s) < capacity s -> ~ In p (keys s) ->
  exists s', addTo s p n = Ok s' /\ setInv s' /\ content s' = content s ++ [(p, n)] /\ keys s' = keys s ++ [p] /\
    capacity s' = capacity s.
Proof.
  intros s p n I Lt N. destruct (i_chains _ I) as [bs [R [P Pl]]]. unfold addTo.
  destruct (Nat.ltb_spec (length (entries s)) (capacity s)); [|lia].
  pose proof (hash_range p _ (i_pow _ I)) as Hr.
  destruct (nth_error (index s) (hashOf p (capacity s))) as [c|] eqn:E; [|apply nth_error_None in E; unfold capacity in *; lia].
  cbn [of_option bind]. set (i := length (entries s)) in *.
  assert (Ni : ~ In i (concat bs)). { rewrite (in_seq_len _ _ i P). fold i. lia. }
  destruct (rch_insert _ _ _ _ _ i R E Ni) as [b1 [l [b2 [Eb [L2 R']]]]].
  eexists. split; [reflexivity|].
  assert (Cap : capacity (Set_ (setNth (index s) (hashOf p (capacity s)) (Some i)) (entries s ++ [Entry p n c])) = capacity s).
  { unfold capacity. cbn. apply setNth_length. }
  split; [|split; [unfold content; cbn; rewrite map_app; reflexivity|split; [unfold keys; cbn; rewrite map_app; reflexivity|exact Cap]]].
  constructor.
  - rewrite Cap. apply I.
  - exists (b1 ++ (i :: l) :: b2). split; [|split].
    + eapply rch_ext; [|exact R']. intros x _. unfold nxt. cbn. rewrite nth_error_snoc. fold i.
      unfold upd. destruct (Nat.eqb_spec x i); reflexivity.
    + cbn. rewrite app_length. cbn. fold i. replace (i + 1) with (S i) by lia. rewrite seq_S. cbn.
      rewrite concat_mid. cbn. eapply Permutation_trans; [apply Permutation_sym, Permutation_middle|].
      eapply Permutation_trans; [|apply Permutation_cons_append]. constructor.
      rewrite <- concat_mid, <- Eb. exact P.
    + intros m l' j e Hm Hj. rewrite Cap. cbn [entries]. rewrite nth_error_snoc. fold i. destruct (nth_mid _ _ _ _ _ Hm) as [[-> ->]|[Nn Hl']].
      * destruct Hj as [<-|Hj].
        -- rewrite Nat.eqb_refl. intros [= <-]. cbn. lia.
        -- destruct (Nat.eqb_spec j i); [subst j; exfalso; apply Ni; rewrite Eb, concat_mid, !in_app_iff; auto|].
           intros He. eapply Pl; [|exact Hj|exact He]. rewrite Eb, nth_error_app2, Nat.sub_diag by lia. reflexivity.
      * assert (Hj' : In j (concat bs)).
        { rewrite Eb. apply in_concat. exists l'. split; [|exact Hj]. specialize (Hl' l). eapply nth_error_In. exact Hl'. }
        destruct (Nat.eqb_spec j i); [subst j; contradiction|]. intros He. eapply Pl; [|exact Hj|exact He].
        rewrite Eb. apply Hl'.
  - rewrite Cap. cbn. rewrite app_length. cbn. lia.
  - unfold keys. cbn. rewrite map_app. cbn. apply nodup_snoc; [apply I|exact N].
Qed.

Lemma empty_inv : forall c, isPow c -> setInv (Set_ (repeat None c) []).
Proof.
  intros c H. constructor; cbn.
  - unfold capacity. cbn. rewrite repeat_length. exact H.
  - exists (repeat [] c). split; [apply rch_empty|]. split; [rewrite concat_empty; constructor|].
    intros n l j e _ _ He. destruct j; discriminate.
  - lia.
  - constructor.
Qed.

Definition pick (old : set) (l : list nat) : list entry :=
  flat_map (fun j => match nth_error (entries old) j with Some e => [e] | None => [] end) l.

Lemma copyChain_ok : forall l fuel old c s, chain (nxt old) c l -> (forall j, In j l -> j < length (entries old)) ->
  length l <= fuel -> setInv s -> length (entries s) + length l <= capacity s ->
  NoDup (keys s ++ map evalue (pick old l)) ->
  exists s', copyChain fuel old c s = Ok s' /\ setInv s' /\ capacity s' = capacity s /\
    content s' = content s ++ map (fun e => (evalue e, enumber e)) (pick old l) /\
    keys s' = keys s ++ map evalue (pick old l).
Proof.
  induction l as [|i l IH]; intros fuel old c s C A Hf I Room ND; cbn in C.
  - subst. exists s. destruct fuel; cbn; rewrite !app_nil_r; auto.
  - destruct C as [-> C]. destruct fuel as [|fuel]; [simpl in Hf; lia|]. cbn [copyChain].
    destruct (nth_error (entries old) i) as [e|] eqn:E; [|apply nth_error_None in E; specialize (A i (or_introl eq_refl)); lia].
    assert (Pk : pick old (i :: l) = e :: pick old l) by (cbn; rewrite E; reflexivity). rewrite Pk in *. cbn [map] in ND |- *.
    cbn [of_option bind]. cbn [length] in *.
    assert (Nin : ~ In (evalue e) (keys s)).
    { apply NoDup_remove_2 in ND. rewrite in_app_iff in ND. tauto. }
    destruct (addTo_ok s (evalue e) (enumber e) I ltac:(lia) Nin) as [s1 [E1 [I1 [C1 [K1 Cap1]]]]].
    rewrite E1. cbn [bind].
    assert (Q : enext e = nxt old i) by (unfold nxt; rewrite E; reflexivity). rewrite Q.
    assert (Len1 : length (entries s1) = S (length (entries s))).
    { assert (X : length (keys s1) = S (length (keys s))) by (rewrite K1, app_length; cbn; lia).
      unfold keys in X. rewrite !map_length in X. exact X. }
    destruct (IH fuel old (nxt old i) s1 C) as [s2 [E2 [I2 [Cap2 [C2 K2]]]]]; auto.
    { intros j Hj. apply A. simpl. auto. } { lia. } { lia. } { rewrite K1, <- app_assoc. exact ND. }
    exists s2. split; [exact E2|]. split; [exact I2|]. split; [congruence|].
    rewrite C2, C1, K2, K1, <- !app_assoc. auto.
Qed.

Lemma pick_app : forall old a b, pick old (a ++ b) = pick old a ++ pick old b.
Proof. intros. unfold pick. apply flat_map_app. Qed.

Lemma pick_length : forall old l, (forall j, In j l -> j < length (entries old)) -> length (pick old l) = length l.
Proof.
  induction l as [|j l IH]; intros A; [reflexivity|]. cbn.
  destruct (nth_error (entries old) j) as [e|] eqn:E; [|apply nth_error_None in E; specialize (A j (or_introl eq_refl)); lia].
  cbn. f_equal. apply IH. intros k Hk. apply A. simpl. auto.
Qed.

Lemma copyAll_ok : forall a bs old s, Rch (nxt old) a bs -> (forall j, In j (concat bs) -> j < length (entries old)) ->
  length (concat bs) <= length (entries old) -> setInv s -> length (entries s) + length (concat bs) <= capacity s ->
  NoDup (keys s ++ map evalue (pick old (concat bs))) ->
  exists s', copyAll old a s = Ok s' /\ setInv s' /\ capacity s' = capacity s /\
    content s' = content s ++ map (fun e => (evalue e, enumber e)) (pick old (concat bs)) /\
    keys s' = keys s ++ map evalue (pick old (concat bs)).
Proof.
  intros a bs old s R. revert s. induction R as [|c l a bs C R IH]; intros s A Len I Room ND.
  - exists s. cbn. rewrite !app_nil_r. auto.
  - cbn [copyAll concat] in *. rewrite pick_app, map_app in *. rewrite app_length in *.
    destruct (copyChain_ok l (S (length (entries old))) old c s C) as [s1 [E1 [I1 [Cap1 [C1 K1]]]]]; auto.
    { intros j Hj. apply A. apply in_or_app. auto. } { lia. } { lia. }
    { rewrite app_assoc in ND. clear - ND. induction (map evalue (pick old (concat bs))) as [|x r IHr] using rev_ind.
      - rewrite app_nil_r in ND. exact ND.
      - apply IHr. rewrite app_assoc in ND. apply NoDup_remove_1 in ND. rewrite app_nil_r in ND. exact ND. }
    rewrite E1. cbn [bind].
    assert (Len1 : length (entries s1) = length (entries s) + length l).
    { assert (X : length (keys s1) = length (keys s) + length l).
      { rewrite K1, app_length, map_length. f_equal. apply pick_length. intros j Hj. apply A. apply in_or_app. auto. }
      unfold keys in X. rewrite !map_length in X. exact X. }
    destruct (IH s1) as [s2 [E2 [I2 [Cap2 [C2 K2]]]]]; auto.
    { intros j Hj. apply A. apply in_or_app. auto. } { lia. } { lia. } { rewrite K1, <- app_assoc. exact ND. }
    exists s2. split; [exact E2|]. split; [exact I2|]. split; [congruence|].
    rewrite C2, C1, K2, K1, !map_app, <- !app_assoc. auto.
Qed.

Lemma pick_seq : forall old, pick old (seq 0 (length (entries old))) = entries old.
Proof.
  intros [ix es]. unfold pick. cbn [entries]. clear ix.
  assert (G : forall pre, flat_map (fun j => match nth_error (pre ++ es) j with Some e => [e] | None => [] end)
     (seq (length pre) (length es)) = es).
  { induction es as [|e es IH]; intros pre; [reflexivity|]. cbn [length seq flat_map].
    rewrite nth_error_app2, Nat.sub_diag by lia. cbn [nth_error app]. f_equal.
    specialize (IH (pre ++ [e])). rewrite app_length in IH. cbn in IH. rewrite Nat.add_1_r in IH.
    rewrite <- app_assoc in IH. exact IH. }
  exact (G []).
Qed.

Lemma pick_perm : forall old l l', Permutation l l' -> Permutation (pick old l) (pick old l').
Proof. intros. unfold pick. apply Permutation_flat_map. assumption. Qed.

Lemma grow_ok : forall s, setInv s -> length (entries s) = capacity s ->
  exists s', copyAll s (index s) (Set_ (repeat None (capacity s * 2)) []) = Ok s' /\ setInv s' /\
    Permutation (content s') (content s) /\ length (entries s') < capacity s'.
Proof.
  intros s I Full. destruct (i_chains _ I) as [bs [R [P Pl]]].
  assert (Pp : isPow (capacity s * 2)). { destruct (i_pow _ I) as [k ->]. exists (S k). cbn. lia. }
  pose proof (empty_inv _ Pp) as I0.
  assert (Cap0 : capacity (Set_ (repeat None (capacity s * 2)) []) = capacity s * 2) by (unfold capacity at 1; cbn; apply repeat_length).
  assert (Pk : Permutation (pick s (concat bs)) (entries s)).
  { pose proof (pick_perm s _ _ P) as Q. rewrite (pick_seq s) in Q. exact Q. }
  destruct (copyAll_ok (index s) bs s (Set_ (repeat None (capacity s * 2)) []) R)
    as [s' [E [I' [Cap' [C' K']]]]]; auto.
  - intros j Hj. apply (in_seq_len _ _ _ P). exact Hj.
  - rewrite (Permutation_length P), seq_length. lia.
  - rewrite Cap0, (Permutation_length P), seq_length. cbn. lia.
  - cbn. eapply Permutation_NoDup; [apply Permutation_map, Permutation_sym; exact Pk|]. apply I.
  - exists s'. split; [exact E|]. split; [exact I'|]. split.
    + rewrite C'. cbn. apply Permutation_map. exact Pk.
    + rewrite Cap', Cap0. assert (X : length (content s') = length (entries s)).
      { rewrite C'. cbn. rewrite map_length. apply Permutation_length. exact Pk. }
      unfold content in X. rewrite map_length in X.
      destruct (i_pow _ I) as [k Ek]. assert (0 < 2 ^ k) by (apply Nat.neq_0_lt_0, Nat.pow_nonzero; lia). lia.
Qed.

(** ** The set of a context *)
Definition knows (c : context) (f : nat -> option nat) : Prop :=
  exists s, objects c = Some s /\ setInv s /\ forall p n, In (p, n) (content s) <-> f p = Some n.

Lemma find_ok : forall c f p, knows c f ->
  (f p = None -> find c p = Ok None) /\
  (forall n, f p = Some n -> (exists j, find c p = Ok (Some j)) /\ numberOf c p = Ok n).
Proof.
  intros c f p [s [Eo [I H]]]. unfold numberOf, find. rewrite Eo. cbn [of_option bind].
  destruct (findIn_ok s p I) as [r [E F]]. rewrite E. cbn [bind]. destruct r as [j|].
  - destruct F as [e [He Hv]]. cbn [of_option bind]. rewrite He. cbn [of_option bind].
    assert (Fp : f p = Some (enumber e)).
    { apply H. unfold content. apply in_map_iff. exists e. split; [congruence|]. eapply nth_error_In; eauto. }
    split; [congruence|]. intros n Hn. split; [eauto|]. congruence.
  - split; [auto|]. intros n Hn. apply H in Hn. exfalso. apply F. unfold content in Hn. apply in_map_iff in Hn.
    destruct Hn as [e [Q He]]. inversion Q; subst. unfold keys. apply in_map. exact He.
Qed.

Definition put (f : nat -> option nat) (p n : nat) : nat -> option nat := fun x => if Nat.eqb x p then Some n else f x.

Lemma setNth_last : forall {A} (l : list A) x y, setNth (l ++ [x]) (length l) y = l ++ [y].
Proof. intros. apply setNth_app. Qed.

Lemma add_to_room : forall s f p n, setInv s -> length (entries s) < capacity s ->
  (forall q m, In (q, m) (content s) <-> f q = Some m) -> f p = None ->
  exists s', addTo s p 0 = Ok s' /\ forall nn stk, knows (setNumber (Context (Some s') stk nn) n) (put f p n) /\
    stack (setNumber (Context (Some s') stk nn) n) = stk /\ numbers (setNumber (Context (Some s') stk nn) n) = nn.
Proof.
  intros s f p n I Room H Fp.
  assert (N : ~ In p (keys s)).
  { intros Hk. unfold keys in Hk. apply in_map_iff in Hk. destruct Hk as [e [E He]].
    assert (f p = Some (enumber e)). { apply H. unfold content. apply in_map_iff. exists e. split; [congruence|exact He]. }
    congruence. }
  destruct (addTo_ok s p 0 I Room N) as [s' [E [I' [C [K Cap]]]]]. exists s'. split; [exact E|]. intros nn stk.
  destruct (i_chains _ I') as [bs [R [P Pl]]].
  assert (X : exists e, entries s' = entries s ++ [e] /\ evalue e = p).
  { unfold addTo in E. destruct (Nat.ltb (length (entries s)) (capacity s)); [|discriminate].
    destruct (nth_error (index s) (hashOf p (capacity s))); cbn in E; [|discriminate]. inversion E; subst. cbn. eauto. }
  destruct X as [e [Ee Ev]].
  unfold setNumber. cbn [objects]. rewrite Ee, app_length. cbn [length]. rewrite Nat.add_1_r. cbn [Nat.pred].
  rewrite nth_error_app2, Nat.sub_diag by lia. cbn [nth_error]. rewrite setNth_last.
  split; [|split; reflexivity]. eexists. split; [reflexivity|].
  assert (Nx : forall j, nxt (Set_ (index s') (entries s ++ [Entry (evalue e) n (enext e)])) j = nxt s' j).
  { intros j. unfold nxt. cbn. rewrite Ee, !nth_error_snoc. destruct (Nat.eqb j (length (entries s))); reflexivity. }
  split.
  - constructor.
    + apply I'.
    + exists bs. split; [eapply rch_ext; [|exact R]; intros; symmetry; apply Nx|]. split.
      * rewrite P, Ee. cbn. rewrite !app_length. reflexivity.
      * intros m l j e' Hm Hj. cbn. rewrite nth_error_snoc. intros He.
        destruct (Nat.eqb j (length (entries s))) eqn:Q.
        -- inversion He; subst. cbn. eapply Pl; [exact Hm|exact Hj|]. rewrite Ee, nth_error_snoc, Q. reflexivity.
        -- eapply Pl; [exact Hm|exact Hj|]. rewrite Ee, nth_error_snoc, Q. exact He.
    + pose proof (i_room _ I') as Rm. rewrite Ee in Rm. unfold capacity in *. cbn. rewrite app_length in *. exact Rm.
    + pose proof (i_nodup _ I') as Nd. unfold keys in *. rewrite Ee in Nd. cbn. rewrite map_app in *. exact Nd.
  - intros q m. unfold content. cbn. rewrite map_app. cbn. rewrite in_app_iff, Ev. fold (content s). rewrite H. unfold put.
    destruct (Nat.eqb_spec q p).
    + subst q. split; [intros [Q|[Q|[]]]; congruence|]. intros [= ->]. simpl. auto.
    + split; [intros [Q|[Q|[]]]; congruence|]. auto.
Qed.

Lemma add_ok : forall capacity0 c f p n, isPow capacity0 -> knows c f -> f p = None ->
  exists c', add capacity0 c p = Ok c' /\ stack c' = stack c /\ numbers c' = numbers c /\ exists s', objects c' = Some s' /\
    forall nn stk, knows (setNumber (Context (Some s') stk nn) n) (put f p n) /\
    stack (setNumber (Context (Some s') stk nn) n) = stk /\ numbers (setNumber (Context (Some s') stk nn) n) = nn.
Proof.
  intros capacity0 c f p n Pc [s [Eo [I H]]] Fp. unfold add. rewrite Eo.
  destruct (Nat.eqb_spec (length (entries s)) (capacity s)) as [Full|Room].
  - destruct (grow_ok s I Full) as [s1 [E1 [I1 [P1 R1]]]]. rewrite E1. cbn [bind].
    assert (H1 : forall q m, In (q, m) (content s1) <-> f q = Some m).
    { intros. rewrite <- H. split; apply Permutation_in; [exact P1|apply Permutation_sym; exact P1]. }
    destruct (add_to_room s1 f p n I1 R1 H1 Fp) as [s' [E2 Q]]. rewrite E2. cbn [bind].
    eexists. split; [reflexivity|]. cbn. split; [reflexivity|]. split; [reflexivity|]. eauto.
  - cbn [bind]. pose proof (i_room _ I).
    destruct (add_to_room s f p n I ltac:(lia) H Fp) as [s' [E2 Q]]. rewrite E2. cbn [bind].
    eexists. split; [reflexivity|]. cbn. split; [reflexivity|]. split; [reflexivity|]. eauto.
Qed.

Lemma make_ok : forall capacity0, isPow capacity0 -> exists c, makeWalker capacity0 = Ok c /\
  knows c (fun p => if Nat.eqb p 0 then Some 0 else None) /\ stack c = [] /\ numbers c = 1.
Proof.
  intros capacity0 Pc. unfold makeWalker, add. cbn [objects bind].
  pose proof (empty_inv _ Pc) as I0.
  assert (Room : length (entries (Set_ (repeat None capacity0) [])) < capacity (Set_ (repeat None capacity0) [])).
  { cbn. unfold capacity. cbn. rewrite repeat_length. destruct Pc as [k ->]. apply Nat.neq_0_lt_0, Nat.pow_nonzero. lia. }
  destruct (add_to_room _ (fun _ => None) 0 0 I0 Room) as [s' [E2 Q]].
  - intros q m. cbn. split; [intros []|discriminate].
  - reflexivity.
  - rewrite E2. cbn [bind visitNew Nat.eqb stack numbers]. specialize (Q 1 []). destruct Q as [Q1 [Q2 Q3]].
    eexists. split; [reflexivity|]. auto.
Qed.
