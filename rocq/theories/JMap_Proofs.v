(** Proofs about the hash map. *)
From Coq Require Import List ZArith Bool Lia Permutation.
From Verif Require Import Res Chain JNum_Model JMap_Model JMap_Spec.
Import ListNotations.
Local Open Scope Z_scope.
Local Arguments Z.add : simpl never.
Local Arguments Z.mul : simpl never.
Local Arguments Z.pow : simpl never.
Local Arguments Z.sub : simpl never.
Local Arguments Z.div : simpl never.

(** ** Chains in an array *)
Definition Rch (nx : nat -> option nat) (a : list (option nat)) (bs : list (list nat)) : Prop :=
  Forall2 (fun h l => chain nx h l) a bs.

Lemma setNth_app : forall {A} (a1 : list A) h a2 x, setNth (a1 ++ h :: a2) (length a1) x = a1 ++ x :: a2.
Proof. induction a1; intros; cbn; [reflexivity|]. rewrite IHa1. reflexivity. Qed.

Lemma setNth_length : forall {A} (l : list A) n x, length (setNth l n x) = length l.
Proof. induction l; destruct n; cbn; auto. Qed.

Lemma rch_split : forall nx a bs n h, Rch nx a bs -> nth_error a n = Some h ->
  exists a1 a2 b1 l b2, a = a1 ++ h :: a2 /\ bs = b1 ++ l :: b2 /\ length a1 = n /\ length b1 = n /\
    Rch nx a1 b1 /\ chain nx h l /\ Rch nx a2 b2.
Proof.
  intros nx a bs n h R H. apply nth_error_split in H. destruct H as [a1 [a2 [-> L]]].
  apply Forall2_app_inv_l in R. destruct R as [b1 [r [R1 [R2 ->]]]]. inversion R2; subst.
  exists a1, a2, b1, y, l'. split; [reflexivity|]. split; [reflexivity|]. split; [reflexivity|].
  split; [symmetry; clear - R1; induction R1; simpl; auto|]. split; [exact R1|]. split; [assumption|assumption].
Qed.

Lemma rch_ext : forall nx nx' a bs, (forall x, In x (concat bs) -> nx x = nx' x) -> Rch nx a bs -> Rch nx' a bs.
Proof.
  intros nx nx' a bs E R. induction R as [|h l a bs C R IH]; constructor.
  - eapply chain_ext; [|exact C]. intros x Hx. apply E. simpl. apply in_or_app. auto.
  - apply IH. intros x Hx. apply E. simpl. apply in_or_app. auto.
Qed.

Lemma rch_app : forall nx a1 b1 h l a2 b2, Rch nx a1 b1 -> chain nx h l -> Rch nx a2 b2 ->
  Rch nx (a1 ++ h :: a2) (b1 ++ l :: b2).
Proof. intros. apply Forall2_app; [assumption|]. constructor; assumption. Qed.

Lemma rch_length : forall nx a bs, Rch nx a bs -> length a = length bs.
Proof. intros nx a bs R. induction R; simpl; auto. Qed.

Lemma concat_mid : forall (b1 : list (list nat)) l b2, concat (b1 ++ l :: b2) = concat b1 ++ l ++ concat b2.
Proof. intros. rewrite concat_app. reflexivity. Qed.

Lemma rch_insert : forall nx a bs n h i, Rch nx a bs -> nth_error a n = Some h -> ~ In i (concat bs) ->
  exists b1 l b2, bs = b1 ++ l :: b2 /\ length b1 = n /\
    Rch (upd nx i h) (setNth a n (Some i)) (b1 ++ (i :: l) :: b2).
Proof.
  intros nx a bs n h i R H N. destruct (rch_split _ _ _ _ _ R H) as [a1 [a2 [b1 [l [b2 [-> [-> [L1 [L2 [R1 [C R2]]]]]]]]]]].
  rewrite concat_mid in N. exists b1, l, b2. split; [reflexivity|]. split; [exact L2|].
  subst n. rewrite setNth_app.
  assert (X : forall x, x <> i -> nx x = upd nx i h x) by (intros; up; congruence).
  apply rch_app.
  - eapply rch_ext; [|exact R1]. intros x Hx. apply X. intros ->. apply N. apply in_or_app. auto.
  - simpl. split; [reflexivity|]. unfold upd at 2. rewrite Nat.eqb_refl.
    eapply chain_ext; [|exact C]. intros x Hx. apply X. intros ->. apply N.
    apply in_or_app. right. apply in_or_app. auto.
  - eapply rch_ext; [|exact R2]. intros x Hx. apply X. intros ->. apply N.
    apply in_or_app. right. apply in_or_app. auto.
Qed.

Lemma chain_del : forall pre nx head i l2, NoDup (pre ++ i :: l2) -> chain nx head (pre ++ i :: l2) ->
  chain (match lastOf pre with Some q => upd nx q (nx i) | None => nx end)
        (match lastOf pre with Some _ => head | None => nx i end) (pre ++ l2).
Proof.
  intros pre nx head i l2 D C. destruct pre as [|y pre _] using rev_ind; [cbn in *; tauto|].
  rewrite lastOf_snoc. rewrite <- app_assoc in *. cbn [app] in *.
  revert head C D. induction pre as [|z pre IH]; intros head C D; cbn [app chain] in *.
  - destruct C as [-> [C1 C]]. split; [reflexivity|]. unfold upd at 2. rewrite Nat.eqb_refl.
    eapply chain_ext; [|exact C]. intros x Hx. up; [|reflexivity].
    inversion D; subst. exfalso. apply H1. simpl. auto.
  - destruct C as [-> C]. split; [reflexivity|]. inversion D; subst. unfold upd at 2.
    destruct (Nat.eqb_spec z y); [subst; exfalso; apply H1; apply in_or_app; simpl; auto|].
    apply IH; assumption.
Qed.

Lemma perm_ins : forall (i : nat) a b c, Permutation (i :: a ++ b ++ c) (a ++ b ++ i :: c).
Proof.
  intros. rewrite !app_assoc. apply (Permutation_middle (a ++ b) c i).
Qed.

(** ** Capacities *)
Definition isPow2 (c : Z) : Prop := exists k, 0 <= k <= 30 /\ c = 2 ^ k.

Lemma pow2From_ok : forall fuel k n, 0 <= k -> (Z.to_nat (31 - k) < fuel)%nat -> k <= 30 -> n <= 2 ^ 30 ->
  exists c, pow2From fuel (2 ^ k) n = Ok c /\ isPow2 c /\ (2 ^ k <= n -> n <= c < 2 * n) /\ (n <= 2 ^ k -> c = 2 ^ k).
Proof.
  induction fuel as [|fuel IH]; intros k n Hk Hf Hk30 Hn; [lia|].
  cbn [pow2From]. destruct (Z.ltb_spec (2 ^ k) n).
  - assert (k < 30).
    { destruct (Z.lt_ge_cases k 30); [lia|]. replace k with 30 in * by lia. lia. }
    assert (E : wrap32 (Z.shiftl (2 ^ k) 1) = 2 ^ (k + 1)).
    { rewrite Z.shiftl_mul_pow2 by lia. rewrite Z.pow_add_r by lia. change (2 ^ 1) with 2.
      assert (0 < 2 ^ k <= 2 ^ 29) by (split; [apply Z.pow_pos_nonneg; lia|apply Z.pow_le_mono_r; lia]).
      unfold wrap32. rewrite Z.mod_small by lia. lia. }
    rewrite E. destruct (IH (k + 1) n) as [c [E1 [P [B1 B2]]]]; try lia.
    exists c. split; [exact E1|]. split; [exact P|].
    rewrite Z.pow_add_r in * by lia. change (2 ^ 1) with 2 in *. split; [|lia].
    intros _. destruct (Z.le_ge_cases (2 ^ k * 2) n); [apply B1; lia|]. specialize (B2 ltac:(lia)). lia.
  - exists (2 ^ k). split; [reflexivity|]. split; [exists k; lia|]. split; [|reflexivity].
    assert (0 < 2 ^ k) by (apply Z.pow_pos_nonneg; lia). lia.
Qed.

Lemma nextPow2_ok : forall fuel n, (31 < fuel)%nat -> n <= 2 ^ 30 ->
  exists c, nextPowerOfTwo fuel n = Ok c /\ isPow2 c.
Proof.
  intros fuel n Hf Hn. destruct (pow2From_ok fuel 0 n) as [c [E [P _]]]; try lia. exists c. auto.
Qed.

Lemma pow2_pos : forall c, isPow2 c -> 0 < c <= 2 ^ 30.
Proof.
  intros c [k [Hk ->]]. split; [apply Z.pow_pos_nonneg; lia|apply Z.pow_le_mono_r; lia].
Qed.

Lemma index_range : forall h cap, isPow2 cap -> (indexFor h cap < Z.to_nat cap)%nat.
Proof.
  intros h cap [k [Hk ->]]. unfold indexFor. replace (2 ^ k - 1) with (Z.ones k) by (rewrite Z.ones_equiv; lia).
  rewrite Z.land_ones by lia. pose proof (Z.mod_pos_bound h (2 ^ k) ltac:(apply Z.pow_pos_nonneg; lia)). lia.
Qed.

Section Map.
Context {K V : Type} (hash : K -> Z) (equal : K -> K -> bool).
Hypothesis L : lawful hash equal.
Local Notation lists := (@JMap_Spec.lists K V). Notation map := (@map K V). Notation store := (@store K V). Notation cell := (@cell K V).

(** ** Cells: links and data *)
Definition nx (cs : store) (i : nat) : option nat := match cs i with Some c => cnext c | None => None end.
Definition dat (cs : store) (i : nat) : option (K * V * Z) :=
  match cs i with Some c => Some (ckey c, cval c, chash c) | None => None end.
Definition ents (cs : store) (ids : list nat) : list (K * V) :=
  flat_map (fun i => match dat cs i with Some d => [fst d] | None => [] end) ids.

Lemma dat_cell : forall cs i d, dat cs i = Some d -> exists c, cs i = Some c /\ d = (ckey c, cval c, chash c).
Proof. unfold dat. intros cs i d H. destruct (cs i); inversion H. eauto. Qed.

Lemma dat_setNext : forall cs i n j, dat (setNext cs i n) j = dat cs j.
Proof. intros. unfold setNext, dat. destruct (cs i) eqn:E; [|reflexivity]. up; [rewrite E|]; reflexivity. Qed.

Lemma nx_setNext : forall cs i n d, dat cs i = Some d -> forall j, nx (setNext cs i n) j = upd (nx cs) i n j.
Proof.
  intros cs i n d H j. apply dat_cell in H. destruct H as [c [E _]].
  unfold setNext, nx. rewrite E. up; [reflexivity|reflexivity].
Qed.

Lemma ents_dat : forall cs cs' ids, (forall i, In i ids -> dat cs i = dat cs' i) -> ents cs ids = ents cs' ids.
Proof.
  intros cs cs' ids H. unfold ents. induction ids; cbn; [reflexivity|].
  rewrite H by (simpl; auto). f_equal. apply IHids. intros. apply H. simpl. auto.
Qed.
Lemma ents_perm : forall cs l l', Permutation l l' -> Permutation (ents cs l) (ents cs l').
Proof. intros. unfold ents. apply Permutation_flat_map. assumption. Qed.
Lemma ents_app : forall cs a b, ents cs (a ++ b) = ents cs a ++ ents cs b.
Proof. intros. apply flat_map_app. Qed.
Lemma ents_cons : forall cs i r d, dat cs i = Some d -> ents cs (i :: r) = fst d :: ents cs r.
Proof. intros. unfold ents. cbn. rewrite H. reflexivity. Qed.

Definition alloc (cs : store) (ids : list nat) : Prop :=
  forall i, In i ids -> exists d, dat cs i = Some d /\ snd d = hash (fst (fst d)).
Definition placed (cs : store) (cap : Z) (bs : list (list nat)) : Prop :=
  forall n l i d, nth_error bs n = Some l -> In i l -> dat cs i = Some d -> indexFor (snd d) cap = n.

Lemma ents_length : forall cs ids, alloc cs ids -> length (ents cs ids) = length ids.
Proof.
  intros cs ids. induction ids as [|i ids IH]; intros A; [reflexivity|].
  destruct (A i (or_introl eq_refl)) as [d [E _]]. rewrite (ents_cons _ _ _ _ E). simpl. rewrite IH; [reflexivity|].
  intros j Hj. apply A. simpl. auto.
Qed.

Lemma nth_mid : forall {A} (b1 : list A) l b2 n x, nth_error (b1 ++ l :: b2) n = Some x ->
  (n = length b1 /\ x = l) \/ (n <> length b1 /\ forall l', nth_error (b1 ++ l' :: b2) n = Some x).
Proof.
  intros A b1 l b2 n x H. destruct (Nat.eq_dec n (length b1)) as [->|N].
  - rewrite nth_error_app2, Nat.sub_diag in H by lia. inversion H. auto.
  - right. split; [exact N|]. intros l'. destruct (Nat.lt_ge_cases n (length b1)).
    + rewrite nth_error_app1 in * by lia. exact H.
    + rewrite nth_error_app2 in * by lia. destruct (n - length b1)%nat eqn:E; [lia|]. exact H.
Qed.

(** ** Moving the chains to a new array *)
Lemma rehashChain_ok : forall l fuel cap c na nbs cs, isPow2 cap -> Z.of_nat (length na) = cap ->
  chain (nx cs) c l -> Rch (nx cs) na nbs -> NoDup (l ++ concat nbs) ->
  (forall i, In i l -> dat cs i <> None) -> placed cs cap nbs -> (length l <= fuel)%nat ->
  exists na' nbs' cs', rehashChain fuel cap c na cs = Ok (na', cs') /\ length na' = length na /\
    Rch (nx cs') na' nbs' /\ Permutation (concat nbs') (l ++ concat nbs) /\ placed cs' cap nbs' /\
    (forall i, dat cs' i = dat cs i) /\ (forall i, ~ In i l -> nx cs' i = nx cs i).
Proof.
  induction l as [|i l IH]; intros fuel cap c na nbs cs P Hn C R D A Pl Hf.
  - cbn in C. subst c. destruct fuel; cbn [rehashChain]; exists na, nbs, cs; repeat split; auto.
  - cbn in C. destruct C as [-> C]. destruct fuel as [|fuel]; [simpl in Hf; lia|]. cbn [rehashChain].
    destruct (dat cs i) as [d|] eqn:Ed; [|destruct (A i (or_introl eq_refl) Ed)].
    destruct (dat_cell _ _ _ Ed) as [x [Ex Edx]]. rewrite Ex. cbn [of_option bind]. cbv zeta.
    set (index := indexFor (chash x) cap).
    assert (Hi : (index < length na)%nat) by (pose proof (index_range (chash x) cap P); unfold index; lia).
    destruct (nth_error na index) as [h|] eqn:Eh; [|apply nth_error_None in Eh; lia].
    unfold at_. rewrite Eh. cbn [of_option bind].
    simpl app in D. inversion D as [|? ? N D']; subst.
    assert (Ni : ~ In i (concat nbs)) by (intros X; apply N; apply in_or_app; auto).
    destruct (rch_insert _ _ _ _ _ i R Eh Ni) as [b1 [lb [b2 [-> [Lb R']]]]].
    assert (Enx : cnext x = nx cs i) by (unfold nx; rewrite Ex; reflexivity). rewrite Enx.
    destruct (IH fuel (Z.of_nat (length na)) (nx cs i) (setNth na index (Some i)) (b1 ++ (i :: lb) :: b2) (setNext cs i h))
      as [na' [nbs' [cs' [E1 [E2 [E3 [E4 [E5 [E6 E7]]]]]]]]].
    + exact P.
    + rewrite setNth_length. reflexivity.
    + eapply chain_ext; [|exact C]. intros y Hy. rewrite (nx_setNext _ _ _ _ Ed). up; [|reflexivity].
      exfalso. apply N. apply in_or_app. auto.
    + eapply rch_ext; [|exact R']. intros y Hy. rewrite (nx_setNext _ _ _ _ Ed). reflexivity.
    + eapply Permutation_NoDup; [|exact D]. rewrite !concat_mid. simpl.
      apply perm_ins.
    + intros y Hy. rewrite dat_setNext. apply A. simpl. auto.
    + intros n l0 j e Hl Hj. rewrite dat_setNext. intros Hd. destruct (nth_mid _ _ _ _ _ Hl) as [[-> ->]|[Nn Hl']].
      * destruct Hj as [<-|Hj].
        -- rewrite Ed in Hd. inversion Hd; subst. simpl. rewrite Lb. reflexivity.
        -- eapply Pl; [|exact Hj|exact Hd]. rewrite nth_error_app2, Nat.sub_diag by lia. reflexivity.
      * eapply Pl; [apply Hl'|exact Hj|exact Hd].
    + simpl in Hf. lia.
    + exists na', nbs', cs'. split; [exact E1|]. split; [rewrite E2; apply setNth_length|]. split; [exact E3|].
      split; [|split; [exact E5|split]].
      * etransitivity; [exact E4|]. rewrite !concat_mid. simpl.
        symmetry. apply perm_ins.
      * intros j. rewrite E6. apply dat_setNext.
      * intros j Hj. rewrite E7 by (intros X; apply Hj; simpl; auto). rewrite (nx_setNext _ _ _ _ Ed). up; [|reflexivity].
        exfalso. apply Hj. simpl. auto.
Qed.

Lemma rehash_ok : forall a bs fuel cap na nbs cs, isPow2 cap -> Z.of_nat (length na) = cap ->
  Rch (nx cs) a bs -> Rch (nx cs) na nbs -> NoDup (concat bs ++ concat nbs) ->
  (forall i, In i (concat bs) -> dat cs i <> None) -> placed cs cap nbs -> (length (concat bs) <= fuel)%nat ->
  exists na' nbs' cs', rehash fuel cap a na cs = Ok (na', cs') /\ length na' = length na /\
    Rch (nx cs') na' nbs' /\ Permutation (concat nbs') (concat bs ++ concat nbs) /\ placed cs' cap nbs' /\
    (forall i, dat cs' i = dat cs i).
Proof.
  induction a as [|c a IH]; intros bs fuel cap na nbs cs P Hn R Rn D A Pl Hf.
  - inversion R; subst. cbn [rehash]. exists na, nbs, cs. repeat split; auto.
  - inversion R as [|? l ? bs' C R']; subst. cbn [rehash concat] in *. rewrite app_length in Hf.
    rewrite <- app_assoc in D.
    destruct (rehashChain_ok l fuel _ c na nbs cs P eq_refl C Rn) as [na1 [nbs1 [cs1 [E1 [E2 [E3 [E4 [E5 [E6 E7]]]]]]]]].
    + clear - D. revert D. generalize (concat bs') (concat nbs). intros u w D.
      induction l as [|x l IH]; simpl in *.
      * apply nodup_app_r in D. exact D.
      * inversion D; subst. constructor; [|auto]. intros X. apply H1. apply in_app_or in X. apply in_or_app.
        destruct X; [auto|right; apply in_or_app; auto].
    + intros i Hi. apply A. apply in_or_app. auto.
    + exact Pl.
    + lia.
    + rewrite E1. cbn [bind fst snd].
      assert (ND : NoDup (concat bs' ++ concat nbs1)).
      { eapply Permutation_NoDup; [|exact D]. rewrite E4. rewrite app_assoc, app_assoc.
        apply Permutation_app_tail. apply Permutation_app_comm. }
      destruct (IH bs' fuel (Z.of_nat (length na)) na1 nbs1 cs1) as [na' [nbs' [cs' [F1 [F2 [F3 [F4 [F5 F6]]]]]]]].
      * exact P.
      * rewrite E2. reflexivity.
      * eapply rch_ext; [|exact R']. intros x Hx. symmetry. apply E7. intros X.
        clear - D Hx X. apply in_split in X. destruct X as [l1 [l2 ->]]. rewrite <- app_assoc in D.
        apply nodup_app_r in D. simpl in D. inversion D; subst. apply H1.
        apply in_or_app. right. apply in_or_app. auto.
      * exact E3.
      * exact ND.
      * intros i Hi. rewrite E6. apply A. apply in_or_app. auto.
      * exact E5.
      * lia.
      * exists na', nbs', cs'. split; [exact F1|]. split; [congruence|]. split; [exact F3|]. split; [|split; [exact F5|]].
        -- etransitivity; [exact F4|]. rewrite E4. rewrite app_assoc.
           apply Permutation_app_tail. apply Permutation_app_comm.
        -- intros i. rewrite F6. apply E6.
Qed.

(** ** The whole map *)
Record shape (m : map) (ids : list nat) : Prop := {
  s_arr : match array m with
          | None => ids = []
          | Some a => exists bs, ids = concat bs /\ isPow2 (capacityOf a) /\ Rch (nx (cells m)) a bs /\
              placed (cells m) (capacityOf a) bs
          end;
  s_nd : NoDup ids;
  s_al : alloc (cells m) ids;
  s_fr : forall i, In i ids -> (i < fresh m)%nat }.
Definition good (m : map) (ids : list nat) : Prop :=
  shape m ids /\ size m = wrap32 (Z.of_nat (length ids)).

Lemma nodup_bound : forall n (l : list nat), NoDup l -> (forall i, In i l -> (i < n)%nat) -> (length l <= n)%nat.
Proof.
  intros n l D H. rewrite <- (seq_length n 0). apply NoDup_incl_length; [exact D|].
  intros i Hi. apply in_seq. specialize (H i Hi). lia.
Qed.

Lemma nth_repeat : forall {A} (x : A) k n y, nth_error (repeat x k) n = Some y -> y = x.
Proof. induction k; destruct n; cbn; intros; try discriminate; [congruence|eauto]. Qed.

Lemma rch_empty : forall nxt k, Rch nxt (repeat None k) (repeat [] k).
Proof. induction k; cbn; constructor; cbn; auto. Qed.
Lemma concat_empty : forall k, concat (repeat (@nil nat) k) = [].
Proof. induction k; cbn; auto. Qed.
Lemma placed_empty : forall cs cap k, placed cs cap (repeat [] k).
Proof. intros cs cap k n l i d H Hi. apply nth_repeat in H. subst. destruct Hi. Qed.

Lemma placed_dat : forall cs cs' cap bs, (forall i, In i (concat bs) -> dat cs' i = dat cs i) ->
  placed cs cap bs -> placed cs' cap bs.
Proof.
  intros cs cs' cap bs E P n l i d H Hi Hd. eapply P; eauto. rewrite <- E; [exact Hd|].
  apply in_concat. exists l. split; [eapply nth_error_In; eauto|exact Hi].
Qed.
Lemma alloc_dat : forall cs cs' ids, (forall i, In i ids -> dat cs' i = dat cs i) -> alloc cs ids -> alloc cs' ids.
Proof. intros cs cs' ids E A i Hi. rewrite E by exact Hi. apply A, Hi. Qed.

Record resized (m m' : map) (ids ids' : list nat) : Prop := {
  z_shape : shape m' ids';
  z_perm : Permutation ids' ids;
  z_dat : forall i, dat (cells m') i = dat (cells m) i;
  z_size : size m' = size m;
  z_fresh : fresh m' = fresh m;
  z_arr : array m' <> None }.

Lemma resized_refl : forall m ids a, shape m ids -> array m = Some a -> resized m m ids ids.
Proof. intros. split; auto. congruence. Qed.

Lemma resize_ok : forall m ids capacity, shape m ids -> capacity <= 2 ^ 30 -> capacity <> 0 ->
  exists m' ids', resize m capacity = Ok m' /\ resized m m' ids ids'.
Proof.
  intros m ids capacity S Hc Hz. unfold resize. apply Z.eqb_neq in Hz. rewrite Hz.
  destruct (nextPow2_ok 64 capacity ltac:(lia) Hc) as [cap [E P]]. rewrite E. cbn [bind].
  pose proof (pow2_pos cap P) as Pc. destruct S as [Sa Sn Sl Sf].
  destruct (Z.ltb_spec cap 0) as [|_]; [lia|].
  destruct (array m) as [a|] eqn:Ea.
  - destruct (Z.eqb_spec (capacityOf a) cap).
    + exists m, ids. split; [reflexivity|]. apply resized_refl with a; [|exact Ea]. constructor; auto. rewrite Ea. exact Sa.
    + destruct Sa as [bs [-> [Pa [R Pl]]]].
      destruct (rehash_ok a bs (Datatypes.S (fresh m)) cap (repeat None (Z.to_nat cap)) (repeat [] (Z.to_nat cap)) (cells m))
        as [na [nbs [cs [E1 [E2 [E3 [E4 [E5 E6]]]]]]]].
      * exact P.
      * rewrite repeat_length. lia.
      * exact R.
      * apply rch_empty.
      * rewrite concat_empty, app_nil_r. exact Sn.
      * intros i Hi X. destruct (Sl i Hi) as [d [Hd _]]. congruence.
      * apply placed_empty.
      * pose proof (nodup_bound _ _ Sn Sf). lia.
      * rewrite E1. cbn [bind fst snd]. rewrite concat_empty, app_nil_r in E4.
        eexists. exists (concat nbs). split; [reflexivity|].
        constructor; cbn; auto; [|discriminate].
        constructor; cbn.
        -- exists nbs. split; [reflexivity|]. assert (Q : capacityOf na = cap).
           { unfold capacityOf. rewrite E2, repeat_length. lia. }
           rewrite Q. auto.
        -- eapply Permutation_NoDup; [symmetry; exact E4|exact Sn].
        -- eapply alloc_dat; [intros; apply E6|]. intros i Hi. apply Sl. eapply Permutation_in; eauto.
        -- intros i Hi. apply Sf. eapply Permutation_in; eauto.
  - eexists. exists (concat (repeat (@nil nat) (Z.to_nat cap))). split; [reflexivity|]. rewrite Sa in *.
    constructor; cbn; auto; try discriminate.
    + constructor; cbn.
      * eexists. split; [reflexivity|]. unfold capacityOf. rewrite repeat_length, Z2Nat.id by lia.
        split; [exact P|]. split; [apply rch_empty|apply placed_empty].
      * rewrite concat_empty. constructor.
      * rewrite concat_empty. exact Sl.
      * rewrite concat_empty. intros i [].
    + rewrite concat_empty. reflexivity.
Qed.

Lemma dbl_ok : forall c, isPow2 c -> wrap32 (c * 2) <= 2 ^ 30 /\ wrap32 (c * 2) <> 0.
Proof.
  intros c [k [Hk ->]]. destruct (Z.eq_dec k 30) as [->|Nk].
  - change (wrap32 (2 ^ 30 * 2)) with (- 2 ^ 31). lia.
  - assert (0 < 2 ^ k <= 2 ^ 29) by (split; [apply Z.pow_pos_nonneg; lia|apply Z.pow_le_mono_r; lia]).
    unfold wrap32. rewrite Z.mod_small by lia. lia.
Qed.

Lemma grow_ok : forall m ids, shape m ids -> exists m' ids', grow m = Ok m' /\ resized m m' ids ids'.
Proof.
  intros m ids S. unfold grow. destruct (array m) as [a|] eqn:Ea.
  - destruct (_ <=? _).
    + pose proof (s_arr _ _ S) as Sa. rewrite Ea in Sa. destruct Sa as [bs [_ [P _]]].
      apply dbl_ok in P. apply resize_ok; [exact S|apply P|apply P].
    + exists m, ids. split; [reflexivity|]. eapply resized_refl; eauto.
  - apply resize_ok; [exact S|unfold MinimumCapacity; lia|discriminate].
Qed.

Lemma shrink_ok : forall m ids a, shape m ids -> array m = Some a ->
  exists m' ids', shrink m = Ok m' /\ resized m m' ids ids'.
Proof.
  intros m ids a S Ea. unfold shrink. rewrite Ea. cbn [of_option bind].
  destruct (Z.leb_spec MinimumCapacity (capacityOf a / 2)); cbn [andb].
  - destruct (_ <=? _).
    + pose proof (s_arr _ _ S) as Sa. rewrite Ea in Sa. destruct Sa as [bs [_ [P _]]].
      apply pow2_pos in P. unfold MinimumCapacity in *.
      assert (capacityOf a / 2 <= capacityOf a) by (apply Z.div_le_upper_bound; lia).
      apply resize_ok; [exact S| |]; lia.
    + exists m, ids. split; [reflexivity|]. eapply resized_refl; eauto.
  - exists m, ids. split; [reflexivity|]. eapply resized_refl; eauto.
Qed.

(** ** Looking up *)
Definition hit (cs : store) (key : K) (i : nat) : Prop :=
  exists d, dat cs i = Some d /\ equal key (fst (fst d)) = true.

Lemma findLoop_ok : forall l fuel cs key c, chain (nx cs) c l -> alloc cs l -> (length l <= fuel)%nat ->
  exists r, findLoop equal fuel cs key c = Ok r /\
    match r with Some i => In i l /\ hit cs key i | None => forall i, In i l -> ~ hit cs key i end.
Proof.
  induction l as [|i l IH]; intros fuel cs key c C A Hf; cbn in C.
  - subst. destruct fuel; cbn; exists None; (split; [reflexivity|intros i []]).
  - destruct C as [-> C]. destruct fuel as [|fuel]; [simpl in Hf; lia|]. cbn [findLoop].
    destruct (A i (or_introl eq_refl)) as [d [Hd _]]. destruct (dat_cell _ _ _ Hd) as [x [Ex Edx]].
    rewrite Ex. cbn [of_option bind]. destruct (equal key (ckey x)) eqn:E.
    + exists (Some i). split; [reflexivity|]. split; [simpl; auto|]. exists d. split; [exact Hd|]. subst d. exact E.
    + assert (Q : cnext x = nx cs i) by (unfold nx; rewrite Ex; reflexivity). rewrite Q.
      destruct (IH fuel cs key (nx cs i) C) as [r [E1 E2]].
      { intros j Hj. apply A. simpl. auto. } { simpl in Hf. lia. }
      exists r. split; [exact E1|]. destruct r as [j|].
      * destruct E2. split; [simpl; auto|assumption].
      * intros j [<-|Hj]; [|auto]. intros [d' [H1 H2]]. rewrite Hd in H1. inversion H1; subst d'. subst d. cbn in H2. congruence.
Qed.

Lemma in_bucket : forall cs cap bs key n l i, placed cs cap bs -> alloc cs (concat bs) ->
  n = indexFor (hash key) cap -> nth_error bs n = Some l -> In i (concat bs) -> hit cs key i -> In i l.
Proof.
  intros cs cap bs key n l i P A -> Hl Hi [d [Hd He]]. destruct (A i Hi) as [d' [Hd' Hh]].
  rewrite Hd in Hd'. inversion Hd'; subst d'.
  apply in_concat in Hi. destruct Hi as [l' [H1 H2]]. apply In_nth_error in H1. destruct H1 as [n' Hn'].
  pose proof (P _ _ _ _ Hn' H2 Hd) as X. rewrite Hh in X.
  rewrite <- (eq_hash_ _ _ L _ _ He) in X. rewrite <- X in Hn'. congruence.
Qed.

Lemma alloc_sub : forall cs a b, (forall i, In i b -> In i a) -> alloc cs a -> alloc cs b.
Proof. intros cs a b H A i Hi. apply A, H, Hi. Qed.

Lemma find_ok : forall m ids key, shape m ids -> exists r, find hash equal m key = Ok r /\
  match r with Some i => In i ids /\ hit (cells m) key i | None => forall i, In i ids -> ~ hit (cells m) key i end.
Proof.
  intros m ids key S. unfold find. pose proof (s_arr _ _ S) as Sa. destruct (array m) as [a|].
  - destruct Sa as [bs [E [P [R Pl]]]]. pose proof (index_range (hash key) _ P) as Hi.
    unfold capacityOf in Hi at 2. rewrite Nat2Z.id in Hi.
    set (n := indexFor (hash key) (capacityOf a)) in *.
    destruct (nth_error a n) as [h|] eqn:Eh; [|apply nth_error_None in Eh; lia].
    unfold at_. rewrite Eh. cbn [of_option bind].
    destruct (rch_split _ _ _ _ _ R Eh) as [a1 [a2 [b1 [l [b2 [E1 [E2 [L1 [L2 [R1 [C R2]]]]]]]]]]].
    assert (Sub : forall i, In i l -> In i ids).
    { intros i Hi'. rewrite E, E2, concat_mid. apply in_or_app. right. apply in_or_app. auto. }
    destruct (findLoop_ok l (Datatypes.S (fresh m)) (cells m) key h C) as [r [F1 F2]].
    + eapply alloc_sub; [exact Sub|apply (s_al _ _ S)].
    + assert (NoDup l). { pose proof (s_nd _ _ S) as N. rewrite E, E2, concat_mid in N.
        apply nodup_app_r in N. clear - N. induction l; [constructor|]. simpl in N. inversion N; subst.
        constructor; auto. intros X. apply H1. apply in_or_app. auto. }
      pose proof (nodup_bound (fresh m) l H ltac:(intros; apply (s_fr _ _ S); auto)). lia.
    + exists r. split; [exact F1|]. destruct r as [i|].
      * destruct F2. auto.
      * intros i Hi' Ht. apply (F2 i); [|exact Ht].
        eapply in_bucket with (bs := bs) (n := n); eauto.
        -- rewrite <- E. apply (s_al _ _ S).
        -- reflexivity.
        -- rewrite E2. rewrite nth_error_app2 by lia. replace (n - length b1)%nat with 0%nat by lia. reflexivity.
        -- rewrite <- E. exact Hi'.
  - exists None. split; [reflexivity|]. subst ids. intros i [].
Qed.

(** ** Content *)
Lemma lists_nil : lists equal [] (fun _ => @None V).
Proof. split; [constructor|]. intros. split; [discriminate|intros [k' [[] _]]]. Qed.

Lemma fop_perm : forall (R : K * V -> K * V -> Prop), (forall a b, R a b -> R b a) ->
  forall l l', Permutation l l' -> ForallOrdPairs R l -> ForallOrdPairs R l'.
Proof.
  intros R Sy l l' P. induction P; intros F.
  - constructor.
  - inversion F; subst. constructor; [|auto]. eapply Permutation_Forall; eauto.
  - inversion F as [|? ? F1 F2]; subst. inversion F2 as [|? ? F3 F4]; subst. inversion F1; subst.
    constructor; [constructor; auto|]. constructor; auto.
  - auto.
Qed.

Lemma equal_sym_false : forall a b, equal a b = false -> equal b a = false.
Proof.
  intros a b H. destruct (equal b a) eqn:E; [|reflexivity]. apply (eq_sym_ _ _ L) in E. congruence.
Qed.

Lemma dist_sym : forall a b : K * V, equal (fst a) (fst b) = false -> equal (fst b) (fst a) = false.
Proof. intros. apply equal_sym_false. assumption. Qed.

Lemma lists_perm : forall l l' f, Permutation l l' -> lists equal l f -> lists equal l' f.
Proof.
  intros l l' f P [F H]. split.
  - eapply fop_perm; [|exact P|exact F]. cbn. intros. apply equal_sym_false. assumption.
  - intros k v. rewrite H. split; intros [k' [H1 H2]]; exists k'; (split; [|exact H2]).
    + eapply Permutation_in; eauto.
    + eapply Permutation_in; [symmetry|]; eauto.
Qed.

Lemma lists_ext : forall l f g, (forall x, f x = g x) -> lists equal l f -> lists equal l g.
Proof. intros l f g E [F H]. split; [exact F|]. intros. rewrite <- E. apply H. Qed.

Definition added (f : K -> option V) k v : K -> option V := fun x => if equal x k then Some v else f x.
Definition removed (f : K -> option V) k : K -> option V := fun x => if equal x k then None else f x.

Lemma lists_none : forall l f k, lists equal l f -> (forall e, In e l -> equal k (fst e) = false) -> f k = None.
Proof.
  intros l f k [_ H] N. destruct (f k) as [v|] eqn:E; [|reflexivity]. apply H in E.
  destruct E as [k' [H1 H2]]. specialize (N _ H1). cbn in N. congruence.
Qed.
Lemma lists_some : forall l f k k' v, lists equal l f -> In (k', v) l -> equal k k' = true -> f k = Some v.
Proof. intros l f k k' v [_ H] Hi E. apply H. eauto. Qed.

Lemma lists_add : forall l f k v, lists equal l f -> (forall e, In e l -> equal k (fst e) = false) ->
  lists equal ((k, v) :: l) (added f k v).
Proof.
  intros l f k v [F H] N. split.
  - constructor; [|exact F]. apply Forall_forall. exact N.
  - intros x w. unfold added. destruct (equal x k) eqn:E.
    + split.
      * intros [= <-]. exists k. split; [simpl; auto|exact E].
      * intros [k' [[H1|H1] H2]]; [congruence|]. specialize (N _ H1). cbn in N.
        assert (equal k k' = true) by (eapply (eq_trans_ _ _ L); [apply (eq_sym_ _ _ L); exact E|exact H2]). congruence.
    + rewrite H. split.
      * intros [k' [H1 H2]]. exists k'. simpl. auto.
      * intros [k' [[H1|H1] H2]]; [inversion H1; congruence|]. eauto.
Qed.

Lemma fop_mid : forall (R : K * V -> K * V -> Prop), (forall a b, R a b -> R b a) ->
  forall a e b, ForallOrdPairs R (a ++ e :: b) -> Forall (R e) (a ++ b) /\ ForallOrdPairs R (a ++ b).
Proof.
  intros R Sy a e b F. apply (fop_perm R Sy _ (e :: a ++ b)) in F; [|symmetry; apply Permutation_middle].
  inversion F; auto.
Qed.

Lemma lists_del : forall a e b f k, lists equal (a ++ e :: b) f -> equal k (fst e) = true ->
  lists equal (a ++ b) (removed f k).
Proof.
  intros a [k0 v0] b f k [F H] E. cbn in E.
  destruct (fop_mid _ dist_sym _ _ _ F) as [F1 F2]. split; [exact F2|].
  rewrite Forall_forall in F1. intros x w. unfold removed. destruct (equal x k) eqn:Ex.
  - split; [discriminate|]. intros [k' [H1 H2]]. specialize (F1 _ H1). cbn in F1.
    assert (equal k0 k' = true); [|congruence].
    eapply (eq_trans_ _ _ L); [|exact H2]. apply (eq_sym_ _ _ L). eapply (eq_trans_ _ _ L); [exact Ex|exact E].
  - rewrite H. split; intros [k' [H1 H2]]; exists k'; (split; [|exact H2]).
    + apply in_app_or in H1. apply in_or_app. destruct H1 as [H1|[H1|H1]]; auto. inversion H1; subst.
      exfalso. assert (equal x k = true); [|congruence]. eapply (eq_trans_ _ _ L); [exact H2|apply (eq_sym_ _ _ L); exact E].
    + apply in_app_or in H1. apply in_or_app. simpl. tauto.
Qed.

Lemma lists_set : forall a k0 v0 b f k v, lists equal (a ++ (k0, v0) :: b) f -> equal k k0 = true ->
  lists equal (a ++ (k0, v) :: b) (added f k v).
Proof.
  intros a k0 v0 b f k v H E. pose proof (lists_del _ _ _ _ k H E) as D.
  apply lists_perm with ((k0, v) :: a ++ b); [apply Permutation_middle|].
  apply lists_ext with (added (removed f k) k0 v).
  - intros x. unfold added, removed. destruct (equal x k0) eqn:E0; destruct (equal x k) eqn:E1; auto.
    + exfalso. assert (equal x k = true); [|congruence]. eapply (eq_trans_ _ _ L); [exact E0|apply (eq_sym_ _ _ L); exact E].
    + exfalso. assert (equal x k0 = true); [|congruence]. eapply (eq_trans_ _ _ L); eauto.
  - apply lists_add; [exact D|]. intros e He. destruct H as [F _].
    destruct (fop_mid _ dist_sym _ _ _ F) as [F1 _].
    rewrite Forall_forall in F1. apply (F1 e He).
Qed.

Lemma in_ents : forall cs ids e, In e (ents cs ids) <-> exists i d, In i ids /\ dat cs i = Some d /\ e = fst d.
Proof.
  intros cs ids e. unfold ents. rewrite in_flat_map. split.
  - intros [i [H1 H2]]. destruct (dat cs i) as [d|] eqn:E; [|destruct H2]. destruct H2 as [<-|[]]. eauto.
  - intros [i [d [H1 [H2 ->]]]]. exists i. rewrite H2. simpl. auto.
Qed.

(** ** put *)
Lemma miss_ents : forall cs ids key, (forall i, In i ids -> ~ hit cs key i) ->
  forall e, In e (ents cs ids) -> equal key (fst e) = false.
Proof.
  intros cs ids key H e He. apply in_ents in He. destruct He as [i [d [H1 [H2 ->]]]].
  destruct (equal key (fst (fst d))) eqn:E; [|reflexivity]. destruct (H i H1). exists d. auto.
Qed.

Lemma wrap_succ : forall n, wrap32 (wrap32 (Z.of_nat n) + 1) = wrap32 (Z.of_nat (S n)).
Proof.
  intros n. unfold wrap32. rewrite Nat2Z.inj_succ. unfold Z.succ.
  replace ((Z.of_nat n + 2 ^ 31) mod 2 ^ 32 - 2 ^ 31 + 1 + 2 ^ 31) with ((Z.of_nat n + 2 ^ 31) mod 2 ^ 32 + 1) by lia.
  rewrite Z.add_mod_idemp_l by lia. f_equal. f_equal. lia.
Qed.
Lemma wrap_pred : forall n, wrap32 (wrap32 (Z.of_nat (S n)) - 1) = wrap32 (Z.of_nat n).
Proof.
  intros n. unfold wrap32. rewrite Nat2Z.inj_succ. unfold Z.succ.
  replace ((Z.of_nat n + 1 + 2 ^ 31) mod 2 ^ 32 - 2 ^ 31 - 1 + 2 ^ 31) with ((Z.of_nat n + 1 + 2 ^ 31) mod 2 ^ 32 + -1) by lia.
  rewrite Z.add_mod_idemp_l by lia. f_equal. f_equal. lia.
Qed.

Lemma insert_ok : forall m ids key v, good m ids ->
  exists m' ids', insert hash m key v = Ok m' /\ good m' ids' /\
    Permutation (ents (cells m') ids') ((key, v) :: ents (cells m) ids).
Proof.
  intros m ids key v [S Sz]. unfold insert. cbv zeta.
  set (i := fresh m). set (cs1 := upd (cells m) i (Some (Cell key v (hash key) None))).
  set (m1 := Map _ _ cs1 _).
  assert (Fr : ~ In i ids) by (intros X; apply (s_fr _ _ S) in X; unfold i in X; lia).
  assert (D1 : forall j, In j ids -> dat cs1 j = dat (cells m) j /\ nx cs1 j = nx (cells m) j).
  { intros j Hj. unfold dat, nx, cs1. up; [contradiction|auto]. }
  assert (Di : dat cs1 i = Some (key, v, hash key)) by (unfold dat, cs1; unfold upd; rewrite Nat.eqb_refl; reflexivity).
  assert (S1 : shape m1 ids).
  { destruct S as [Sa Sn Sl Sf]. constructor; cbn.
    - destruct (array m) as [a|]; [|exact Sa]. destruct Sa as [bs [-> [P [R Pl]]]]. exists bs.
      split; [reflexivity|]. split; [exact P|]. split.
      + eapply rch_ext; [|exact R]. intros j Hj. symmetry. apply D1, Hj.
      + eapply placed_dat; [|exact Pl]. intros j Hj. apply D1, Hj.
    - exact Sn.
    - eapply alloc_dat; [|exact Sl]. intros j Hj. apply D1, Hj.
    - intros j Hj. apply Sf in Hj. lia. }
  destruct (grow_ok m1 ids S1) as [m2 [ids2 [G [Z1 Z2 Z3 Z4 Z5 Z6]]]]. rewrite G. cbn [bind].
  destruct (array m2) as [a|] eqn:Ea; [|congruence]. cbn [of_option bind].
  pose proof (s_arr _ _ Z1) as Sa. rewrite Ea in Sa. destruct Sa as [bs [E [P [R Pl]]]].
  pose proof (index_range (hash key) _ P) as Hi. unfold capacityOf in Hi at 2. rewrite Nat2Z.id in Hi.
  set (n := indexFor (hash key) (capacityOf a)) in *.
  destruct (nth_error a n) as [h|] eqn:Eh; [|apply nth_error_None in Eh; lia].
  unfold at_. rewrite Eh. cbn [of_option bind].
  assert (Fr2 : ~ In i (concat bs)).
  { rewrite <- E. intros X. apply Fr. eapply Permutation_in; eauto. }
  destruct (rch_insert _ _ _ _ _ i R Eh Fr2) as [b1 [l [b2 [Eb [Lb R']]]]].
  assert (Di2 : dat (cells m2) i = Some (key, v, hash key)) by (rewrite Z3; exact Di).
  assert (Pm : Permutation (concat (b1 ++ (i :: l) :: b2)) (i :: ids)).
  { rewrite concat_mid. simpl. rewrite <- Permutation_middle. constructor. rewrite <- concat_mid, <- Eb, <- E. exact Z2. }
  eexists. exists (concat (b1 ++ (i :: l) :: b2)). split; [reflexivity|]. split; [split|].
  - constructor; cbn.
    + exists (b1 ++ (i :: l) :: b2). split; [reflexivity|].
      assert (Q : capacityOf (setNth a n (Some i)) = capacityOf a) by (unfold capacityOf; rewrite setNth_length; reflexivity).
      rewrite Q. split; [exact P|]. split.
      * eapply rch_ext; [|exact R']. intros j _. rewrite (nx_setNext _ _ _ _ Di2). reflexivity.
      * intros k l0 j d Hl Hj. rewrite dat_setNext. intros Hd. destruct (nth_mid _ _ _ _ _ Hl) as [[-> ->]|[Nn Hl']].
        -- destruct Hj as [<-|Hj].
           ++ rewrite Di2 in Hd. inversion Hd. cbn. rewrite Lb. reflexivity.
           ++ eapply Pl; [|exact Hj|exact Hd]. rewrite Eb, nth_error_app2, Nat.sub_diag by lia. reflexivity.
        -- eapply Pl; [rewrite Eb; apply Hl'|exact Hj|exact Hd].
    + eapply Permutation_NoDup; [symmetry; exact Pm|]. constructor; [exact Fr|apply (s_nd _ _ S)].
    + intros j Hj. rewrite dat_setNext. apply (Permutation_in _ Pm) in Hj. destruct Hj as [<-|Hj].
      * rewrite Di2. eexists. split; [reflexivity|reflexivity].
      * rewrite Z3. apply (s_al _ _ S1 j Hj).
    + intros j Hj. rewrite Z5. cbn. apply (Permutation_in _ Pm) in Hj. destruct Hj as [<-|Hj].
      * unfold i. lia.
      * apply (s_fr _ _ S) in Hj. lia.
  - cbn. rewrite Z4. cbn. rewrite Sz. rewrite (Permutation_length Pm). apply wrap_succ.
  - cbn. rewrite (ents_dat _ (cells m2)) by (intros; apply dat_setNext).
    etransitivity; [apply ents_perm; exact Pm|]. rewrite (ents_cons _ _ _ _ Di2). cbn [fst].
    constructor. rewrite (ents_dat (cells m2) (cells m)); [reflexivity|].
    intros j Hj. rewrite Z3. apply D1, Hj.
Qed.

Lemma hit_split : forall cs ids key i, In i ids -> hit cs key i ->
  exists A B d, ids = A ++ i :: B /\ dat cs i = Some d /\ equal key (fst (fst d)) = true /\
    ents cs ids = ents cs A ++ fst d :: ents cs B.
Proof.
  intros cs ids key i Hi [d [Hd He]]. apply in_split in Hi. destruct Hi as [A [B ->]]. exists A, B, d.
  split; [reflexivity|]. split; [exact Hd|]. split; [exact He|]. rewrite ents_app, (ents_cons _ _ _ _ Hd). reflexivity.
Qed.

Lemma put_ok : forall m ids f key v, good m ids -> lists equal (ents (cells m) ids) f ->
  exists m' ids', put hash equal m key v = Ok (f key, m') /\ good m' ids' /\
    lists equal (ents (cells m') ids') (added f key v).
Proof.
  intros m ids f key v G F. unfold put. destruct (find_ok m ids key (proj1 G)) as [r [E H]]. rewrite E. cbn [bind].
  destruct r as [i|].
  - destruct H as [Hi Ht]. destruct (hit_split _ _ _ _ Hi Ht) as [A [B [d [E1 [Hd [He E2]]]]]].
    destruct (dat_cell _ _ _ Hd) as [x [Ex Edx]]. rewrite Ex. cbn [of_option bind].
    assert (Fk : f key = Some (cval x)).
    { eapply lists_some; [exact F| |exact He]. rewrite E2. apply in_or_app. right. left. subst d. reflexivity. }
    rewrite Fk. eexists. exists ids. split; [reflexivity|].
    assert (Dn : forall j, nx (setValue (cells m) i v) j = nx (cells m) j).
    { intros j. unfold nx, setValue. rewrite Ex. up; [rewrite Ex|]; reflexivity. }
    assert (Dd : forall j, j <> i -> dat (setValue (cells m) i v) j = dat (cells m) j).
    { intros j Hj. unfold dat, setValue. rewrite Ex. up; [congruence|reflexivity]. }
    assert (Di : dat (setValue (cells m) i v) i = Some (ckey x, v, chash x)).
    { unfold dat, setValue. rewrite Ex. unfold upd. rewrite Nat.eqb_refl. reflexivity. }
    destruct G as [S Sz]. pose proof (s_nd _ _ S) as Nd. split; [split|].
    + destruct S as [Sa Sn Sl Sf]. constructor; cbn.
      * destruct (array m) as [a|]; [|exact Sa]. destruct Sa as [bs [Eb [P [R Pl]]]]. exists bs.
        split; [exact Eb|]. split; [exact P|]. split; [eapply rch_ext; [|exact R]; intros; symmetry; apply Dn|].
        intros n l j e Hl Hj. destruct (Nat.eq_dec j i) as [->|Nj].
        -- rewrite Di. intros [= <-]. cbn. rewrite Edx in Hd. apply (Pl _ _ _ _ Hl Hj Hd).
        -- rewrite Dd by exact Nj. apply (Pl _ _ _ _ Hl Hj).
      * exact Sn.
      * intros j Hj. destruct (Nat.eq_dec j i) as [->|Nj].
        -- rewrite Di. eexists. split; [reflexivity|]. cbn. destruct (Sl i Hi) as [d' [H1 H2]].
           rewrite Hd in H1. inversion H1; subst d'. rewrite Edx in H2. exact H2.
        -- rewrite Dd by exact Nj. apply Sl, Hj.
      * exact Sf.
    + exact Sz.
    + cbn. rewrite E1. rewrite ents_app, (ents_cons _ _ _ _ Di). cbn [fst].
      rewrite E1 in Nd. pose proof (NoDup_remove_2 _ _ _ Nd) as Ni.
      rewrite (ents_dat _ (cells m) A), (ents_dat _ (cells m) B).
      * apply lists_set with (cval x).
        -- rewrite E2 in F. rewrite Edx in F. exact F.
        -- rewrite Edx in He. exact He.
      * intros j Hj. apply Dd. intros ->. apply Ni. apply in_or_app. auto.
      * intros j Hj. apply Dd. intros ->. apply Ni. apply in_or_app. auto.
  - destruct (insert_ok m ids key v G) as [m' [ids' [E1 [G' P]]]]. rewrite E1. cbn [bind].
    pose proof (miss_ents _ _ _ H) as N. rewrite (lists_none _ _ _ F N).
    exists m', ids'. split; [reflexivity|]. split; [exact G'|].
    eapply lists_perm; [symmetry; exact P|]. apply lists_add; assumption.
Qed.
End Map.
