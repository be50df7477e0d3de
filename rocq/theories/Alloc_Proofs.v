(** Proofs about object allocation. *)
From Coq Require Import ZArith List Bool Lia.
From Verif Require Import Res Alloc_Model Alloc_Spec.
Import ListNotations.
Local Open Scope Z_scope.
Local Arguments Z.add : simpl never.
Local Arguments Z.sub : simpl never.
Local Arguments Z.mul : simpl never.
Local Arguments Z.pow : simpl never.
Local Arguments Z.modulo : simpl never.
Local Arguments Z.div : simpl never.
Local Arguments Z.ltb : simpl never.
Local Arguments Z.leb : simpl never.
Local Arguments Z.eqb : simpl never.
Local Opaque Z.pow.

Lemma p32 : 2 ^ 32 = 4294967296. Proof. reflexivity. Qed.
Lemma p31 : 2 ^ 31 = 2147483648. Proof. reflexivity. Qed.
Lemma p63 : 2 ^ 63 = 9223372036854775808. Proof. reflexivity. Qed.
Lemma p64 : 2 ^ 64 = 18446744073709551616. Proof. reflexivity. Qed.
Lemma thw : ThreadHeapSizeInWords = 8192. Proof. reflexivity. Qed.
Lemma thb : ThreadHeapSizeInBytes = 65536. Proof. reflexivity. Qed.
Lemma tbw : ThreadBackupHeapSizeInWords = 256. Proof. reflexivity. Qed.
Lemma tbb : ThreadBackupHeapSizeInBytes = 2048. Proof. reflexivity. Qed.
Lemma tsz : ThreadSize = 2048. Proof. reflexivity. Qed.
Lemma fsz : FixieSize = 24. Proof. reflexivity. Qed.
Ltac consts := rewrite ?p32, ?p31, ?p63, ?p64, ?thw, ?thb, ?tbw, ?tbb, ?tsz, ?fsz in *.

Lemma u32_id : forall x, 0 <= x < 2 ^ 32 -> u32 x = x.
Proof. intros. unfold u32. apply Z.mod_small. assumption. Qed.
Lemma u32_range : forall x, 0 <= u32 x < 2 ^ 32.
Proof. intros. unfold u32. apply Z.mod_pos_bound. reflexivity. Qed.
Lemma u32_add : forall x y, u32 (u32 x + y) = u32 (x + y).
Proof. intros. unfold u32. apply Zplus_mod_idemp_l. Qed.
Lemma u32_sub : forall x y, u32 (u32 x - y) = u32 (x - y).
Proof. intros. unfold u32. apply Zminus_mod_idemp_l. Qed.

Lemma total_app : forall a b, total (a ++ b) = total a + total b.
Proof. induction a; intros; simpl; [reflexivity|]. rewrite IHa. lia. Qed.

Lemma total_remove : forall l p n, NoDup (map fst l) -> In (p, n) l ->
  total (removeBlock p l) = total l - n.
Proof.
  induction l as [|[q k] l IH]; simpl; intros p n Hnd Hin; [tauto|].
  inversion Hnd; subst.
  destruct (Z.eqb_spec q p).
  - subst. destruct Hin as [E|Hin]; [inversion E; lia|].
    exfalso. apply H1. apply (in_map fst) in Hin. exact Hin.
  - destruct Hin as [E|Hin]; [inversion E; congruence|].
    simpl. rewrite (IH p n); auto. lia.
Qed.

Lemma remove_in : forall l p b, In b (removeBlock p l) -> In b l.
Proof.
  induction l as [|c l IH]; simpl; intros p b H; auto.
  destruct (fst c =? p); [right; exact H|]. destruct H; auto. right. eauto.
Qed.

Lemma remove_nodup : forall l p, NoDup (map fst l) -> NoDup (map fst (removeBlock p l)).
Proof.
  induction l as [|c l IH]; simpl; intros p H; auto.
  inversion H; subst. destruct (fst c =? p); auto. simpl. constructor; auto.
  intro Hin. apply in_map_iff in Hin. destruct Hin as (x & E & Hx).
  apply H2. rewrite <- E. apply in_map. eapply remove_in; eauto.
Qed.

Lemma total_nonneg : forall l, (forall b, In b l -> 0 <= snd b) -> 0 <= total l.
Proof.
  induction l; simpl; intros; [lia|].
  assert (0 <= snd a) by auto. assert (0 <= total l) by auto. lia.
Qed.

Lemma total_in : forall l b, (forall b, In b l -> 0 <= snd b) -> In b l -> snd b <= total l.
Proof.
  induction l; simpl; intros b H Hin; [tauto|].
  assert (0 <= total l) by (apply total_nonneg; auto).
  assert (0 <= snd a) by auto.
  destruct Hin as [->|Hin]; [lia|]. assert (snd b <= total l) by auto. lia.
Qed.

Lemma history_inv : forall lim h live, history lim h live ->
  NoDup (map fst live) /\ (forall b, In b live -> 0 <= snd b) /\
  count h = total live /\ limit h = lim /\ 0 <= total live < 2 ^ 32.
Proof.
  induction 1 as [g|h live r h' live' Hh IH Hl Hs Ht].
  - simpl. consts. split; [constructor|]. split; [tauto|]. lia.
  - destruct IH as (Hnd & Hpos & Hc & Hlim & Htot).
    assert (Hgen : forall p size, 0 <= size < 2 ^ 63 -> ~ In p (map fst live) ->
      h' = Heap (u32 (count h + size)) (limit h) (gen2Remaining h) ->
      live' = (p, size) :: live ->
      NoDup (map fst live') /\ (forall b, In b live' -> 0 <= snd b) /\
      count h' = total live' /\ limit h' = lim /\ 0 <= total live' < 2 ^ 32).
    { intros p size Hsz Hp -> ->. simpl in *. consts.
      repeat split; auto; try lia.
      - constructor; auto.
      - intros b [<-|Hb]; simpl; auto; lia.
      - rewrite u32_id by (consts; lia). lia. }
    destruct r as [size ans|size ans|p size]; simpl in Hs, Hl.
    + unfold tryAllocate, heapAllocate in Hs. destruct Hl as (Hsz & Hfr).
      destruct (negb true || _) eqn:Eg; [destruct ans as [p|]|]; inversion Hs; subst;
        try (repeat split; auto; lia).
      eapply Hgen; eauto.
    + unfold allocateOrDie, heapAllocate in Hs. destruct Hl as (Hsz & Hfr). simpl in Hs.
      destruct ans as [p|]; inversion Hs; subst. eapply Hgen; eauto.
    + unfold heapFree in Hs. destruct (size <=? count h) eqn:Ec; inversion Hs; subst.
      simpl. rewrite (total_remove live p size) by auto.
      assert (Hsz := total_in live (p, size) Hpos Hl). simpl in Hsz.
      assert (Hs0 := Hpos _ Hl). simpl in Hs0.
      repeat split; try lia.
      * apply remove_nodup; auto.
      * intros b Hb. apply Hpos. eapply remove_in; eauto.
      * rewrite u32_id by lia. lia.
Qed.

(** ** Pairs of blocks *)

Lemma fop_app : forall (R : Z * Z -> Z * Z -> Prop) a b,
  ForallOrdPairs R (a ++ b) <->
  ForallOrdPairs R a /\ ForallOrdPairs R b /\ (forall x y, In x a -> In y b -> R x y).
Proof.
  induction a as [|c a IH]; intros b; simpl.
  - split; [intros; repeat split; auto; [constructor|tauto]|tauto].
  - split.
    + intro H. inversion H; subst. apply IH in H3. destruct H3 as (Ha & Hb & Hab).
      rewrite Forall_app in H2. destruct H2 as [H2 H2'].
      repeat split; auto.
      * constructor; auto.
      * intros x y [<-|Hx] Hy; auto. rewrite Forall_forall in H2'. auto.
    + intros (Ha & Hb & Hab). inversion Ha; subst. constructor.
      * apply Forall_app. split; auto. apply Forall_forall. intros. apply Hab; auto.
      * apply IH. repeat split; auto.
Qed.

Lemma apart_sym : forall a b, apart a b -> apart b a.
Proof. unfold apart. intros. tauto. Qed.

Lemma fop_two : forall l x y, ForallOrdPairs apart l -> In x l -> In y l -> x <> y -> apart x y.
Proof.
  induction 1; simpl; intros Hx Hy Hn; [tauto|].
  rewrite Forall_forall in H.
  destruct Hx as [<-|Hx], Hy as [<-|Hy]; auto; [tauto|]. apply apart_sym; auto.
Qed.

Definition meets (t : thread) (ts : list thread) := In t ts.

Lemma threadBlocks_in : forall ts t b, In t ts -> In b (threadBlocks t) -> In b (flat_map threadBlocks ts).
Proof. intros. apply in_flat_map. eauto. Qed.

(** blocks of different threads *)
Lemma fop_threads : forall ts t1 t2 b1 b2, NoDup (map tid ts) ->
  ForallOrdPairs apart (flat_map threadBlocks ts) ->
  In t1 ts -> In t2 ts -> tid t1 <> tid t2 ->
  In b1 (threadBlocks t1) -> In b2 (threadBlocks t2) -> apart b1 b2.
Proof.
  induction ts as [|t ts IH]; intros t1 t2 b1 b2 Hnd Hf H1 H2 Hn Hb1 Hb2; [destruct H1|].
  change (flat_map threadBlocks (t :: ts)) with (threadBlocks t ++ flat_map threadBlocks ts) in Hf.
  apply fop_app in Hf. destruct Hf as (Ha & Hb & Hc). simpl in Hnd. inversion Hnd; subst.
  destruct H1 as [<-|H1], H2 as [<-|H2].
  - congruence.
  - apply Hc; auto. eapply threadBlocks_in; eauto.
  - apply apart_sym, Hc; auto. eapply threadBlocks_in; eauto.
  - exact (IH t1 t2 b1 b2 H4 Hb H1 H2 Hn Hb1 Hb2).
Qed.

Lemma fop_filter : forall (f : thread -> bool) ts,
  ForallOrdPairs apart (flat_map threadBlocks ts) ->
  ForallOrdPairs apart (flat_map threadBlocks (filter f ts)).
Proof.
  induction ts as [|t ts IH]; intros H; [constructor|].
  change (flat_map threadBlocks (t :: ts)) with (threadBlocks t ++ flat_map threadBlocks ts) in H.
  apply fop_app in H. destruct H as (Ha & Hb & Hc).
  cbn [filter]. destruct (f t); auto.
  change (flat_map threadBlocks (t :: filter f ts)) with (threadBlocks t ++ flat_map threadBlocks (filter f ts)).
  apply fop_app. repeat split; auto.
  intros x y Hx Hy. apply Hc; auto. apply in_flat_map in Hy. destruct Hy as (u & Hu & Hy).
  apply filter_In in Hu. eapply threadBlocks_in; [apply Hu|auto].
Qed.

(** no common point means apart *)
Lemma disjoint_apart : forall a b, 0 < snd a -> 0 < snd b ->
  (forall x, within x a -> within x b -> False) -> apart a b.
Proof.
  intros [a n] [b m] Hn Hm H. unfold apart, within in *. simpl in *.
  destruct (Z_le_gt_dec (a + n) b); [left; lia|].
  destruct (Z_le_gt_dec (b + m) a); [right; lia|].
  exfalso. destruct (Z_le_gt_dec a b).
  - apply (H b); lia.
  - apply (H a); lia.
Qed.

Lemma apart_within : forall a b x, apart a b -> within x a -> within x b -> False.
Proof. unfold apart, within. intros. lia. Qed.

(** ** Sizes *)

Lemma wordsFor_good : forall size, goodSize size -> wordsFor size * 8 = size /\ 0 < wordsFor size < 2 ^ 28.
Proof.
  intros size (Hs & Hm). unfold wordsFor, ceilingDivide. consts.
  rewrite u32_id by (consts; lia). change (2 ^ 28) with 268435456.
  assert (size = 8 * (size / 8)) by (apply Z_div_exact_2; lia).
  replace (size + 8 - 1) with (7 + (size / 8) * 8) by lia.
  rewrite Z.div_add by lia. change (7 / 8) with 0. lia.
Qed.

Lemma totalSize_good : forall size mask, goodSize size ->
  FixieSize + size <= totalSize (wordsFor size) mask < 2 ^ 32.
Proof.
  intros size mask Hg. destruct (wordsFor_good size Hg) as (Hw & Hr). destruct Hg as (Hs & _).
  change (2 ^ 28) with 268435456 in Hr.
  unfold totalSize, maskSize, ceilingDivide. rewrite Hw. consts.
  rewrite (u32_id size) by (consts; lia).
  assert (Hm : 0 <= u32 (wordsFor size + 64 - 1) / 64 < 4194306).
  { rewrite u32_id by (consts; lia). split; [apply Z.div_pos; lia|].
    apply Z.div_lt_upper_bound; lia. }
  destruct mask.
  - rewrite (u32_id (u32 (wordsFor size + 64 - 1) / 64 * 8)) by (consts; lia).
    rewrite u32_id by (consts; lia). lia.
  - rewrite u32_id by (consts; lia). lia.
Qed.

(** ** The invariant *)

(** bytes at which nothing has been stored and where no object is *)
Definition blank (m : machine) (x : Z) : Prop :=
  mdirty m x = false /\ forall o, In o (mobjs m) -> ~ within x (range o).

Definition pcGood (t : thread) : Prop :=
  match at_ t with
  | Run => True
  | AtLoop ty size mask | AtCollect ty size mask | AtCheck ty size mask =>
    goodSize size /\ (ty = MovableAllocation -> typeFor size = MovableAllocation)
  end.

Definition threadGood (pool : list Z) (t : thread) : Prop :=
  (heapPtr t = 0 -> exists ty size mask, at_ t = AtCollect ty size mask) /\
  (heapPtr t = 0 \/ heapPtr t = defaultHeap t \/ In (heapPtr t) pool) /\
  0 <= heapIndex t <= ThreadHeapSizeInWords /\
  0 <= backupHeapIndex t <= ThreadBackupHeapSizeInWords /\
  (useBackup t = false -> backupHeapIndex t = 0) /\
  pcGood t.

Definition objGood (m : machine) (o : obj) : Prop :=
  0 < o_size o /\
  if o_fixed o
  then exists b, In b (mfixies m) /\ o_addr o = fst b + FixieSize /\ FixieSize + o_size o <= snd b
  else exists b, In b (flat_map threadBlocks (mthreads m) ++ poolBlocks (mpool m)) /\ inside (range o) b.

Record inv (m : machine) : Prop := {
  i_blk : ForallOrdPairs apart (blocks m);
  i_pos : forall b, In b (blocks m) -> 0 < fst b /\ 0 < snd b;
  i_cnt : count (mh m) = u32 (total (blocks m));
  i_pool : Z.of_nat (length (mpool m)) <= ThreadHeapPoolSize;
  i_ids : NoDup (map tid (mthreads m));
  i_thr : forall t, In t (mthreads m) -> threadGood (mpool m) t;
  i_sep : forall t1 t2, In t1 (mthreads m) -> In t2 (mthreads m) -> tid t1 <> tid t2 ->
          heapPtr t1 <> 0 -> heapPtr t1 <> heapPtr t2;
  i_free : forall t x, In t (mthreads m) -> heapPtr t <> 0 ->
           heapPtr t + heapIndex t * 8 <= x < heapPtr t + ThreadHeapSizeInBytes -> blank m x;
  i_back : forall t x, In t (mthreads m) ->
           backupHeap t + backupHeapIndex t * 8 <= x < backupHeap t + ThreadBackupHeapSizeInBytes ->
           blank m x;
  i_obj : forall o, In o (mobjs m) -> objGood m o;
  i_apart : ForallOrdPairs apart (map range (mobjs m)) }.

Definition sameBlocks (t t' : thread) : Prop :=
  tid t' = tid t /\ defaultHeap t' = defaultHeap t /\ backupHeap t' = backupHeap t.

Lemma update_in : forall t' l u, In u (update t' l) -> u = t' \/ (In u l /\ tid u <> tid t').
Proof.
  unfold update. intros t' l u H. apply in_map_iff in H. destruct H as (v & E & Hv).
  destruct (Nat.eqb_spec (tid v) (tid t')); subst; auto.
Qed.

Lemma update_in_intro : forall t' l u, In u l -> tid u <> tid t' -> In u (update t' l).
Proof.
  intros. unfold update. apply in_map_iff. exists u. split; auto.
  destruct (Nat.eqb_spec (tid u) (tid t')); congruence.
Qed.

Lemma update_self : forall t t' l, In t l -> tid t' = tid t -> In t' (update t' l).
Proof.
  intros. unfold update. apply in_map_iff. exists t. split; auto.
  rewrite H0, Nat.eqb_refl. reflexivity.
Qed.

Lemma ids_inj : forall l (t u : thread), NoDup (map tid l) -> In t l -> In u l -> tid t = tid u -> t = u.
Proof.
  induction l as [|v l IH]; simpl; intros t u Hnd Ht Hu E; [tauto|]. inversion Hnd; subst.
  destruct Ht as [->|Ht], Hu as [->|Hu]; auto.
  - exfalso. apply H1. rewrite E. apply in_map; auto.
  - exfalso. apply H1. rewrite <- E. apply in_map; auto.
Qed.

Lemma update_map : forall (A : Type) (f : thread -> A) t t' l, NoDup (map tid l) -> In t l ->
  tid t' = tid t -> f t' = f t -> map f (update t' l) = map f l.
Proof.
  intros A f t t' l Hnd Hin Ht Hf. unfold update. rewrite map_map. apply map_ext_in.
  intros u Hu. destruct (Nat.eqb_spec (tid u) (tid t')); auto.
  rewrite (ids_inj l u t) by (auto; congruence). auto.
Qed.

Lemma update_blocks : forall t t' l, NoDup (map tid l) -> In t l -> sameBlocks t t' ->
  flat_map threadBlocks (update t' l) = flat_map threadBlocks l.
Proof.
  intros t t' l Hnd Hin (E1 & E2 & E3). rewrite !flat_map_concat_map. f_equal.
  eapply update_map; eauto. unfold threadBlocks. congruence.
Qed.

Lemma in_blocks_heap : forall m t, inv m -> In t (mthreads m) -> heapPtr t <> 0 ->
  In (heapPtr t, ThreadHeapSizeInBytes) (flat_map threadBlocks (mthreads m) ++ poolBlocks (mpool m)).
Proof.
  intros m t I Ht Hn. destruct (i_thr _ I t Ht) as (_ & [H|[H|H]] & _); [tauto| |].
  - apply in_or_app. left. eapply threadBlocks_in; eauto. unfold threadBlocks. simpl. left. congruence.
  - apply in_or_app. right. unfold poolBlocks. apply in_map_iff. eauto.
Qed.

Lemma in_blocks_back : forall ts pool t, In t ts ->
  In (backupHeap t, ThreadBackupHeapSizeInBytes) (flat_map threadBlocks ts ++ poolBlocks pool).
Proof.
  intros. apply in_or_app. left. eapply threadBlocks_in; eauto. simpl; auto.
Qed.

Lemma in_lift : forall m b, In b (flat_map threadBlocks (mthreads m) ++ poolBlocks (mpool m)) -> In b (blocks m).
Proof.
  intros m b H. unfold blocks, blocksOf. apply in_app_iff in H. rewrite !in_app_iff. tauto.
Qed.

(** Changing a thread in a way that keeps its buffers and stays within what it may use. *)
Lemma inv_thread : forall m t t', inv m -> In t (mthreads m) -> sameBlocks t t' ->
  threadGood (mpool m) t' ->
  (heapPtr t' = 0 \/ heapPtr t' = heapPtr t /\ heapIndex t <= heapIndex t') ->
  backupHeapIndex t <= backupHeapIndex t' ->
  inv (withThread m t').
Proof.
  intros m t t' I Ht Hs Hg Hh Hb.
  assert (Hids := i_ids _ I). pose proof Hs as (E1 & E2 & E3).
  assert (Hbl : blocks (withThread m t') = blocks m).
  { unfold blocks, blocksOf, withThread. simpl. erewrite update_blocks; eauto. }
  constructor; try (rewrite Hbl; apply I); simpl.
  - apply I.
  - erewrite update_map; eauto.
  - intros u Hu. apply update_in in Hu. destruct Hu as [->|[Hu _]]; auto. apply (i_thr _ I); auto.
  - intros t1 t2 H1 H2 Hn Hp. apply update_in in H1. apply update_in in H2.
    destruct H1 as [->|[H1 N1]], H2 as [->|[H2 N2]].
    + congruence.
    + destruct Hh as [Hh|[Hh _]]; [congruence|]. rewrite Hh in *. apply (i_sep _ I); auto. congruence.
    + destruct Hh as [Hh|[Hh _]]; [congruence|]. rewrite Hh in *. apply (i_sep _ I); auto. congruence.
    + apply (i_sep _ I); auto.
  - intros u x Hu Hp Hx. apply update_in in Hu. destruct Hu as [->|[Hu _]].
    + destruct Hh as [Hh|[Hh Hi]]; [congruence|]. rewrite Hh in *. apply (i_free _ I t); auto. lia.
    + apply (i_free _ I u); auto.
  - intros u x Hu Hx. apply update_in in Hu. destruct Hu as [->|[Hu _]].
    + apply (i_back _ I t); auto. rewrite E3 in Hx. lia.
    + apply (i_back _ I u); auto.
  - intros o Ho. generalize (i_obj _ I o Ho). unfold objGood. simpl.
    erewrite update_blocks; eauto.
  - apply I.
Qed.

(** Adding an object at a place that was blank and that no thread will use again. *)
Lemma inv_obj : forall m o, inv m -> objGood m o ->
  (forall x, within x (range o) -> forall o', In o' (mobjs m) -> ~ within x (range o')) ->
  (forall t x, In t (mthreads m) -> heapPtr t <> 0 ->
     heapPtr t + heapIndex t * 8 <= x < heapPtr t + ThreadHeapSizeInBytes -> ~ within x (range o)) ->
  (forall t x, In t (mthreads m) ->
     backupHeap t + backupHeapIndex t * 8 <= x < backupHeap t + ThreadBackupHeapSizeInBytes ->
     ~ within x (range o)) ->
  inv (withObj m o).
Proof.
  intros m o I Hg Hfresh Hfree Hback.
  constructor; try apply I; simpl.
  - intros t x Ht Hp Hx. destruct (i_free _ I t x Ht Hp Hx) as [Ha Hb].
    split; auto. simpl. intros o' [<-|Ho']; auto. eapply Hfree; eauto.
  - intros t x Ht Hx. destruct (i_back _ I t x Ht Hx) as [Ha Hb].
    split; auto. simpl. intros o' [<-|Ho']; auto. eapply Hback; eauto.
  - intros o' [<-|Ho']; auto. apply (i_obj _ I o' Ho').
  - constructor; [|apply I]. apply Forall_forall. intros r Hr. apply in_map_iff in Hr.
    destruct Hr as (o' & <- & Ho'). apply disjoint_apart.
    + simpl. apply Hg.
    + simpl. apply (i_obj _ I o' Ho').
    + intros x H1 H2. eapply Hfresh; eauto.
Qed.

Lemma small_good : forall m t size, inv m -> In t (mthreads m) -> goodSize size ->
  u32 (heapIndex t + wordsFor size) <= ThreadHeapSizeInWords ->
  u32 (heapIndex t + wordsFor size) = heapIndex t + wordsFor size /\
  wordsFor size * 8 = size /\ 0 < wordsFor size.
Proof.
  intros m t size I Ht Hg H. destruct (wordsFor_good size Hg) as (Hw & Hr).
  destruct (i_thr _ I t Ht) as (_ & _ & Hi & _).
  rewrite u32_id in *; [auto with zarith| |].
  all: change (2 ^ 28) with 268435456 in Hr; consts; lia.
Qed.

(** taking [size] bytes from the thread's buffer; [t'] may also change where the thread is *)
Lemma inv_small : forall m t size t', inv m -> In t (mthreads m) -> goodSize size ->
  u32 (heapIndex t + wordsFor size) <= ThreadHeapSizeInWords -> heapPtr t <> 0 ->
  sameBlocks t t' -> heapPtr t' = heapPtr t -> heapIndex t' = u32 (heapIndex t + wordsFor size) ->
  backupHeapIndex t' = backupHeapIndex t -> useBackup t' = useBackup t -> pcGood t' ->
  let o := Obj (tid t) (heapPtr t + heapIndex t * 8) size false in
  inv (withObj (withThread m t') o) /\
  (forall x, within x (range o) -> blank m x).
Proof.
  intros m t size t' I Ht Hg Hfit Hp Hs E1 E2 E3 E4 Hpc o.
  destruct (small_good m t size I Ht Hg Hfit) as (Eu & Hw & Hw0).
  rewrite Eu in *.
  pose proof (i_thr _ I t Ht) as (T1 & T2 & T3 & T4 & T5 & T6).
  pose proof Hs as (S1 & S2 & S3).
  assert (Hblank : forall x, within x (range o) -> blank m x).
  { intros x Hx. apply (i_free _ I t); auto. unfold within, o in Hx. simpl in Hx. consts. lia. }
  split; [|exact Hblank].
  assert (I' : inv (withThread m t')).
  { apply inv_thread with t; auto.
    - unfold threadGood. rewrite E1, S2, E2, E3, E4. repeat split; auto; try lia.
    - right. split; auto. lia.
    - lia. }
  assert (Hin : In (heapPtr t, ThreadHeapSizeInBytes) (flat_map threadBlocks (mthreads m) ++ poolBlocks (mpool m)))
    by (apply in_blocks_heap; auto).
  assert (Hrange : forall x, within x (range o) ->
    heapPtr t + heapIndex t * 8 <= x < heapPtr t + (heapIndex t + wordsFor size) * 8).
  { intros x Hx. unfold within, o in Hx. simpl in Hx. lia. }
  apply inv_obj; auto.
  - split; [simpl; destruct Hg; lia|]. simpl.
    exists (heapPtr t, ThreadHeapSizeInBytes). split.
    + erewrite update_blocks; eauto. apply (i_ids _ I).
    + unfold inside, o. simpl. consts. lia.
  - intros x Hx o' Ho'. apply (Hblank x Hx). exact Ho'.
  - intros u x Hu Hup Hux Hx. simpl in Hu. apply update_in in Hu. apply Hrange in Hx.
    destruct Hu as [->|[Hu Hn]].
    + rewrite E1, E2 in Hux. lia.
    + assert (Hd : heapPtr u <> heapPtr t) by (apply (i_sep _ I); auto; congruence).
      pose proof (in_blocks_heap m u I Hu Hup) as Hin2.
      pose proof (i_thr _ I u Hu) as (_ & _ & U3 & _).
      assert (Ha := fop_two (blocks m) _ _ (i_blk _ I) (in_lift _ _ Hin) (in_lift _ _ Hin2)).
      assert (Hne : (heapPtr t, ThreadHeapSizeInBytes) <> (heapPtr u, ThreadHeapSizeInBytes)) by congruence.
      specialize (Ha Hne). unfold apart in Ha. simpl in Ha. consts. lia.
  - intros u x Hu Hux Hx. simpl in Hu. apply update_in in Hu. apply Hrange in Hx.
    assert (Hbk : forall v, In v (mthreads m) -> 0 <= backupHeapIndex v ->
      backupHeap v + backupHeapIndex v * 8 <= x < backupHeap v + ThreadBackupHeapSizeInBytes -> False).
    { intros v Hv Hv0 Hvx.
      assert (Ha := fop_two (blocks m) _ _ (i_blk _ I) (in_lift _ _ Hin)
                      (in_lift _ _ (in_blocks_back _ (mpool m) _ Hv))).
      assert (Hne : (heapPtr t, ThreadHeapSizeInBytes) <> (backupHeap v, ThreadBackupHeapSizeInBytes)).
      { intro E. inversion E. }
      specialize (Ha Hne). unfold apart in Ha. simpl in Ha. consts. lia. }
    destruct Hu as [->|[Hu Hn]].
    + apply (Hbk t); auto; [lia|]. rewrite S3, E3 in Hux. exact Hux.
    + apply (Hbk u); auto. apply (i_thr _ I u Hu).
Qed.

(** taking from the backup heap *)
Lemma inv_backup : forall m t size, inv m -> In t (mthreads m) -> at_ t = Run -> goodSize size ->
  useBackup t = true ->
  u32 (backupHeapIndex t + wordsFor size) <= ThreadBackupHeapSizeInWords ->
  let t' := setBackup t (u32 (backupHeapIndex t + wordsFor size)) true in
  let o := Obj (tid t) (backupHeap t + backupHeapIndex t * 8) size false in
  inv (withObj (withThread m t') o) /\
  (forall x, within x (range o) -> blank m x).
Proof.
  intros m t size I Ht Hrun Hg Hub Hfit t' o.
  destruct (wordsFor_good size Hg) as (Hw & Hr). change (2 ^ 28) with 268435456 in Hr.
  pose proof (i_thr _ I t Ht) as (T1 & T2 & T3 & T4 & T5 & T6).
  assert (Eu : u32 (backupHeapIndex t + wordsFor size) = backupHeapIndex t + wordsFor size)
    by (apply u32_id; consts; lia).
  unfold t' in *. rewrite Eu in *. clear t'.
  set (t' := setBackup t (backupHeapIndex t + wordsFor size) true) in *.
  assert (Hs : sameBlocks t t') by (repeat split).
  assert (Hblank : forall x, within x (range o) -> blank m x).
  { intros x Hx. apply (i_back _ I t); auto. unfold within, o in Hx. simpl in Hx. consts. lia. }
  split; [|exact Hblank].
  assert (I' : inv (withThread m t')).
  { apply inv_thread with t; auto.
    - unfold threadGood. simpl. repeat split; auto; try lia.
    - right. simpl. split; [reflexivity|lia].
    - simpl. lia. }
  pose proof (in_blocks_back _ (mpool m) _ Ht) as Hin.
  assert (Hrange : forall x, within x (range o) ->
    backupHeap t + backupHeapIndex t * 8 <= x < backupHeap t + (backupHeapIndex t + wordsFor size) * 8).
  { intros x Hx. unfold within, o in Hx. simpl in Hx. lia. }
  apply inv_obj; auto.
  - split; [simpl; destruct Hg; lia|]. simpl.
    exists (backupHeap t, ThreadBackupHeapSizeInBytes). split.
    + erewrite update_blocks; eauto. apply (i_ids _ I).
    + unfold inside, o. simpl. consts. lia.
  - intros x Hx o' Ho'. apply (Hblank x Hx). exact Ho'.
  - intros u x Hu Hup Hux Hx. simpl in Hu. apply update_in in Hu. apply Hrange in Hx.
    assert (Hbk : forall v, In v (mthreads m) -> heapPtr v <> 0 -> 0 <= heapIndex v ->
      heapPtr v + heapIndex v * 8 <= x < heapPtr v + ThreadHeapSizeInBytes -> False).
    { intros v Hv Hvp Hv0 Hvx.
      assert (Ha := fop_two (blocks m) _ _ (i_blk _ I) (in_lift _ _ Hin)
                      (in_lift _ _ (in_blocks_heap _ _ I Hv Hvp))).
      assert (Hne : (backupHeap t, ThreadBackupHeapSizeInBytes) <> (heapPtr v, ThreadHeapSizeInBytes)).
      { intro E. inversion E. }
      specialize (Ha Hne). unfold apart in Ha. simpl in Ha. consts. lia. }
    destruct Hu as [->|[Hu Hn]].
    + apply (Hbk t); auto; lia.
    + apply (Hbk u); auto. apply (i_thr _ I u Hu).
  - intros u x Hu Hux Hx. simpl in Hu. apply update_in in Hu. apply Hrange in Hx.
    destruct Hu as [->|[Hu Hn]].
    + simpl in Hux. lia.
    + pose proof (i_thr _ I u Hu) as (_ & _ & _ & U4 & _).
      pose proof (i_blk _ I) as Hf. unfold blocks, blocksOf in Hf. apply fop_app in Hf. destruct Hf as (Hf & _).
      assert (Ha := fop_threads _ t u (backupHeap t, ThreadBackupHeapSizeInBytes)
                      (backupHeap u, ThreadBackupHeapSizeInBytes) (i_ids _ I) Hf Ht Hu).
      assert (apart (backupHeap t, ThreadBackupHeapSizeInBytes) (backupHeap u, ThreadBackupHeapSizeInBytes)).
      { apply Ha; simpl; auto; simpl in Hn; congruence. }
      unfold apart in *. simpl in *. consts. lia.
Qed.

(** Changing a thread, also to a buffer of its own. *)
Lemma inv_thread_gen : forall m t t', inv m -> In t (mthreads m) -> sameBlocks t t' ->
  threadGood (mpool m) t' ->
  (forall u, In u (mthreads m) -> tid u <> tid t -> heapPtr t' <> 0 -> heapPtr t' <> heapPtr u) ->
  (heapPtr t' <> 0 -> forall x,
     heapPtr t' + heapIndex t' * 8 <= x < heapPtr t' + ThreadHeapSizeInBytes -> blank m x) ->
  backupHeapIndex t <= backupHeapIndex t' ->
  inv (withThread m t').
Proof.
  intros m t t' I Ht Hs Hg Hsep Hfree Hb.
  assert (Hids := i_ids _ I). pose proof Hs as (E1 & E2 & E3).
  assert (Hbl : blocks (withThread m t') = blocks m).
  { unfold blocks, blocksOf, withThread. simpl. erewrite update_blocks; eauto. }
  constructor; try (rewrite Hbl; apply I); simpl.
  - apply I.
  - erewrite update_map; eauto.
  - intros u Hu. apply update_in in Hu. destruct Hu as [->|[Hu _]]; auto. apply (i_thr _ I); auto.
  - intros t1 t2 H1 H2 Hn Hp. apply update_in in H1. apply update_in in H2.
    destruct H1 as [->|[H1 N1]], H2 as [->|[H2 N2]].
    + congruence.
    + apply Hsep; auto. congruence.
    + intro E. apply (Hsep t1); auto; congruence.
    + apply (i_sep _ I); auto.
  - intros u x Hu Hp Hx. apply update_in in Hu. destruct Hu as [->|[Hu _]].
    + apply Hfree; auto.
    + apply (i_free _ I u); auto.
  - intros u x Hu Hx. apply update_in in Hu. destruct Hu as [->|[Hu _]].
    + apply (i_back _ I t); auto. rewrite E3 in Hx. lia.
    + apply (i_back _ I u); auto.
  - intros o Ho. generalize (i_obj _ I o Ho). unfold objGood. simpl.
    erewrite update_blocks; eauto.
  - apply I.
Qed.

Lemma obj_block : forall m o, inv m -> In o (mobjs m) -> exists b, In b (blocks m) /\ inside (range o) b.
Proof.
  intros m o I Ho. destruct (i_obj _ I o Ho) as (Hp & Hg). destruct (o_fixed o).
  - destruct Hg as (b & Hb & E & Hle). exists b. split.
    + unfold blocks, blocksOf. rewrite !in_app_iff. tauto.
    + unfold inside, range. simpl. consts. lia.
  - destruct Hg as (b & Hb & Hi). exists b. split; auto. apply in_lift; auto.
Qed.

Lemma alloc_ok : forall h size p q h', allocateOrDie h size q = Ok (p, h') ->
  q = Some p /\ h' = Heap (u32 (count h + size)) (limit h) (gen2Remaining h).
Proof.
  unfold allocateOrDie, heapAllocate. intros h size p q h' H. simpl in H.
  destruct q; inversion H; auto.
Qed.

(** adding a fresh block [b] without touching what threads use *)
Lemma fop_add_pool : forall ts pool fx ot p,
  ForallOrdPairs apart (blocksOf ts pool fx ot) ->
  (forall b, In b (blocksOf ts pool fx ot) -> apart (p, ThreadHeapSizeInBytes) b) ->
  ForallOrdPairs apart (blocksOf ts (pool ++ [p]) fx ot).
Proof.
  unfold blocksOf, poolBlocks. intros ts pool fx ot p H Hf.
  rewrite map_app, <- app_assoc. simpl.
  rewrite !fop_app in *. destruct H as (A & (B & C & D) & E).
  assert (Hf1 : forall b, In b (flat_map threadBlocks ts) -> apart (p, ThreadHeapSizeInBytes) b).
  { intros. apply Hf. rewrite !in_app_iff. auto. }
  assert (Hf2 : forall b, In b (map (fun a => (a, ThreadHeapSizeInBytes)) pool) -> apart (p, ThreadHeapSizeInBytes) b).
  { intros. apply Hf. rewrite !in_app_iff. auto. }
  assert (Hf3 : forall b, In b (fx ++ ot) -> apart (p, ThreadHeapSizeInBytes) b).
  { intros. apply Hf. rewrite in_app_iff. right. rewrite in_app_iff. auto. }
  repeat split; auto.
  - constructor; [|apply fop_app; exact C]. apply Forall_forall. auto.
  - intros x y Hx [<-|Hy]; auto. apply apart_sym. auto.
  - intros x y Hx Hy. rewrite in_app_iff in Hy. destruct Hy as [Hy|[<-|Hy]].
    + apply E; auto. rewrite in_app_iff; auto.
    + apply apart_sym; auto.
    + apply E; auto. rewrite in_app_iff; auto.
Qed.

Lemma fop_insert : forall a x c, ForallOrdPairs apart (a ++ c) ->
  (forall b, In b (a ++ c) -> apart x b) -> ForallOrdPairs apart (a ++ x :: c).
Proof.
  intros a x c H Hx. rewrite fop_app in *. destruct H as (A & B & C). repeat split; auto.
  - constructor; auto. apply Forall_forall. intros b Hb. apply Hx. rewrite in_app_iff. auto.
  - intros y z Hy [<-|Hz]; auto. apply apart_sym, Hx. rewrite in_app_iff. auto.
Qed.

Lemma fop_add_fixie : forall ts pool fx ot x,
  ForallOrdPairs apart (blocksOf ts pool fx ot) ->
  (forall b, In b (blocksOf ts pool fx ot) -> apart x b) ->
  ForallOrdPairs apart (blocksOf ts pool (x :: fx) ot).
Proof.
  unfold blocksOf. intros ts pool fx ot x. rewrite !app_assoc. rewrite <- !app_assoc.
  rewrite !(app_assoc (flat_map threadBlocks ts)). cbn [app]. apply fop_insert.
Qed.

Lemma fop_add_other : forall ts pool fx ot x,
  ForallOrdPairs apart (blocksOf ts pool fx ot) ->
  (forall b, In b (blocksOf ts pool fx ot) -> apart x b) ->
  ForallOrdPairs apart (blocksOf ts pool fx (x :: ot)).
Proof.
  unfold blocksOf. intros ts pool fx ot x.
  rewrite !(app_assoc (flat_map threadBlocks ts)), !(app_assoc _ fx). apply fop_insert.
Qed.

Lemma zero_out : forall p n d x, ~ within x (p, n) -> zero p n d x = d x.
Proof.
  intros. unfold zero, within in *. simpl in *.
  destruct (Z.leb_spec p x), (Z.ltb_spec x (p + n)); simpl; auto; lia.
Qed.
Lemma zero_in : forall p n d x, within x (p, n) -> zero p n d x = false.
Proof.
  intros. unfold zero, within in *. simpl in *.
  destruct (Z.leb_spec p x), (Z.ltb_spec x (p + n)); simpl; auto; lia.
Qed.
Lemma soil_out : forall p n d x, ~ within x (p, n) -> soil p n d x = d x.
Proof.
  intros. unfold soil, within in *. simpl in *.
  destruct (Z.leb_spec p x), (Z.ltb_spec x (p + n)); simpl; auto; lia.
Qed.
Lemma zero_le : forall p n d x, zero p n d x = true -> d x = true.
Proof. unfold zero. intros p n d x H. destruct ((p <=? x) && (x <? p + n)); congruence. Qed.

Lemma inv_refill : forall m t ty size mask ans m1 t1, inv m -> In t (mthreads m) ->
  at_ t = AtLoop ty size mask -> fresh (blocks m) ThreadHeapSizeInBytes ans ->
  refill m t ty size mask ans = (m1, t1) -> inv (withThread m1 t1).
Proof.
  intros m t ty size mask ans m1 t1 I Ht Hat Hfr H.
  pose proof (i_thr _ I t Ht) as (T1 & T2 & T3 & T4 & T5 & T6).
  assert (Hpg : goodSize size /\ (ty = MovableAllocation -> typeFor size = MovableAllocation)).
  { unfold pcGood in T6. rewrite Hat in T6. exact T6. }
  assert (Hnz : heapPtr t <> 0). { intro E. destruct (T1 E) as (a & b & c & E'). congruence. }
  (* the thread keeps its heap, or loses it *)
  assert (Hkeep : forall t0 n, t0 = t \/ t0 = setHeap t 0 (heapIndex t) (heapOffset t) ->
    (n = AtCollect ty size mask \/ (n = AtCheck ty size mask /\ heapPtr t0 <> 0)) ->
    inv (withThread m (setAt t0 n))).
  { intros t0 n [->| ->] Hn; apply inv_thread with t; auto; try (repeat split; fail);
      try (simpl; lia); try (simpl; auto; fail).
    - split; [simpl; intro; congruence|]. split; [exact T2|]. split; [exact T3|].
      split; [exact T4|]. split; [exact T5|].
      unfold pcGood. simpl. destruct Hn as [->|[-> _]]; exact Hpg.
    - destruct Hn as [->|[-> Hn]]; [|simpl in Hn; congruence].
      split; [simpl; eauto|]. split; [simpl; auto|]. split; [exact T3|].
      split; [exact T4|]. split; [exact T5|]. exact Hpg. }
  unfold refill in H.
  assert (Hsimple : forall t0, t0 = t \/ t0 = setHeap t 0 (heapIndex t) (heapOffset t) ->
    (m, setAt t0 (if (heapPtr t0 =? 0) || limitExceeded (mh m) (pendingFor size mask)
                  then AtCollect ty size mask else AtCheck ty size mask)) = (m1, t1) ->
    inv (withThread m1 t1)).
  { intros t0 Ht0 E. inversion E; subst m1 t1. clear H E. apply Hkeep; auto.
    destruct (Z.eqb_spec (heapPtr t0) 0); simpl; [left; reflexivity|].
    destruct (limitExceeded (mh m) (pendingFor size mask)); [left; reflexivity|right; auto]. }
  destruct ty.
  2:{ destruct (FixedFootprintThresholdInBytes <? u32 (mfixed m + size)); (eapply Hsimple; [|exact H]; auto). }
  2:{ (eapply Hsimple; [|exact H]; auto). }
  destruct (ThreadHeapSizeInWords <? u32 (heapIndex t + wordsFor size)) eqn:Efit.
  2:{ (eapply Hsimple; [|exact H]; auto). }
  destruct (negb (limitExceeded (mh m) 0) && (Z.of_nat (length (mpool m)) <? ThreadHeapPoolSize)) eqn:Eg.
  2:{ (eapply Hsimple; [|exact H]; auto). }
  apply andb_prop in Eg. destruct Eg as [_ Epool]. apply Z.ltb_lt in Epool.
  unfold tryAllocate, heapAllocate in H. cbn [negb orb] in H.
  assert (Hm : Machine (mh m) (mthreads m) (mpool m) (mfixed m) (mfixies m) (mothers m) (mdirty m) (mobjs m) = m)
    by (destruct m; reflexivity).
  destruct ((ThreadHeapSizeInBytes + count (mh m)) mod 2 ^ 64 <? limit (mh m)) eqn:El;
    [destruct ans as [p|]|]; try (cbn iota beta zeta in H; rewrite Hm in H; (eapply Hsimple; [|exact H]; auto); fail).
  inversion H as [[E1 E2]]. clear H Hsimple Hkeep Hm. subst m1. clear E2.
  destruct (Hfr p eq_refl) as (Hp0 & Hfresh).
  set (m2 := Machine _ _ _ _ _ _ _ _) in *.
  assert (Hnot : forall b x, In b (blocks m) -> within x b -> ~ within x (p, ThreadHeapSizeInBytes)).
  { intros b x Hb Hx Hx'. eapply apart_within; [apply (Hfresh b Hb)|exact Hx'|exact Hx]. }
  assert (Hnobj : forall o x, In o (mobjs m) -> within x (p, ThreadHeapSizeInBytes) -> ~ within x (range o)).
  { intros o x Ho Hx Hox. destruct (obj_block m o I Ho) as (b & Hb & Hi).
    apply (Hnot b x Hb); auto. unfold inside, within in *. lia. }
  assert (Hother : forall u, In u (mthreads m) -> heapPtr u <> 0 -> p <> heapPtr u).
  { intros u Hu Hup E. pose proof (in_lift _ _ (in_blocks_heap _ _ I Hu Hup)) as Hin.
    apply (Hnot _ p Hin); unfold within; simpl; rewrite ?E; consts; lia. }
  assert (I2 : inv m2).
  { constructor; unfold m2; simpl.
    - apply fop_add_pool; [apply I|exact Hfresh].
    - intros b Hb. unfold blocks, blocksOf, poolBlocks in Hb. simpl in Hb.
      rewrite map_app, !in_app_iff in Hb. simpl in Hb.
      destruct Hb as [Hb|[[Hb|[<-|[]]]|Hb]].
      + apply (i_pos _ I). unfold blocks, blocksOf. rewrite !in_app_iff. auto.
      + apply (i_pos _ I). unfold blocks, blocksOf. rewrite !in_app_iff. auto.
      + simpl. consts. lia.
      + apply (i_pos _ I). unfold blocks, blocksOf. rewrite !in_app_iff. auto.
    - rewrite (i_cnt _ I), u32_add. f_equal.
      unfold blocks, blocksOf, poolBlocks. simpl. rewrite map_app, !total_app. simpl. lia.
    - rewrite app_length. simpl. consts. unfold ThreadHeapPoolSize in *. lia.
    - apply I.
    - intros u Hu. pose proof (i_thr _ I u Hu) as (U1 & U2 & U3). unfold threadGood.
      split; [exact U1|]. split; [|exact U3]. rewrite in_app_iff. tauto.
    - intros u v Hu Hv. apply (i_sep _ I); auto.
    - intros u x Hu Hup Hx. destruct (i_free _ I u x Hu Hup Hx) as [Ha Hb]. split; auto.
      simpl. destruct (zero p ThreadHeapSizeInBytes (mdirty m) x) eqn:E; auto.
      apply zero_le in E. congruence.
    - intros u x Hu Hx. destruct (i_back _ I u x Hu Hx) as [Ha Hb]. split; auto.
      simpl. destruct (zero p ThreadHeapSizeInBytes (mdirty m) x) eqn:E; auto.
      apply zero_le in E. congruence.
    - intros o Ho. destruct (i_obj _ I o Ho) as (Hp & Hg). split; auto.
      destruct (o_fixed o); auto. destruct Hg as (b & Hb & Hi). exists b. split; auto. simpl.
      unfold poolBlocks. rewrite map_app, !in_app_iff in *. tauto.
    - apply I. }
  assert (Hth : forall n, (n = AtCollect MovableAllocation size mask \/ n = AtCheck MovableAllocation size mask) ->
    inv (withThread m2 (setAt (setHeap t p 0 (u32 (heapOffset t + heapIndex t))) n))).
  { intros n Hn. apply inv_thread_gen with t; auto.
    - repeat split.
    - split; [simpl; lia|]. split; [right; right; apply in_or_app; simpl; auto|].
      split; [simpl; consts; lia|]. split; [exact T4|]. split; [exact T5|].
      unfold pcGood. simpl. destruct Hn as [->| ->]; exact Hpg.
    - unfold m2. simpl. intros u Hu Hn' Hp. destruct (Z.eq_dec (heapPtr u) 0); [lia|]. apply Hother; auto.
    - simpl. intros _ x Hx.
      assert (Hw : within x (p, ThreadHeapSizeInBytes)) by (unfold within; simpl; lia).
      split; unfold m2; simpl; [apply zero_in; auto|]. intros o Ho. apply Hnobj; auto.
    - simpl. lia. }
  apply Hth. destruct (_ || _); auto.
Qed.

Lemma inv_setAt : forall m t n, inv m -> In t (mthreads m) -> heapPtr t <> 0 ->
  pcGood (setAt t n) -> inv (withThread m (setAt t n)).
Proof.
  intros m t n I Ht Hp Hg. pose proof (i_thr _ I t Ht) as (T1 & T2 & T3 & T4 & T5 & T6).
  apply inv_thread with t; auto.
  - repeat split.
  - split; [simpl; intro; congruence|]. split; [exact T2|]. split; [exact T3|].
    split; [exact T4|]. split; [exact T5|]. exact Hg.
  - right. simpl. split; auto. lia.
  - simpl. lia.
Qed.

Lemma inv_fixed : forall m t ty size mask ans a m1, inv m -> In t (mthreads m) ->
  at_ t = AtCheck ty size mask ->
  fresh (blocks m) (totalSize (wordsFor size) mask) ans ->
  allocateFixed m ty size mask ans = Ok (a, m1) ->
  let o := Obj (tid t) a size true in
  inv (withObj (withThread m1 (setAt t Run)) o) /\
  (forall x, within x (range o) -> forall o', In o' (mobjs m) -> ~ within x (range o')) /\
  (forall x, a + 8 <= x < a + size -> mdirty m1 x = false).
Proof.
  intros m t ty size mask ans a m1 I Ht Hat Hfr H o.
  pose proof (i_thr _ I t Ht) as (T1 & T2 & T3 & T4 & T5 & T6).
  assert (Hg : goodSize size). { unfold pcGood in T6. rewrite Hat in T6. apply T6. }
  assert (Hnz : heapPtr t <> 0). { intro E. destruct (T1 E) as (a' & b & c & E'). congruence. }
  pose proof (totalSize_good size mask Hg) as Htot.
  unfold allocateFixed in H. destruct (limitExceeded (mh m) 0); [discriminate|].
  destruct (allocateOrDie (mh m) (totalSize (wordsFor size) mask) ans) as [[p h']| | |] eqn:Ea; try discriminate.
  cbn [bind] in H. destruct (limitExceeded h' 0); [discriminate|].
  apply alloc_ok in Ea. destruct Ea as [-> Eh].
  set (total_ := totalSize (wordsFor size) mask) in *.
  destruct (Z.ltb_spec total_ (FixieSize + size)) as [|Hle]; [discriminate|].
  inversion H as [[Ea E1]]. clear H. subst a.
  destruct (Hfr p eq_refl) as (Hp0 & Hfresh).
  set (d := soil _ _ _) in *. set (m2 := Machine _ _ _ _ _ _ _ _) in *.
  assert (Hs0 : 0 < size < 2 ^ 31) by apply Hg. assert (Hs8 : size mod 8 = 0) by apply Hg.
  assert (Hs : 8 <= size).
  { assert (size = 8 * (size / 8)) by (apply Z_div_exact_2; lia). lia. }
  assert (Hd : forall x, ~ within x (p, total_) -> d x = mdirty m x).
  { intros x Hx. unfold d, within in *. simpl in Hx. consts.
    rewrite soil_out, zero_out, soil_out; auto; unfold within; simpl; lia. }
  assert (Hnot : forall b x, In b (blocks m) -> within x b -> ~ within x (p, total_)).
  { intros b x Hb Hx Hx'. eapply apart_within; [apply (Hfresh b Hb)|exact Hx'|exact Hx]. }
  assert (Hnobj : forall o x, In o (mobjs m) -> within x (p, total_) -> ~ within x (range o)).
  { intros o' x Ho Hx Hox. destruct (obj_block m o' I Ho) as (b & Hb & Hi).
    apply (Hnot b x Hb); auto. unfold inside, within in *. lia. }
  assert (Hro : forall x, within x (range o) -> within x (p, total_)).
  { intros x Hx. unfold within, o in *. simpl in *. consts. lia. }
  assert (Hfree : forall u x, In u (mthreads m) -> heapPtr u <> 0 ->
     heapPtr u + heapIndex u * 8 <= x < heapPtr u + ThreadHeapSizeInBytes -> ~ within x (p, total_)).
  { intros u x Hu Hup Hx. apply (Hnot _ x (in_lift _ _ (in_blocks_heap _ _ I Hu Hup))).
    pose proof (i_thr _ I u Hu) as (_ & _ & U3 & _). unfold within. simpl. lia. }
  assert (Hback : forall u x, In u (mthreads m) ->
     backupHeap u + backupHeapIndex u * 8 <= x < backupHeap u + ThreadBackupHeapSizeInBytes -> ~ within x (p, total_)).
  { intros u x Hu Hx. apply (Hnot _ x (in_lift _ _ (in_blocks_back _ (mpool m) _ Hu))).
    pose proof (i_thr _ I u Hu) as (_ & _ & _ & U4 & _). unfold within. simpl. lia. }
  assert (I2 : inv m2).
  { constructor; unfold m2; simpl.
    - unfold blocks. simpl. apply fop_add_fixie; [apply I|exact Hfresh].
    - intros b Hb. unfold blocks, blocksOf in Hb. simpl in Hb.
      rewrite !in_app_iff in Hb. simpl in Hb. rewrite in_app_iff in Hb.
      assert (b = (p, total_) \/ In b (blocks m)) as [->|Hb'].
      { unfold blocks, blocksOf. rewrite !in_app_iff.
        destruct Hb as [?|[?|[?|[?|?]]]]; auto. }
      + simpl. consts. lia.
      + apply (i_pos _ I); auto.
    - rewrite Eh. simpl. rewrite (i_cnt _ I), u32_add. f_equal.
      unfold blocks, blocksOf. simpl. rewrite !total_app. simpl. rewrite total_app. lia.
    - apply I.
    - apply I.
    - apply I.
    - apply I.
    - intros u x Hu Hup Hx. destruct (i_free _ I u x Hu Hup Hx) as [Ha Hb]. split; auto.
      simpl. rewrite Hd; auto. eapply Hfree; eauto.
    - intros u x Hu Hx. destruct (i_back _ I u x Hu Hx) as [Ha Hb]. split; auto.
      simpl. rewrite Hd; auto. eapply Hback; eauto.
    - intros o' Ho. destruct (i_obj _ I o' Ho) as (Hp & Hgd). split; auto.
      destruct (o_fixed o'); auto. destruct Hgd as (b & Hb & Hi). exists b. simpl. auto.
    - apply I. }
  assert (I3 : inv (withThread m2 (setAt t Run))) by (apply inv_setAt; auto; exact Logic.I).
  split; [|split].
  - apply inv_obj; auto.
    + split; [simpl; lia|]. simpl. exists (p, total_). simpl. auto.
    + simpl. intros u x Hu Hup Hx Hin. apply Hro in Hin. apply update_in in Hu.
      destruct Hu as [->|[Hu _]].
      * exact (Hfree t x Ht Hup Hx Hin).
      * eapply Hfree; eauto.
    + simpl. intros u x Hu Hx Hin. apply Hro in Hin. apply update_in in Hu.
      destruct Hu as [->|[Hu _]].
      * exact (Hback t x Ht Hx Hin).
      * eapply Hback; eauto.
  - intros x Hx o' Ho'. apply Hnobj; auto.
  - intros x Hx. unfold m2, d. simpl. rewrite soil_out, zero_in; auto; unfold within; simpl; lia.
Qed.

(** ** Collections *)

Definition post1 (h : heap) (t : thread) : thread := fst (postCollect h t (fun _ => false)).

Lemma post_fst : forall h t d, fst (postCollect h t d) = post1 h t.
Proof. intros. unfold post1, postCollect. destruct (useBackup t); reflexivity. Qed.

Lemma postAll_fst : forall h l d, fst (postCollectAll h l d) = map (post1 h) l.
Proof.
  induction l as [|t l IH]; intros d; simpl; auto.
  destruct (postCollect h t d) as [t' d1] eqn:E.
  specialize (IH d1). destruct (postCollectAll h l d1) as [r d2]. simpl in *.
  rewrite <- (post_fst h t d), E. simpl. congruence.
Qed.

Lemma post_le : forall h t d x, snd (postCollect h t d) x = true -> d x = true.
Proof.
  intros h t d x. unfold postCollect.
  destruct (heapPtr t =? defaultHeap t), (useBackup t); simpl; intro H;
    repeat (apply zero_le in H); auto.
Qed.

Lemma postAll_le : forall h l d x, snd (postCollectAll h l d) x = true -> d x = true.
Proof.
  induction l as [|t l IH]; intros d x; simpl; auto.
  destruct (postCollect h t d) as [t' d1] eqn:E.
  specialize (IH d1 x). destruct (postCollectAll h l d1) as [r d2]. simpl in *.
  intro H. apply (post_le h t). rewrite E. auto.
Qed.

(** what postCollect clears for a thread *)
Lemma post_default : forall h t d x, within x (defaultHeap t, ThreadHeapSizeInBytes) ->
  (heapPtr t = defaultHeap t -> defaultHeap t + heapIndex t * 8 <= x -> d x = false) ->
  snd (postCollect h t d) x = false.
Proof.
  intros h t d x Hx Hd. destruct (snd (postCollect h t d) x) eqn:E; auto.
  pose proof (post_le _ _ _ _ E) as Ed. unfold postCollect in E. unfold within in Hx. simpl in Hx.
  destruct (Z.eqb_spec (heapPtr t) (defaultHeap t)) as [Eq|Ne].
  - assert (Ez : zero (defaultHeap t) (heapIndex t * 8) d x = true).
    { destruct (useBackup t); simpl in E; [eapply zero_le; eauto|auto]. }
    destruct (Z_lt_ge_dec x (defaultHeap t + heapIndex t * 8)).
    + rewrite zero_in in Ez; [discriminate|]. unfold within. simpl. lia.
    + rewrite Hd in Ed; auto. lia.
  - assert (Ez : zero (defaultHeap t) ThreadHeapSizeInBytes d x = true).
    { destruct (useBackup t); simpl in E; [eapply zero_le; eauto|auto]. }
    rewrite zero_in in Ez; [discriminate|]. unfold within. simpl. lia.
Qed.

Lemma post_backup : forall h t d x, within x (backupHeap t, ThreadBackupHeapSizeInBytes) ->
  (useBackup t = false -> d x = false) -> snd (postCollect h t d) x = false.
Proof.
  intros h t d x Hx Hd. destruct (snd (postCollect h t d) x) eqn:E; auto.
  pose proof (post_le _ _ _ _ E) as Ed. unfold postCollect in E.
  destruct (useBackup t); [|rewrite Hd in Ed; auto]. simpl in E.
  rewrite zero_in in E; [discriminate|]. exact Hx.
Qed.

Lemma postAll_at : forall h l d x (P : thread -> Prop) t,
  In t l -> (forall d', (d' x = true -> d x = true) -> snd (postCollect h t d') x = false) ->
  snd (postCollectAll h l d) x = false.
Proof.
  induction l as [|u l IH]; intros d x P t Hin Ht; [destruct Hin|].
  simpl. destruct (postCollect h u d) as [u' d1] eqn:E.
  assert (Hd1 : d1 x = true -> d x = true).
  { intro H. apply (post_le h u). rewrite E. auto. }
  destruct (postCollectAll h l d1) as [r d2] eqn:E2.
  assert (Hd2 : d2 x = true -> d1 x = true).
  { intro H. apply (postAll_le h l). rewrite E2. auto. }
  simpl. destruct Hin as [->|Hin].
  - specialize (Ht d (fun H => H)). rewrite E in Ht. simpl in Ht.
    destruct (d2 x); auto. specialize (Hd2 eq_refl). congruence.
  - change d2 with (snd (r, d2)). rewrite <- E2. apply (IH d1 x P t); [exact Hin|].
    intros d' Hd'. apply Ht. auto.
Qed.

Lemma freeAll_ok : forall n h s h', freeAll h n s = Ok h' ->
  (exists k, count h = u32 k) ->
  count h' = u32 (count h - Z.of_nat n * s) /\ limit h' = limit h /\ gen2Remaining h' = gen2Remaining h.
Proof.
  induction n as [|n IH]; intros h s h' H Hk.
  - simpl in H. inversion H; subst. destruct Hk as (k & Hk). split; [|auto].
    change (Z.of_nat 0) with 0. rewrite Z.mul_0_l, Z.sub_0_r, Hk. symmetry. apply u32_id. apply u32_range.
  - cbn [freeAll] in H. unfold heapFree in H at 1. destruct (s <=? count h); [|discriminate].
    cbn [bind] in H. apply IH in H; [|simpl; eauto]. simpl in H. destruct H as (E & E2 & E3).
    repeat split; auto. rewrite E, u32_sub. f_equal. lia.
Qed.

Lemma total_threads : forall ts, total (flat_map threadBlocks ts)
  = Z.of_nat (length ts) * (ThreadHeapSizeInBytes + ThreadBackupHeapSizeInBytes).
Proof.
  induction ts as [|t ts IH]; [reflexivity|].
  change (flat_map threadBlocks (t :: ts)) with (threadBlocks t ++ flat_map threadBlocks ts).
  rewrite total_app, IH. unfold threadBlocks. simpl total. cbn [length]. lia.
Qed.

Lemma total_pool : forall p, total (poolBlocks p) = Z.of_nat (length p) * ThreadHeapSizeInBytes.
Proof. induction p as [|a p IH]; [reflexivity|]. simpl total. rewrite IH. cbn [length]. lia. Qed.

Lemma filter_two : forall (A : Type) (f : A -> bool) l,
  (length (filter f l) + length (filter (fun x => negb (f x)) l) = length l)%nat.
Proof. induction l; simpl; auto. destruct (f a); simpl; lia. Qed.

Lemma post_same : forall h t, sameBlocks t (post1 h t) /\ at_ (post1 h t) = at_ t.
Proof. intros. unfold post1, postCollect, sameBlocks. destruct (useBackup t); simpl; auto. Qed.

Lemma post_blocks : forall h ts, flat_map threadBlocks (map (post1 h) ts) = flat_map threadBlocks ts.
Proof.
  intros. rewrite !flat_map_concat_map, map_map. f_equal. apply map_ext. intro t.
  destruct (post_same h t) as ((_ & E1 & E2) & _). unfold threadBlocks. congruence.
Qed.

Lemma post_tids : forall h ts, map tid (map (post1 h) ts) = map tid ts.
Proof.
  intros. rewrite map_map. apply map_ext. intro t. apply (post_same h t).
Qed.

Lemma post_fields : forall h t, heapPtr (post1 h t) = defaultHeap t /\
  (heapIndex (post1 h t) = 0 \/ heapIndex (post1 h t) = ThreadHeapSizeInWords) /\
  useBackup (post1 h t) = false /\ (useBackup t = true -> backupHeapIndex (post1 h t) = 0) /\
  (useBackup t = false -> backupHeapIndex (post1 h t) = backupHeapIndex t).
Proof.
  intros. unfold post1, postCollect. destruct (useBackup t) eqn:E; simpl; rewrite ?E;
    destruct (limitExceeded h 0); repeat split; auto; try discriminate.
Qed.

Lemma nodup_filter : forall (f : thread -> bool) l, NoDup (map tid l) -> NoDup (map tid (filter f l)).
Proof.
  induction l as [|t l IH]; simpl; intro H; auto. inversion H; subst.
  destruct (f t); auto. simpl. constructor; auto. intro Hin. apply H2.
  apply in_map_iff in Hin. destruct Hin as (u & E & Hu). apply filter_In in Hu.
  rewrite <- E. apply in_map. tauto.
Qed.

Lemma fop_map_filter : forall (f : obj -> bool) l, ForallOrdPairs apart (map range l) ->
  ForallOrdPairs apart (map range (filter f l)).
Proof.
  induction l as [|o l IH]; simpl; intro H; [constructor|]. inversion H; subst.
  destruct (f o); auto. simpl. constructor; auto. rewrite Forall_forall in *.
  intros r Hr. apply H2. apply in_map_iff in Hr. destruct Hr as (o' & <- & Ho').
  apply in_map. apply filter_In in Ho'. tauto.
Qed.

Lemma inv_collect : forall m h1 fixies others d1 gone m1, inv m ->
  collected m h1 fixies others d1 -> doCollect m h1 fixies others d1 gone = Ok m1 ->
  inv m1 /\ (forall t, In t (mthreads m1) -> heapPtr t <> 0) /\
  (forall t, In t (mthreads m1) -> exists u, In u (mthreads m) /\ tid t = tid u /\ at_ t = at_ u).
Proof.
  intros m h1 fixies others d1 gone m1 I (C1 & C2 & C3 & C4 & C5 & C6) H.
  unfold doCollect in H.
  destruct (postCollectAll h1 (mthreads m) d1) as [ts d2] eqn:Ep.
  assert (Ets : ts = map (post1 h1) (mthreads m)).
  { rewrite <- (postAll_fst h1 (mthreads m) d1), Ep. reflexivity. }
  assert (Ed2 : d2 = snd (postCollectAll h1 (mthreads m) d1)) by (rewrite Ep; reflexivity).
  destruct (freeAll h1 (length (filter gone ts)) ThreadHeapSizeInBytes) as [h2| | |] eqn:F1; try discriminate.
  cbn [bind] in H.
  destruct (freeAll h2 (length (filter gone ts)) ThreadSize) as [h3| | |] eqn:F2; try discriminate.
  cbn [bind] in H.
  destruct (freeAll h3 (length (mpool m)) ThreadHeapSizeInBytes) as [h4| | |] eqn:F3; try discriminate.
  cbn [bind] in H.
  inversion H as [E]. clear H.
  apply freeAll_ok in F1; [|eauto]. destruct F1 as (F1c & F1l & _).
  apply freeAll_ok in F2; [|eauto]. destruct F2 as (F2c & F2l & _).
  apply freeAll_ok in F3; [|eauto]. destruct F3 as (F3c & F3l & _).
  set (live := filter (fun t => negb (gone t)) ts) in *.
  assert (Hlive : forall t, In t live -> exists u, In u (mthreads m) /\ t = post1 h1 u).
  { intros t Ht. unfold live in Ht. apply filter_In in Ht. destruct Ht as [Ht _].
    rewrite Ets in Ht. apply in_map_iff in Ht. destruct Ht as (u & <- & Hu). eauto. }
  set (objs := filter _ (mobjs m)) in *.
  assert (Hbt : forall u, In u (mthreads m) ->
     In (defaultHeap u, ThreadHeapSizeInBytes) (blocksOf (mthreads m) (mpool m) fixies others) /\
     In (backupHeap u, ThreadBackupHeapSizeInBytes) (blocksOf (mthreads m) (mpool m) fixies others)).
  { intros u Hu. unfold blocksOf. rewrite !in_app_iff. split; left; eapply threadBlocks_in; eauto; simpl; auto. }
  assert (Hobjs : forall o, In o objs -> In o (mobjs m) /\ exists b, In b fixies /\
     o_fixed o = true /\ o_addr o = fst b + FixieSize /\ FixieSize + o_size o <= snd b).
  { intros o Ho. unfold objs in Ho. apply filter_In in Ho. destruct Ho as [Ho Hf].
    apply andb_prop in Hf. destruct Hf as [Hf He]. apply existsb_exists in He.
    destruct He as (b & Hb & Heq). apply Z.eqb_eq in Heq. split; auto.
    exists b. destruct (i_obj _ I o Ho) as (Hp & Hg). rewrite Hf in Hg.
    destruct Hg as (b' & Hb' & E' & Hle).
    assert (b = b').
    { destruct (Z.eq_dec (snd b) (snd b')); [destruct b, b'; simpl in *; f_equal; lia|].
      assert (Ha := fop_two (blocks m) b b' (i_blk _ I)).
      assert (In b (blocks m)) by (unfold blocks, blocksOf; rewrite !in_app_iff; auto).
      assert (In b' (blocks m)) by (unfold blocks, blocksOf; rewrite !in_app_iff; auto).
      assert (apart b b') by (apply Ha; auto; congruence).
      pose proof (i_pos _ I b H) as [_ P1]. pose proof (i_pos _ I b' H0) as [_ P2].
      unfold apart in *. lia. }
    subst b'. auto. }
  assert (Hthreadblank : forall u b x, In u (mthreads m) -> In b (threadBlocks u) -> within x b ->
     d2 x = false -> (d2 x = false /\ forall o, In o objs -> ~ within x (range o))).
  { intros u b x Hu Hb Hx Hd. split; auto. intros o Ho Hw.
    destruct (Hobjs o Ho) as (_ & b' & Hb' & _ & Ea & Hle).
    assert (apart b b').
    { unfold blocksOf in C5. rewrite fop_app in C5. destruct C5 as (_ & _ & C5).
      apply C5; [eapply threadBlocks_in; eauto|]. rewrite !in_app_iff. auto. }
    eapply apart_within; eauto. unfold within, range in *. simpl in *. consts. lia. }
  assert (Hd1free : forall u x, In u (mthreads m) -> within x (defaultHeap u, ThreadHeapSizeInBytes) ->
     heapPtr u = defaultHeap u -> defaultHeap u + heapIndex u * 8 <= x -> d1 x = false).
  { intros u x Hu Hx Ep' Hix. destruct (d1 x) eqn:Ed; auto.
    assert (Hnz : heapPtr u <> 0).
    { rewrite Ep'. destruct (Hbt u Hu) as [Hb _].
      pose proof (i_pos _ I (defaultHeap u, ThreadHeapSizeInBytes)) as P.
      assert (In (defaultHeap u, ThreadHeapSizeInBytes) (blocks m)).
      { unfold blocks, blocksOf. rewrite in_app_iff. left. eapply threadBlocks_in; eauto. simpl; auto. }
      specialize (P H). simpl in P. lia. }
    assert (Bl : blank m x).
    { apply (i_free _ I u); auto. rewrite Ep'. unfold within in Hx. simpl in Hx. lia. }
    destruct Bl as [B1 B2].
    destruct (C6 u (defaultHeap u, ThreadHeapSizeInBytes) x Hu) as [Bd|(o & Ho & Hw)]; auto.
    - simpl; auto.
    - congruence.
    - exfalso. eapply B2; eauto. }
  assert (Hd2def : forall u x, In u (mthreads m) -> within x (defaultHeap u, ThreadHeapSizeInBytes) -> d2 x = false).
  { intros u x Hu Hx. rewrite Ed2. apply (postAll_at h1 (mthreads m) d1 x (fun _ => True) u); auto.
    intros d' Hd'. apply post_default; auto. intros Ep' Hix. specialize (Hd1free u x Hu Hx Ep' Hix).
    destruct (d' x); auto. specialize (Hd' eq_refl). congruence. }
  assert (Hd2back : forall u x, In u (mthreads m) -> within x (backupHeap u, ThreadBackupHeapSizeInBytes) -> d2 x = false).
  { intros u x Hu Hx. rewrite Ed2. apply (postAll_at h1 (mthreads m) d1 x (fun _ => True) u); auto.
    intros d' Hd'. apply post_backup; auto. intros Hub.
    destruct (d' x) eqn:Ex; auto. specialize (Hd' eq_refl).
    pose proof (i_thr _ I u Hu) as (_ & _ & _ & _ & U5 & _). specialize (U5 Hub).
    assert (Bl : blank m x).
    { apply (i_back _ I u); auto. rewrite U5. unfold within in Hx. simpl in Hx. lia. }
    destruct Bl as [B1 B2].
    destruct (C6 u (backupHeap u, ThreadBackupHeapSizeInBytes) x Hu) as [Bd|(o & Ho & Hw)]; auto.
    - simpl; auto.
    - congruence.
    - exfalso. eapply B2; eauto. }
  assert (Htl : flat_map threadBlocks live = flat_map threadBlocks live) by reflexivity.
  assert (Hlb : forall b, In b (flat_map threadBlocks live) -> In b (flat_map threadBlocks (mthreads m))).
  { intros b Hb. apply in_flat_map in Hb. destruct Hb as (t & Ht & Hb).
    destruct (Hlive t Ht) as (u & Hu & ->). eapply threadBlocks_in; [exact Hu|].
    destruct (post_same h1 u) as ((_ & E1 & E2) & _). unfold threadBlocks in *. congruence. }
  pose proof C5 as Hfop. unfold blocksOf in Hfop. rewrite fop_app in Hfop. destruct Hfop as (FA & FB & FC).
  rewrite fop_app in FB. destruct FB as (FB1 & FB2 & FB3).
  assert (Hnd : NoDup (map tid live)).
  { unfold live. apply nodup_filter. rewrite Ets, post_tids. apply I. }
  split; [|split].
  - constructor; simpl.
    + unfold blocks, blocksOf. simpl. rewrite fop_app. repeat split; auto.
      * unfold live. apply fop_filter. rewrite Ets, post_blocks. exact FA.
      * intros x y Hx Hy. apply FC; auto. rewrite in_app_iff. auto.
    + intros b Hb. unfold blocks, blocksOf in Hb. simpl in Hb. rewrite !in_app_iff in Hb.
      destruct Hb as [Hb|[Hb|Hb]]; [| |apply C4; auto]; apply (i_pos _ I); unfold blocks, blocksOf; rewrite !in_app_iff; auto.
    + assert (Ec : count h4 = u32 (total (blocksOf (mthreads m) (mpool m) fixies others)
        - Z.of_nat (length (filter gone ts)) * ThreadHeapSizeInBytes
        - Z.of_nat (length (filter gone ts)) * ThreadSize
        - Z.of_nat (length (mpool m)) * ThreadHeapSizeInBytes)).
      { rewrite F3c, F2c, u32_sub, F1c.
        replace (u32 (count h1 - Z.of_nat (length (filter gone ts)) * ThreadHeapSizeInBytes)
          - Z.of_nat (length (filter gone ts)) * ThreadSize - Z.of_nat (length (mpool m)) * ThreadHeapSizeInBytes)
          with (u32 (count h1 - Z.of_nat (length (filter gone ts)) * ThreadHeapSizeInBytes)
          - (Z.of_nat (length (filter gone ts)) * ThreadSize + Z.of_nat (length (mpool m)) * ThreadHeapSizeInBytes)) by lia.
        rewrite u32_sub, C2.
        match goal with |- u32 (u32 ?a - ?b - ?c) = _ => replace (u32 a - b - c) with (u32 a - (b + c)) by lia end.
        rewrite u32_sub. f_equal. lia. }
      rewrite Ec. f_equal. unfold blocks, blocksOf. simpl.
      rewrite !total_app, !total_threads, total_pool.
      assert (Hl : length (mthreads m) = (length (filter gone ts) + length live)%nat).
      { unfold live. rewrite filter_two, Ets, map_length. reflexivity. }
      rewrite Hl, Nat2Z.inj_add. unfold ThreadSize. lia.
    + unfold ThreadHeapPoolSize. lia.
    + exact Hnd.
    + intros t Ht. destruct (Hlive t Ht) as (u & Hu & ->).
      pose proof (i_thr _ I u Hu) as (U1 & U2 & U3 & U4 & U5 & U6).
      destruct (post_fields h1 u) as (P1 & P2 & P3 & P4 & P5).
      destruct (post_same h1 u) as ((_ & S1 & S2) & S3).
      assert (Hnz : 0 < defaultHeap u).
      { destruct (i_pos _ I (defaultHeap u, ThreadHeapSizeInBytes)); auto.
        unfold blocks, blocksOf. rewrite in_app_iff. left. eapply threadBlocks_in; eauto. simpl; auto. }
      assert (Hb0 : backupHeapIndex (post1 h1 u) = 0).
      { destruct (useBackup u); auto. rewrite P5 by auto. auto. }
      split; [rewrite P1; lia|]. split; [rewrite P1, S1; auto|].
      split; [consts; lia|]. split; [rewrite Hb0; consts; lia|]. split; [auto|].
      unfold pcGood. rewrite S3. exact U6.
    + intros t1 t2 H1 H2 Hn Hp. destruct (Hlive t1 H1) as (u1 & Hu1 & ->). destruct (Hlive t2 H2) as (u2 & Hu2 & ->).
      destruct (post_fields h1 u1) as (P1 & _). destruct (post_fields h1 u2) as (P2 & _).
      rewrite P1, P2. destruct (post_same h1 u1) as ((S1 & _) & _). destruct (post_same h1 u2) as ((S2 & _) & _).
      rewrite S1, S2 in Hn. intro Eq.
      assert (Ha : apart (defaultHeap u1, ThreadHeapSizeInBytes) (defaultHeap u2, ThreadHeapSizeInBytes)).
      { eapply (fop_threads (mthreads m) u1 u2); eauto; simpl; auto. apply I. }
      unfold apart in Ha. simpl in Ha. consts. lia.
    + intros t x Ht Hp Hx. destruct (Hlive t Ht) as (u & Hu & ->).
      destruct (post_fields h1 u) as (P1 & P2 & _). rewrite P1 in Hx.
      assert (Hw : within x (defaultHeap u, ThreadHeapSizeInBytes)).
      { unfold within. simpl. consts. lia. }
      eapply Hthreadblank; eauto. simpl; auto.
    + intros t x Ht Hx. destruct (Hlive t Ht) as (u & Hu & ->).
      destruct (post_same h1 u) as ((_ & _ & S2) & _). rewrite S2 in Hx.
      destruct (post_fields h1 u) as (_ & _ & _ & P4 & P5).
      pose proof (i_thr _ I u Hu) as (_ & _ & _ & U4 & _).
      assert (Hw : within x (backupHeap u, ThreadBackupHeapSizeInBytes)).
      { unfold within. simpl. destruct (useBackup u); [rewrite P4 in Hx by auto|rewrite P5 in Hx by auto]; lia. }
      eapply Hthreadblank; eauto. simpl; auto.
    + intros o Ho. destruct (Hobjs o Ho) as (Ho' & b & Hb & Hf & Ea & Hle).
      destruct (i_obj _ I o Ho') as (Hp & _). split; auto. rewrite Hf. exists b. simpl. auto.
    + apply fop_map_filter. apply I.
  - simpl. intros t Ht. destruct (Hlive t Ht) as (u & Hu & ->).
    destruct (post_fields h1 u) as (P1 & _). rewrite P1.
    destruct (i_pos _ I (defaultHeap u, ThreadHeapSizeInBytes)) as [P _]; simpl in *; try lia.
    unfold blocks, blocksOf. rewrite in_app_iff. left. eapply threadBlocks_in; eauto. simpl; auto.
  - simpl. intros t Ht. destruct (Hlive t Ht) as (u & Hu & ->).
    destruct (post_same h1 u) as ((S1 & _) & S3). eauto.
Qed.

Lemma inv_spawn : forall m id ans1 ans2 m', inv m -> ~ In id (map tid (mthreads m)) ->
  fresh (blocks m) ThreadSize ans1 ->
  (forall p, ans1 = Some p -> fresh ((p, ThreadSize) :: blocks m) ThreadHeapSizeInBytes ans2) ->
  newThread m id ans1 ans2 = Ok m' -> inv m'.
Proof.
  intros m id ans1 ans2 m' I Hid Hf1 Hf2 H. unfold newThread in H.
  destruct (allocateOrDie (mh m) ThreadSize ans1) as [[b h1]| | |] eqn:E1; try discriminate.
  cbn [bind] in H. apply alloc_ok in E1. destruct E1 as [-> E1].
  destruct (allocateOrDie h1 ThreadHeapSizeInBytes ans2) as [[p h2]| | |] eqn:E2; try discriminate.
  cbn [bind] in H. apply alloc_ok in E2. destruct E2 as [-> E2].
  inversion H as [E]. clear H.
  destruct (Hf1 b eq_refl) as (Hb0 & Hb). destruct (Hf2 b eq_refl p eq_refl) as (Hp0 & Hp).
  assert (Hpb : apart (p, ThreadHeapSizeInBytes) (b, ThreadSize)) by (apply Hp; simpl; auto).
  assert (Hp' : forall c, In c (blocks m) -> apart (p, ThreadHeapSizeInBytes) c) by (intros; apply Hp; simpl; auto).
  change ThreadSize with ThreadBackupHeapSizeInBytes in *.
  set (d := zero b _ _) in *.
  assert (Hd : forall x, d x = true -> mdirty m x = true).
  { intros x Hx. unfold d in Hx. apply zero_le in Hx. apply zero_le in Hx. exact Hx. }
  assert (Hd' : forall x, mdirty m x = false -> d x = false).
  { intros x Hx. destruct (d x) eqn:Ex; auto. apply Hd in Ex. congruence. }
  assert (Hdp : forall x, within x (p, ThreadHeapSizeInBytes) -> d x = false).
  { intros x Hx. destruct (d x) eqn:Ex; auto. unfold d in Ex. apply zero_le in Ex.
    rewrite zero_in in Ex; auto. }
  assert (Hdb : forall x, within x (b, ThreadBackupHeapSizeInBytes) -> d x = false).
  { intros x Hx. unfold d. apply zero_in. auto. }
  assert (Hobj : forall o x c n, In o (mobjs m) -> (forall k, In k (blocks m) -> apart (c, n) k) ->
    within x (c, n) -> ~ within x (range o)).
  { intros o x c n Ho Hc Hx Hox. destruct (obj_block m o I Ho) as (k & Hk & Hi).
    eapply apart_within; [apply (Hc k Hk)|exact Hx|]. unfold inside, within in *. lia. }
  constructor; simpl.
  - unfold blocks, blocksOf. simpl. pose proof (i_blk _ I) as Hf. unfold blocks, blocksOf in Hf.
    constructor; [|constructor; auto].
    + apply Forall_forall. intros c [<-|Hc]; auto.
    + apply Forall_forall. intros c Hc. apply Hb. exact Hc.
  - intros c Hc. unfold blocks, blocksOf in Hc. simpl in Hc. destruct Hc as [<-|[<-|Hc]].
    + simpl. consts. lia.
    + simpl. consts. lia.
    + apply (i_pos _ I). exact Hc.
  - rewrite E2, E1. simpl. rewrite u32_add, (i_cnt _ I).
    rewrite <- Z.add_assoc, u32_add. f_equal.
    unfold blocks, blocksOf. simpl. lia.
  - apply I.
  - constructor; auto. apply I.
  - intros t [<-|Ht]; [|apply (i_thr _ I); auto].
    split; [simpl; lia|]. split; [simpl; auto|]. split; [simpl; consts; lia|].
    split; [simpl; consts; lia|]. split; [reflexivity|exact Logic.I].
  - assert (Hne : forall u, In u (mthreads m) -> heapPtr u <> 0 -> heapPtr u <> p).
    { intros u Hu Hup Eq. pose proof (Hp' _ (in_lift _ _ (in_blocks_heap _ _ I Hu Hup))) as Ha.
      unfold apart in Ha. simpl in Ha. consts. lia. }
    intros t1 t2 [<-|H1] [<-|H2] Hn Hz; simpl in *.
    + congruence.
    + intro Eq. destruct (Z.eq_dec (heapPtr t2) 0); [lia|]. apply (Hne t2); auto.
    + apply Hne; auto.
    + apply (i_sep _ I); auto.
  - intros t x [<-|Ht] Hz Hx; simpl in *.
    + assert (Hw : within x (p, ThreadHeapSizeInBytes)) by (unfold within; simpl; lia).
      split; simpl; [auto|]. intros o Ho. exact (Hobj o x p ThreadHeapSizeInBytes Ho Hp' Hw).
    + destruct (i_free _ I t x Ht Hz Hx) as [Ha Hb']. split; simpl; auto.
  - intros t x [<-|Ht] Hx; simpl in *.
    + assert (Hw : within x (b, ThreadBackupHeapSizeInBytes)) by (unfold within; simpl; lia).
      split; simpl; [auto|]. intros o Ho. exact (Hobj o x b ThreadBackupHeapSizeInBytes Ho Hb Hw).
    + destruct (i_back _ I t x Ht Hx) as [Ha Hb']. split; simpl; auto.
  - intros o Ho. destruct (i_obj _ I o Ho) as (Hp1 & Hg). split; auto.
    destruct (o_fixed o); auto. destruct Hg as (c & Hc & Hi). exists c. simpl. auto.
  - apply I.
Qed.

Lemma check_fits : forall m t size mask, check m t MovableAllocation size mask = Granted ->
  u32 (heapIndex t + wordsFor size) <= ThreadHeapSizeInWords.
Proof.
  unfold check. intros m t size mask H. destruct (limitExceeded _ _); [discriminate|].
  destruct (Z.ltb_spec ThreadHeapSizeInWords (u32 (heapIndex t + wordsFor size))); [discriminate|auto].
Qed.

(** what is true of an object at the moment it is handed out *)
Definition givenWell (m : machine) (l : label) (m' : machine) : Prop :=
  match l with
  | Gave o =>
    (forall o', In o' (mobjs m) -> apart (range o) (range o')) /\
    (forall x, o_addr o + (if o_fixed o then 8 else 0) <= x < o_addr o + o_size o -> mdirty m' x = false)
  | _ => True
  end.

Lemma blank_given : forall m m' o, inv m -> 0 < o_size o -> (forall x, within x (range o) -> blank m x) ->
  mdirty m' = mdirty m -> givenWell m (Gave o) m'.
Proof.
  intros m m' o I Hs Hb Hm. split.
  - intros o' Ho'. apply disjoint_apart; auto.
    + simpl. apply (i_obj _ I o' Ho').
    + intros x H1 H2. apply (Hb x H1) in H2; auto.
  - intros x Hx. rewrite Hm. apply Hb. unfold within. simpl. destruct (o_fixed o); lia.
Qed.

Lemma inv_step : forall m l m', inv m -> step m l m' -> inv m' /\ givenWell m l m'.
Proof.
  intros m l m' I H. destruct H as
    [m t size excl a t' Ht Hat Hg Hs Ha
    |m t ty size mask a t' Ht Hat Hg He
    |m t ty size mask t' Ht Hat Hg Hty He
    |m t ty size mask ans m1 t1 Ht Hat Hf Hr
    |m t ty size mask h1 fixies others d1 gone m1 t1 Ht Hat Hc Hgone Hd Ht1 Eid
    |m h1 fixies others d1 gone m1 Hc Hgone Hd
    |m t ty size mask Ht Hat Hc
    |m t ty size mask Ht Hat Hc
    |m t size mask a t' Ht Hat Hc Ha
    |m t ty size mask ans a m1 Ht Hat Hty Hc Hf Ha
    |m t size ok t' Ht Hat Hg He
    |m t b Ht Hat
    |m o a n Ho Hi
    |m id ans1 ans2 m' Hid Hf1 Hf2 Hn
    |m size ans p h' Hs Hf Ha
    |m p size l1 l2 h' Hm Hfree].
  - (* fast path *)
    assert (Hz : heapPtr t <> 0).
    { intro E. destruct (i_thr _ I t Ht) as (T1 & _). destruct (T1 E) as (? & ? & ? & ?). congruence. }
    unfold takesSlowPath in Hs. apply orb_false_elim in Hs. destruct Hs as [Hs _]. apply Z.ltb_ge in Hs.
    inversion Ha; subst a t'.
    destruct (inv_small m t size (setHeap t (heapPtr t) (u32 (heapIndex t + wordsFor size)) (heapOffset t))
                I Ht Hg Hs Hz) as [I' Hb]; auto.
    + repeat split.
    + unfold pcGood. simpl. rewrite Hat. exact Logic.I.
    + split; auto. apply blank_given; auto. simpl. apply Hg.
  - (* backup heap or tracing *)
    unfold enter3 in He. destruct (useBackup t) eqn:Eub.
    + destruct (Z.leb_spec (u32 (backupHeapIndex t + wordsFor size)) ThreadBackupHeapSizeInWords) as [Hle|]; [|discriminate].
      inversion He; subst a t'. destruct (inv_backup m t size I Ht Hat Hg Eub Hle) as [I' Hb].
      split; auto. apply blank_given; auto. simpl. apply Hg.
    + destruct (tracing t); [|discriminate].
      destruct (Z.leb_spec (u32 (heapIndex t + wordsFor size)) ThreadHeapSizeInWords) as [Hs|]; [|discriminate].
      inversion He; subst a t'.
      assert (Hz : heapPtr t <> 0).
      { intro E. destruct (i_thr _ I t Ht) as (T1 & _). destruct (T1 E) as (? & ? & ? & ?). congruence. }
      destruct (inv_small m t size (setHeap t (heapPtr t) (u32 (heapIndex t + wordsFor size)) (heapOffset t))
                  I Ht Hg Hs Hz) as [I' Hb]; auto.
      * repeat split.
      * unfold pcGood. simpl. rewrite Hat. exact Logic.I.
      * split; auto. apply blank_given; auto. simpl. apply Hg.
  - split; [|exact Logic.I]. unfold enter3 in He. destruct (useBackup t); [destruct (_ <=? _); discriminate|].
    destruct (tracing t); [destruct (_ <=? _); discriminate|]. inversion He; subst t'.
    apply inv_setAt; auto.
    + intro E. destruct (i_thr _ I t Ht) as (T1 & _). destruct (T1 E) as (? & ? & ? & ?). congruence.
    + unfold pcGood. simpl. auto.
  - split; [|exact Logic.I]. eapply inv_refill; eauto.
  - split; [|exact Logic.I].
    destruct (inv_collect m h1 fixies others d1 gone m1 I Hc Hd) as (I1 & Hz & _).
    apply inv_setAt; auto.
    destruct (i_thr _ I t Ht) as (_ & _ & _ & _ & _ & T6). unfold pcGood in *. rewrite Hat in T6. exact T6.
  - split; [|exact Logic.I]. eapply inv_collect; eauto.
  - split; [|exact Logic.I]. apply inv_setAt; auto.
    + intro E. destruct (i_thr _ I t Ht) as (T1 & _). destruct (T1 E) as (? & ? & ? & ?). congruence.
    + exact Logic.I.
  - split; [|exact Logic.I]. apply inv_setAt; auto.
    + intro E. destruct (i_thr _ I t Ht) as (T1 & _). destruct (T1 E) as (? & ? & ? & ?). congruence.
    + destruct (i_thr _ I t Ht) as (_ & _ & _ & _ & _ & T6). unfold pcGood in *. rewrite Hat in T6. exact T6.
  - assert (Hz : heapPtr t <> 0).
    { intro E. destruct (i_thr _ I t Ht) as (T1 & _). destruct (T1 E) as (? & ? & ? & ?). congruence. }
    assert (Hg : goodSize size).
    { destruct (i_thr _ I t Ht) as (_ & _ & _ & _ & _ & T6). unfold pcGood in *. rewrite Hat in T6. apply T6. }
    pose proof (check_fits _ _ _ _ Hc) as Hs.
    inversion Ha; subst a t'.
    destruct (inv_small m t size (setAt (setHeap t (heapPtr t) (u32 (heapIndex t + wordsFor size)) (heapOffset t)) Run)
                I Ht Hg Hs Hz) as [I' Hb]; auto.
    + repeat split.
    + exact Logic.I.
    + split; auto. apply blank_given; auto. simpl. apply Hg.
  - destruct (inv_fixed m t ty size mask ans a m1 I Ht Hat Hf Ha) as (I' & Hn & Hcl).
    split; auto. split.
    + intros o' Ho'. apply disjoint_apart.
      * simpl. destruct (i_thr _ I t Ht) as (_ & _ & _ & _ & _ & T6). unfold pcGood in *. rewrite Hat in T6. apply T6.
      * simpl. apply (i_obj _ I o' Ho').
      * intros x H1 H2. eapply Hn; eauto.
    + simpl. exact Hcl.
  - split; [|exact Logic.I]. unfold ensure in He.
    pose proof (i_thr _ I t Ht) as (T1 & T2 & T3 & T4 & T5 & T6).
    assert (Hsame : inv (withThread m t)).
    { apply (inv_thread m t); auto; try (repeat split; fail); [exact (i_thr _ I t Ht)|lia|lia]. }
    destruct (_ <? _); [|inversion He; subst; auto].
    destruct (_ <=? _); [|inversion He; subst; auto].
    destruct (useBackup t); [discriminate|]. inversion He; subst t'.
    apply (inv_thread m t); auto; [repeat split| | |simpl; lia].
    + split; [exact T1|]. split; [exact T2|]. split; [exact T3|]. split; [exact T4|].
      split; [simpl; discriminate|exact T6].
    + right. simpl. split; auto. lia.
  - split; [|exact Logic.I].
    pose proof (i_thr _ I t Ht) as (T1 & T2 & T3 & T4 & T5 & T6).
    apply (inv_thread m t); auto; [repeat split| | |simpl; lia].
    + split; [exact T1|]. split; [exact T2|]. split; [exact T3|]. split; [exact T4|].
      split; [exact T5|exact T6].
    + right. simpl. split; auto. lia.
  - split; [|exact Logic.I]. constructor; try apply I; simpl.
    + intros t x Ht Hz Hx. destruct (i_free _ I t x Ht Hz Hx) as [Ha Hb]. split; auto. simpl.
      rewrite soil_out; auto. intro Hw. apply (Hb o Ho). unfold inside, within in *. lia.
    + intros t x Ht Hx. destruct (i_back _ I t x Ht Hx) as [Ha Hb]. split; auto. simpl.
      rewrite soil_out; auto. intro Hw. apply (Hb o Ho). unfold inside, within in *. lia.
  - split; [|exact Logic.I]. eapply inv_spawn; eauto.
  - split; [|exact Logic.I]. apply alloc_ok in Ha. destruct Ha as [-> E].
    destruct (Hf p eq_refl) as (Hp0 & Hfr).
    constructor; simpl; try apply I.
    + apply fop_add_other; [apply I|exact Hfr].
    + intros b Hb. unfold blocks, blocksOf in Hb. simpl in Hb. rewrite !in_app_iff in Hb. simpl in Hb.
      assert (b = (p, size) \/ In b (blocks m)) as [->|Hb'].
      { unfold blocks, blocksOf. rewrite !in_app_iff. destruct Hb as [?|[?|[?|[?|?]]]]; auto. }
      * simpl. lia.
      * apply (i_pos _ I); auto.
    + rewrite E. simpl. rewrite (i_cnt _ I), u32_add. f_equal.
      unfold blocks, blocksOf. simpl. rewrite !total_app. simpl. lia.
  - split; [|exact Logic.I].
    unfold heapFree in Hfree. destruct (size <=? count (mh m)); [|discriminate]. inversion Hfree; subst h'.
    constructor; simpl; try apply I.
    + pose proof (i_blk _ I) as Hf. unfold blocks, blocksOf in *. simpl. rewrite Hm in Hf.
      rewrite !(app_assoc (flat_map threadBlocks (mthreads m))), !(app_assoc _ (mfixies m)) in *.
      rewrite (app_assoc _ l1) in *. rewrite fop_app in Hf. destruct Hf as (A & B & C).
      inversion B; subst. rewrite fop_app. repeat split; auto. intros x y Hx Hy. apply C; simpl; auto.
    + intros b Hb. apply (i_pos _ I). unfold blocks, blocksOf in *. simpl in Hb. rewrite Hm.
      rewrite !in_app_iff in *. simpl. tauto.
    + rewrite (i_cnt _ I), u32_sub. f_equal. unfold blocks, blocksOf. simpl. rewrite Hm.
      rewrite !total_app. simpl. lia.
Qed.

Lemma inv_start : forall lim g d, inv (Machine (Heap 0 lim g) [] [] 0 [] [] d []).
Proof.
  intros. constructor; simpl; try tauto; try constructor. unfold ThreadHeapPoolSize. lia.
Qed.

Lemma reachable_inv : forall lim g m, reachable lim g m -> inv m.
Proof.
  induction 1; [apply inv_start|]. eapply inv_step; eauto.
Qed.
