(** Theorems about object allocation: C22 (accounting), C48 (buffers and objects),
    C79 (array sizes), C80 (the heap limit). *)
From Coq Require Import ZArith List Bool Lia.
From Verif Require Import Res Alloc_Model Alloc_Spec Alloc_Proofs.
Import ListNotations.
Local Open Scope Z_scope.

(** ** C22 *)

(** In every history of the native heap in which the live blocks total less than 2^32 bytes,
    the count is the sum of the sizes of the live blocks. *)
Theorem C22_accounting : forall lim h live, history lim h live ->
  count h = total live /\ limit h = lim.
Proof. intros lim h live H. apply history_inv in H. tauto. Qed.

(** Freeing a live block never trips the consistency check. *)
Theorem C22_free : forall lim h live p size, history lim h live -> In (p, size) live ->
  exists h', heapFree h size = Ok h' /\ count h' = total live - size.
Proof.
  intros lim h live p size H Hin. apply history_inv in H. destruct H as (Hnd & Hpos & Hc & _ & Ht).
  pose proof (total_in live (p, size) Hpos Hin) as Hle. pose proof (Hpos _ Hin) as H0. simpl in *.
  unfold heapFree. rewrite Hc. destruct (Z.leb_spec size (total live)); [|lia].
  eexists. split; [reflexivity|]. simpl. apply u32_id. lia.
Qed.

(** A limited request is refused, without any effect, if it would reach the limit, and served
    if it would not and the system has memory. *)
Theorem C22_limit : forall lim h live size ans, history lim h live -> 0 <= size < 2 ^ 63 ->
  (lim <= total live + size -> tryAllocate h size ans = (None, h)) /\
  (total live + size < lim -> fst (tryAllocate h size ans) = ans) /\
  (ans = None -> tryAllocate h size ans = (None, h)).
Proof.
  intros lim h live size ans H Hs. apply history_inv in H. destruct H as (_ & _ & Hc & Hl & Ht).
  unfold tryAllocate, heapAllocate. rewrite Hc, Hl.
  assert (E : (size + total live) mod 2 ^ 64 = size + total live).
  { apply Z.mod_small. rewrite p64, p63, p32 in *. lia. }
  rewrite E. simpl. repeat split; intros.
  - destruct (Z.ltb_spec (size + total live) lim); [lia|reflexivity].
  - destruct (Z.ltb_spec (size + total live) lim); [|lia]. destruct ans; reflexivity.
  - subst. destruct (_ <? _); reflexivity.
Qed.

(** The same count, in every execution of the machine with its threads and collections. *)
Theorem C22_machine : forall lim g m, reachable lim g m ->
  count (mh m) = total (blocks m) mod 2 ^ 32 /\
  (total (blocks m) < 2 ^ 32 -> count (mh m) = total (blocks m)).
Proof.
  intros lim g m H. apply reachable_inv in H. split; [apply (i_cnt _ H)|].
  intro Hlt. rewrite (i_cnt _ H). apply u32_id. split; auto.
  apply total_nonneg. intros b Hb. apply (i_pos _ H) in Hb. lia.
Qed.

Example C22_example : exists h live, history 1000 h live /\ total live = 700 /\
  tryAllocate h 300 (Some 5000) = (None, h).
Proof.
  exists (Heap 700 1000 0), [(2000, 700)]. split; [|split; reflexivity].
  eapply (hi_step _ (Heap 800 1000 0) [(2000, 700); (1000, 100)] (Free 1000 100)).
  - eapply (hi_step _ (Heap 100 1000 0) [(1000, 100)] (TryAllocate 700 (Some 2000))).
    + eapply (hi_step _ (Heap 0 1000 0) [] (Allocate 100 (Some 1000))); [constructor| | |].
      * split; [rewrite p63; lia|]. intros p _ [].
      * reflexivity.
      * reflexivity.
    + split; [rewrite p63; lia|]. intros p E [Hp|[]]. inversion E. subst. discriminate.
    + reflexivity.
    + reflexivity.
  - simpl. auto.
  - reflexivity.
  - reflexivity.
Qed.

(** ** C48 *)

(** Objects that the program holds and that no collection has moved never overlap, and each
    lies inside a block the heap owns. *)
Theorem C48_objects : forall lim g m, reachable lim g m ->
  ForallOrdPairs apart (map range (mobjs m)) /\
  forall o, In o (mobjs m) -> exists b, In b (blocks m) /\ inside (range o) b.
Proof.
  intros lim g m H. apply reachable_inv in H. split; [apply H|]. intros o Ho. apply obj_block; auto.
Qed.

(** An object handed out overlaps none that was handed out before, and its memory is zero
    (but for the mark word of a fixed object). *)
Theorem C48_fresh : forall lim g m o m', reachable lim g m -> step m (Gave o) m' ->
  (forall o', In o' (mobjs m) -> apart (range o) (range o')) /\
  (forall x, o_addr o + (if o_fixed o then 8 else 0) <= x < o_addr o + o_size o ->
     mdirty m' x = false).
Proof.
  intros lim g m o m' H Hs. apply reachable_inv in H.
  destruct (inv_step _ _ _ H Hs) as [_ Hg]. exact Hg.
Qed.

(** Blocks do not overlap; no two threads allocate from the same buffer; the pool of buffers
    stays within its array. *)
Theorem C48_buffers : forall lim g m, reachable lim g m ->
  ForallOrdPairs apart (blocks m) /\
  (forall t1 t2, In t1 (mthreads m) -> In t2 (mthreads m) -> tid t1 <> tid t2 ->
     heapPtr t1 <> 0 -> heapPtr t2 <> 0 ->
     apart (heapPtr t1, ThreadHeapSizeInBytes) (heapPtr t2, ThreadHeapSizeInBytes)) /\
  (forall t, In t (mthreads m) -> at_ t = Run ->
     In (heapPtr t, ThreadHeapSizeInBytes) (blocks m) /\ 0 <= heapIndex t * 8 <= ThreadHeapSizeInBytes) /\
  (length (mpool m) <= 64)%nat.
Proof.
  intros lim g m H. apply reachable_inv in H. split; [apply H|]. split; [|split].
  - intros t1 t2 H1 H2 Hn Hz1 Hz2. eapply fop_two; [apply H| | |].
    + apply in_lift, in_blocks_heap; auto.
    + apply in_lift, in_blocks_heap; auto.
    + intro E. inversion E. revert H3. apply (i_sep _ H); auto.
  - intros t Ht Hr. pose proof (i_thr _ H t Ht) as (T1 & _ & T3 & _).
    split; [|rewrite thw, thb in *; lia]. apply in_lift, in_blocks_heap; auto.
    intro E. destruct (T1 E) as (? & ? & ? & ?). congruence.
  - pose proof (i_pool _ H) as Hp. unfold ThreadHeapPoolSize in Hp. lia.
Qed.

(** A request below 2 GB never makes the allocator write outside a block. *)
Theorem C48_no_overflow : forall m ty size mask ans, goodSize size ->
  allocateFixed m ty size mask ans <> UB.
Proof.
  intros m ty size mask ans Hg. unfold allocateFixed.
  destruct (limitExceeded (mh m) 0); [discriminate|].
  unfold allocateOrDie, heapAllocate. cbn [negb orb].
  destruct ans; cbn [bind]; [|discriminate].
  match goal with |- context [limitExceeded ?h 0] => destruct (limitExceeded h 0); [discriminate|] end.
  pose proof (totalSize_good size mask Hg).
  destruct (Z.ltb_spec (totalSize (wordsFor size) mask) (FixieSize + size)); [lia|discriminate].
Qed.

(** A run: a thread is created, takes 24 bytes, writes to them, then asks for a whole
    buffer: it gets a second buffer from the pool. *)
Definition big : Z := 2 ^ 30.
Definition m0 : machine := Machine (Heap 0 big 0) [] [] 0 [] [] (fun _ => true) [].
Definition T (p i off : Z) (a : pc) : thread := Thread 7 p i off 65536 4096 0 false false a.
Definition d1 : Z -> bool := zero 4096 2048 (zero 65536 65536 (fun _ => true)).
Definition m1 : machine :=
  Machine (Heap (65536 + 2048) big 0) [T 65536 0 0 Run] [] 0 [] [] d1 [].
Definition o1 : obj := Obj 7 65536 24 false.
Definition m2 : machine :=
  Machine (Heap (65536 + 2048) big 0) [T 65536 3 0 Run] [] 0 [] [] d1 [o1].
Definition m3 : machine :=
  Machine (Heap (65536 + 2048) big 0) [T 65536 3 0 Run] [] 0 [] [] (soil 65536 24 d1) [o1].
Definition m4 : machine :=
  Machine (Heap (65536 + 2048) big 0) [T 65536 3 0 (AtLoop MovableAllocation 65536 false)] [] 0 [] []
          (soil 65536 24 d1) [o1].
Definition m5 : machine :=
  Machine (Heap (65536 + 2048 + 65536) big 0) [T 262144 0 3 (AtCheck MovableAllocation 65536 false)]
          [262144] 0 [] [] (zero 262144 65536 (soil 65536 24 d1)) [o1].
Definition o2 : obj := Obj 7 262144 65536 false.
Definition m6 : machine :=
  Machine (Heap (65536 + 2048 + 65536) big 0) [T 262144 8192 3 Run]
          [262144] 0 [] [] (zero 262144 65536 (soil 65536 24 d1)) [o2; o1].

Lemma reach1 : reachable big 0 m1.
Proof.
  eapply re_step; [apply re_start with (d := fun _ => true)|].
  apply (st_spawn m0 7 (Some 4096) (Some 65536) m1).
  - intros [].
  - intros p E. inversion E. split; [lia|]. intros b [].
  - intros p E q E2. inversion E. inversion E2. split; [lia|]. intros b [<-|[]]. unfold apart. cbn [fst snd]. rewrite ?tsz, ?thb. lia.
  - reflexivity.
Qed.

Lemma good24 : goodSize 24. Proof. split; [rewrite p31; lia|reflexivity]. Qed.
Lemma good64k : goodSize 65536. Proof. split; [rewrite p31; lia|reflexivity]. Qed.

Example C48_example : reachable big 0 m6 /\ mobjs m6 = [o2; o1].
Proof.
  split; [|reflexivity].
  eapply re_step; [eapply re_step; [eapply re_step; [eapply re_step; [eapply re_step; [exact reach1|]|]|]|]|].
  - apply (st_fast m1 (T 65536 0 0 Run) 24 false 65536 (T 65536 3 0 Run)); try reflexivity.
    + simpl. auto.
    + exact good24.
  - apply (st_write m2 o1 65536 24); [simpl; auto|]. unfold inside. simpl. lia.
  - apply (st_enter m3 (T 65536 3 0 Run) MovableAllocation 65536 false
             (T 65536 3 0 (AtLoop MovableAllocation 65536 false))); try reflexivity.
    + simpl. auto.
    + exact good64k.
  - apply (st_refill m4 (T 65536 3 0 (AtLoop MovableAllocation 65536 false)) MovableAllocation 65536 false
             (Some 262144) (Machine (Heap (65536 + 2048 + 65536) big 0) (mthreads m4)
                [262144] 0 [] [] (zero 262144 65536 (soil 65536 24 d1)) [o1])
             (T 262144 0 3 (AtCheck MovableAllocation 65536 false))).
    + simpl. auto.
    + reflexivity.
    + intros p E. inversion E. split; [lia|]. intros b Hb. unfold blocks, blocksOf in Hb. simpl in Hb.
      destruct Hb as [<-|[<-|[]]]; unfold apart; cbn [fst snd]; rewrite ?thb, ?tbb; lia.
    + reflexivity.
  - apply (st_give m5 (T 262144 0 3 (AtCheck MovableAllocation 65536 false)) 65536 false 262144
             (T 262144 8192 3 (AtCheck MovableAllocation 65536 false))); try reflexivity.
    simpl. auto.
Qed.

(** ** C79 *)

(** The memory reserved for an array covers its header and all its elements, provided the
    whole does not reach 2^32 bytes; at most the padding is added. *)
Theorem C79_covers : forall elementSize length,
  0 <= length -> 0 < elementSize -> 16 + length * elementSize + 7 < 2 ^ 32 ->
  16 + length * elementSize <= wordsFor (arrayBytes 16 elementSize length) * 8
                             <= 16 + length * elementSize + 7.
Proof.
  intros e n Hn He Hb. rewrite p32 in Hb.
  assert (H0 : 0 <= n * e) by (apply Z.mul_nonneg_nonneg; lia).
  unfold arrayBytes, wordsFor, ceilingDivide, pad.
  rewrite (u32_id (n * e)) by (rewrite p32; lia).
  rewrite (u32_id (n * e + 7)) by (rewrite p32; lia).
  pose proof (Z.div_mod (n * e + 7) 8 ltac:(lia)) as Hd.
  pose proof (Z.mod_pos_bound (n * e + 7) 8 ltac:(lia)) as Hm.
  set (k := (n * e + 7) / 8) in *.
  rewrite (u32_id (16 + k * 8)) by (rewrite p32; lia).
  rewrite u32_id by (rewrite p32; lia).
  replace (16 + k * 8 + 8 - 1) with (7 + (2 + k) * 8) by lia.
  rewrite Z.div_add by lia. change (7 / 8) with 0. lia.
Qed.

(** ... which is the case for every byte or boolean array a program can ask for. *)
Theorem C79_byte_arrays : forall length, 0 <= length < 2 ^ 31 ->
  16 + length <= wordsFor (arrayBytes 16 1 length) * 8.
Proof.
  intros n Hn. pose proof (C79_covers 1 n) as H. rewrite p31, p32 in *. lia.
Qed.

Example C79_example : wordsFor (arrayBytes 16 4 1001) * 8 = 4024.
Proof. reflexivity. Qed.

(** Without the proviso it is false: [new long[1 << 29]] gets 16 bytes, an object that
    consists of its header alone.  The same holds for some length of every element type
    wider than a byte. *)
Theorem C79_array_memory_refuted :
  wordsFor (arrayBytes 16 8 (2 ^ 29)) * 8 = 16 /\
  forall elementSize, In elementSize [2; 4; 8] -> exists length,
    0 <= length < 2 ^ 31 /\ length * elementSize > 2 ^ 31 /\
    wordsFor (arrayBytes 16 elementSize length) * 8 = 16.
Proof.
  split; [vm_compute; reflexivity|].
  intros e [<-|[<-|[<-|[]]]]; [exists (2 ^ 31 - 1)|exists (2 ^ 30)|exists (2 ^ 29)];
    vm_compute; repeat split; congruence.
Qed.

(** ** C80 *)

(** With a heap limit of 128 MB, [new int[0x3ffffff0]] does not throw OutOfMemoryError: the
    limit check wraps, a block of 4 GB is obtained, and the recorded count goes down. *)
Definition size80 : Z := arrayBytes 16 4 1073741808.
Definition lim80 : Z := 128 * 2 ^ 20.
Definition m80 : machine :=
  Machine (Heap (65536 + 2048) lim80 0) [T 65536 0 0 Run] [] 0 [] [] d1 [].

Theorem C80_limit_refuted : exists m t a m',
  reachable lim80 0 m /\ In t (mthreads m) /\ at_ t = Run /\
  typeFor size80 = FixedAllocation /\
  limitExceeded (mh m) (pendingFor size80 false) = false /\
  check m t FixedAllocation size80 false = Granted /\
  fresh (blocks m) (totalSize (wordsFor size80) false) (Some a) /\
  (exists o, allocateFixed m FixedAllocation size80 false (Some a) = Ok (o, m')) /\
  total (blocks m') > 4 * 10 ^ 9 /\ count (mh m') < count (mh m).
Proof.
  exists m80, (T 65536 0 0 Run), 1000000.
  eexists. split; [|split; [|split; [|split; [|split; [|split; [|split; [|split; [eexists|]]]]]]]].
  - eapply re_step; [apply re_start with (d := fun _ => true)|].
    apply (st_spawn (Machine (Heap 0 lim80 0) [] [] 0 [] [] (fun _ => true) []) 7 (Some 4096) (Some 65536) m80).
    + intros [].
    + intros p E. inversion E. split; [lia|]. intros b [].
    + intros p E q E2. inversion E. inversion E2. split; [lia|]. intros b [<-|[]]. unfold apart. cbn [fst snd]. rewrite ?tsz, ?thb. lia.
    + reflexivity.
  - simpl. auto.
  - reflexivity.
  - vm_compute. reflexivity.
  - vm_compute. reflexivity.
  - vm_compute. reflexivity.
  - intros p E. inversion E. split; [lia|]. intros b Hb. unfold blocks, blocksOf in Hb. simpl in Hb.
    destruct Hb as [<-|[<-|[]]]; unfold apart; cbn [fst snd]; rewrite ?thb, ?tbb; lia.
  - unfold allocateFixed. 
    replace (limitExceeded (mh m80) 0) with false by (vm_compute; reflexivity).
    cbn [allocateOrDie heapAllocate negb orb bind].
    replace (limitExceeded _ 0) with false by (vm_compute; reflexivity).
    replace (totalSize (wordsFor size80) false <? FixieSize + size80) with false by (vm_compute; reflexivity).
    reflexivity.
  - split; vm_compute; reflexivity.
Qed.

(** Below 2 GB (limit, usage and request) the check is exact: granted means that the bytes in
    use, less the unused part of the old generation, stay within the limit. *)
Theorem C80_limit : forall lim g m t ty size mask, reachable lim g m -> goodSize size ->
  total (blocks m) < 2 ^ 31 -> limit (mh m) < 2 ^ 31 ->
  0 <= gen2Remaining (mh m) * 8 <= total (blocks m) -> totalSize (wordsFor size) mask < 2 ^ 31 ->
  check m t ty size mask <> OutOfMemory ->
  total (blocks m) + totalSize (wordsFor size) mask - gen2Remaining (mh m) * 8 <= limit (mh m).
Proof.
  intros lim g m t ty size mask H Hg Ht Hl Hr Hp Hc. apply C22_machine in H. destruct H as [_ H].
  rewrite p31, p32 in *. specialize (H ltac:(lia)).
  pose proof (totalSize_good size mask Hg) as Hts. rewrite fsz in Hts. destruct Hg as (Hg & _).
  unfold check, limitExceeded, pendingFor, s32 in Hc.
  rewrite (u32_id (totalSize (wordsFor size) mask)) in Hc by (rewrite p32; lia).
  rewrite p31 in Hc.
  destruct (Z.ltb_spec (totalSize (wordsFor size) mask) 2147483648); [|lia].
  rewrite H in Hc. rewrite u32_id in Hc by (rewrite p32; lia).
  destruct (Z.ltb_spec (limit (mh m)) (total (blocks m) + totalSize (wordsFor size) mask - gen2Remaining (mh m) * 8));
    [congruence|lia].
Qed.

Definition Alloc_theorems :=
  (C22_accounting, C22_free, C22_limit, C22_machine, C48_objects, C48_fresh, C48_buffers,
   C48_no_overflow, C79_covers, C79_byte_arrays, C79_array_memory_refuted, C80_limit_refuted, C80_limit).
Print Assumptions Alloc_theorems.
