(** Model of object allocation: the byte accounting of the native heap, the
    allocation buffers of the threads, fixed ("large") objects and the sizes
    requested for arrays.  64-bit configuration without VM_STRESS and without
    DebugAllocation. *)
From Coq Require Import ZArith List Bool.
From Verif Require Import Res.
Import ListNotations.
Local Open Scope Z_scope.
Local Open Scope res_scope.

(** C++ [unsigned] arithmetic *)
Definition u32 (x : Z) : Z := x mod 2 ^ 32.
(** conversion of an [unsigned] to [int] *)
Definition s32 (x : Z) : Z := let y := u32 x in if y <? 2 ^ 31 then y else y - 2 ^ 32.

(** src/avian/common.h:291-299 [pad(n)], alignment 8: clearing the three low bits is
    written as a division *)
Definition pad (n : Z) : Z := u32 (u32 n + 7) / 8 * 8.
(** include/avian/util/math.h:35-38 [ceilingDivide] *)
Definition ceilingDivide (n d : Z) : Z := u32 (n + d - 1) / d.

(** src/avian/machine.h:142-152 *)
Definition ThreadHeapSizeInBytes : Z := 64 * 1024.
Definition ThreadHeapSizeInWords : Z := ThreadHeapSizeInBytes / 8.
Definition ThreadBackupHeapSizeInBytes : Z := 2 * 1024.
Definition ThreadBackupHeapSizeInWords : Z := ThreadBackupHeapSizeInBytes / 8.
Definition ThreadHeapPoolSize : Z := 64.
Definition FixedFootprintThresholdInBytes : Z := ThreadHeapPoolSize * ThreadHeapSizeInBytes.

(** ** Byte accounting (src/heap/heap.cpp) *)

(** The fields [count] and [limit] of heap.cpp's Context (both [unsigned]), and
    gen2.remaining(), the number of unused words of the old generation. *)
Record heap := Heap { count : Z; limit : Z; gen2Remaining : Z }.

(** src/heap/heap.cpp:1760-1778 [limitExceeded]; [pendingAllocation] is an [int] that is
    converted to [unsigned] for the sum, which wraps *)
Definition limitExceeded (h : heap) (pendingAllocation : Z) : bool :=
  limit h <? u32 (count h + pendingAllocation - gen2Remaining h * 8).

(** src/heap/heap.cpp:1866-1888 [allocate(c, size, limit)].  [ans] is the answer the
    system allocator gives if it is asked; [size + count] is computed in 64 bits,
    [count += size] in 32. *)
Definition heapAllocate (h : heap) (size : Z) (lim : bool) (ans : option Z) : option Z * heap :=
  if negb lim || ((size + count h) mod 2 ^ 64 <? limit h) then
    match ans with
    | Some p => (Some p, Heap (u32 (count h + size)) (limit h) (gen2Remaining h))
    | None => (None, h)
    end
  else (None, h).

(** src/heap/heap.cpp:1890-1893 [tryAllocate] *)
Definition tryAllocate (h : heap) (size : Z) (ans : option Z) : option Z * heap :=
  heapAllocate h size true ans.

(** src/heap/heap.cpp:1895-1901 [allocate(c, size)] *)
Definition allocateOrDie (h : heap) (size : Z) (ans : option Z) : res (Z * heap) :=
  match heapAllocate h size false ans with
  | (Some p, h') => Ok (p, h')
  | (None, _) => Abort
  end.

(** src/heap/heap.cpp:1903-1924 [free] *)
Definition heapFree (h : heap) (size : Z) : res heap :=
  if size <=? count h then Ok (Heap (u32 (count h - size)) (limit h) (gen2Remaining h)) else Abort.

(** src/heap/heap.cpp:615-624 [Fixie::maskSize] and [Fixie::totalSize]; sizeof(Fixie) is 24 *)
Definition FixieSize : Z := 24.
Definition maskSize (sizeInWords : Z) (hasMask : bool) : Z :=
  if hasMask then u32 (ceilingDivide sizeInWords 64 * 8) else 0.
Definition totalSize (sizeInWords : Z) (hasMask : bool) : Z :=
  u32 (FixieSize + u32 (sizeInWords * 8) + maskSize sizeInWords hasMask).

(** ** Array sizes *)

(** src/tools/type-generator/main.cpp:864-872 [writeOffset] as used by the generated array
    constructors (1242-1275): the number of bytes asked of [allocate] for an array with
    [fixedSize] bytes before its body, [length] elements of [elementSize] bytes.  [length]
    is 64 bits wide, [pad] and [allocate] take [unsigned].
    src/interpret.cpp:888-903 and 2605-2655 (anewarray, newarray) check the length only for
    being non-negative. *)
Definition arrayBytes (fixedSize elementSize length : Z) : Z :=
  u32 (fixedSize + pad (length * elementSize)).

(** The words [allocate] reserves for a request (machine.h:1646-1655). *)
Definition wordsFor (sizeInBytes : Z) : Z := ceilingDivide sizeInBytes 8.

(** ** Threads and the machine *)

Inductive allocType := MovableAllocation | FixedAllocation | ImmortalAllocation.

(** Where a thread is in allocate3 (src/machine.cpp:4248-4360): not in it, at the top of
    the loop, about to call collect, or behind the call, with the arguments of allocate3. *)
Inductive pc :=
| Run
| AtLoop (ty : allocType) (size : Z) (mask : bool)
| AtCollect (ty : allocType) (size : Z) (mask : bool)
| AtCheck (ty : allocType) (size : Z) (mask : bool).

(** src/avian/machine.h:1333-1365, the fields of Thread that allocation uses.  Addresses are
    byte addresses, 0 is null; [backupHeap] is the address of the array inside the Thread. *)
Record thread := Thread {
  tid : nat; heapPtr : Z; heapIndex : Z; heapOffset : Z; defaultHeap : Z;
  backupHeap : Z; backupHeapIndex : Z; useBackup : bool; tracing : bool; at_ : pc }.

(** An object handed out to the program: by whom, where, how many bytes, and whether it is
    a fixed object.  Not in the code: it records the history. *)
Record obj := Obj { o_tid : nat; o_addr : Z; o_size : Z; o_fixed : bool }.

(** The machine: heap, threads, Machine::heapPool[0..heapPoolIndex), fixedFootprint, the
    blocks of the fixed objects, the remaining blocks of the heap (generations, native
    structures), which bytes of memory may be nonzero, and the objects handed out that have
    not been moved by a collection. *)
Record machine := Machine {
  mh : heap; mthreads : list thread; mpool : list Z; mfixed : Z;
  mfixies : list (Z * Z); mothers : list (Z * Z); mdirty : Z -> bool; mobjs : list obj }.

(** memset(p, 0, n) *)
Definition zero (p n : Z) (d : Z -> bool) : Z -> bool :=
  fun x => if (p <=? x) && (x <? p + n) then false else d x.
(** a write of n arbitrary bytes at p *)
Definition soil (p n : Z) (d : Z -> bool) : Z -> bool :=
  fun x => if (p <=? x) && (x <? p + n) then true else d x.

Definition update (t' : thread) (l : list thread) : list thread :=
  map (fun t => if Nat.eqb (tid t) (tid t') then t' else t) l.

Definition setAt (t : thread) (p : pc) : thread :=
  Thread (tid t) (heapPtr t) (heapIndex t) (heapOffset t) (defaultHeap t)
         (backupHeap t) (backupHeapIndex t) (useBackup t) (tracing t) p.
Definition setHeap (t : thread) (p i off : Z) : thread :=
  Thread (tid t) p i off (defaultHeap t)
         (backupHeap t) (backupHeapIndex t) (useBackup t) (tracing t) (at_ t).
Definition setBackup (t : thread) (i : Z) (use : bool) : thread :=
  Thread (tid t) (heapPtr t) (heapIndex t) (heapOffset t) (defaultHeap t)
         (backupHeap t) i use (tracing t) (at_ t).
Definition setTracing (t : thread) (b : bool) : thread :=
  Thread (tid t) (heapPtr t) (heapIndex t) (heapOffset t) (defaultHeap t)
         (backupHeap t) (backupHeapIndex t) (useBackup t) b (at_ t).

(** src/avian/machine.h:1617-1633 [ensure] *)
Definition ensure (t : thread) (size : Z) : res (bool * thread) :=
  if ThreadHeapSizeInWords <? u32 (heapIndex t + wordsFor size) then
    if size <=? ThreadBackupHeapSizeInBytes then
      if useBackup t then Abort else Ok (true, setBackup t (backupHeapIndex t) true)
    else Ok (false, t)
  else Ok (true, t).

(** src/avian/machine.h:1635-1644 [allocateSmall] *)
Definition allocateSmall (t : thread) (size : Z) : Z * thread :=
  (heapPtr t + heapIndex t * 8,
   setHeap t (heapPtr t) (u32 (heapIndex t + wordsFor size)) (heapOffset t)).

(** src/avian/machine.h:1646-1657 [allocate]: does the request take the slow path?
    [exclusive] is Machine::exclusive, set by another thread at any time. *)
Definition takesSlowPath (t : thread) (size : Z) (exclusive : bool) : bool :=
  (ThreadHeapSizeInWords <? u32 (heapIndex t + wordsFor size)) || exclusive.

(** src/machine.cpp:4236-4246 [allocate2] *)
Definition typeFor (size : Z) : allocType :=
  if ThreadHeapSizeInWords <? wordsFor size then FixedAllocation else MovableAllocation.

(** src/machine.cpp:4254-4270: the start of allocate3, before the lock is taken *)
Inductive entered := Returned (o : Z) (t : thread) | Entered (t : thread).
Definition enter3 (t : thread) (ty : allocType) (size : Z) (mask : bool) : res entered :=
  if useBackup t then
    if u32 (backupHeapIndex t + wordsFor size) <=? ThreadBackupHeapSizeInWords then
      Ok (Returned (backupHeap t + backupHeapIndex t * 8)
                   (setBackup t (u32 (backupHeapIndex t + wordsFor size)) true))
    else Abort
  else if tracing t then
    if u32 (heapIndex t + wordsFor size) <=? ThreadHeapSizeInWords then
      let '(o, t') := allocateSmall t size in Ok (Returned o t')
    else Abort
  else Ok (Entered (setAt t (AtLoop ty size mask))).

(** src/machine.cpp:4320-4321: the footprint passed as an [int] *)
Definition pendingFor (size : Z) (mask : bool) : Z := s32 (totalSize (wordsFor size) mask).

(** src/machine.cpp:4283-4328: the switch at the top of the loop and the decision whether to
    collect.  [ans] is the system allocator's answer. *)
Definition refill (m : machine) (t : thread) (ty : allocType) (size : Z) (mask : bool)
           (ans : option Z) : machine * thread :=
  let '(m1, t1) :=
    match ty with
    | MovableAllocation =>
      if ThreadHeapSizeInWords <? u32 (heapIndex t + wordsFor size) then
        let t0 := setHeap t 0 (heapIndex t) (heapOffset t) in
        if negb (limitExceeded (mh m) 0)
           && (Z.of_nat (length (mpool m)) <? ThreadHeapPoolSize) then
          match tryAllocate (mh m) ThreadHeapSizeInBytes ans with
          | (Some p, h') =>
            (Machine h' (mthreads m) (mpool m ++ [p]) (mfixed m) (mfixies m) (mothers m)
                     (zero p ThreadHeapSizeInBytes (mdirty m)) (mobjs m),
             setHeap t p 0 (u32 (heapOffset t + heapIndex t)))
          | (None, h') =>
            (Machine h' (mthreads m) (mpool m) (mfixed m) (mfixies m) (mothers m)
                     (mdirty m) (mobjs m), t0)
          end
        else (m, t0)
      else (m, t)
    | FixedAllocation =>
      if FixedFootprintThresholdInBytes <? u32 (mfixed m + size)
      then (m, setHeap t 0 (heapIndex t) (heapOffset t))
      else (m, t)
    | ImmortalAllocation => (m, t)
    end in
  let next := if (heapPtr t1 =? 0) || limitExceeded (mh m1) (pendingFor size mask)
              then AtCollect ty size mask else AtCheck ty size mask in
  (m1, setAt t1 next).

(** src/machine.cpp:4330-4337: what happens behind the collection *)
Inductive verdict := OutOfMemory | Again | Granted.
Definition check (m : machine) (t : thread) (ty : allocType) (size : Z) (mask : bool) : verdict :=
  if limitExceeded (mh m) (pendingFor size mask) then OutOfMemory
  else match ty with
       | MovableAllocation =>
         if ThreadHeapSizeInWords <? u32 (heapIndex t + wordsFor size) then Again else Granted
       | _ => Granted
       end.

(** src/heap/heap.cpp:1997-2012 [allocateFixed] followed by src/machine.cpp:4344-4366: the
    block, the object behind its 24-byte header, the clearing of the object and of the mask,
    the mark word and the footprint (not counted for immortal objects).  A cleared range that
    leaves the block is undefined behaviour. *)
Definition allocateFixed (m : machine) (ty : allocType) (size : Z) (mask : bool)
           (ans : option Z) : res (Z * machine) :=
  if limitExceeded (mh m) 0 then Abort else
  let total := totalSize (wordsFor size) mask in
  do (p, h') <- allocateOrDie (mh m) total ans;
  if limitExceeded h' 0 then Abort else
  if total <? FixieSize + size then UB else
  let o := p + FixieSize in
  Ok (o, Machine h' (mthreads m) (mpool m)
                 (match ty with
                  | FixedAllocation => u32 (mfixed m + totalSize (wordsFor size) mask)
                  | _ => mfixed m end)
                 ((p, total) :: mfixies m) (mothers m)
                 (soil o 8 (zero o size (soil p total (mdirty m)))) (mobjs m)).

(** src/machine.cpp:665-698 [postCollect] for one thread: the new thread and the new memory *)
Definition postCollect (h : heap) (t : thread) (d : Z -> bool) : thread * (Z -> bool) :=
  let d1 := if heapPtr t =? defaultHeap t
            then zero (defaultHeap t) (heapIndex t * 8) d
            else zero (defaultHeap t) ThreadHeapSizeInBytes d in
  let i := if limitExceeded h 0 then ThreadHeapSizeInWords else 0 in
  let t1 := setHeap t (defaultHeap t) i 0 in
  if useBackup t
  then (setBackup t1 0 false, zero (backupHeap t) ThreadBackupHeapSizeInBytes d1)
  else (t1, d1).

(** ... and for all threads *)
Fixpoint postCollectAll (h : heap) (l : list thread) (d : Z -> bool) : list thread * (Z -> bool) :=
  match l with
  | [] => ([], d)
  | t :: r => let '(t', d1) := postCollect h t d in
              let '(r', d2) := postCollectAll h r d1 in
              (t' :: r', d2)
  end.

(** free a list of blocks of the given size one by one *)
Fixpoint freeAll (h : heap) (n : nat) (size : Z) : res heap :=
  match n with
  | O => Ok h
  | S n' => do h' <- heapFree h size; freeAll h' n' size
  end.

(** The size of the part of the Thread structure that is modelled: the backup heap. *)
Definition ThreadSize : Z := ThreadBackupHeapSizeInBytes.

(** src/machine.cpp:3502-3540 [doCollect] (without the finalizers that run afterwards).
    The work of Heap::collect is described by its results: the heap's counters [h1], the
    surviving fixed blocks, the other blocks and the memory contents afterwards; [gone] are
    the threads killZombies disposes of (3524), which frees their buffers (3960-3975). *)
Definition doCollect (m : machine) (h1 : heap) (fixies others : list (Z * Z))
           (d1 : Z -> bool) (gone : thread -> bool) : res machine :=
  let '(ts, d2) := postCollectAll h1 (mthreads m) d1 in
  let dead := filter gone ts in
  do h2 <- freeAll h1 (length dead) ThreadHeapSizeInBytes;
  do h3 <- freeAll h2 (length dead) ThreadSize;
  do h4 <- freeAll h3 (length (mpool m)) ThreadHeapSizeInBytes;
  Ok (Machine h4 (filter (fun t => negb (gone t)) ts) []
              (if limitExceeded h4 0 then FixedFootprintThresholdInBytes else 0)
              fixies others d2
              (filter (fun o => o_fixed o
                         && existsb (fun b => (fst b + FixieSize =? o_addr o)) fixies)
                      (mobjs m))).

(** src/machine.cpp:3823-3853 Thread::Thread and Thread::init: a new thread with its buffer *)
Definition newThread (m : machine) (id : nat) (ansThread ansHeap : option Z) : res machine :=
  do (b, h1) <- allocateOrDie (mh m) ThreadSize ansThread;
  do (p, h2) <- allocateOrDie h1 ThreadHeapSizeInBytes ansHeap;
  Ok (Machine h2 (Thread id p 0 0 p b 0 false false Run :: mthreads m) (mpool m) (mfixed m)
              (mfixies m) (mothers m)
              (zero b ThreadBackupHeapSizeInBytes (zero p ThreadHeapSizeInBytes (mdirty m)))
              (mobjs m)).
