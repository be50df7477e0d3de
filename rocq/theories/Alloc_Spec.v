(** Specification of object allocation: executions of the allocator, and what
    the program observes. *)
From Coq Require Import ZArith List Bool.
From Verif Require Import Res Alloc_Model.
Import ListNotations.
Local Open Scope Z_scope.

(** ** Native heap histories *)

(** Requests to the native heap; [ans] is the system allocator's answer. *)
Inductive request :=
| TryAllocate (size : Z) (ans : option Z)
| Allocate (size : Z) (ans : option Z)
| Free (p size : Z).

Definition total (live : list (Z * Z)) : Z := fold_right (fun b s => snd b + s) 0 live.

Fixpoint removeBlock (p : Z) (live : list (Z * Z)) : list (Z * Z) :=
  match live with
  | [] => []
  | b :: r => if fst b =? p then r else b :: removeBlock p r
  end.

(** One request; the live blocks are what the client was given and has not freed. *)
Definition serve (h : heap) (live : list (Z * Z)) (r : request) : res (heap * list (Z * Z)) :=
  match r with
  | TryAllocate size ans =>
    match tryAllocate h size ans with
    | (Some p, h') => Ok (h', (p, size) :: live)
    | (None, h') => Ok (h', live)
    end
  | Allocate size ans =>
    match allocateOrDie h size ans with
    | Ok (p, h') => Ok (h', (p, size) :: live)
    | Abort => Abort | UB => UB | Fuel => Fuel
    end
  | Free p size =>
    match heapFree h size with
    | Ok h' => Ok (h', removeBlock p live)
    | Abort => Abort | UB => UB | Fuel => Fuel
    end
  end.

(** A client frees what it was given, with the size it asked for; sizes are not negative. *)
Definition legal (live : list (Z * Z)) (r : request) : Prop :=
  match r with
  | TryAllocate size ans | Allocate size ans =>
    0 <= size < 2 ^ 63 /\ forall p, ans = Some p -> ~ In p (map fst live)
  | Free p size => In (p, size) live
  end.

Inductive history (lim : Z) : heap -> list (Z * Z) -> Prop :=
| hi_start : forall g, history lim (Heap 0 lim g) []
| hi_step : forall h live r h' live',
    history lim h live -> legal live r -> serve h live r = Ok (h', live') ->
    total live' < 2 ^ 32 ->
    history lim h' live'.

(** ** Executions of the machine *)

Definition apart (a b : Z * Z) : Prop :=
  fst a + snd a <= fst b \/ fst b + snd b <= fst a.
Definition inside (a b : Z * Z) : Prop :=
  fst b <= fst a /\ fst a + snd a <= fst b + snd b.

Definition threadBlocks (t : thread) : list (Z * Z) :=
  [(defaultHeap t, ThreadHeapSizeInBytes); (backupHeap t, ThreadBackupHeapSizeInBytes)].
Definition poolBlocks (p : list Z) : list (Z * Z) := map (fun a => (a, ThreadHeapSizeInBytes)) p.

(** all blocks the heap has obtained and not given back *)
Definition blocksOf (ts : list thread) (pool : list Z) (fixies others : list (Z * Z)) : list (Z * Z) :=
  flat_map threadBlocks ts ++ poolBlocks pool ++ fixies ++ others.
Definition blocks (m : machine) : list (Z * Z) :=
  blocksOf (mthreads m) (mpool m) (mfixies m) (mothers m).

(** The system allocator answers with a null pointer or a block that overlaps no other. *)
Definition fresh (bs : list (Z * Z)) (size : Z) (ans : option Z) : Prop :=
  forall p, ans = Some p -> 0 < p /\ forall b, In b bs -> apart (p, size) b.

Definition range (o : obj) : Z * Z := (o_addr o, o_size o).
Definition within (x : Z) (b : Z * Z) : Prop := fst b <= x < fst b + snd b.

(** What Heap::collect leaves behind: some fixed blocks have been freed, the generations
    occupy arbitrary other blocks, the counters are right, and in the threads' buffers only
    bytes that belong to objects have been written (forwarding pointers). *)
Definition collected (m : machine) (h1 : heap) (fixies others : list (Z * Z)) (d1 : Z -> bool) : Prop :=
  limit h1 = limit (mh m) /\
  count h1 = u32 (total (blocksOf (mthreads m) (mpool m) fixies others)) /\
  incl fixies (mfixies m) /\
  (forall b, In b others -> 0 < fst b /\ 0 < snd b) /\
  ForallOrdPairs apart (blocksOf (mthreads m) (mpool m) fixies others) /\
  (forall t b x, In t (mthreads m) -> In b (threadBlocks t) -> within x b -> d1 x = true ->
     mdirty m x = true \/ exists o, In o (mobjs m) /\ within x (range o)).

(** Requests of the program: a multiple of the word size below 2 GB. *)
Definition goodSize (size : Z) : Prop := 0 < size < 2 ^ 31 /\ size mod 8 = 0.

Definition withThread (m : machine) (t : thread) : machine :=
  Machine (mh m) (update t (mthreads m)) (mpool m) (mfixed m) (mfixies m) (mothers m)
          (mdirty m) (mobjs m).
Definition withObj (m : machine) (o : obj) : machine :=
  Machine (mh m) (mthreads m) (mpool m) (mfixed m) (mfixies m) (mothers m)
          (mdirty m) (o :: mobjs m).

Inductive label := Gave (o : obj) | NoMemory (id : nat) | Quiet.

(** One step of some thread, or of the world around it.  Threads interleave at every point,
    also inside allocate3. *)
Inductive step : machine -> label -> machine -> Prop :=
| st_fast : forall m t size excl a t',
    In t (mthreads m) -> at_ t = Run -> goodSize size ->
    takesSlowPath t size excl = false -> allocateSmall t size = (a, t') ->
    step m (Gave (Obj (tid t) a size false)) (withObj (withThread m t') (Obj (tid t) a size false))
| st_enterReturn : forall m t ty size mask a t',
    In t (mthreads m) -> at_ t = Run -> goodSize size ->
    enter3 t ty size mask = Ok (Returned a t') ->
    step m (Gave (Obj (tid t) a size false)) (withObj (withThread m t') (Obj (tid t) a size false))
| st_enter : forall m t ty size mask t',
    In t (mthreads m) -> at_ t = Run -> goodSize size ->
    (ty = MovableAllocation -> typeFor size = MovableAllocation) ->
    enter3 t ty size mask = Ok (Entered t') ->
    step m Quiet (withThread m t')
| st_refill : forall m t ty size mask ans m1 t1,
    In t (mthreads m) -> at_ t = AtLoop ty size mask ->
    fresh (blocks m) ThreadHeapSizeInBytes ans ->
    refill m t ty size mask ans = (m1, t1) ->
    step m Quiet (withThread m1 t1)
| st_collect : forall m t ty size mask h1 fixies others d1 gone m1 t1,
    In t (mthreads m) -> at_ t = AtCollect ty size mask ->
    collected m h1 fixies others d1 ->
    (forall u, gone u = true -> at_ u = Run) ->
    doCollect m h1 fixies others d1 gone = Ok m1 ->
    In t1 (mthreads m1) -> tid t1 = tid t ->
    step m Quiet (withThread m1 (setAt t1 (AtCheck ty size mask)))
| st_gc : forall m h1 fixies others d1 gone m1,
    collected m h1 fixies others d1 ->
    (forall u, gone u = true -> at_ u = Run) ->
    doCollect m h1 fixies others d1 gone = Ok m1 ->
    step m Quiet m1
| st_oom : forall m t ty size mask,
    In t (mthreads m) -> at_ t = AtCheck ty size mask ->
    check m t ty size mask = OutOfMemory ->
    step m (NoMemory (tid t)) (withThread m (setAt t Run))
| st_again : forall m t ty size mask,
    In t (mthreads m) -> at_ t = AtCheck ty size mask ->
    check m t ty size mask = Again ->
    step m Quiet (withThread m (setAt t (AtLoop ty size mask)))
| st_give : forall m t size mask a t',
    In t (mthreads m) -> at_ t = AtCheck MovableAllocation size mask ->
    check m t MovableAllocation size mask = Granted ->
    allocateSmall t size = (a, t') ->
    step m (Gave (Obj (tid t) a size false))
         (withObj (withThread m (setAt t' Run)) (Obj (tid t) a size false))
| st_giveFixed : forall m t ty size mask ans a m1,
    In t (mthreads m) -> at_ t = AtCheck ty size mask -> ty <> MovableAllocation ->
    check m t ty size mask = Granted ->
    fresh (blocks m) (totalSize (wordsFor size) mask) ans ->
    allocateFixed m ty size mask ans = Ok (a, m1) ->
    step m (Gave (Obj (tid t) a size true))
         (withObj (withThread m1 (setAt t Run)) (Obj (tid t) a size true))
| st_ensure : forall m t size ok t',
    In t (mthreads m) -> at_ t = Run -> goodSize size -> ensure t size = Ok (ok, t') ->
    step m Quiet (withThread m t')
| st_tracing : forall m t b,
    In t (mthreads m) -> at_ t = Run ->
    step m Quiet (withThread m (setTracing t b))
| st_write : forall m o a n,
    In o (mobjs m) -> inside (a, n) (range o) ->
    step m Quiet (Machine (mh m) (mthreads m) (mpool m) (mfixed m) (mfixies m) (mothers m)
                          (soil a n (mdirty m)) (mobjs m))
| st_spawn : forall m id ans1 ans2 m',
    ~ In id (map tid (mthreads m)) ->
    fresh (blocks m) ThreadSize ans1 ->
    (forall p, ans1 = Some p ->
       fresh ((p, ThreadSize) :: blocks m) ThreadHeapSizeInBytes ans2) ->
    newThread m id ans1 ans2 = Ok m' ->
    step m Quiet m'
| st_native : forall m size ans p h',
    0 < size < 2 ^ 63 -> fresh (blocks m) size ans ->
    allocateOrDie (mh m) size ans = Ok (p, h') ->
    step m Quiet (Machine h' (mthreads m) (mpool m) (mfixed m) (mfixies m)
                          ((p, size) :: mothers m) (mdirty m) (mobjs m))
| st_nativeFree : forall m p size l1 l2 h',
    mothers m = l1 ++ (p, size) :: l2 ->
    heapFree (mh m) size = Ok h' ->
    step m Quiet (Machine h' (mthreads m) (mpool m) (mfixed m) (mfixies m)
                          (l1 ++ l2) (mdirty m) (mobjs m)).

Inductive reachable (lim g : Z) : machine -> Prop :=
| re_start : forall d, reachable lim g (Machine (Heap 0 lim g) [] [] 0 [] [] d [])
| re_step : forall m l m', reachable lim g m -> step m l m' -> reachable lim g m'.
