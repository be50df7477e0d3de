(** Model of the hash map of the class library (classpath/java/util/HashMap.java), with
    avian/Data.java [nextPowerOfTwo] and the classes built on it: HashSet.java, WeakHashMap.java,
    and the views of Data.java. *)
From Coq Require Import List ZArith Bool.
From Verif Require Import Res Chain JNum_Model.
Import ListNotations.
Local Open Scope Z_scope.
Local Open Scope res_scope.

(** classpath/avian/Data.java:21-25 [nextPowerOfTwo]: the loop, from r; [Fuel] if it has not ended *)
Fixpoint pow2From (fuel : nat) (r n : Z) : res Z :=
  match fuel with
  | O => Fuel
  | S k => if r <? n then pow2From k (wrap32 (Z.shiftl r 1)) n else Ok r
  end.
Definition nextPowerOfTwo (fuel : nat) (n : Z) : res Z := pow2From fuel 1 n.

(** storing an array element (the index is in range) *)
Fixpoint setNth {A} (l : list A) (n : nat) (x : A) : list A :=
  match l, n with
  | [], _ => []
  | _ :: r, O => x :: r
  | y :: r, S k => y :: setNth r k x
  end.

Section Map.
(** The keys with hashCode and equals (helper.hash, helper.equal: HashMap.java:310-322), the values
    with equals. *)
Context {K V : Type} (hash : K -> Z) (equal : K -> K -> bool) (equalV : V -> V -> bool).

(** HashMap.java:270-308 [MyCell]; references to cells are numbers, null is None *)
Record cell := Cell { ckey : K; cval : V; chash : Z; cnext : option nat }.
Definition store := nat -> option cell.
(** HashMap.java:18-20; [fresh] is the number of cells ever made *)
Record map := Map { size : Z; array : option (list (option nat)); cells : store; fresh : nat }.

Definition setNext (cs : store) (i : nat) (n : option nat) : store :=
  match cs i with
  | Some c => upd cs i (Some (Cell (ckey c) (cval c) (chash c) n))
  | None => cs
  end.
Definition setValue (cs : store) (i : nat) (v : V) : store :=
  match cs i with
  | Some c => upd cs i (Some (Cell (ckey c) v (chash c) (cnext c)))
  | None => cs
  end.
Definition withCells (m : map) (cs : store) : map := Map (size m) (array m) cs (fresh m).

Definition capacityOf (a : list (option nat)) : Z := Z.of_nat (length a).
(** [h & (array.length - 1)] *)
Definition indexFor (h cap : Z) : nat := Z.to_nat (Z.land h (cap - 1)).
Definition at_ (a : list (option nat)) (i : nat) : res (option nat) := of_option (nth_error a i).

(** HashMap.java:22-27: the constructor *)
Definition newMap (fuel : nat) (capacity : Z) : res map :=
  if 0 <? capacity
  then do n <- nextPowerOfTwo fuel capacity;
       if n <? 0 then Abort else Ok (Map 0 (Some (repeat None (Z.to_nat n))) (fun _ => None) 0)
  else Ok (Map 0 None (fun _ => None) 0).

(** HashMap.java:80-85: one chain is moved to the new array *)
Fixpoint rehashChain (fuel : nat) (cap : Z) (c : option nat) (na : list (option nat)) (cs : store)
    : res (list (option nat) * store) :=
  match c with
  | None => Ok (na, cs)
  | Some i =>
    match fuel with
    | O => Fuel
    | S k =>
      do x <- of_option (cs i);
      let index := indexFor (chash x) cap in
      do head <- at_ na index;
      rehashChain k cap (cnext x) (setNth na index (Some i)) (setNext cs i head)
    end
  end.
(** HashMap.java:78: for all chains *)
Fixpoint rehash (fuel : nat) (cap : Z) (old : list (option nat)) (na : list (option nat)) (cs : store)
    : res (list (option nat) * store) :=
  match old with
  | [] => Ok (na, cs)
  | c :: rest =>
    do r <- rehashChain fuel cap c na cs;
    rehash fuel cap rest (fst r) (snd r)
  end.

(** HashMap.java:68-90 [resize] *)
Definition resize (m : map) (capacity : Z) : res map :=
  if capacity =? 0 then Ok (Map (size m) None (cells m) (fresh m)) else
  do cap <- nextPowerOfTwo 64 capacity;
  match array m with
  | Some a =>
    if capacityOf a =? cap then Ok m else
    if cap <? 0 then Abort else
    do r <- rehash (S (fresh m)) cap a (repeat None (Z.to_nat cap)) (cells m);
    Ok (Map (size m) (Some (fst r)) (snd r) (fresh m))
  | None =>
    if cap <? 0 then Abort else
    Ok (Map (size m) (Some (repeat None (Z.to_nat cap))) (cells m) (fresh m))
  end.

(** HashMap.java:16 *)
Definition MinimumCapacity : Z := 16.
(** HashMap.java:56-60 [grow] *)
Definition grow (m : map) : res map :=
  match array m with
  | None => resize m MinimumCapacity
  | Some a =>
    if wrap32 (capacityOf a * 2) <=? size m then resize m (wrap32 (capacityOf a * 2)) else Ok m
  end.
(** HashMap.java:62-66 [shrink]; the array is not null *)
Definition shrink (m : map) : res map :=
  do a <- of_option (array m);
  if (MinimumCapacity <=? capacityOf a / 2) && (size m <=? capacityOf a / 3)
  then resize m (capacityOf a / 2) else Ok m.

(** HashMap.java:95-99 *)
Fixpoint findLoop (fuel : nat) (cs : store) (key : K) (c : option nat) : res (option nat) :=
  match c with
  | None => Ok None
  | Some i =>
    match fuel with
    | O => Fuel
    | S k => do x <- of_option (cs i);
             if equal key (ckey x) then Ok (Some i) else findLoop k cs key (cnext x)
    end
  end.
(** HashMap.java:92-103 [find] *)
Definition find (m : map) (key : K) : res (option nat) :=
  match array m with
  | None => Ok None
  | Some a =>
    do c <- at_ a (indexFor (hash key) (capacityOf a));
    findLoop (S (fresh m)) (cells m) key c
  end.

(** HashMap.java:105-113 [insert], of a cell made by helper.make(key, value, null) *)
Definition insert (m : map) (key : K) (v : V) : res map :=
  let i := fresh m in
  let m1 := Map (wrap32 (size m + 1)) (array m)
                (upd (cells m) i (Some (Cell key v (hash key) None))) (S (fresh m)) in
  do m2 <- grow m1;
  do a <- of_option (array m2);
  let index := indexFor (hash key) (capacityOf a) in
  do head <- at_ a index;
  Ok (Map (size m2) (Some (setNth a index (Some i))) (setNext (cells m2) i head) (fresh m2)).

(** HashMap.java:190-200 [put]; null is None *)
Definition put (m : map) (key : K) (v : V) : res (option V * map) :=
  do c <- find m key;
  match c with
  | None => do m' <- insert m key v; Ok (None, m')
  | Some i =>
    do x <- of_option (cells m i);
    Ok (Some (cval x), withCells m (setValue (cells m) i v))
  end.

(** HashMap.java:161-164 [get], 143-145 [containsKey] *)
Definition get (m : map) (key : K) : res (option V) :=
  do c <- find m key;
  match c with None => Ok None | Some i => do x <- of_option (cells m i); Ok (Some (cval x)) end.
Definition containsKey (m : map) (key : K) : res bool :=
  do c <- find m key; Ok (match c with None => false | Some _ => true end).

(** HashMap.java:150-154, 147-159 [containsValue] *)
Fixpoint valueLoop (fuel : nat) (cs : store) (v : V) (c : option nat) : res bool :=
  match c with
  | None => Ok false
  | Some i =>
    match fuel with
    | O => Fuel
    | S k => do x <- of_option (cs i); if equalV v (cval x) then Ok true else valueLoop k cs v (cnext x)
    end
  end.
Fixpoint valueScan (fuel : nat) (cs : store) (v : V) (a : list (option nat)) : res bool :=
  match a with
  | [] => Ok false
  | c :: rest => do b <- valueLoop fuel cs v c; if (b : bool) then Ok true else valueScan fuel cs v rest
  end.
Definition containsValue (m : map) (v : V) : res bool :=
  match array m with None => Ok false | Some a => valueScan (S (fresh m)) (cells m) v a end.

(** HashMap.java:171-183: the loop of removeCell; [p] is the cell before; the result is the removed
    cell with the head of the chain and the cells afterwards *)
Fixpoint unlinkKey (fuel : nat) (cs : store) (key : K) (head p c : option nat)
    : res (option nat * option nat * store) :=
  match c with
  | None => Ok (None, head, cs)
  | Some i =>
    match fuel with
    | O => Fuel
    | S k =>
      do x <- of_option (cs i);
      if equal key (ckey x)
      then match p with
           | None => Ok (Some i, cnext x, cs)
           | Some q => Ok (Some i, head, setNext cs q (cnext x))
           end
      else unlinkKey k cs key head c (cnext x)
    end
  end.
(** HashMap.java:166-188 [removeCell], 208-211 [remove] *)
Definition removeCell (m : map) (key : K) : res (option nat * map) :=
  match array m with
  | None => Ok (None, m)
  | Some a =>
    let index := indexFor (hash key) (capacityOf a) in
    do c <- at_ a index;
    do r <- unlinkKey (S (fresh m)) (cells m) key c None c;
    let '(old, head, cs) := r in
    do m' <- shrink (Map (match old with Some _ => wrap32 (size m - 1) | None => size m end)
                         (Some (setNth a index head)) cs (fresh m));
    Ok (old, m')
  end.
Definition remove (m : map) (key : K) : res (option V * map) :=
  do r <- removeCell m key;
  match fst r with
  | None => Ok (None, snd r)
  | Some i => do x <- of_option (cells (snd r) i); Ok (Some (cval x), snd r)
  end.

(** HashMap.java:115-131 [remove(Cell)]: here p is never set *)
Fixpoint unlinkCell (fuel : nat) (cs : store) (cell : nat) (head p c : option nat)
    : res (bool * option nat * store) :=
  match c with
  | None => Ok (false, head, cs)
  | Some i =>
    match fuel with
    | O => Fuel
    | S k =>
      do x <- of_option (cs i);
      if Nat.eqb i cell
      then match p with
           | None => Ok (true, cnext x, cs)
           | Some q => Ok (true, head, setNext cs q (cnext x))
           end
      else unlinkCell k cs cell head p (cnext x)
    end
  end.
Definition removeThis (m : map) (cell : nat) : res map :=
  do a <- of_option (array m);
  do y <- of_option (cells m cell);
  let index := indexFor (chash y) (capacityOf a) in
  do c <- at_ a index;
  do r <- unlinkCell (S (fresh m)) (cells m) cell c None c;
  let '(found, head, cs) := r in
  shrink (Map (if (found : bool) then wrap32 (size m - 1) else size m) (Some (setNth a index head)) cs (fresh m)).

(** HashMap.java:213-216 [clear] *)
Definition clear (m : map) : map := Map 0 None (cells m) (fresh m).

(** ** The iterator, HashMap.java:324-384 *)
Record iter := Iter { curIndex : Z; nextIndex : Z; prevCell : option nat; curCell : option nat;
                      nextCell : option nat }.
(** HashMap.java:358-363; the int [nextIndex] is taken to be unbounded (it grows by one with every
    call after the end) *)
Fixpoint seekLoop (fuel : nat) (a : list (option nat)) (next : Z) : res (Z * option nat) :=
  match fuel with
  | O => Fuel
  | S k =>
    let n := next + 1 in
    if n <? capacityOf a
    then do c <- at_ a (Z.to_nat n);
         match c with Some _ => Ok (n, c) | None => seekLoop k a n end
    else Ok (n, None)
  end.
(** HashMap.java:356-366 [hasNext] *)
Definition hasNext (m : map) (it : iter) : res (bool * iter) :=
  do it' <- match array m, nextCell it with
            | Some a, None =>
              do r <- seekLoop (S (length a)) a (nextIndex it);
              Ok (Iter (curIndex it) (fst r) (prevCell it) (curCell it) (snd r))
            | _, _ => Ok it
            end;
  Ok (match nextCell it' with Some _ => true | None => false end, it').
(** HashMap.java:331-333 *)
Definition iterator (m : map) : res iter :=
  do r <- hasNext m (Iter (-1) (-1) None None None); Ok (snd r).
(** HashMap.java:335-354 [next] *)
Definition next (m : map) (it : iter) : res (nat * iter) :=
  do r <- hasNext m it;
  let it := snd r in
  if (fst r : bool) then
    do prev <- match curCell it with
               | Some c => do x <- of_option (cells m c);
                           Ok (match cnext x with Some _ => Some c | None => None end)
               | None => Ok (prevCell it)
               end;
    do n <- of_option (nextCell it);
    do y <- of_option (cells m n);
    Ok (n, Iter (nextIndex it) (nextIndex it) prev (Some n) (cnext y))
  else Abort.
(** HashMap.java:368-383 [remove] *)
Definition iterRemove (m : map) (it : iter) : res (map * iter) :=
  match curCell it with
  | None => Abort
  | Some c =>
    do x <- of_option (cells m c);
    match prevCell it with
    | None =>
      do a <- of_option (array m);
      Ok (Map (wrap32 (size m - 1)) (Some (setNth a (Z.to_nat (curIndex it)) (cnext x))) (cells m) (fresh m),
          Iter (curIndex it) (nextIndex it) None None (nextCell it))
    | Some p =>
      let cs := setNext (cells m) p (cnext x) in
      do y <- of_option (cs p);
      Ok (Map (wrap32 (size m - 1)) (array m) cs (fresh m),
          Iter (curIndex it) (nextIndex it) (match cnext y with None => None | Some _ => Some p end)
               None (nextCell it))
    end
  end.

(** A loop over the entries as users write it: [while (it.hasNext()) { e = it.next(); if (p(e))
    it.remove(); }], giving what was seen; with [peek] hasNext() is also called before remove(). *)
Fixpoint walkLoop (fuel : nat) (peek : bool) (p : K -> V -> bool) (m : map) (it : iter) (seen : list (K * V))
    : res (list (K * V) * map) :=
  match fuel with
  | O => Fuel
  | S k =>
    do r <- hasNext m it;
    if (fst r : bool) then
      do n <- next m (snd r);
      do x <- of_option (cells m (fst n));
      let seen' := seen ++ [(ckey x, cval x)] in
      if p (ckey x) (cval x)
      then do it1 <- (if peek then do h <- hasNext m (snd n); Ok (snd h) else Ok (snd n));
           do mi <- iterRemove m it1; walkLoop k peek p (fst mi) (snd mi) seen'
      else walkLoop k peek p m (snd n) seen'
    else Ok (seen, m)
  end.
Definition walk (peek : bool) (p : K -> V -> bool) (m : map) : res (list (K * V) * map) :=
  do it <- iterator m; walkLoop (S (fresh m)) peek p m it [].

(** ** Histories *)
Inductive op :=
| Put (k : K) (v : V) | Get (k : K) | Remove (k : K) | ContainsKey (k : K) | ContainsValue (v : V)
| Size | Clear | Walk (peek : bool) (p : K -> V -> bool).
Inductive result := RVal (v : option V) | RBool (b : bool) | RInt (z : Z) | RUnit | RSeen (l : list (K * V)).
Definition apply (m : map) (o : op) : res (result * map) :=
  match o with
  | Put k v => do r <- put m k v; Ok (RVal (fst r), snd r)
  | Get k => do r <- get m k; Ok (RVal r, m)
  | Remove k => do r <- remove m k; Ok (RVal (fst r), snd r)
  | ContainsKey k => do r <- containsKey m k; Ok (RBool r, m)
  | ContainsValue v => do r <- containsValue m v; Ok (RBool r, m)
  | Size => Ok (RInt (size m), m)
  | Clear => Ok (RUnit, clear m)
  | Walk peek p => do r <- walk peek p m; Ok (RSeen (fst r), snd r)
  end.
Fixpoint run (m : map) (os : list op) : res (list result * map) :=
  match os with
  | [] => Ok ([], m)
  | o :: r => do x <- apply m o; do y <- run (snd x) r; Ok (fst x :: fst y, snd y)
  end.

(** ** Views: classpath/avian/Data.java:106-118: [EntrySet.contains] and [remove] of an entry (k, v) *)
Definition entryContains (m : map) (e : K * V) : res bool := containsKey m (fst e).
Definition entryRemove (m : map) (e : K * V) : res (bool * map) :=
  do r <- removeCell m (fst e);
  Ok (match fst r with None => false | Some _ => true end, snd r).
End Map.

Arguments Put {K V}. Arguments Get {K V}. Arguments Remove {K V}. Arguments ContainsKey {K V}.
Arguments ContainsValue {K V}. Arguments Size {K V}. Arguments Clear {K V}. Arguments Walk {K V}.

(** ** HashSet.java:46-62: [add] and [remove]; the values are the one object Value *)
Definition setAdd {K} (hash : K -> Z) equal (m : @map K unit) (k : K) : res (bool * map) :=
  do r <- put hash equal m k tt;
  Ok (match fst r with Some _ => false | None => true end, snd r).
Definition setRemove {K} (hash : K -> Z) equal (m : @map K unit) (k : K) : res (bool * map) :=
  do r <- remove hash equal m k;
  Ok (match fst r with Some _ => false | None => true end, snd r).

(** ** WeakHashMap.java: the key of a cell is a weak reference (null once cleared), so here keys are
    options; the collector clears it and queues the cell.
    WeakHashMap.java:33-40 [poll], for the queue [q] *)
Definition collectKey {K V} (m : @map (option K) V) (i : nat) : map :=
  withCells m (match cells m i with
               | Some c => upd (cells m) i (Some (Cell None (cval c) (chash c) (cnext c)))
               | None => cells m end).
Fixpoint poll {K V} (m : @map (option K) V) (q : list nat) : res map :=
  match q with [] => Ok m | i :: r => do m' <- removeThis m i; poll m' r end.
