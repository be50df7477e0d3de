(** Model of the VM hash map: src/util.cpp:310-509 and src/avian/util.h:19-172.

    The bucket array is a list of chains; a chain is the list of its triples
    (key, value), head first.  The triples' in-place relinking is represented
    functionally (a chain is re-consed).  [None] as a result means that the C++ code
    would index outside the array, loop for ever in [nextPowerOfTwo], or decrement
    the size below zero. *)
From Coq Require Import NArith List Bool.
From Verif Require Import Math_Model.
Import ListNotations.
Local Open Scope N_scope.

Section HashMap.
Context {K V : Type}.
(** The [hash] and [equal] callbacks passed to every operation. *)
Variable hash : K -> N.
Variable equal : K -> K -> bool.

(** src/types.def hashMap: (size, array); [None] is the null array pointer.
    Weak maps (class weakHashMap) hold, instead of the key, a weak reference whose
    target may have been cleared by the collector: [dead k = true] stands for
    "the reference to k now has a null target". *)
Record hmap := { hsize : N; harray : option (list (list (K * V))) }.

Definition empty : hmap := {| hsize := 0; harray := None |}.

Variable weak : bool.

(** The test [weak and target == 0] (util.cpp:324-329, 374-379, 484-491). *)
Definition skipped (dead : K -> bool) (k : K) : bool := weak && dead k.

(** util.cpp:320, 381, 442, 480: [hash & (length - 1)] on an array of length [len]. *)
Definition bucketIndex (k : K) (len : nat) : nat :=
  N.to_nat (N.land (hash k) (N.of_nat len - 1)).

(** util.cpp:321-334: walk along one chain. *)
Fixpoint chainFind (dead : K -> bool) (key : K) (c : list (K * V)) : option (K * V) :=
  match c with
  | [] => None
  | (k, v) :: r =>
      if skipped dead k then chainFind dead key r
      else if equal key k then Some (k, v) else chainFind dead key r
  end.

(** util.cpp:310-337 [hashMapFindNode]; outer [None] = index out of range. *)
Definition findNode (dead : K -> bool) (m : hmap) (key : K) : option (option (K * V)) :=
  match harray m with
  | None => Some None
  | Some a =>
      match nth_error a (bucketIndex key (length a)) with
      | None => None
      | Some c => Some (chainFind dead key c)
      end
  end.

(** src/avian/util.h:25-33 [hashMapFind]. *)
Definition find (dead : K -> bool) (m : hmap) (key : K) : option (option V) :=
  match findNode dead m key with
  | None => None
  | Some None => Some None
  | Some (Some (_, v)) => Some (Some v)
  end.

(** Store into an array element; [None] = out of range. *)
Fixpoint set_nth {A} (i : nat) (x : A) (l : list A) : option (list A) :=
  match l, i with
  | [], _ => None
  | _ :: r, O => Some (x :: r)
  | y :: r, S j => match set_nth j x r with None => None | Some r' => Some (y :: r') end
  end.

(** util.cpp:383-384, 444-445: push a node in front of its bucket. *)
Definition pushNode (kv : K * V) (a : list (list (K * V))) : option (list (list (K * V))) :=
  let i := bucketIndex (fst kv) (length a) in
  match nth_error a i with
  | None => None
  | Some c => set_nth i (kv :: c) a
  end.

(** util.cpp:369-385: the inner loop of the resize over one old chain. *)
Fixpoint rehashChain (dead : K -> bool) (c : list (K * V)) (a : list (list (K * V)))
  : option (list (list (K * V))) :=
  match c with
  | [] => Some a
  | kv :: r =>
      if skipped dead (fst kv) then rehashChain dead r a
      else match pushNode kv a with
           | None => None
           | Some a' => rehashChain dead r a'
           end
  end.

(** util.cpp:367-386: the outer loop over the old array. *)
Fixpoint rehashAll (dead : K -> bool) (old : list (list (K * V))) (a : list (list (K * V)))
  : option (list (list (K * V))) :=
  match old with
  | [] => Some a
  | c :: r => match rehashChain dead c a with
              | None => None
              | Some a' => rehashAll dead r a'
              end
  end.

(** util.cpp:339-391 [hashMapResize].  The parameter [size] is [unsigned].
    Simplification: the re-check at 359-363 (a collection inside makeArray resized
    the map) is dropped; [hashMapRemove] never resizes while collecting (502). *)
Definition resize (dead : K -> bool) (m : hmap) (size : N) : option hmap :=
  let size := size mod W32 in
  if size =? 0 then Some {| hsize := hsize m; harray := None |}
  else
    match nextPowerOfTwo size with
    | None => None
    | Some newLength =>
        let fresh := repeat (@nil (K * V)) (N.to_nat newLength) in
        match harray m with
        | None => Some {| hsize := hsize m; harray := Some fresh |}
        | Some old =>
            if N.of_nat (length old) =? newLength then Some m
            else match rehashAll dead old fresh with
                 | None => None
                 | Some a => Some {| hsize := hsize m; harray := Some a |}
                 end
        end
    end.

Definition alen (m : hmap) : N :=
  match harray m with None => 0 | Some a => N.of_nat (length a) end.

(** util.cpp:393-452 [hashMapInsert].  [dead0] is the liveness at the first resize,
    [dead1] at the second: the allocations in between (428, 438) may run a collection. *)
Definition insert (dead0 dead1 : K -> bool) (m : hmap) (key : K) (value : V) : option hmap :=
  let m1 := {| hsize := (hsize m + 1) mod W32; harray := harray m |} in
  let m2 :=
    match harray m1 with
    | None => resize dead0 m1 16
    | Some a => if alen m1 * 2 <=? hsize m1 then resize dead0 m1 (alen m1 * 2) else Some m1
    end in
  match m2 with
  | None => None
  | Some m2 =>
      match harray m2 with
      | None => None
      | Some a =>
          match pushNode (key, value) a with
          | None => None
          | Some a' =>
              let m3 := {| hsize := hsize m2; harray := Some a' |} in
              if hsize m3 <=? alen m3 / 3 then resize dead1 m3 (alen m3 / 2) else Some m3
          end
      end
  end.

(** util.cpp:482-500 and 454-467: the removal walk along one chain.  Result: the new
    chain, the removed value (null if none) and the number of nodes unlinked
    ([--map->size()] in hashMapRemoveNode). *)
Fixpoint chainRemove (dead : K -> bool) (key : K) (c : list (K * V))
  : list (K * V) * option V * N :=
  match c with
  | [] => ([], None, 0)
  | (k, v) :: r =>
      if skipped dead k then
        let '(r', o, n) := chainRemove dead key r in (r', o, n + 1)
      else if equal key k then (r, Some v, 1)
      else let '(r', o, n) := chainRemove dead key r in ((k, v) :: r', o, n)
  end.

(** util.cpp:469-509 [hashMapRemove] outside a collection (t->m->collecting = false). *)
Definition remove (dead : K -> bool) (m : hmap) (key : K) : option (hmap * option V) :=
  match harray m with
  | None => Some (m, None)
  | Some a =>
      let i := bucketIndex key (length a) in
      match nth_error a i with
      | None => None
      | Some c =>
          let '(c', o, n) := chainRemove dead key c in
          match set_nth i c' a with
          | None => None
          | Some a' =>
              if hsize m <? n then None else
              let m1 := {| hsize := hsize m - n; harray := Some a' |} in
              if hsize m1 <=? alen m1 / 3 then
                match resize dead m1 (alen m1 / 2) with
                | None => None
                | Some m2 => Some (m2, o)
                end
              else Some (m1, o)
          end
      end
  end.

(** In-place store [n->setSecond(value)] (src/avian/util.h:58) into the node found. *)
Fixpoint chainSet (dead : K -> bool) (key : K) (value : V) (c : list (K * V)) : list (K * V) :=
  match c with
  | [] => []
  | (k, v) :: r =>
      if skipped dead k then (k, v) :: chainSet dead key value r
      else if equal key k then (k, value) :: r else (k, v) :: chainSet dead key value r
  end.

(** src/avian/util.h:46-61 [hashMapInsertOrReplace]. *)
Definition insertOrReplace (dead0 dead1 : K -> bool) (m : hmap) (key : K) (value : V)
  : option (hmap * bool) :=
  match findNode dead0 m key with
  | None => None
  | Some None => match insert dead0 dead1 m key value with
                 | None => None
                 | Some m' => Some (m', true)
                 end
  | Some (Some _) =>
      match harray m with
      | None => None
      | Some a =>
          let i := bucketIndex key (length a) in
          match nth_error a i with
          | None => None
          | Some c => match set_nth i (chainSet dead0 key value c) a with
                      | None => None
                      | Some a' => Some ({| hsize := hsize m; harray := Some a' |}, false)
                      end
          end
      end
  end.

(** src/avian/util.h:63-77 [hashMapInsertMaybe]. *)
Definition insertMaybe (dead0 dead1 : K -> bool) (m : hmap) (key : K) (value : V)
  : option (hmap * bool) :=
  match findNode dead0 m key with
  | None => None
  | Some None => match insert dead0 dead1 m key value with
                 | None => None
                 | Some m' => Some (m', true)
                 end
  | Some (Some _) => Some (m, false)
  end.

(** src/avian/util.h:118-170 [HashMapIterator]: (array, rest of the current chain, index).
    [itFind] is find() (128-142). *)
Fixpoint itFind (a : list (list (K * V))) : list (K * V) * list (list (K * V)) :=
  match a with
  | [] => ([], [])
  | [] :: r => itFind r
  | c :: r => (c, r)
  end.
(** next() (149-161): [node] with the buckets not yet visited. *)
Definition itNext (s : list (K * V) * list (list (K * V)))
  : option ((K * V) * (list (K * V) * list (list (K * V)))) :=
  match s with
  | ([], _) => None
  | ([x], r) => Some (x, itFind r)
  | (x :: y :: c, r) => Some (x, (y :: c, r))
  end.
(** [for (HashMapIterator it(t, map); it.hasMore();) it.next()], [fuel] calls to next. *)
Fixpoint itRun (fuel : nat) (s : list (K * V) * list (list (K * V))) : list (K * V) :=
  match fuel with
  | O => []
  | S f => match itNext s with None => [] | Some (x, s') => x :: itRun f s' end
  end.
Definition itStart (m : hmap) : list (K * V) * list (list (K * V)) :=
  match harray m with None => ([], []) | Some a => itFind a end.

(** One step of a history.  [Die ks]: the collector clears the references to [ks]. *)
Inductive op :=
| OInsert (k : K) (v : V) (mid : K -> bool)
| OReplace (k : K) (v : V) (mid : K -> bool)
| OMaybe (k : K) (v : V) (mid : K -> bool)
| ORemove (k : K)
| OFind (k : K)
| ODie (ks : K -> bool).

Inductive out := RUnit | RBool (b : bool) | RVal (o : option V).

Definition orb_dead (d e : K -> bool) : K -> bool := fun k => d k || e k.

(** State of a history: the map and the set of keys whose references are cleared. *)
Definition step (s : hmap * (K -> bool)) (o : op) : option ((hmap * (K -> bool)) * out) :=
  let '(m, d) := s in
  match o with
  | OInsert k v mid =>
      let d' := orb_dead d mid in
      match insert d d' m k v with None => None | Some m' => Some ((m', d'), RUnit) end
  | OReplace k v mid =>
      let d' := orb_dead d mid in
      match insertOrReplace d d' m k v with None => None | Some (m', b) => Some ((m', d'), RBool b) end
  | OMaybe k v mid =>
      let d' := orb_dead d mid in
      match insertMaybe d d' m k v with None => None | Some (m', b) => Some ((m', d'), RBool b) end
  | ORemove k => match remove d m k with None => None | Some (m', r) => Some ((m', d), RVal r) end
  | OFind k => match find d m k with None => None | Some r => Some (s, RVal r) end
  | ODie ks => Some ((m, orb_dead d ks), RUnit)
  end.

Fixpoint run (s : hmap * (K -> bool)) (ops : list op) : option ((hmap * (K -> bool)) * list out) :=
  match ops with
  | [] => Some (s, [])
  | o :: r =>
      match step s o with
      | None => None
      | Some (s1, x) => match run s1 r with None => None | Some (s2, xs) => Some (s2, x :: xs) end
      end
  end.
End HashMap.
Arguments op : clear implicits.
Arguments out : clear implicits.
Arguments hmap : clear implicits.
