(** The copying collector: src/heap/heap.cpp:920-948 (fresh, wasCollected, follow, parent), 1050-1264
    (copyTo, copy2, copy, update3, update2, updateHeapMap, update), 1366-1755 (collect of one location,
    visitMarkedFixies, collect of the heap map, visitDirtyFixies, collect2) and 2029-2106 (mark).

    Objects are numbers: those below [base] exist before the collection, copies get the numbers from
    [base] on, so that "fresh" (920) is a comparison. Simplifications: memory for copies never runs out;
    an object has a word at every offset, [lay] gives the offsets which the client's walk visits
    (they depend on the object's class only, so a copy gets them with the object); the identity hash
    word that the client's copy may append is the subject of C20; there is no immortal heap (boot image);
    the bookkeeping of the fields that are still to be visited, in the walker and in the words of the
    dead original from word 2 on, is a queue of offsets [pend] (C17 proves that it is one);
    Segment::Map and the masks of fixies are sets of slots. Asserts are not modelled. *)
From Coq Require Import List Bool Arith ZArith.
From Verif Require Import Chain.
Import ListNotations.

(** A word: a reference with its low bits (maskAlignedPointer ignores them, local::set keeps them), or
    data. *)
Inductive word := Ref (o : option nat) (low : Z) | Data (z : Z).
Definition ptr (w : word) : option nat := match w with Ref o _ => o | Data _ => None end.
(** local::set, heap.cpp:90-100 *)
Definition setPtr (w : word) (o : option nat) : word := match w with Ref _ l => Ref o l | Data z => Data z end.

(** include/avian/heap/heap.h:18-23 *)
Definition TenureThreshold := 3.
Definition FixieTenureThreshold := TenureThreshold + 2.
(** Where an object is before the collection: not yet in a generation (allocated by a thread), in gen1
    with an age, in gen2, or fixed, with an age. *)
Inductive place := New | Gen1 (age : nat) | Gen2 | Fixed (age : nat).
Record env := Env { base : nat; loc_ : nat -> place; major : bool }.

(** A location that holds a reference: a root or a field. *)
Inductive slot := Root (r : nat) | Field (o i : nat).

Record heap := H {
  mem : nat -> nat -> word;
  root : nat -> word;
  next : nat;                    (* the next copy *)
  lay : nat -> list nat;         (* offsets of the references in an object *)
  home : nat -> place;           (* where a copy was made: nextGen1 with its age in nextAgeMap, or gen2 / nextGen2 *)
  pend : nat -> list nat;        (* in a dead original: offsets of its copy still to be visited *)
  marked : list nat;             (* markedFixies *)
  mk : nat -> bool;              (* Fixie::marked *)
  rem : nat -> nat -> bool       (* heapMap / nextHeapMap, and the masks of fixies *)
}.
Definition upd2 (m : nat -> nat -> word) o i w : nat -> nat -> word := fun a j => if Nat.eqb a o && Nat.eqb j i then w else m a j.
Definition setMem h m := H m (root h) (next h) (lay h) (home h) (pend h) (marked h) (mk h) (rem h).
Definition setRoot h r w := H (mem h) (upd (root h) r w) (next h) (lay h) (home h) (pend h) (marked h) (mk h) (rem h).
Definition setPend h o l := H (mem h) (root h) (next h) (lay h) (home h) (upd (pend h) o l) (marked h) (mk h) (rem h).
Definition setMarked h l := H (mem h) (root h) (next h) (lay h) (home h) (pend h) l (mk h) (rem h).
Definition setRem h o i b := H (mem h) (root h) (next h) (lay h) (home h) (pend h) (marked h) (mk h)
  (fun a j => if Nat.eqb a o && Nat.eqb j i then b else rem h a j).
Definition get h (l : slot) : word := match l with Root r => root h r | Field o i => mem h o i end.
Definition put h (l : slot) w : heap := match l with Root r => setRoot h r w | Field o i => setMem h (upd2 (mem h) o i w) end.

Section Gc.
Variable e : env.

(** 920-930 *)
Definition fresh (o : nat) : bool := base e <=? o.
Definition wasCollected h o : bool :=
  negb (fresh o) && match ptr (mem h o 0) with Some c => fresh c | None => false end.
(** copy2 1066-1109: where the copy is made *)
Definition promote (p : place) : place :=
  match p with Gen2 => Gen2 | Gen1 a => if a =? TenureThreshold then Gen2 else Gen1 (S a) | _ => Gen1 0 end.
Definition aged h (c : nat) : bool := match home h c with Gen2 => true | _ => false end.
(** copy 1111-1128 *)
Definition copy h o : heap * nat :=
  let r := next h in
  let m := fun a j => if Nat.eqb a r then mem h o j else mem h a j in
  (H (upd2 m o 0 (Ref (Some r) 0)) (root h) (S r) (upd (lay h) r (lay h o)) (upd (home h) r (promote (loc_ e o))) (pend h) (marked h) (mk h) (rem h), r).
(** update3 1130-1155, update2 1157-1165 *)
Definition update3 h o : heap * nat * bool :=
  match loc_ e o with
  | Fixed a => if negb (mk h o) && (major e || (a <? FixieTenureThreshold))
      then (H (mem h) (root h) (next h) (lay h) (home h) (pend h) (o :: marked h) (upd (mk h) o true) (rem h), o, false)
      else (h, o, false)
  | _ => if wasCollected h o then (h, match ptr (mem h o 0) with Some c => c | None => 0 end, false)
      else let '(h', r) := copy h o in (h', r, true)
  end.
Definition update2 h o : heap * nat * bool :=
  if negb (major e) && match loc_ e o with Gen2 => true | _ => false end then (h, o, false) else update3 h o.
(** updateHeapMap 1193-1244 *)
Definition tenured h (x : nat) : bool :=
  if fresh x then aged h x else
  match loc_ e x with Fixed a => FixieTenureThreshold <=? a | Gen2 => negb (major e) | _ => false end.
Definition tracked h (t : nat) : bool :=
  if fresh t then aged h t else
  match loc_ e t with Fixed a => FixieTenureThreshold <=? S a | Gen2 => negb (major e) | _ => false end.
Definition updateHeapMap h (l : slot) (result : nat) : heap :=
  match l with
  | Root _ => h
  | Field t i => if negb (tenured h result) && tracked h t then setRem h t i true else h
  end.
(** update 1246-1264 *)
Definition update h (l : slot) : heap * option nat * bool :=
  match ptr (get h l) with
  | None => (h, None, false)
  | Some o => let '(h', r, v) := update2 h o in (updateHeapMap h' l r, Some r, v)
  end.
(** the walker of 1397-1485: the offsets that need a visit are queued, the others written *)
Fixpoint walk h (c : nat) (l : list nat) : heap * list nat :=
  match l with
  | [] => (h, [])
  | i :: l =>
      let '(h1, r, v) := update h (Field c i) in
      let h2 := if v then h1 else put h1 (Field c i) (setPtr (get h1 (Field c i)) r) in
      let '(h3, q) := walk h2 c l in (h3, if v then i :: q else q)
  end.
(** 932-936 *)
Definition follow h o : option nat := ptr (mem h o 0).
(** 1494-1496, 1563-1565: rewrite the slot and go on with the child *)
Definition into h (c i : nat) : heap * option nat :=
  let o := ptr (mem h c i) in
  (match o with Some x => put h (Field c i) (setPtr (mem h c i) (follow h x)) | None => h end, o).
(** 1394-1569: [o] is the original whose copy is to be walked, [par] the parent to return to *)
Fixpoint visit (fuel : nat) h (o : nat) (par : option nat) : option heap :=
  match fuel with
  | 0 => None
  | S fuel =>
    match follow h o with
    | None => None
    | Some c =>
      let '(h1, q) := walk h c (lay h c) in
      match q with
      | i :: q' =>                                                       (* descend 1487-1496 *)
          let h2 := setPend h1 o q' in
          let '(h3, par') := match q' with [] => (h2, par) | _ => (setMem h2 (upd2 (mem h2) o 1 (Ref par 0)), Some o) end in
          let '(h4, x) := into h3 c i in
          match x with Some x => visit fuel h4 x par' | None => None end
      | [] =>                                                            (* ascend 1497-1569 *)
          match par with
          | None => Some h1
          | Some p =>
              match follow h1 p, pend h1 p with
              | Some cp, i :: q' =>
                  let h2 := setPend h1 p q' in
                  let par' := match q' with [] => ptr (mem h2 p 1) | _ => Some p end in
                  let '(h3, x) := into h2 cp i in
                  match x with Some x => visit fuel h3 x par' | None => None end
              | _, _ => None
              end
          end
      end
    end
  end.
(** collect 1366-1393, of one location *)
Definition collect (fuel : nat) h (l : slot) : option heap :=
  let o := ptr (get h l) in
  let '(h1, r, v) := update h l in
  let h2 := put h1 l (setPtr (get h1 l) r) in
  if v then match o with Some o => visit fuel h2 o None | None => None end else Some h2.
Fixpoint collectAll (fuel : nat) h (ls : list slot) : option heap :=
  match ls with [] => Some h | l :: ls => match collect fuel h l with Some h' => collectAll fuel h' ls | None => None end end.
(** visitMarkedFixies 1643-1673 *)
Fixpoint visitMarked (n fuel : nat) h : option heap :=
  match n with
  | 0 => None
  | S n => match marked h with
    | [] => Some h
    | f :: l => match collectAll fuel (setMarked h l) (map (Field f) (lay h f)) with Some h' => visitMarked n fuel h' | None => None end
    end
  end.
(** the loops over remembered slots: collect 1675-1717 for gen2, visitDirtyFixies 1581-1641 *)
Definition collectRemembered (fuel : nat) h (l : nat * nat) : option heap :=
  let (o, i) := l in
  let h1 := setRem h o i false in
  match loc_ e o with
  | Fixed _ => collect fuel h1 (Field o i)
  | _ =>
    match ptr (mem h1 o i) with
    | Some c => if fresh c && negb (aged h1 c) then Some (setRem h1 o i true) else
        match collect fuel h1 (Field o i) with
        | Some h2 => Some (match ptr (mem h2 o i) with
            | Some c => if (if fresh c then aged h2 c else match loc_ e c with Gen2 => true | _ => false end) then h2 else setRem h2 o i true
            | None => setRem h2 o i true end)
        | None => None end
    | None => Some (setRem h1 o i true)
    end
  end.
Fixpoint collectDirty (fuel : nat) h (ls : list (nat * nat)) : option heap :=
  match ls with [] => Some h | l :: ls => match collectRemembered fuel h l with Some h' => collectDirty fuel h' ls | None => None end end.
(** collect2 1719-1755: [dirty] are the remembered slots, [rs] the roots in the order the client visits
    them *)
Fixpoint collectRoots (fuel : nat) h (rs : list nat) : option heap :=
  match rs with
  | [] => Some h
  | r :: rs => match collect fuel h (Root r) with
      | Some h' => match visitMarked fuel fuel h' with Some h'' => collectRoots fuel h'' rs | None => None end
      | None => None end
  end.
Definition collect2 (fuel : nat) h (dirty : list (nat * nat)) (rs : list nat) : option heap :=
  match (if major e then Some h else collectDirty fuel h dirty) with
  | Some h1 => collectRoots fuel h1 rs
  | None => None
  end.
End Gc.

(** ** The program's side: between collections *)

(** needsMark 2029-2038; targetNeedsMark 2040-2047 is its negation for an object that is not null *)
Definition old (p : place) : bool := match p with Gen2 => true | Fixed a => FixieTenureThreshold <=? a | _ => false end.
(** mark 2049-2106, one word *)
Definition mark (loc : nat -> place) h (p i : nat) : heap :=
  if old (loc p) then match ptr (mem h p i) with Some t => if old (loc t) then h else setRem h p i true | None => h end else h.
(** sweepFixies 999-1051 and the end of collect 1821-1826: the next generations replace the present
    ones, fixed objects that were not marked are freed, those that were get older. What is freed has no
    place; [New] stands for that too. *)
Definition sweepAge (a : nat) : nat := if a =? S FixieTenureThreshold then a else if FixieTenureThreshold <? S a then FixieTenureThreshold else S a.
Definition finish (e : env) h : env * heap :=
  (Env (next h) (fun x => if fresh e x then home h x else
     match loc_ e x with
     | Fixed a => if mk h x then Fixed (sweepAge a) else if major e || (a <? FixieTenureThreshold) then New else Fixed a
     | Gen2 => if major e then New else Gen2
     | _ => New
     end) (major e),
   H (mem h) (root h) (next h) (lay h) (home h) (pend h) [] (fun _ => false) (rem h)).
(** What the loops over the heap map (1675-1717) and over the masks of tenured fixies (1581-1641) find.
    Only offsets of references are ever marked. *)
Definition dirtySlots (e : env) h : list (nat * nat) :=
  flat_map (fun o => if old (loc_ e o) then map (pair o) (filter (rem h o) (lay h o)) else []) (seq 0 (base e)).

Record state := St { here : env; hp : heap }.
(** A collection, minor or major, with the roots 0 .. n-1. The fuel is enough (C18, C19). *)
Definition gc (mj : bool) (n : nat) (s : state) : option state :=
  let e := Env (base (here s)) (loc_ (here s)) mj in
  match collect2 e (S (base e)) (hp s) (if mj then [] else dirtySlots e (hp s)) (seq 0 n) with
  | Some h => let (e', h') := finish e h in Some (St e' h')
  | None => None
  end.
(** allocation (machine.cpp:4248-4365 allocate3, heap.cpp:2014-2019 allocateFixed): a new object whose first word is
    its class *)
Definition alloc (d : nat) (cls : word) (l : list nat) (fixed : bool) (s : state) : state :=
  let e := here s in let h := hp s in let x := base e in
  St (Env (S x) (upd (loc_ e) x (if fixed then Fixed 0 else New)) (major e))
     (H (fun a j => if Nat.eqb a x then (if Nat.eqb j 0 then cls else if existsb (Nat.eqb j) l then Ref None 0 else Data 0) else mem h a j)
        (upd (root h) d (Ref (Some x) 0)) (S x) (upd (lay h) x (0 :: l)) (home h) (pend h) (marked h) (mk h)
        (fun a j => if Nat.eqb a x then false else rem h a j)).
(** What a running program does to the heap, through its roots (registers and stack slots). *)
Inductive op :=
| OMove (d r : nat) | ONull (d : nat) | OLoad (d r i : nat) | OStore (r i d : nat)
| OPut (r i : nat) (z : Z) | OGet (r i : nat) | OSame (a b : nat) | ONew (d c : nat) (l : list nat) (fixed : bool) | OGc (mj : bool).
Inductive out := OutZ (z : Z) | OutB (b : bool) | OutNone.
Definition isRef h x i : bool := existsb (Nat.eqb i) (lay h x).
(** One operation; [n] registers. An operation through a null reference or on the wrong kind of word has
    no effect. *)
Definition exec1 (n : nat) (o : op) (s : state) : option (state * out) :=
  let h := hp s in
  let nop := Some (s, OutNone) in
  match o with
  | OMove d r => if (d <? n) && (r <? n) then Some (St (here s) (setRoot h d (root h r)), OutNone) else nop
  | ONull d => if d <? n then Some (St (here s) (setRoot h d (Ref None 0)), OutNone) else nop
  | OLoad d r i => if (d <? n) && (r <? n) then
      match ptr (root h r) with Some x => if isRef h x i then Some (St (here s) (setRoot h d (mem h x i)), OutNone) else nop | None => nop end else nop
  | OStore r i d => if (d <? n) && (r <? n) then
      match ptr (root h r) with Some x => if isRef h x i then
          Some (St (here s) (mark (loc_ (here s)) (setMem h (upd2 (mem h) x i (root h d))) x i), OutNone) else nop
        | None => nop end else nop
  | OPut r i z => if r <? n then
      match ptr (root h r) with Some x => if isRef h x i then nop else Some (St (here s) (setMem h (upd2 (mem h) x i (Data z))), OutNone) | None => nop end else nop
  | OGet r i => if r <? n then
      match ptr (root h r) with Some x => if isRef h x i then nop else Some (s, match mem h x i with Data z => OutZ z | _ => OutNone end) | None => nop end else nop
  | OSame a b => if (a <? n) && (b <? n) then Some (s, OutB (eqo (ptr (root h a)) (ptr (root h b)))) else nop
  | ONew d c l fixed => if (d <? n) && (c <? n) && negb (existsb (Nat.eqb 0) l) then
        Some (alloc d (root h c) (nodup Nat.eq_dec l) fixed s, OutNone) else nop
  | OGc mj => match gc mj n s with Some s' => Some (s', OutNone) | None => None end
  end.
Definition isGc (o : op) : bool := match o with OGc _ => true | _ => false end.
(** A program; its output is what its operations return, collections return nothing. *)
Fixpoint exec (n : nat) (ops : list op) (s : state) : option (state * list out) :=
  match ops with
  | [] => Some (s, [])
  | o :: ops => match exec1 n o s with
      | Some (s', r) => match exec n ops s' with Some (s'', rs) => Some (s'', if isGc o then rs else r :: rs) | None => None end
      | None => None end
  end.

(** Start: an empty heap, every local null. *)
Definition empty : state := St (Env 0 (fun _ => New) false)
  (H (fun _ _ => Data 0) (fun _ => Ref None 0) 0 (fun _ => []) (fun _ => New) (fun _ => []) [] (fun _ => false) (fun _ _ => false)).
