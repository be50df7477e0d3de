(** Model of JNI global and weak global references: a doubly linked list of
    reference-counted cells. *)
From Coq Require Import ZArith List Bool.
From Verif Require Import Res.
Import ListNotations.
Local Open Scope Z_scope.
Local Open Scope res_scope.

(** Where a pointer to a Reference is stored: Machine::jniReferences or the [next] field of a
    Reference (the type [Reference**] of the field [handle]). *)
Inductive place := Root | NextOf (a : Z).

(** src/avian/machine.h:962-978 [class Reference]; addresses are nonzero, 0 is null.
    [target] is the address of the object. *)
Record ref := Ref { target : Z; next : Z; handle : place; cnt : Z; weak : bool }.

(** Machine::jniReferences and the memory that holds References ([None]: not allocated). *)
Record refs := Refs { root : Z; cells : Z -> option ref }.

Definition put (c : Z -> option ref) (a : Z) (r : option ref) : Z -> option ref :=
  fun x => if x =? a then r else c x.

(** [*h = v] *)
Definition store (s : refs) (h : place) (v : Z) : res refs :=
  match h with
  | Root => Ok (Refs v (cells s))
  | NextOf a =>
    do r <- of_option (cells s a);
    Ok (Refs (root s) (put (cells s) a (Some (Ref (target r) v (handle r) (cnt r) (weak r)))))
  end.

(** [a->handle = h] *)
Definition setHandle (s : refs) (a : Z) (h : place) : res refs :=
  do r <- of_option (cells s a);
  Ok (Refs (root s) (put (cells s) a (Some (Ref (target r) (next r) h (cnt r) (weak r))))).

(** src/avian/machine.h:964-971, the constructor, for [handle == &jniReferences]: [a] is the
    memory obtained for the new cell *)
Definition construct (s : refs) (a t : Z) (w : bool) : res refs :=
  let n := root s in
  let s1 := Refs (root s) (put (cells s) a (Some (Ref t n Root 0 w))) in
  do s2 <- (if n =? 0 then Ok s1 else setHandle s1 n (NextOf a));
  Ok (Refs a (cells s2)).

(** src/avian/machine.h:1507-1514 [dispose] *)
Definition dispose (s : refs) (a : Z) : res refs :=
  do r <- of_option (cells s a);
  do s1 <- store s (handle r) (next r);
  do s2 <- (if next r =? 0 then Ok s1 else setHandle s1 (next r) (handle r));
  Ok (Refs (root s2) (put (cells s2) a None)).

(** src/avian/machine.h:1516-1519 [acquire]; [count] is unsigned *)
Definition acquire (s : refs) (a : Z) : res refs :=
  do r <- of_option (cells s a);
  Ok (Refs (root s) (put (cells s) a
        (Some (Ref (target r) (next r) (handle r) ((cnt r + 1) mod 2 ^ 32) (weak r))))).

(** src/avian/machine.h:1521-1526 [release] *)
Definition release (s : refs) (a : Z) : res refs :=
  do r <- of_option (cells s a);
  let c := (cnt r - 1) mod 2 ^ 32 in
  let s1 := Refs (root s) (put (cells s) a (Some (Ref (target r) (next r) (handle r) c (weak r)))) in
  if c =? 0 then dispose s1 a else Ok s1.

(** src/jnienv.cpp:2265-2271: the search; the loop ends after [fuel] cells at the latest *)
Fixpoint search (fuel : nat) (s : refs) (a t : Z) (w : bool) : res Z :=
  match fuel with
  | O => Fuel
  | S f =>
    if a =? 0 then Ok 0
    else do r <- of_option (cells s a);
         if (target r =? t) && Bool.eqb (weak r) w then Ok a else search f s (next r) t w
  end.

(** src/jnienv.cpp:2258-2282 [newGlobalRef] for a non-null handle [o] with [*o == t]; [a] is the
    memory a new cell would get.  The result is the address of the cell (its first field is the
    target, so [&(r->target)] is the same address). *)
Definition newGlobalRef (fuel : nat) (s : refs) (t : Z) (w : bool) (a : Z) : res (Z * refs) :=
  do f <- search fuel s (root s) t w;
  if f =? 0 then
    do s1 <- construct s a t w;
    do s2 <- acquire s1 a;
    Ok (a, s2)
  else
    do s1 <- acquire s f;
    Ok (f, s1).

(** src/jnienv.cpp:2289-2298 [DeleteGlobalRef] and 2305-2308 [DeleteWeakGlobalRef] *)
Definition deleteGlobalRef (s : refs) (a : Z) : res refs :=
  if a =? 0 then Ok s else release s a.

(** src/machine.cpp:5621-5625 (roots), 512-518 and 655-663 (postVisit): what a collection does
    to a cell.  [dead]: the object is found unreachable (src/machine.cpp:657), [final]: it is
    finalizable (475-480, 513-517); [move] gives the new addresses. *)
Definition gcCell (dead final : Z -> bool) (move : Z -> Z) (r : ref) : ref :=
  Ref (if weak r
       then if final (target r) || dead (target r) then 0 else move (target r)
       else move (target r))
      (next r) (handle r) (cnt r) (weak r).

(** the loops over the list *)
Fixpoint gcList (fuel : nat) (dead final : Z -> bool) (move : Z -> Z) (s : refs) (a : Z) : res refs :=
  match fuel with
  | O => Fuel
  | S f =>
    if a =? 0 then Ok s
    else do r <- of_option (cells s a);
         gcList f dead final move
                (Refs (root s) (put (cells s) a (Some (gcCell dead final move r)))) (next r)
  end.
Definition gcRefs (fuel : nat) (dead final : Z -> bool) (move : Z -> Z) (s : refs) : res refs :=
  gcList fuel dead final move s (root s).
