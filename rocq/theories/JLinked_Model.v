(** java.util.LinkedHashMap: classpath/java/util/LinkedHashMap.java:13-266. Its two HashMaps
    ([super] and [lookup]) are taken as finite maps. *)
From Coq Require Import List Bool Arith.
Import ListNotations.

(** Keys are numbers here; only their equality is used. *)
Definition key := nat.
(** LinkedHashMap.java:14-30: LinkedKey; a reference is an index in the list of all cells made *)
Record cell := { ckey : key; previous : option nat; next : option nat }.
(** HashMap: get, put, remove *)
Section Dict.
Context {V : Type}.
Definition dict := list (key * V).
Fixpoint dget (k : key) (d : dict) : option V := match d with [] => None | (k', v) :: r => if k =? k' then Some v else dget k r end.
Definition dremove (k : key) (d : dict) : dict := filter (fun e => negb (k =? fst e)) d.
Definition dput (k : key) (v : V) (d : dict) : dict := (k, v) :: dremove k d.
End Dict.
Arguments dict : clear implicits.

(** LinkedHashMap.java:32-33 *)
Record lmap (V : Type) := { heap : list cell; first : option nat; last : option nat; lookup : dict nat; table : dict V }.
Arguments heap {V}. Arguments first {V}. Arguments last {V}. Arguments lookup {V}. Arguments table {V}.
Section Ops.
Context {V : Type}.
(** LinkedHashMap.java:35-42 *)
Definition fresh : lmap V := {| heap := []; first := None; last := None; lookup := []; table := [] |}.
Definition upd (h : list cell) (i : nat) (f : cell -> cell) : list cell :=
  match nth_error h i with Some c => firstn i h ++ f c :: skipn (S i) h | None => h end.
Definition setNext (n : option nat) (c : cell) : cell := {| ckey := ckey c; previous := previous c; next := n |}.
Definition setPrev (p : option nat) (c : cell) : cell := {| ckey := ckey c; previous := p; next := next c |}.

(** LinkedHashMap.java:49-62; [None]: NullPointerException at [last.next] *)
Definition put (k : key) (v : V) (m : lmap V) : option (lmap V * option V) :=
  let old := dget k (table m) in
  match old with
  | Some _ => Some ({| heap := heap m; first := first m; last := last m; lookup := lookup m; table := dput k v (table m) |}, old)
  | None =>
      let i := length (heap m) in
      match first m, last m with
      | None, _ =>
          Some ({| heap := heap m ++ [{| ckey := k; previous := None; next := None |}]; first := Some i; last := Some i;
                   lookup := dput k i (lookup m); table := dput k v (table m) |}, None)
      | Some f, Some l =>
          Some ({| heap := upd (heap m) l (setNext (Some i)) ++ [{| ckey := k; previous := Some l; next := None |}]; first := Some f; last := Some i;
                   lookup := dput k i (lookup m); table := dput k v (table m) |}, None)
      | Some _, None => None
      end
  end.
(** LinkedHashMap.java:64-80 *)
Definition remove (k : key) (m : lmap V) : lmap V * option V :=
  match dget k (lookup m) with
  | None => (m, None)
  | Some i =>
      match nth_error (heap m) i with
      | None => (m, None)                       (* no reference dangles *)
      | Some c =>
          let h1 := match previous c with None => heap m | Some p => upd (heap m) p (setNext (next c)) end in
          let f1 := match previous c with None => next c | Some _ => first m end in
          let h2 := match next c with None => h1 | Some n => upd h1 n (setPrev (previous c)) end in
          let l1 := match next c with None => previous c | Some _ => last m end in
          ({| heap := h2; first := f1; last := l1; lookup := lookup m; table := dremove k (table m) |}, dget k (table m))
      end
  end.
(** LinkedHashMap.java:82-85 *)
Definition clear (m : lmap V) : lmap V :=
  {| heap := heap m; first := None; last := None; lookup := lookup m; table := [] |}.
(** HashMap.get *)
Definition get (k : key) (m : lmap V) : option V := dget k (table m).
(** LinkedHashMap.java:245-259: the entries given by an iterator to its end: the key of the
    cell, and the value of the entry, [None] when next() gives null. [None]: no end in [fuel] steps *)
Fixpoint walk (fuel : nat) (m : lmap V) (current : option nat) : option (list (key * option V)) :=
  match current with
  | None => Some []
  | Some i =>
      match fuel with
      | O => None
      | S f => match nth_error (heap m) i with
               | None => None
               | Some c => match walk f m (next c) with Some r => Some ((ckey c, dget (ckey c) (table m)) :: r) | None => None end
               end
      end
  end.
Definition entries (m : lmap V) : option (list (key * option V)) := walk (length (heap m)) m (first m).

(** LinkedHashMap.java:261-264: remove of an iterator at [current]; the key removed, [None]: NullPointerException *)
Definition iteratorRemoves (m : lmap V) (current : option nat) : option key :=
  match current with
  | None => match last m with Some l => option_map ckey (nth_error (heap m) l) | None => None end
  | Some i => match nth_error (heap m) i with
              | Some c => match previous c with Some p => option_map ckey (nth_error (heap m) p) | None => None end
              | None => None
              end
  end.
(** LinkedHashMap.java:245-255: where an iterator is after [n] calls of next() *)
Fixpoint after (n : nat) (m : lmap V) (current : option nat) : option nat :=
  match n with
  | O => current
  | S n' => match current with Some i => match nth_error (heap m) i with Some c => after n' m (next c) | None => None end | None => None end
  end.

Inductive call := Put (k : key) (v : V) | Remove (k : key) | Clear | Get (k : key) | Iterate.
Inductive answer := Value (o : option V) | Nothing | Entries (l : option (list (key * option V))) | NullPointer.
Definition exec (c : call) (m : lmap V) : lmap V * answer :=
  match c with
  | Put k v => match put k v m with Some (m', o) => (m', Value o) | None => (m, NullPointer) end
  | Remove k => let '(m', o) := remove k m in (m', Value o)
  | Clear => (clear m, Nothing)
  | Get k => (m, Value (get k m))
  | Iterate => (m, Entries (entries m))
  end.
Fixpoint run (l : list call) (m : lmap V) : list answer :=
  match l with [] => [] | c :: r => let '(m', a) := exec c m in a :: run r m' end.
End Ops.
Arguments call : clear implicits. Arguments answer : clear implicits.
