(** The table that tells, for the address of a call in compiled code, the method
    called: src/compile.cpp.  One thread at a time inserts, under the lock of the
    machine; other threads look up at any time without a lock. *)
From Coq Require Import NArith Lia Bool List.
Import ListNotations.

(** callNode, types.def 125-129, without the flags, which are copied like the target. *)
Record node := { addr : N; target : N; next : option nat }.

(** An array of heads of chains; nodes and arrays are named by their place in the lists
    of all nodes and arrays ever made.  The collector's moving of them is left out. *)
Definition table := list (option nat).

(** The index of a key in a table of the given length, compile.cpp 9778, 9808, 9842.
    Lengths do not exceed an unsigned. *)
Definition index (len : nat) (key : N) : nat := N.to_nat (N.land key (N.of_nat len - 1)).

Definition upd {A} (l : list A) (i : nat) (v : A) : list A := firstn i l ++ v :: skipn (S i) l.

(** One chain of the loop of resizeTable, compile.cpp 9803-9819. *)
Fixpoint rehash (fuel : nat) (ns : list node) (new : table) (p : option nat) : list node * table :=
  match fuel, p with
  | S f, Some i =>
      match nth_error ns i with
      | Some o =>
          let k := index (length new) (addr o) in
          rehash f (ns ++ [{| addr := addr o; target := target o; next := nth k new None |}])
                 (upd new k (Some (length ns))) (next o)
      | None => (ns, new)
      end
  | _, _ => (ns, new)
  end.

(** resizeTable, compile.cpp 9792-9821. *)
Fixpoint rehashAll (ns : list node) (new : table) (heads : table) : list node * table :=
  match heads with
  | [] => (ns, new)
  | p :: rest => let (ns', new') := rehash (S (length ns)) ns new p in rehashAll ns' new' rest
  end.
Definition resizeTable (ns : list node) (old : table) (newLength : nat) : list node * table :=
  rehashAll ns (repeat None newLength) old.

(** Where an insertion stands: before the next pointer of the node is written, before
    the head of its chain is written, before the table becomes the root's. *)
Inductive writer := Idle | Linking (w n : nat) | Linked (w n : nat) | Stored (w n : nat).
(** Where a lookup stands. *)
Inductive reader := Begun | HasTable (t : nat) | At (p : option nat) | Found (r : option N).

(** [started] and [inserted] record the insertions begun and finished. *)
Record state := {
  nodes : list node; tables : list table; root : nat; size : nat;
  wr : writer; readers : list (N * reader);
  started : list (N * N); inserted : list (N * N) }.

Inductive event := Insert (a t : N) | Link | Store | Publish | Lookup (key : N) | Go (r : nat).

(** The start of insertCallNode, compile.cpp 9833-9842: count, make the table larger if
    need be.  The new table is not seen by other threads until it is published, so this
    is one step.  The node was made just before (7271-7277); here it is made after the
    nodes of the new table, which differs only in the names. *)
Definition beginInsert (s : state) (a t : N) : state :=
  let old := nth (root s) (tables s) [] in
  let size' := S (size s) in
  let '(ns, tbs, w) :=
    if Nat.leb (2 * length old) size'
    then let (ns, new) := resizeTable (nodes s) old (2 * length old) in
         (ns, tables s ++ [new], length (tables s))
    else (nodes s, tables s, root s) in
  {| nodes := ns ++ [{| addr := a; target := t; next := None |}];
     tables := tbs; root := root s; size := size';
     wr := Linking w (length ns); readers := readers s;
     started := (a, t) :: started s; inserted := inserted s |}.

Definition withWriter (s : state) (ns : list node) (tbs : list table) (r : nat) (w : writer)
    (ins : list (N * N)) : state :=
  {| nodes := ns; tables := tbs; root := r; size := size s; wr := w; readers := readers s;
     started := started s; inserted := ins |}.
Definition withReaders (s : state) (rs : list (N * reader)) : state :=
  {| nodes := nodes s; tables := tables s; root := root s; size := size s; wr := wr s; readers := rs;
     started := started s; inserted := inserted s |}.

(** One step of a lookup, findCallNode, compile.cpp 9775-9789. *)
Definition goReader (s : state) (key : N) (r : reader) : reader :=
  match r with
  | Begun => HasTable (root s)
  | HasTable t => let tb := nth t (tables s) [] in At (nth (index (length tb) key) tb None)
  | At None => Found None
  | At (Some i) =>
      match nth_error (nodes s) i with
      | Some n => if N.eqb (addr n) key then Found (Some (target n)) else At (next n)
      | None => At (Some i)
      end
  | Found v => Found v
  end.

(** One event; [None]: it cannot happen now.  insertCallNode, compile.cpp 9844-9847 and
    10239-10245. *)
Definition step (s : state) (e : event) : option state :=
  match e, wr s with
  | Insert a t, Idle => Some (beginInsert s a t)
  | Link, Linking w n =>
      match nth_error (nodes s) n with
      | Some x =>
          let tb := nth w (tables s) [] in
          Some (withWriter s (upd (nodes s) n {| addr := addr x; target := target x;
                                                 next := nth (index (length tb) (addr x)) tb None |})
                           (tables s) (root s) (Linked w n) (inserted s))
      | None => None
      end
  | Store, Linked w n =>
      match nth_error (nodes s) n with
      | Some x =>
          let tb := nth w (tables s) [] in
          Some (withWriter s (nodes s) (upd (tables s) w (upd tb (index (length tb) (addr x)) (Some n)))
                           (root s) (Stored w n) (inserted s))
      | None => None
      end
  | Publish, Stored w n =>
      match nth_error (nodes s) n with
      | Some x => Some (withWriter s (nodes s) (tables s) w Idle ((addr x, target x) :: inserted s))
      | None => None
      end
  | Lookup key, _ => Some (withReaders s (readers s ++ [(key, Begun)]))
  | Go r, _ =>
      match nth_error (readers s) r with
      | Some (key, rd) => Some (withReaders s (upd (readers s) r (key, goReader s key rd)))
      | None => None
      end
  | _, _ => None
  end.

Fixpoint run (s : state) (es : list event) : option state :=
  match es with
  | [] => Some s
  | e :: es' => match step s e with Some s' => run s' es' | None => None end
  end.

(** The table at the start, compile.cpp 9450-9454: 128 empty chains. *)
Definition initial : state :=
  {| nodes := []; tables := [repeat None 128]; root := 0; size := 0; wr := Idle; readers := [];
     started := []; inserted := [] |}.
