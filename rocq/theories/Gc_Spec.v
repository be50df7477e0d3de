(** What a collection must do, in terms of the object graph only: objects, their words, the roots. *)
From Coq Require Import List Bool Arith ZArith.
From Verif Require Import Gc_Model.
Import ListNotations.

(** A graph: the words of each object, which words are references, and the roots. *)
Record graph := G { words : nat -> nat -> word; refs : nat -> list nat; start : list word }.
(** [Live g keep x]: some root, or some object that is not collected at all, leads to [x]. *)
Inductive Live (g : graph) (keep : nat -> Prop) : nat -> Prop :=
| live_kept : forall x, keep x -> Live g keep x
| live_root : forall w x, In w (start g) -> ptr w = Some x -> Live g keep x
| live_field : forall x i y, Live g keep x -> In i (refs g x) -> ptr (words g x i) = Some y -> Live g keep y.
(** [w'] is [w] with the object it refers to replaced: same low bits, null stays null, data stays. *)
Definition moved (f : nat -> nat) (w w' : word) : Prop :=
  match w with Ref (Some x) l => w' = Ref (Some (f x)) l | _ => w' = w end.
(** [f] maps the live part of one graph onto another: distinct objects stay distinct, reference words and
    roots refer to the images, every other word is the same. *)
Record Preserves (f : nat -> nat) (live : nat -> Prop) (g g' : graph) : Prop := {
  pr_inj : forall x y, live x -> live y -> f x = f y -> x = y;
  pr_refs : forall x i, live x -> In i (refs g x) -> moved f (words g x i) (words g' (f x) i);
  pr_data : forall x i, live x -> ~ In i (refs g x) -> words g' (f x) i = words g x i;
  pr_roots : Forall2 (moved f) (start g) (start g')
}.

(** The graph of a heap, with the roots [rs]. *)
Definition graphOf (h : heap) (rs : list nat) : graph := G (mem h) (lay h) (map (root h) rs).
(** Objects that this collection does not collect: none in a major one, the old ones in a minor one. *)
Definition stays (e : env) (x : nat) : Prop := major e = false /\ x < base e /\ old (loc_ e x) = true.
Definition live (e : env) (h : heap) (rs : list nat) : nat -> Prop := Live (graphOf h rs) (stays e).
(** What a heap must satisfy when a collection starts: live objects exist and have distinct reference
    offsets, the class word among them; no mark is left from the last collection; and, for a minor
    collection, the remembered slots [dirty] are slots of old objects and include every slot of
    an old object that refers to a young one. *)
Record Ready (e : env) (h : heap) (dirty : list (nat * nat)) (rs : list nat) : Prop := {
  r_next : next h = base e;
  r_marks : marked h = [] /\ forall x, mk h x = false;
  r_roots : NoDup rs /\ rs <> [];
  r_live : forall x, live e h rs x -> x < base e /\ NoDup (lay h x) /\ In 0 (lay h x);
  r_dirty : if major e then dirty = [] else
    NoDup dirty /\ (forall o i, In (o, i) dirty -> o < base e /\ old (loc_ e o) = true /\ In i (lay h o)) /\
    (forall o i y, o < base e -> old (loc_ e o) = true -> In i (lay h o) -> ptr (mem h o i) = Some y -> old (loc_ e y) = false -> In (o, i) dirty)
}.
