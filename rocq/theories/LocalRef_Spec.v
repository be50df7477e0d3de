(** What a native method may do with local references, and what they denote. *)
From Coq Require Import ZArith List Bool.
From Verif Require Import Res Jref_Model LocalRef_Model.
Import ListNotations.
Local Open Scope Z_scope.

(** The references a program holds, frame by frame, the newest frame first: value and
    object.  [made] counts the references made so far. *)
Record program := Program { state : lstate; held : list (list (Z * Z)); made : Z }.

Definition start : program := Program (LState (Refs 0 (fun _ => None)) []) [[]] 0.

(** Dereferencing a reference. *)
Definition deref (s : lstate) (v : Z) : option Z := option_map target (cells (rs s) v).

(** The memory for a new cell is not in use. *)
Definition unused (s : lstate) (a : Z) : Prop := a <> 0 /\ cells (rs s) a = None.

(** What may be done: references to objects are made; a reference is deleted that
    [mayDelete] allows; frames are pushed and popped, a reference handed out if wanted. *)
Inductive legal (mayDelete : program -> Z -> Prop) (p : program) : op -> Prop :=
| l_new : forall o a, unused (state p) a -> legal mayDelete p (New o a)
| l_delete : forall v, mayDelete p v -> legal mayDelete p (Delete v)
| l_push : legal mayDelete p Push
| l_pop : forall v a top below rest, held p = top :: below :: rest ->
    (v = 0 \/ exists f o, In f (held p) /\ In (v, o) f) ->
    (forall fuel s', popFrame fuel (state p) = Ok s' -> unused s' a) -> legal mayDelete p (Pop v a).

(** Every reference the program holds may be deleted. *)
Definition anyHeld (p : program) (v : Z) : Prop := exists f o, In f (held p) /\ In (v, o) f.
(** Only references made in the newest frame are deleted. *)
Definition newestHeld (p : program) (v : Z) : Prop :=
  exists top rest o, held p = top :: rest /\ In (v, o) top.

(** The references held afterwards. *)
Definition addTop (v o : Z) (h : list (list (Z * Z))) : list (list (Z * Z)) :=
  if v =? 0 then h else match h with [] => [[(v, o)]] | f :: r => ((v, o) :: f) :: r end.
Fixpoint dropOne (v : Z) (l : list (Z * Z)) : list (Z * Z) :=
  match l with [] => [] | x :: r => if fst x =? v then r else x :: dropOne v r end.
Fixpoint dropHeld (v : Z) (h : list (list (Z * Z))) : list (list (Z * Z)) :=
  match h with
  | [] => []
  | f :: r => if existsb (fun x => fst x =? v) f then dropOne v f :: r else f :: dropHeld v r
  end.
Definition objectOf (v : Z) (h : list (list (Z * Z))) : Z :=
  match find (fun x => fst x =? v) (concat h) with Some x => snd x | None => 0 end.

Definition after (p : program) (e : op) (v : Z) (s : lstate) : program :=
  match e with
  | New o a => Program s (addTop v o (held p)) (made p + 1)
  | Delete r => Program s (dropHeld r (held p)) (made p)
  | Push => Program s ([] :: held p) (made p)
  | Pop r a => Program s (addTop v (objectOf r (held p)) (tl (held p))) (made p + 1)
  end.

Inductive reach (mayDelete : program -> Z -> Prop) (p : program) : program -> Prop :=
| re_refl : reach mayDelete p p
| re_step : forall q e fuel v s, reach mayDelete p q -> legal mayDelete q e ->
    exec fuel (state q) e = Ok (v, s) -> made (after q e v s) < 2 ^ 32 - 1 ->
    reach mayDelete p (after q e v s).

(** The cells of a thread: value and object, newest first. *)
Inductive cellsFrom (c : Z -> option ref) : Z -> list (Z * Z) -> Prop :=
| cf_nil : cellsFrom c 0 []
| cf_cons : forall a r l, a <> 0 -> c a = Some r -> cellsFrom c (next r) l ->
    cellsFrom c a ((a, target r) :: l).
Definition cellsOf (s : lstate) (l : list (Z * Z)) : Prop := cellsFrom (cells (rs s)) (root (rs s)) l.

(** Runs that stay above the first [k] frames. *)
Inductive reachAbove (mayDelete : program -> Z -> Prop) (k : nat) (p : program) : program -> Prop :=
| ra_refl : reachAbove mayDelete k p p
| ra_step : forall q e fuel v s, reachAbove mayDelete k p q -> legal mayDelete q e ->
    exec fuel (state q) e = Ok (v, s) -> made (after q e v s) < 2 ^ 32 - 1 ->
    (k < length (held (after q e v s)))%nat ->
    reachAbove mayDelete k p (after q e v s).
