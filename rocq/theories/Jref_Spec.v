(** Specification of JNI global references: what a native program may do with
    them, and what each outstanding reference denotes. *)
From Coq Require Import ZArith List Bool.
From Verif Require Import Res Jref_Model.
Import ListNotations.
Local Open Scope Z_scope.

(** Objects have identities that do not change when they move; [where_ i] is the address of
    object i at present. *)
Definition placement := nat -> Z.

(** An outstanding reference: its value, whether it is weak, and the object it denotes ([None]:
    null, either from the start or because a weak reference was cleared). *)
Record held := Held { value : Z; isWeak : bool; denotes : option nat }.

Definition addressOf (w : placement) (d : option nat) : Z :=
  match d with Some i => w i | None => 0 end.

(** The world: the references, the placement of the live objects, the outstanding references. *)
Record world := World { st : refs; where_ : placement; live : nat -> bool; out : list held }.

(** dereferencing a reference gives the address stored in the cell *)
Definition deref (s : refs) (v : Z) : option Z := option_map target (cells s v).

(** An outstanding reference is valid: it denotes its object. *)
Definition valid (w : world) (h : held) : Prop :=
  value h <> 0 /\
  deref (st w) (value h) = Some (addressOf (where_ w) (denotes h)).

Fixpoint drop (v : Z) (w : bool) (d : option nat) (l : list held) : list held :=
  match l with
  | [] => []
  | h :: r => if (value h =? v) && Bool.eqb (isWeak h) w
                 && match denotes h, d with
                    | Some i, Some j => Nat.eqb i j | None, None => true | _, _ => false end
              then r else h :: drop v w d r
  end.

(** What a collection does to an outstanding reference: a weak one to an object found dead or
    finalizable becomes null; a strong one stays as it is. *)
Definition afterGc (gone : nat -> bool) (h : held) : held :=
  match denotes h with
  | Some i => if isWeak h && gone i then Held (value h) (isWeak h) None else h
  | None => h
  end.

(** Live objects have distinct nonzero addresses. *)
Definition placed (w : placement) (alive : nat -> bool) : Prop :=
  (forall i, alive i = true -> w i <> 0) /\
  (forall i j, alive i = true -> alive j = true -> w i = w j -> i = j).

Inductive event :=
| New (o : option nat) (w : bool) (result : Z)
| Delete (h : held)
| Create (i : nat)
| Collect.

Inductive step : world -> event -> world -> Prop :=
(* NewGlobalRef / NewWeakGlobalRef on a handle that denotes a live object or null *)
| st_new : forall w o wk a fuel r s,
    (forall i, o = Some i -> live w i = true) ->
    a <> 0 -> cells (st w) a = None ->
    newGlobalRef fuel (st w) (addressOf (where_ w) o) wk a = Ok (r, s) ->
    step w (New o wk r) (World s (where_ w) (live w) (Held r wk o :: out w))
(* DeleteGlobalRef / DeleteWeakGlobalRef of an outstanding reference *)
| st_delete : forall w h s,
    In h (out w) -> deleteGlobalRef (st w) (value h) = Ok s ->
    step w (Delete h) (World s (where_ w) (live w) (drop (value h) (isWeak h) (denotes h) (out w)))
(* an object comes into being *)
| st_object : forall w i a,
    live w i = false -> a <> 0 -> (forall j, live w j = true -> where_ w j <> a) ->
    step w (Create i) (World (st w) (fun j => if Nat.eqb j i then a else where_ w j)
                          (fun j => if Nat.eqb j i then true else live w j) (out w))
(* a collection: objects move, some die; strongly referenced ones do not *)
| st_gc : forall w fuel dead final move where' live' gone s,
    (forall i, live w i = true -> live' i = negb (dead (where_ w i))) ->
    (forall i, live w i = false -> live' i = false) ->
    (forall i, live' i = true -> where' i = move (where_ w i)) ->
    (forall i, live w i = true -> gone i = final (where_ w i) || dead (where_ w i)) ->
    dead 0 = false -> final 0 = false -> move 0 = 0 ->
    placed where' live' ->
    (forall h i, In h (out w) -> isWeak h = false -> denotes h = Some i -> live' i = true) ->
    gcRefs fuel dead final move (st w) = Ok s ->
    step w Collect (World s where' live' (map (afterGc gone) (out w))).

(** Fewer than 2^32 - 1 references are outstanding at any time. *)
Inductive reachable : world -> Prop :=
| re_start : forall p l, placed p l -> reachable (World (Refs 0 (fun _ => None)) p l [])
| re_step : forall w e w', reachable w -> step w e w' ->
    Z.of_nat (length (out w')) < 2 ^ 32 - 1 -> reachable w'.
