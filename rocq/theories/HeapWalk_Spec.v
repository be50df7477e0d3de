(** What a heap dump has to tell. *)
From Coq Require Import List ZArith Bool.
From Verif Require Import HeapWalk_Model.
Import ListNotations.
Local Open Scope Z_scope.

(** The objects (not null) that the fields lead to. *)
Definition children (h : heap) (p : nat) : list nat := map snd (h p).
Inductive reach (h : heap) : nat -> nat -> Prop :=
| r_here p : p <> 0%nat -> reach h p p
| r_step p c q : p <> 0%nat -> In c (children h p) -> reach h c q -> reach h p q.

(** Offsets of fields increase, and are not negative. *)
Fixpoint increasing (least : Z) (l : list (Z * nat)) : Prop :=
  match l with [] => True | (o, _) :: r => least <= o /\ increasing (o + 1) r end.
(** A heap of finitely many objects [all]. *)
Definition finite (h : heap) (all : list nat) : Prop :=
  (forall p, increasing 0 (h p)) /\
  (forall p c, In p all -> In c (children h p) -> c = 0%nat \/ In c all).

(** The objects announced as new. *)
Definition news (es : list event) : list nat :=
  flat_map (fun e => match e with ENew p _ => [p] | _ => [] end) es.

(** ** Rebuilding the graph from the dump alone *)
(** What a reader of the file sees: numbers (of objects), with the size and the class name where they
    are given, and the tags. *)
Inductive token := TRoot | TObject (n : nat) (size : option nat) (name : option (list Z)) | TPush | TPop.
Definition tokenOf (size : nat -> nat) (name : nat -> option (list Z)) (e : event) : token :=
  match e with
  | ERoot => TRoot
  | ENew p n => TObject n (Some (size p)) (name p)
  | EOld _ n => TObject n None None
  | EPush _ _ _ => TPush
  | EPop => TPop
  end.
(** The reader: the objects being described, innermost first, and the object last named. *)
Record graph := Graph { gRoots : list nat; gEdges : list (nat * nat); gOpen : list nat; gLast : nat }.
Definition read1 (g : graph) (t : token) : graph :=
  match t with
  | TRoot => Graph (gRoots g) (gEdges g) [] 0
  | TObject n _ _ =>
    match gOpen g with
    | [] => Graph (gRoots g ++ [n]) (gEdges g) [] n
    | m :: _ => Graph (gRoots g) (gEdges g ++ [(m, n)]) (gOpen g) n
    end
  | TPush => Graph (gRoots g) (gEdges g) (gLast g :: gOpen g) (gLast g)
  | TPop => match gOpen g with
            | [] => g
            | m :: o => Graph (gRoots g) (gEdges g) o m
            end
  end.
Definition rebuild (ts : list token) : graph := fold_left read1 ts (Graph [] [] [] 0).
(** The targets of an object, in order. *)
Definition targets (es : list (nat * nat)) (m : nat) : list nat :=
  map snd (filter (fun e => Nat.eqb (fst e) m) es).

(** ** Reading the bytes *)
Definition read4 (l : list Z) : option (nat * list Z) :=
  match l with
  | a :: b :: c :: d :: r => Some (Z.to_nat (((a * 256 + b) * 256 + c) * 256 + d), r)
  | _ => None
  end.
Definition readSize (l : list Z) : option (option nat * list Z) :=
  match l with
  | 1 :: r => match read4 r with Some (n, r') => Some (Some n, r') | None => None end
  | _ => Some (None, l)
  end.
Definition readName (l : list Z) : option (option (list Z) * list Z) :=
  match l with
  | 2 :: r => match read4 r with
              | Some (n, r') => if Nat.leb n (length r') then Some (Some (firstn n r'), skipn n r') else None
              | None => None
              end
  | _ => Some (None, l)
  end.
Definition readObject (l : list Z) : option (token * list Z) :=
  match read4 l with
  | None => None
  | Some (n, r1) =>
    match readSize r1 with
    | None => None
    | Some (sz, r2) =>
      match readName r2 with Some (nm, r3) => Some (TObject n sz nm, r3) | None => None end
    end
  end.
(** the whole file *)
Fixpoint readTokens (fuel : nat) (l : list Z) : option (list token) :=
  match fuel with
  | O => None
  | S k =>
    match l with
    | [] => Some []
    | 0 :: r => match readObject r with
                | Some (t, r') => option_map (fun ts => TRoot :: t :: ts) (readTokens k r')
                | None => None
                end
    | 3 :: r => match readObject r with
                | Some (t, r') => option_map (fun ts => TPush :: t :: ts) (readTokens k r')
                | None => None
                end
    | 4 :: r => option_map (cons TPop) (readTokens k r)
    | _ => None
    end
  end.

(** ** What the dump says *)
(** The number of an object, given the objects in the order they are announced: from 1; null is 0. *)
Definition isNumber (vs : list nat) (p n : nat) : Prop :=
  (p = 0%nat /\ n = 0%nat) \/ exists i, n = S i /\ nth_error vs i = Some p.
(** The descriptions in the file, in order: number, size, class name. *)
Definition described (ts : list token) : list (nat * nat * option (list Z)) :=
  flat_map (fun t => match t with TObject n (Some s) nm => [(n, s, nm)] | _ => [] end) ts.
(** A capacity of a set. *)
Definition isPow (c : nat) : Prop := exists k, c = (2 ^ k)%nat.
