(** Model of the persistent red-black tree: src/util.cpp:59-304 and 564-602.

    Tree nodes live in a heap of addresses.  The low bit of the value word (the colour)
    is a separate field.  Garbage collection does not move or free anything in the model
    (PROTECT is the identity). *)
From Coq Require Import Arith List Bool ZArith.
From Verif Require Import Res.
Import ListNotations.
Local Open Scope res_scope.

Section RBTree.
Context {K V : Type}.
(** The compare callback: negative, zero or positive (util.cpp:107). *)
Variable compare : K -> V -> Z.

(** src/types.def:120-123 treeNode.  [nval = None]: null value (only the sentinal). *)
Record node := { nval : option V; nred : bool; nleft : nat; nright : nat }.

Record heap := { mem : nat -> option node; next : nat }.

Definition upd (m : nat -> option node) (a : nat) (n : node) : nat -> option node :=
  fun x => if x =? a then Some n else m x.

Definition rd (h : heap) (a : nat) : res node := of_option (mem h a).
Definition wr (h : heap) (a : nat) (n : node) : heap := {| mem := upd (mem h) a n; next := next h |}.
(** makeTreeNode. *)
Definition alloc (h : heap) (n : node) : heap * nat :=
  ({| mem := upd (mem h) (next h) n; next := S (next h) |}, next h).

Definition setLeft (h : heap) (a x : nat) : res heap :=
  do n <- rd h a; Ok (wr h a {| nval := nval n; nred := nred n; nleft := x; nright := nright n |}).
Definition setRight (h : heap) (a x : nat) : res heap :=
  do n <- rd h a; Ok (wr h a {| nval := nval n; nred := nred n; nleft := nleft n; nright := x |}).
(** util.cpp:84-91 *)
Definition setRed (h : heap) (a : nat) (r : bool) : res heap :=
  do n <- rd h a; Ok (wr h a {| nval := nval n; nred := r; nleft := nleft n; nright := nright n |}).
(** util.cpp:70-77: the colour bit is kept. *)
Definition setVal (h : heap) (a : nat) (v : option V) : res heap :=
  do n <- rd h a; Ok (wr h a {| nval := v; nred := nred n; nleft := nleft n; nright := nright n |}).

(** util.cpp:93-101 [cloneTreeNode]. *)
Definition clone (h : heap) (a : nat) : res (heap * nat) :=
  do n <- rd h a; Ok (alloc h n).

(** util.cpp:103-122 [treeFind] (query); [fuel] bounds the number of nodes visited. *)
Fixpoint treeFind (fuel : nat) (h : heap) (node_ sent : nat) (key : K) : res (option nat) :=
  if node_ =? sent then Ok None
  else
    match fuel with
    | O => Fuel
    | S f =>
        do n <- rd h node_;
        do v <- of_option (nval n);
        let difference := compare key v in
        if (difference <? 0)%Z then treeFind f h (nleft n) sent key
        else if (difference >? 0)%Z then treeFind f h (nright n) sent key
        else Ok (Some node_)
    end.

(** util.cpp:141-173: the path-cloning loop.  [remaining] = 100 - count, so that
    [++count > 100] is [remaining = 0].
    Result: heap, fresh flag, node, ancestors. *)
Fixpoint findLoop (remaining : nat) (h : heap) (old new_ sent : nat) (key : K) (ancestors : list nat)
  : res (heap * bool * nat * list nat) :=
  if old =? sent then Ok (h, true, new_, ancestors)
  else
    let ancestors := new_ :: ancestors in
    do o <- rd h old;
    do v <- of_option (nval o);
    let difference := compare key v in
    if (difference <? 0)%Z then
      let old := nleft o in
      do (h, n) <- clone h old;
      do h <- setLeft h new_ n;
      match remaining with
      | O => Abort
      | S r => findLoop r h old n sent key ancestors
      end
    else if (difference >? 0)%Z then
      let old := nright o in
      do (h, n) <- clone h old;
      do h <- setRight h new_ n;
      match remaining with
      | O => Abort
      | S r => findLoop r h old n sent key ancestors
      end
    else Ok (h, false, new_, tl ancestors).

(** util.cpp:182-190, 192-200. *)
Definition leftRotate (h : heap) (n : nat) : res (heap * nat) :=
  do nn <- rd h n;
  do (h, child) <- clone h (nright nn);
  do c <- rd h child;
  do h <- setRight h n (nleft c);
  do h <- setLeft h child n;
  Ok (h, child).
Definition rightRotate (h : heap) (n : nat) : res (heap * nat) :=
  do nn <- rd h n;
  do (h, child) <- clone h (nleft nn);
  do c <- rd h child;
  do h <- setLeft h n (nright c);
  do h <- setRight h child n;
  Ok (h, child).

(** util.cpp:229-238 / 268-277: the conditional inner rotation.  Returns the heap, new_
    and the ancestor list. *)
Definition innerLeft (h : heap) (new_ p : nat) (rest : list nat) : res (heap * nat * list nat) :=
  do np <- rd h p;
  if new_ =? nright np then
    let new_ := p in
    do (h, n) <- leftRotate h new_;
    match rest with
    | [] => UB
    | g :: _ =>
        do ng <- rd h g;
        do h <- (if new_ =? nright ng then setRight h g n else setLeft h g n);
        Ok (h, new_, n :: rest)
    end
  else Ok (h, new_, p :: rest).
Definition innerRight (h : heap) (new_ p : nat) (rest : list nat) : res (heap * nat * list nat) :=
  do np <- rd h p;
  if new_ =? nleft np then
    let new_ := p in
    do (h, n) <- rightRotate h new_;
    match rest with
    | [] => UB
    | g :: _ =>
        do ng <- rd h g;
        do h <- (if new_ =? nleft ng then setLeft h g n else setRight h g n);
        Ok (h, new_, n :: rest)
    end
  else Ok (h, new_, p :: rest).

(** util.cpp:214-222 / 256-264: parent and (cloned) uncle become black, grandparent red. *)
Definition recolorRight (h : heap) (p g : nat) : res heap :=
  do h <- setRed h p false;
  do ng <- rd h g;
  do (h, n) <- clone h (nright ng);
  do h <- setRight h g n;
  do ng <- rd h g;
  do h <- setRed h (nright ng) false;
  setRed h g true.
Definition recolorLeft (h : heap) (p g : nat) : res heap :=
  do h <- setRed h p false;
  do ng <- rd h g;
  do (h, n) <- clone h (nleft ng);
  do h <- setLeft h g n;
  do ng <- rd h g;
  do h <- setRed h (nleft ng) false;
  setRed h g true.

(** util.cpp:244-251 / 283-290: hang [n] where [g] was, or make it the root. *)
Definition linkRight (h : heap) (g n : nat) (rest2 : list nat) (newRoot : nat) : res (heap * nat) :=
  match rest2 with
  | [] => Ok (h, n)
  | gg :: _ =>
      do ngg <- rd h gg;
      do h <- (if nright ngg =? g then setRight h gg n else setLeft h gg n);
      Ok (h, newRoot)
  end.
Definition linkLeft (h : heap) (g n : nat) (rest2 : list nat) (newRoot : nat) : res (heap * nat) :=
  match rest2 with
  | [] => Ok (h, n)
  | gg :: _ =>
      do ngg <- rd h gg;
      do h <- (if nleft ngg =? g then setLeft h gg n else setRight h gg n);
      Ok (h, newRoot)
  end.

(** util.cpp:202-304 [treeAdd]: the rebalancing loop.  State: heap, ancestors, new_, newRoot. *)
Fixpoint addLoop (fuel : nat) (h : heap) (ancestors : list nat) (new_ newRoot : nat)
  : res (heap * nat) :=
  match ancestors with
  | [] => Ok (h, newRoot)
  | p :: rest =>
      do np <- rd h p;
      if negb (nred np) then Ok (h, newRoot)
      else
        match fuel with
        | O => Fuel
        | S f =>
            match rest with
            | [] => UB  (* ancestors->next is null *)
            | g :: rest2 =>
                do ng <- rd h g;
                if p =? nleft ng then
                  do nu <- rd h (nright ng);
                  if nred nu then
                    do h <- recolorRight h p g;
                    addLoop f h rest2 g newRoot
                  else
                    do (h, new_, anc) <- innerLeft h new_ p rest;
                    match anc with
                    | p :: g :: rest2 =>
                        (* 240-252 *)
                        do h <- setRed h p false;
                        do h <- setRed h g true;
                        do (h, n) <- rightRotate h g;
                        do (h, newRoot) <- linkRight h g n rest2 newRoot;
                        addLoop f h anc new_ newRoot
                    | _ => UB
                    end
                else
                  do nu <- rd h (nleft ng);
                  if nred nu then
                    do h <- recolorLeft h p g;
                    addLoop f h rest2 g newRoot
                  else
                    do (h, new_, anc) <- innerRight h new_ p rest;
                    match anc with
                    | p :: g :: rest2 =>
                        (* 279-291 *)
                        do h <- setRed h p false;
                        do h <- setRed h g true;
                        do (h, n) <- leftRotate h g;
                        do (h, newRoot) <- linkLeft h g n rest2 newRoot;
                        addLoop f h anc new_ newRoot
                    | _ => UB
                    end
            end
        end
  end.

Definition treeAdd (h : heap) (ancestors : list nat) (new_ newRoot : nat) : res (heap * nat) :=
  do h <- setRed h new_ true;
  do (h, newRoot) <- addLoop (S (length ancestors)) h ancestors new_ newRoot;
  do h <- setRed h newRoot false;
  Ok (h, newRoot).

(** util.cpp:574-592 [treeInsert] with 124-180 [treeFind] inlined: returns the new root. *)
Definition treeInsert (h : heap) (tree : nat) (key : K) (value : V) (sent : nat) : res (heap * nat) :=
  let '(h, node_) := alloc h {| nval := Some value; nred := false; nleft := sent; nright := sent |} in
  do (h, newRoot) <- clone h tree;
  do (h, fresh, new_, ancestors) <- findLoop 100 h tree newRoot sent key [];
  if fresh then
    do nn <- rd h node_;
    do h <- setVal h new_ (nval nn);
    treeAdd h ancestors new_ newRoot
  else Abort.   (* expect(t, c.fresh) *)

(** util.cpp:564-572 [treeQuery]. *)
Definition treeQuery (fuel : nat) (h : heap) (tree : nat) (key : K) (sent : nat) : res (option V) :=
  do o <- treeFind fuel h tree sent key;
  match o with
  | None => Ok None
  | Some a => do n <- rd h a; Ok (nval n)
  end.

(** util.cpp:594-602 [treeUpdate]: a missing key dereferences null. *)
Definition treeUpdate (fuel : nat) (h : heap) (tree : nat) (key : K) (value : V) (sent : nat) : res heap :=
  do o <- treeFind fuel h tree sent key;
  match o with
  | None => UB
  | Some a => setVal h a (Some value)
  end.

(** src/compile.cpp:9456-9460: the sentinal is its own left and right child, and the
    initial tree. *)
Definition init : heap :=
  {| mem := upd (fun _ => None) 0 {| nval := None; nred := false; nleft := 0; nright := 0 |}; next := 1 |}.
Definition sentinal : nat := 0.

(** A history of insertions, each replacing the current root (compile.cpp:10708-10716);
    every root ever current is returned, most recent first. *)
Fixpoint insertAll (h : heap) (roots : list nat) (kvs : list (K * V)) : res (heap * list nat) :=
  match kvs with
  | [] => Ok (h, roots)
  | (k, v) :: r =>
      do (h', root) <- treeInsert h (hd sentinal roots) k v sentinal;
      insertAll h' (root :: roots) r
  end.
End RBTree.
Arguments node : clear implicits.
Arguments heap : clear implicits.

(** src/compile.cpp:381-402 [compareIpToMethodBounds]: a method is (start, compiled size).
    Simplification: [start + size] does not overflow intptr_t. *)
Definition compareIpToMethodBounds (ip : Z) (m : Z * Z) : Z :=
  let '(start, size) := m in
  if (ip <? start)%Z then (-1)%Z else if (ip <? start + size)%Z then 0%Z else 1%Z.
