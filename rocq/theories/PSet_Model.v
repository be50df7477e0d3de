(** The red-black sets of Avian's class library, classpath/avian/PersistentSet.java, with the
    classes made of them: java.util.TreeSet and TreeMap.

    Operations copy every node on the way down from the root (find, 405-432), and every other
    node before changing it (`new Node(...)`), so that a node that can be seen elsewhere is never
    changed: here trees are immutable, and a path is the node and what lies around it. *)
From Coq Require Import ZArith Lia Bool List.
Import ListNotations.

Section PSet.
Context {T : Type}.
(** Comparator.compare *)
Variable cmp : T -> T -> Z.

(** Node, 496-510; NullNode, 16-21. *)
Inductive tree := Null | Node (red : bool) (left : tree) (value : T) (right : tree).
(** An ancestor: whether the path goes to its left, its colour and value, and its other child. *)
Record frame := Frame { toLeft : bool; fred : bool; fval : T; other : tree }.
(** Path, 512-529: whether the value was missing, the node, its ancestors, nearest first. *)
Record path := { fresh : bool; node : tree; ancestors : list frame; total : nat }.
(** PersistentSet, 23-25, with the number of elements. *)
Record pset := { root : tree; size : nat }.
Definition empty : pset := {| root := Null; size := 0 |}.

(** The node with its ancestors as one tree. *)
Definition join (f : frame) (t : tree) : tree :=
  if toLeft f then Node (fred f) t (fval f) (other f) else Node (fred f) (other f) (fval f) t.
Fixpoint plug (t : tree) (c : list frame) : tree := match c with [] => t | f :: c' => plug (join f t) c' end.
Definition isRed (t : tree) : bool := match t with Node r _ _ _ => r | Null => false end.
Definition blacken (t : tree) : tree := match t with Node _ l v r => Node false l v r | Null => Null end.

(** find, 405-432 *)
Fixpoint descend (x : T) (t : tree) (c : list frame) : bool * tree * list frame :=
  match t with
  | Null => (true, Node false Null x Null, c)
  | Node red l v r =>
      let difference := cmp x v in
      if (difference <? 0)%Z then descend x l (Frame true red v r :: c)
      else if (0 <? difference)%Z then descend x r (Frame false red v l :: c)
      else (false, t, c)
  end.
Definition find (x : T) (s : pset) : path :=
  let '(f, n, c) := descend x (root s) [] in {| fresh := f; node := n; ancestors := c; total := size s |}.

(** add, 83-167: the loop, 92-162, for a red node; the tree in the end.  None: a null reference is used,
    or NullNode is taken for a node. *)
Fixpoint addLoop (t : tree) (c : list frame) : option tree :=
  match c with
  | Frame _ true _ _ :: [] => None
  | Frame pl true pv po :: Frame gl gred gv go :: c' =>
      if isRed go then                                                    (* 94-100, 128-134 *)
        addLoop (join (Frame gl true gv (blacken go)) (join (Frame pl false pv po) t)) c'
      else if Bool.eqb pl gl then                                         (* 114-124, 148-158 *)
        match join (Frame pl false pv po) t with
        | Node _ l v r => Some (plug (if gl then Node false l v (Node true r gv go) else Node false (Node true go gv l) v r) c')
        | Null => None
        end
      else                                                                (* 102-124, 136-158 *)
        match t with
        | Node _ l v r =>
            Some (plug (if gl then Node false (Node true po pv l) v (Node true r gv go)
                        else Node false (Node true go gv l) v (Node true r pv po)) c')
        | Null => None
        end
  | _ => Some (plug t c)
  end.
Definition redden (t : tree) : tree := match t with Node _ l v r => Node true l v r | Null => Null end.
Definition addPath (p : path) : option pset :=
  if negb (fresh p) then None
  else match addLoop (redden (node p)) (ancestors p) with
       | Some t => Some {| root := blacken t; size := S (total p) |}
       | None => None
       end.

(** Path.replaceWith, 559-566 *)
Definition replaceWith (p : path) (x : T) : option pset :=
  if fresh p then None
  else match node p with
       | Node red l v r => if (cmp v x =? 0)%Z then Some {| root := plug (Node red l x r) (ancestors p); size := total p |} else None
       | Null => None
       end.

(** minimum, 349-359 *)
Fixpoint minimum (t : tree) (c : list frame) : tree * list frame :=
  match t with
  | Node red l v r => match l with Null => (t, c) | _ => minimum l (Frame true red v r :: c) end
  | Null => (Null, c)
  end.

(** remove: what is done once the sibling is black (258-288, 309-339): either the tree
    is right now, or its upper part has to be looked at. *)
Inductive mended := Right (t : tree) | Up (t : tree) | Broken.
Definition blackSibling (f : frame) (child : tree) : mended :=
  match other f with
  | Null => Broken
  | Node _ sl sv sr =>
      let near := if toLeft f then sl else sr in
      let far := if toLeft f then sr else sl in
      if negb (isRed sl || isRed sr) then Up (join (Frame (toLeft f) (fred f) (fval f) (Node true sl sv sr)) child)
      else if negb (isRed far) then
        match near with
        | Node _ a v b =>
            Right (if toLeft f then Node (fred f) (Node false child (fval f) a) v (Node false b sv sr)
                   else Node (fred f) (Node false sl sv a) v (Node false b (fval f) child))
        | Null => Broken
        end
      else
        Right (if toLeft f then Node (fred f) (Node false child (fval f) sl) sv (blacken sr)
               else Node (fred f) (blacken sl) sv (Node false sr (fval f) child))
  end.
(** The loop, 237-343. *)
Fixpoint mend (child : tree) (c : list frame) : option tree :=
  match c with
  | [] => Some (blacken child)
  | f :: c' =>
      if isRed child then Some (plug (blacken child) c)
      else if isRed (other f) then                                        (* 241-256, 292-307 *)
        match other f with
        | Node _ sl sv sr =>
            let near := if toLeft f then sl else sr in
            let far := if toLeft f then sr else sl in
            let f2 := Frame (toLeft f) false sv far in
            match blackSibling (Frame (toLeft f) true (fval f) near) child with
            | Right t => Some (blacken (plug (join f2 t) c'))
            | Up t => Some (plug (join f2 (blacken t)) c')
            | Broken => None
            end
        | Null => None
        end
      else
        match blackSibling f child with
        | Right t => Some (blacken (plug t c'))
        | Up t => mend t c'
        | Broken => None
        end
  end.

(** remove, 192-347, of a node found with this very set ([own]: the path is of the set asked, as
    in Path.remove, 547-551; PersistentSet.remove(T), 183-190, makes a path of a copy).  None: an exception. *)
Definition removePath (own : bool) (p : path) : option pset :=
  if Nat.eqb (total p) 1 then
    if own && match ancestors p with [] => true | _ => false end then Some empty else None
  else
    match node p with
    | Null => None
    | Node red l v r =>
        let '(dead, c) :=
          match l, r with
          | Null, _ | _, Null => (node p, ancestors p)
          | _, _ => let '(d, cr) := minimum r [] in
                    match d with
                    | Node _ _ dv _ => (d, cr ++ Frame false red dv l :: ancestors p)
                    | Null => (d, cr)
                    end
          end in
        match dead with
        | Null => None
        | Node dred dl dv dr =>
            let child := match dl with Null => dr | _ => dl end in
            match c with
            | [] => Some {| root := blacken child; size := 1 |}
            | _ => if dred then Some {| root := plug child c; size := total p - 1 |}
                   else match mend child c with
                        | Some t => Some {| root := t; size := total p - 1 |}
                        | None => None
                        end
            end
        end
    end.
Definition remove (p : path) : option pset := if fresh p then None else removePath true p.
Definition removeValue (x : T) (s : pset) : option pset :=
  let p := find x s in if fresh p then Some s else removePath false p.

(** first and last, 434-472: paths marked as fresh. *)
Fixpoint leftmost (t : tree) (c : list frame) : tree * list frame :=
  match t with
  | Node red l v r => match l with Null => (t, c) | _ => leftmost l (Frame true red v r :: c) end
  | Null => (Null, c)
  end.
Fixpoint rightmost (t : tree) (c : list frame) : tree * list frame :=
  match t with
  | Node red l v r => match r with Null => (t, c) | _ => rightmost r (Frame false red v l :: c) end
  | Null => (Null, c)
  end.
Definition first (s : pset) : option path :=
  match root s with
  | Null => None
  | t => let '(n, c) := leftmost t [] in Some {| fresh := true; node := n; ancestors := c; total := size s |}
  end.
Definition last (s : pset) : option path :=
  match root s with
  | Null => None
  | t => let '(n, c) := rightmost t [] in Some {| fresh := true; node := n; ancestors := c; total := size s |}
  end.

(** successor, 373-387 and 478-485; going up, the node is joined to its parent as long as it is
    the right child. *)
Fixpoint climbRight (n : tree) (c : list frame) : option (tree * list frame) :=
  match c with
  | [] => None
  | f :: c' => if toLeft f then Some (join f n, c') else climbRight (join f n) c'
  end.
Definition successor (p : path) : option path :=
  match node p with
  | Null => None
  | Node red l v r =>
      match r with
      | Null => match climbRight (node p) (ancestors p) with
                | Some (n, c) => Some {| fresh := false; node := n; ancestors := c; total := total p |}
                | None => None
                end
      | _ => let '(n, c) := minimum r (Frame false red v l :: ancestors p) in
             Some {| fresh := false; node := n; ancestors := c; total := total p |}
      end
  end.
(** predecessor, 389-403 and 487-494; maximum, 361-371 *)
Fixpoint climbLeft (n : tree) (c : list frame) : option (tree * list frame) :=
  match c with
  | [] => None
  | f :: c' => if toLeft f then climbLeft (join f n) c' else Some (join f n, c')
  end.
Definition predecessor (p : path) : option path :=
  match node p with
  | Null => None
  | Node red l v r =>
      match l with
      | Null => match climbLeft (node p) (ancestors p) with
                | Some (n, c) => Some {| fresh := false; node := n; ancestors := c; total := total p |}
                | None => None
                end
      | _ => let '(n, c) := rightmost l (Frame true red v r :: ancestors p) in
             Some {| fresh := false; node := n; ancestors := c; total := total p |}
      end
  end.
Definition pathValue (p : path) : option T := match node p with Node _ _ v _ => Some v | Null => None end.

(** An iteration, 569-593, also as done by TreeSet.MyIterator without remove (TreeSet.java
    135-187), whose elements have no further cells: [step] is successor or predecessor. *)
Fixpoint iterate (fuel : nat) (step : path -> option path) (p : option path) : list T :=
  match fuel, p with
  | S f, Some q => match pathValue q with Some v => v :: iterate f step (step q) | None => [] end
  | _, _ => []
  end.
End PSet.
Arguments tree : clear implicits.
Arguments frame : clear implicits.
Arguments path : clear implicits.
Arguments pset : clear implicits.
