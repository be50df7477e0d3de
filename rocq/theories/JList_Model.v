(** Model of java.util.LinkedList (classpath/java/util/LinkedList.java).  Cells are numbered in the order of
    their making; elements are of any type, None is null; [eq] is Object.equals. *)
From Coq Require Import ZArith Bool List.
Import ListNotations.

Section JList.
Context {A : Type}.
Variable eqA : A -> A -> bool.
Definition elem : Type := option A.
(** equal, 35-37 *)
Definition equal (a b : elem) : bool :=
  match a, b with None, None => true | Some x, Some y => eqA x y | _, _ => false end.

(** Cell, 400-410 *)
Record cell := Cell { value : elem; prev : option nat; next : option nat }.
(** The fields, 14-16; [made] counts the cells; the cells themselves. *)
Record state := { front : option nat; rear : option nat; size : Z; made : nat; cells : nat -> cell }.
Definition upd (f : nat -> cell) (i : nat) (c : cell) : nat -> cell := fun j => if Nat.eqb j i then c else f j.
Definition setNext (f : nat -> cell) (i : nat) (n : option nat) : nat -> cell := upd f i (Cell (value (f i)) (prev (f i)) n).
Definition setPrev (f : nat -> cell) (i : nat) (p : option nat) : nat -> cell := upd f i (Cell (value (f i)) p (next (f i))).
Definition new : state := {| front := None; rear := None; size := 0; made := 0; cells := fun _ => Cell None None None |}.

(** The cells from one on, by next or by prev: what the loops, 26-31, 64-68, 101-106, 113-118, go through.
    The number of steps is limited by the number of cells. *)
Fixpoint walk (fuel : nat) (dir : cell -> option nat) (f : nat -> cell) (x : option nat) : list nat :=
  match fuel, x with
  | S n, Some i => i :: walk n dir f (dir (f i))
  | _, _ => []
  end.
Definition forward (s : state) : list nat := walk (made s) next (cells s) (front s).
Definition backward (s : state) : list nat := walk (made s) prev (cells s) (rear s).
(** find(int), 24-33.  None: IndexOutOfBoundsException *)
Definition findAt (s : state) (i : Z) : option nat := if (i <? 0)%Z then None else nth_error (forward s) (Z.to_nat i).
(** find(Object), 63-70 *)
Definition findElem (s : state) (e : elem) : option nat := List.find (fun x => equal (value (cells s x)) e) (forward s).
(** The place of the first match, for indexOf and lastIndexOf. *)
Fixpoint place (s : state) (e : elem) (l : list nat) : option nat :=
  match l with
  | [] => None
  | x :: l' => if equal (value (cells s x)) e then Some O else option_map S (place s e l')
  end.

(** addFirst(Cell), 39-49, with 163-165 *)
Definition addFirst (e : elem) (s : state) : state :=
  let c := made s in
  match front s with
  | None => {| front := Some c; rear := Some c; size := size s + 1; made := S c; cells := upd (cells s) c (Cell e None None) |}
  | Some x => {| front := Some c; rear := rear s; size := size s + 1; made := S c; cells := setPrev (upd (cells s) c (Cell e None (Some x))) x (Some c) |}
  end.
(** addLast(Cell), 51-61, with 175-177.  None: NullPointerException *)
Definition addLast (e : elem) (s : state) : option state :=
  let c := made s in
  match front s with
  | None => Some {| front := Some c; rear := Some c; size := size s + 1; made := S c; cells := upd (cells s) c (Cell e None None) |}
  | Some _ =>
      match rear s with
      | None => None
      | Some x => Some {| front := front s; rear := Some c; size := size s + 1; made := S c; cells := setNext (upd (cells s) c (Cell e (Some x) None)) x (Some c) |}
      end
  end.
(** remove(Cell), 72-86 *)
Definition removeCell (c : nat) (s : state) : state :=
  let p := prev (cells s c) in
  let n := next (cells s c) in
  let f1 := match p with None => cells s | Some x => setNext (cells s) x n end in
  let f2 := match n with None => f1 | Some x => setPrev f1 x p end in
  {| front := match p with None => n | Some _ => front s end; rear := match n with None => p | Some _ => rear s end;
     size := size s - 1; made := made s; cells := f2 |}.
(** add(int, T), 140-148, for an index that is not 0.  None: an exception *)
Definition addAt (i : Z) (e : elem) (s : state) : option state :=
  match findAt s i with
  | None => None
  | Some x =>
      match prev (cells s x) with
      | None => None
      | Some p => Some {| front := front s; rear := rear s; size := size s; made := S (made s);
                          cells := setNext (upd (cells s) (made s) (Cell e (Some p) (Some x))) p (Some (made s)) |}
      end
  end.

Inductive op := AddFirst (e : elem) | AddLast (e : elem) | AddAt (i : Z) (e : elem) | Get (i : Z) | Set_ (i : Z) (e : elem)
  | PeekFirst | PeekLast | GetFirst | GetLast | Element | PollFirst | PollLast | RemoveFirst | RemoveLast | RemoveAt (i : Z) | RemoveElem (e : elem)
  | Contains (e : elem) | IndexOf (e : elem) | LastIndexOf (e : elem) | Size | Clear | RemoveFirstOccurrence (e : elem) | RemoveLastOccurrence (e : elem) | Elements.
Inductive answer := Elem (e : elem) | Bool (b : bool) | Int (z : Z) | Done | Throws | All (l : list elem).

Definition valueAt (s : state) (x : option nat) : elem := match x with Some i => value (cells s i) | None => None end.
(** pollFirst, 250-258 *)
Definition pollFirst (s : state) : state * elem := match front s with Some x => (removeCell x s, value (cells s x)) | None => (s, None) end.
(** pollLast, 282-290; None: NoSuchElementException *)
Definition pollLast (s : state) : state * option elem := match rear s with Some x => (removeCell x s, Some (value (cells s x))) | None => (s, None) end.
Definition indexOf (s : state) (e : elem) : Z := match place s e (forward s) with Some i => Z.of_nat i | None => -1 end.        (* 99-108 *)
Definition lastIndexOf (s : state) (e : elem) : Z := match place s e (backward s) with Some i => size s - 1 - Z.of_nat i | None => -1 end.  (* 111-120 *)

Definition exec (o : op) (s : state) : state * answer :=
  match o with
  | AddFirst e => (addFirst e s, Done)                                                                     (* 151-165 *)
  | AddLast e => match addLast e s with Some s' => (s', Done) | None => (s, Throws) end                     (* 123-131, 168-177 *)
  | AddAt i e => if (i =? 0)%Z then (addFirst e s, Done) else match addAt i e s with Some s' => (s', Done) | None => (s, Throws) end  (* 140-148 *)
  | Get i => (s, match findAt s i with Some x => Elem (value (cells s x)) | None => Throws end)             (* 179-181 *)
  | Set_ i e =>                                                                                            (* 184-189 *)
      match findAt s i with
      | Some x => ({| front := front s; rear := rear s; size := size s; made := made s; cells := upd (cells s) x (Cell e (prev (cells s x)) (next (cells s x))) |}, Elem (value (cells s x)))
      | None => (s, Throws)
      end
  | PeekFirst => (s, Elem (valueAt s (front s)))                                                           (* 192-203 *)
  | PeekLast => (s, Elem (valueAt s (rear s)))                                                             (* 215-221 *)
  | GetFirst => (s, match front s with Some x => Elem (value (cells s x)) | None => Throws end)            (* 206-212 *)
  | GetLast => (s, match rear s with Some x => Elem (value (cells s x)) | None => Throws end)              (* 224-230 *)
  | Element => (s, match valueAt s (front s) with Some v => Elem (Some v) | None => Throws end)            (* 367-374 *)
  | PollFirst => let '(s', e) := pollFirst s in (s', Elem e)                                               (* 245-258 *)
  | PollLast => let '(s', o) := pollLast s in (s', match o with Some e => Elem e | None => Throws end)     (* 282-290 *)
  | RemoveFirst => let '(s', e) := pollFirst s in (s', match e with Some v => Elem (Some v) | None => Throws end)  (* 261-279 *)
  | RemoveLast => let '(s', o) := pollLast s in (s', match o with Some (Some v) => Elem (Some v) | _ => Throws end)  (* 293-301 *)
  | RemoveAt i => match findAt s i with Some x => (removeCell x s, Elem (value (cells s x))) | None => (s, Throws) end  (* 233-237 *)
  | RemoveElem e => match findElem s e with Some x => (removeCell x s, Bool true) | None => (s, Bool false) end  (* 304-312 *)
  | Contains e => (s, Bool (match findElem s e with Some _ => true | None => false end))                   (* 94-96 *)
  | IndexOf e => (s, Int (indexOf s e))
  | LastIndexOf e => (s, Int (lastIndexOf s e))
  | Size => (s, Int (size s))                                                                              (* 89-91 *)
  | Clear => ({| front := None; rear := None; size := 0; made := made s; cells := cells s |}, Done)        (* 315-318 *)
  | RemoveFirstOccurrence e =>                                                                             (* 377-386 *)
      let i := indexOf s e in
      if (0 <? i)%Z then match findAt s i with Some x => (removeCell x s, Bool true) | None => (s, Throws) end else (s, Bool false)
  | RemoveLastOccurrence e =>                                                                              (* 389-398 *)
      let i := lastIndexOf s e in
      if (0 <? i)%Z then match findAt s i with Some x => (removeCell x s, Bool true) | None => (s, Throws) end else (s, Bool false)
  | Elements => (s, All (map (fun x => value (cells s x)) (forward s)))                                    (* 321-328, 427-447 *)
  end.

(** MyIterator, 412-462 *)
Record iter := { list_ : state; toRemove : option nat; current : option nat }.
Inductive iterOp := HasNext | HasPrevious | Next | Previous | IRemove.
Definition following (i : iter) : option nat := match current i with None => front (list_ i) | Some x => next (cells (list_ i) x) end.
Definition execIter (o : iterOp) (i : iter) : iter * answer :=
  match o with
  | HasNext => (i, Bool (match following i with Some _ => true | None => false end))
  | HasPrevious => (i, Bool (match current i with Some _ => true | None => false end))
  | Next =>
      match following i with
      | Some x => ({| list_ := list_ i; toRemove := Some x; current := Some x |}, Elem (value (cells (list_ i) x)))
      | None => (i, Throws)
      end
  | Previous =>
      match current i with
      | Some x => ({| list_ := list_ i; toRemove := Some x; current := prev (cells (list_ i) x) |}, Elem (value (cells (list_ i) x)))
      | None => (i, Throws)
      end
  | IRemove =>
      match toRemove i with
      | Some x => ({| list_ := removeCell x (list_ i); toRemove := None; current := prev (cells (list_ i) x) |}, Done)
      | None => (i, Throws)
      end
  end.
(** removeAll, AbstractCollection.java 78-91, the elements of the other collection in its order. *)
Fixpoint removeAll (es : list elem) (s : state) : state * bool :=
  match es with
  | [] => (s, false)
  | e :: es' =>
      let '(s1, a) := exec (RemoveElem e) s in
      let '(s2, b) := removeAll es' s1 in (s2, match a with Bool true => true | _ => b end)
  end.
Definition iterator (s : state) : iter := {| list_ := s; toRemove := None; current := None |}.
End JList.
Arguments op : clear implicits.
Arguments answer : clear implicits.
Arguments state : clear implicits.
Arguments iter : clear implicits.
