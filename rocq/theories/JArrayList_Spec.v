(** What users expect of ArrayList: a list. *)
From Coq Require Import ZArith Bool List.
Import ListNotations.
From Verif Require Import JArrayList_Model.
Local Open Scope Z_scope.

Section Spec.
Context {A : Type} (eqA : A -> A -> bool).
Notation elem := (elem A).
Definition at_ (l : list elem) (i : Z) : option nat := if (0 <=? i) && (i <? Z.of_nat (length l)) then Some (Z.to_nat i) else None.
Definition dropAt (i : nat) (l : list elem) : list elem := firstn i l ++ skipn (S i) l.
Definition putAt (i : nat) (e : elem) (l : list elem) : list elem := firstn i l ++ e :: skipn (S i) l.
Fixpoint firstPlace (e : elem) (l : list elem) : option nat :=
  match l with [] => None | x :: l' => if equal eqA e x then Some O else option_map S (firstPlace e l') end.
Definition lastPlace (e : elem) (l : list elem) : option nat := option_map (fun i => (length l - 1 - i)%nat) (firstPlace e (rev l)).
Definition intOf (o : option nat) : Z := match o with Some i => Z.of_nat i | None => -1 end.
Definition spec (o : op A) (l : list elem) : list elem * answer A :=
  match o with
  | Add e => (l ++ [e], Bool true)
  | AddAt i e => if (0 <=? i) && (i <=? Z.of_nat (length l)) then (firstn (Z.to_nat i) l ++ e :: skipn (Z.to_nat i) l, Done) else (l, Throws)
  | Get i => (l, match at_ l i with Some n => Elem (nth n l None) | None => Throws end)
  | SetAt i e => match at_ l i with Some n => (putAt n e l, Elem (nth n l None)) | None => (l, Throws) end
  | RemoveAt i => match at_ l i with Some n => (dropAt n l, Elem (nth n l None)) | None => (l, Throws) end
  | RemoveElem e => match firstPlace e l with Some n => (dropAt n l, Bool true) | None => (l, Bool false) end
  | IndexOf e => (l, Int (intOf (firstPlace e l)))
  | LastIndexOf e => (l, Int (intOf (lastPlace e l)))
  | Contains e => (l, Bool (match firstPlace e l with Some _ => true | None => false end))
  | Size => (l, Int (Z.of_nat (length l)))
  | Clear => ([], Done)
  | Ensure _ => (l, Done)
  | ToArray | Elements => (l, All l)
  end.
(** Left out: an index that add must refuse, toArray with a null element, and lists of 2^31 - 1 elements, which may not grow. *)
Definition fine (o : op A) (l : list elem) : Prop :=
  match o with
  | Add _ => Z.of_nat (length l) < 2 ^ 31 - 1
  | AddAt i _ => Z.of_nat (length l) < 2 ^ 31 - 1 /\ 0 <= i <= Z.of_nat (length l)
  | ToArray => ~ In None l
  | _ => True
  end.
Fixpoint allFine (os : list (op A)) (l : list elem) : Prop := match os with [] => True | o :: os' => fine o l /\ allFine os' (fst (spec o l)) end.
Fixpoint answers {S} (step : op A -> S -> S * answer A) (os : list (op A)) (s : S) : list (answer A) :=
  match os with [] => [] | o :: os' => let '(s', a) := step o s in a :: answers step os' s' end.
Fixpoint final {S} (step : op A -> S -> S * answer A) (os : list (op A)) (s : S) : S := match os with [] => s | o :: os' => final step os' (fst (step o s)) end.

(** An iterator: the list, the number of elements before it, the place of the element returned last. *)
Record cursor := { items : list elem; pos : nat; lastRet : option nat }.
Definition specIter (o : iterOp) (c : cursor) : cursor * answer A :=
  match o with
  | HasNext => (c, Bool (Nat.ltb (pos c) (length (items c))))
  | HasPrevious => (c, Bool (Nat.ltb 0 (pos c)))
  | Next => match nth_error (items c) (pos c) with
            | Some e => ({| items := items c; pos := S (pos c); lastRet := Some (pos c) |}, Elem e)
            | None => (c, Throws)
            end
  | Previous => match pos c with
                | O => (c, Throws)
                | S n => ({| items := items c; pos := n; lastRet := Some n |}, Elem (nth n (items c) None))
                end
  | IRemove => match lastRet c with
               | Some n => ({| items := dropAt n (items c); pos := n; lastRet := None |}, Done)
               | None => (c, Throws)
               end
  end.
Fixpoint runIter {S} (step : iterOp -> S -> S * answer A) (os : list iterOp) (s : S) : S * list (answer A) :=
  match os with [] => (s, []) | o :: os' => let '(s1, a) := step o s in let '(s2, l) := runIter step os' s1 in (s2, a :: l) end.
End Spec.
Arguments cursor : clear implicits.
