(** What users expect of LinkedList: a list. *)
From Coq Require Import ZArith Bool List.
Import ListNotations.
From Verif Require Import JList_Model.

Section Spec.
Context {A : Type}.
Variable eqA : A -> A -> bool.
Definition at_ (l : list (@elem A)) (i : Z) : option nat := if ((0 <=? i) && (i <? Z.of_nat (length l)))%Z then Some (Z.to_nat i) else None.
Definition dropAt (i : nat) (l : list (@elem A)) : list elem := firstn i l ++ skipn (S i) l.
Definition putAt (i : nat) (e : elem) (l : list (@elem A)) : list elem := firstn i l ++ e :: skipn (S i) l.
(** Where the element is first and last. *)
Fixpoint firstPlace (e : elem) (l : list (@elem A)) : option nat :=
  match l with [] => None | x :: l' => if equal eqA x e then Some O else option_map S (firstPlace e l') end.
Definition lastPlace (e : elem) (l : list (@elem A)) : option nat := option_map (fun i => length l - 1 - i) (firstPlace e (rev l)).
Definition intOf (o : option nat) : Z := match o with Some i => Z.of_nat i | None => -1 end.
Definition lastOf (l : list (@elem A)) : option elem := nth_error l (length l - 1).

Definition spec (o : op A) (l : list (@elem A)) : list (@elem A) * answer A :=
  match o with
  | AddFirst e => (e :: l, Done)
  | AddLast e => (l ++ [e], Done)
  | AddAt i e => if ((0 <=? i) && (i <=? Z.of_nat (length l)))%Z then (firstn (Z.to_nat i) l ++ e :: skipn (Z.to_nat i) l, Done) else (l, Throws)
  | Get i => (l, match at_ l i with Some n => Elem (nth n l None) | None => Throws end)
  | Set_ i e => match at_ l i with Some n => (putAt n e l, Elem (nth n l None)) | None => (l, Throws) end
  | PeekFirst => (l, Elem (hd None l))
  | PeekLast => (l, Elem (match lastOf l with Some e => e | None => None end))
  | GetFirst | Element => (l, match l with e :: _ => Elem e | [] => Throws end)
  | GetLast => (l, match lastOf l with Some e => Elem e | None => Throws end)
  | PollFirst => (tl l, Elem (hd None l))
  | PollLast => (dropAt (length l - 1) l, Elem (match lastOf l with Some e => e | None => None end))
  | RemoveFirst => (tl l, match l with e :: _ => Elem e | [] => Throws end)
  | RemoveLast => (dropAt (length l - 1) l, match lastOf l with Some e => Elem e | None => Throws end)
  | RemoveAt i => match at_ l i with Some n => (dropAt n l, Elem (nth n l None)) | None => (l, Throws) end
  | RemoveElem e | RemoveFirstOccurrence e => match firstPlace e l with Some n => (dropAt n l, Bool true) | None => (l, Bool false) end
  | RemoveLastOccurrence e => match lastPlace e l with Some n => (dropAt n l, Bool true) | None => (l, Bool false) end
  | Contains e => (l, Bool (match firstPlace e l with Some _ => true | None => false end))
  | IndexOf e => (l, Int (intOf (firstPlace e l)))
  | LastIndexOf e => (l, Int (intOf (lastPlace e l)))
  | Size => (l, Int (Z.of_nat (length l)))
  | Clear => ([], Done)
  | Elements => (l, All l)
  end.

(** The calls that go wrong are left out: insertion behind the first element, pollLast of an empty list, removal and
    inspection of null by the calls that throw for an empty list, removal of an occurrence at the very front. *)
Definition fine (o : op A) (l : list (@elem A)) : Prop :=
  match o with
  | AddAt i _ => (i <= 0 \/ i > Z.of_nat (length l))%Z
  | PollLast => l <> []
  | RemoveFirst | Element => hd_error l <> Some None
  | RemoveLast => lastOf l <> Some None
  | RemoveFirstOccurrence e => firstPlace e l <> Some O
  | RemoveLastOccurrence e => lastPlace e l <> Some O
  | _ => True
  end.
Fixpoint allFine (os : list (op A)) (l : list (@elem A)) : Prop :=
  match os with [] => True | o :: os' => fine o l /\ allFine os' (fst (spec o l)) end.
Fixpoint answers {S} (step : op A -> S -> S * answer A) (os : list (op A)) (s : S) : list (answer A) :=
  match os with [] => [] | o :: os' => let '(s', a) := step o s in a :: answers step os' s' end.
(** What is left after a history of calls. *)
Fixpoint final {S} (step : op A -> S -> S * answer A) (os : list (op A)) (s : S) : S :=
  match os with [] => s | o :: os' => final step os' (fst (step o s)) end.

(** An iterator: the list, the number of elements before it, the place of the element returned last. *)
Record cursor := { items : list (@elem A); pos : nat; lastRet : option nat }.
Definition specIter (o : iterOp) (c : cursor) : cursor * answer A :=
  match o with
  | HasNext => (c, Bool (Nat.ltb (pos c) (length (items c))))
  | HasPrevious => (c, Bool (Nat.ltb 0 (pos c)))
  | Next => match nth_error (items c) (pos c) with
            | Some e => ({| items := items c; pos := S (pos c); lastRet := Some (pos c) |}, Elem e)
            | None => (c, Throws)
            end
  | Previous => match pos c with
                | O => (c, Throws)
                | S n => ({| items := items c; pos := n; lastRet := Some n |}, Elem (nth n (items c) None))
                end
  | IRemove => match lastRet c with
               | Some n => ({| items := dropAt n (items c); pos := n; lastRet := None |}, Done)
               | None => (c, Throws)
               end
  end.
Fixpoint runIter {S} (step : iterOp -> S -> S * answer A) (os : list iterOp) (s : S) : S * list (answer A) :=
  match os with [] => (s, []) | o :: os' => let '(s1, a) := step o s in let '(s2, l) := runIter step os' s1 in (s2, a :: l) end.
End Spec.
Arguments cursor : clear implicits.
