(** Keys, values and comments that the unescaped format can hold. *)
From Coq Require Import NArith List.
From Verif Require Import JProps_Model.
Import ListNotations.
Local Open Scope N_scope.

(** \ newline space return tab : = *)
Definition keyCharacter (c : N) : Prop := c <> 92 /\ c <> 10 /\ c <> 32 /\ c <> 13 /\ c <> 9 /\ c <> 58 /\ c <> 61.
(** Not beginning with # or ! *)
Definition plainKey (k : list N) : Prop := Forall keyCharacter k /\ (forall c r, k = c :: r -> c <> 35 /\ c <> 33).
Definition blank (c : N) : Prop := c = 32 \/ c = 9 \/ c = 10 \/ c = 13.
(** No \ or newline; no blank at either end, and no : or = at the beginning *)
Definition plainValue (v : list N) : Prop :=
  Forall (fun c => c <> 92 /\ c <> 10) v /\
  (forall c r, v = c :: r -> ~ blank c /\ c <> 58 /\ c <> 61) /\
  (forall c r, v = r ++ [c] -> ~ blank c).
Definition plainEntry (e : entry) : Prop := plainKey (fst e) /\ plainValue (snd e).
Definition oneLine (s : list N) : Prop := ~ In 10 s.
(** Between key and value: blanks, at most one of : and =, and blanks. *)
Definition space (c : N) : Prop := c = 32 \/ c = 9 \/ c = 13.
Definition separator (l : list N) : Prop :=
  l <> [] /\ exists before mark after, l = before ++ mark ++ after /\ Forall space before /\ Forall space after /\ (mark = [] \/ mark = [58] \/ mark = [61]).
