(** Command lines: a sequence of [-flag] and [-option value]. *)
From Coq Require Import List String.
From Verif Require Import ArgParser_Model.
Import ListNotations.

Inductive Line (os : list opt) : list string -> list (string * option string) -> Prop :=
| line_nil : Line os [] []
| line_flag : forall o av l, In o os -> takes o = false -> Line os av l -> Line os (("-" ++ name o)%string :: av) ((name o, None) :: l)
| line_opt : forall o a av l, In o os -> takes o = true -> Line os av l -> Line os (("-" ++ name o)%string :: a :: av) ((name o, Some a) :: l).
(** No option that takes a value is given twice (a flag may be repeated). *)
Definition once (l : list (string * option string)) : Prop :=
  NoDup (map fst (filter (fun p => match snd p with Some _ => true | None => false end) l)).
Definition given (x : string) (l : list (string * option string)) : Prop := In x (map fst l).
Definition wellFormed (os : list opt) (av : list string) (l : list (string * option string)) : Prop :=
  Line os (tl av) l /\ once l /\ forall o, In o os -> required o = true -> given (name o) l.
