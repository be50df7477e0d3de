(** What the user of the vector sees: a list of bytes. *)
From Coq Require Import List ZArith Bool.
From Verif Require Import Vector_Model.
Import ListNotations.

(** None: the operation names bytes that are not there. *)
Definition spec (o : op) (l : list Z) : option (out * list Z) :=
  match o with
  | Append bs => Some (OutOff (length l), l ++ bs)
  | Set_ off bs => if off + length bs <=? length l then Some (OutNone, firstn off l ++ bs ++ skipn (off + length bs) l) else None
  | Get off n => if off + n <=? length l then Some (OutBytes (firstn n (skipn off l)), l) else None
  | Pop n => if n <=? length l then Some (OutBytes (skipn (length l - n) l), firstn (length l - n) l) else None
  end.
Fixpoint specs (os : list op) (l : list Z) : option (list out * list Z) :=
  match os with
  | [] => Some ([], l)
  | o :: os => match spec o l with
      | Some (r, l') => match specs os l' with Some (rs, l'') => Some (r :: rs, l'') | None => None end
      | None => None end
  end.
(** The longest the list gets. *)
Fixpoint peak (os : list op) (l : list Z) : nat :=
  match os with
  | [] => length l
  | o :: os => Nat.max (length l) (match spec o l with Some (_, l') => peak os l' | None => length l end)
  end.
