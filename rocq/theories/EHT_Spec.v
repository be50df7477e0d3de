(** What an exception handler table and a line number table mean: JVM specification 2.10 and 4.7.12. *)
From Coq Require Import List Arith Bool.
Import ListNotations.
From Verif Require Import EHT_Model.

(** The handler for an exception thrown by the instruction at [b]: the first entry, in the order of the class file, whose region has [b] and which
    catches it. *)
Definition handlerFor {T} (match_ : T -> bool) (table : list (entry T)) (b : nat) : option nat :=
  option_map eHandler (find (fun e => (eStart e <=? b) && (b <? eEnd e) && match_ (eType e)) table).
(** The table of a class file: regions and handlers are in the code. *)
Definition wellFormed {T} (len : nat) (table : list (entry T)) : Prop := Forall (fun e => eStart e < eEnd e /\ eEnd e <= len /\ eHandler e < len) table.
(** The instruction whose machine code is at offset [a]. *)
Fixpoint belongs (ps : list (nat * nat)) (a : nat) : option nat :=
  match ps with [] => None | (j, n) :: r => if a <? n then Some j else belongs r (a - n) end.
(** The line at [a] by a table in ascending order: that of the last entry at or before [a]. *)
Definition lineAt (table : list (nat * nat)) (a : nat) : option nat := option_map snd (find (fun e => fst e <=? a) (rev table)).
(** A line number table in ascending order. *)
Fixpoint ascending (table : list (nat * nat)) : Prop :=
  match table with [] => True | (ip, _) :: r => match r with (ip', _) :: _ => ip < ip' | [] => True end /\ ascending r end.
