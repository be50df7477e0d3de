(** Grammar of method descriptors (JVM specification 4.3). *)
From Coq Require Import NArith List.
From Verif Require Import Chars Desc_Model.
Import ListNotations.
Local Open Scope N_scope.

Inductive prim := PByte | PChar | PDouble | PFloat | PInt | PLong | PShort | PBoolean.
Inductive ftype := Prim (p : prim) | Class (name : list N) | Array (t : ftype).

Definition primChar (p : prim) : N :=
  match p with
  | PByte => ch "B" | PChar => ch "C" | PDouble => ch "D" | PFloat => ch "F"
  | PInt => ch "I" | PLong => ch "J" | PShort => ch "S" | PBoolean => ch "Z"
  end.

Fixpoint printType (t : ftype) : list N :=
  match t with
  | Prim p => [primChar p]
  | Class n => ch "L" :: n ++ [ch ";"]
  | Array t => ch "[" :: printType t
  end.

(** Class names contain neither ';' nor NUL. *)
Fixpoint wellFormed (t : ftype) : Prop :=
  match t with
  | Prim _ => True
  | Class n => ~ In (ch ";") n /\ ~ In 0 n
  | Array t => wellFormed t
  end.

Definition printReturn (r : option ftype) : list N :=
  match r with None => [ch "V"] | Some t => printType t end.

(** "(" parameters ")" return, NUL-terminated. *)
Definition printMethod (ps : list ftype) (r : option ftype) : list N :=
  ch "(" :: flat_map printType ps ++ ch ")" :: printReturn r ++ [0].

(** Stack slots of a parameter. *)
Definition slots (t : ftype) : N := match t with Prim PLong | Prim PDouble => 2 | _ => 1 end.
Definition totalSlots (ps : list ftype) : N := fold_right (fun t n => slots t + n) 0 ps.

Definition codeOf (r : option ftype) : code :=
  match r with
  | None => VoidField
  | Some (Prim PByte) => ByteField
  | Some (Prim PChar) => CharField
  | Some (Prim PDouble) => DoubleField
  | Some (Prim PFloat) => FloatField
  | Some (Prim PInt) => IntField
  | Some (Prim PLong) => LongField
  | Some (Prim PShort) => ShortField
  | Some (Prim PBoolean) => BooleanField
  | Some (Class _) | Some (Array _) => ObjectField
  end.
