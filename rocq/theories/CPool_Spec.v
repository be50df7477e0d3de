(** Constant pools as the class file format has them, and what their entries stand for.
    Independent of the model but for [stored], which says how a constant is kept. *)
From Coq Require Import NArith List Bool.
From Verif Require Import CPool_Model.
Import ListNotations.
Local Open Scope N_scope.

Inductive member := Field | Method | InterfaceMethod.
(** The entries; [i], [j], [k] are indexes into the pool, which count from 1. *)
Inductive entry :=
| Utf8 (b : list N) | Integer (v : N) | Float (v : N) | Long (v : N) | Double (v : N)
| Class (i : N) | String (i : N) | NameAndType (i j : N) | Member (m : member) (i j : N)
| MethodHandle (kind i : N) | MethodType (i : N) | InvokeDynamic (bootstrap i : N).

(** Their bytes: a tag, and numbers of [w] bytes with the highest first. *)
Fixpoint be (w : nat) (v : N) : list N :=
  match w with O => [] | S w' => be w' (v / 256) ++ [v mod 256] end.
Definition encode (e : entry) : list N :=
  match e with
  | Utf8 b => [1] ++ be 2 (N.of_nat (length b)) ++ b
  | Integer v => [3] ++ be 4 v
  | Float v => [4] ++ be 4 v
  | Long v => [5] ++ be 8 v
  | Double v => [6] ++ be 8 v
  | Class i => [7] ++ be 2 i
  | String i => [8] ++ be 2 i
  | Member Field i j => [9] ++ be 2 i ++ be 2 j
  | Member Method i j => [10] ++ be 2 i ++ be 2 j
  | Member InterfaceMethod i j => [11] ++ be 2 i ++ be 2 j
  | NameAndType i j => [12] ++ be 2 i ++ be 2 j
  | MethodHandle kind i => [15] ++ be 1 kind ++ be 2 i
  | MethodType i => [16] ++ be 2 i
  | InvokeDynamic b i => [18] ++ be 2 b ++ be 2 i
  end.

(** Longs and doubles take two indexes. *)
Definition places (e : entry) : list (option entry) :=
  match e with Long _ | Double _ => [Some e; None] | _ => [Some e] end.
Definition slots (es : list entry) : list (option entry) := flat_map places es.
Definition poolBytes (es : list entry) : list N :=
  be 2 (N.of_nat (length (slots es)) + 1) ++ flat_map encode es.

(** The entry with index [i]. *)
Definition entryAt (es : list entry) (i : N) : option entry :=
  if i =? 0 then None else nth (N.to_nat (i - 1)) (slots es) None.

(** What the entries stand for. *)
Inductive constant :=
| CNumber (v : N) | CText (b : list N) | CClass (name : list N) | CString (utf8 : list N)
| CNameType (name type : list N) | CMember (class name type : list N)
| CHandle (kind : N) (class name type : list N) | CMethodType (type : list N)
| CDynamic (bootstrap : N) (name type : list N).

Definition text (es : list entry) (i : N) : option (list N) :=
  match entryAt es i with Some (Utf8 b) => Some b | _ => None end.
Definition className (es : list entry) (i : N) : option (list N) :=
  match entryAt es i with Some (Class j) => text es j | _ => None end.
Definition nameType (es : list entry) (i : N) : option (list N * list N) :=
  match entryAt es i with
  | Some (NameAndType j k) =>
      match text es j, text es k with Some n, Some t => Some (n, t) | _, _ => None end
  | _ => None
  end.
Definition memberOf (es : list entry) (i j : N) : option (list N * list N * list N) :=
  match className es i, nameType es j with Some c, Some (n, t) => Some (c, n, t) | _, _ => None end.
(** [None]: an index that is no index of an entry of the kind required. *)
Definition meaning (es : list entry) (e : entry) : option constant :=
  match e with
  | Utf8 b => Some (CText b)
  | Integer v | Float v | Long v | Double v => Some (CNumber v)
  | Class i => option_map CClass (text es i)
  | String i => option_map CString (text es i)
  | NameAndType i j =>
      match text es i, text es j with Some n, Some t => Some (CNameType n t) | _, _ => None end
  | Member _ i j => option_map (fun '(c, n, t) => CMember c n t) (memberOf es i j)
  | MethodHandle k i =>
      match entryAt es i with
      | Some (Member _ a b) => option_map (fun '(c, n, t) => CHandle k c n t) (memberOf es a b)
      | _ => None
      end
  | MethodType i => option_map CMethodType (text es i)
  | InvokeDynamic b i => option_map (fun '(n, t) => CDynamic b n t) (nameType es i)
  end.

(** A legal pool: every entry's numbers fit, and every index leads to the right kind. *)
Definition fitsEntry (e : entry) : Prop :=
  match e with
  | Utf8 b => N.of_nat (length b) < 2 ^ 16 /\ Forall (fun x => x < 256) b
  | Integer v | Float v => v < 2 ^ 32
  | Long v | Double v => v < 2 ^ 64
  | Class i | String i | MethodType i => i < 2 ^ 16
  | NameAndType i j | Member _ i j | InvokeDynamic i j => i < 2 ^ 16 /\ j < 2 ^ 16
  | MethodHandle k i => k < 256 /\ i < 2 ^ 16
  end.
Definition legal (es : list entry) : Prop :=
  N.of_nat (length (slots es)) + 1 < 2 ^ 16
  /\ Forall (fun e => fitsEntry e /\ meaning es e <> None) es.

(** How the virtual machine keeps a constant. *)
Definition stored (c : constant) : slot :=
  match c with
  | CNumber v => Word v
  | CText b => Obj (OBytes b)
  | CClass n => Obj (OReference 0 None (Some n) None)
  | CString b => Obj (OString b)
  | CNameType n t => Obj (OPair n t)
  | CMember c n t => Obj (OReference 0 (Some c) (Some n) (Some t))
  | CHandle k c n t => Obj (OReference k (Some c) (Some n) (Some t))
  | CMethodType t => Obj (OBytes t)
  | CDynamic b n t => Obj (OInvocation b n t)
  end.
(** The word at an index: the constant, and zero at the second index of longs and doubles. *)
Definition slotOf (es : list entry) (x : option entry) : slot :=
  match x with
  | Some e => match meaning es e with Some c => stored c | None => Word 0 end
  | None => Word 0
  end.

(** Entries kept as objects, and numbers of floating point. *)
Definition isObject (x : option entry) : bool :=
  match x with Some (Integer _ | Float _ | Long _ | Double _) | None => false | _ => true end.
(** The dynamic calls, in the order of the file. *)
Definition dynamics (es : list entry) : list obj :=
  flat_map (fun e => match e with
    | InvokeDynamic b i => match nameType es i with Some (n, t) => [OInvocation b n t] | None => [] end
    | _ => [] end) es.
(** For each index, whether a float or part of a double is there. *)
Definition floating (es : list entry) : list bool :=
  flat_map (fun e => match e with
    | Float _ => [true] | Double _ => [true; true] | Long _ => [false; false] | _ => [false] end) es.
