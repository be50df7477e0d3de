(** What a constant pool / static table is expected to remember (C16). *)
From Coq Require Import NArith List Bool.
Import ListNotations.
Local Open Scope N_scope.

(** The writes performed while a pool is built. *)
Inductive pool_op :=
| Store (i v : N)      (* write [v] into entry [i] *)
| MarkObject (i : N)   (* declare entry [i] an object reference *)
| MarkFloat (i : N).   (* declare entry [i] a floating point constant *)

(** The last value stored into entry [i] (0 initially). *)
Fixpoint stored_from (v : N) (ops : list pool_op) (i : N) : N :=
  match ops with
  | [] => v
  | Store j x :: r => stored_from (if i =? j then x else v) r i
  | _ :: r => stored_from v r i
  end.
Definition stored := stored_from 0.
Definition isObjectMarked (ops : list pool_op) (i : N) : bool :=
  existsb (fun o => match o with MarkObject j => i =? j | _ => false end) ops.
Definition isFloatMarked (ops : list pool_op) (i : N) : bool :=
  existsb (fun o => match o with MarkFloat j => i =? j | _ => false end) ops.

(** All indices are entries, all values are words. *)
Definition pool_op_ok (count : N) (o : pool_op) : Prop :=
  match o with
  | Store i v => i < count /\ v < 2 ^ 64
  | MarkObject i | MarkFloat i => i < count
  end.
Definition no_float (o : pool_op) : Prop := match o with MarkFloat _ => False | _ => True end.
