(** JNI local references of the just-in-time compiler's processor: src/compile.cpp.
    The cells and their list are those of Jref_Model.v; here the root is
    MyThread::reference.  Objects are named by identities that do not change when the
    collector moves them (the collector visits every cell, compile.cpp 9002-9004). *)
From Coq Require Import ZArith List Bool.
From Verif Require Import Res Jref_Model.
Import ListNotations.
Local Open Scope Z_scope.
Local Open Scope res_scope.

(** The references of a thread and MyThread::referenceFrame, a stack of saved heads. *)
Record lstate := LState { rs : refs; saved : list Z }.

(** compile.cpp 9027-9033, the search. *)
Fixpoint searchLocal (fuel : nat) (s : refs) (a t : Z) : res Z :=
  match fuel with
  | O => Fuel
  | S f =>
    if a =? 0 then Ok 0
    else do r <- of_option (cells s a);
         if target r =? t then Ok a else searchLocal f s (next r) t
  end.

(** compile.cpp 9022-9044 [makeLocalReference]; [o]: the object, 0 for null; [a]: the
    memory a new cell would get. *)
Definition makeLocal (fuel : nat) (s : refs) (o a : Z) : res (Z * refs) :=
  if o =? 0 then Ok (0, s)
  else
    do f <- searchLocal fuel s (root s) o;
    if f =? 0 then
      do s1 <- construct s a o false;
      do s2 <- acquire s1 a;
      Ok (a, s2)
    else
      do s1 <- acquire s f;
      Ok (f, s1).

(** compile.cpp 9046-9051 [disposeLocalReference]. *)
Definition disposeLocal (s : refs) (v : Z) : res refs :=
  if v =? 0 then Ok s else release s v.

(** compile.cpp 9069-9071 and 7747-7749: dispose the head until it is the saved one. *)
Fixpoint disposeUntil (fuel : nat) (s : refs) (f : Z) : res refs :=
  match fuel with
  | O => Fuel
  | S n => if root s =? f then Ok s else do s1 <- dispose s (root s); disposeUntil n s1 f
  end.

(** compile.cpp 9053-9061 [pushLocalFrame]. *)
Definition pushFrame (s : lstate) : lstate := LState (rs s) (root (rs s) :: saved s).

(** compile.cpp 9063-9075 [popLocalFrame]. *)
Definition popFrame (fuel : nat) (s : lstate) : res lstate :=
  match saved s with
  | [] => UB
  | f :: rest => do s1 <- disposeUntil fuel (rs s) f; Ok (LState s1 rest)
  end.

(** src/jnienv.cpp 3200-3217: PopLocalFrame with a result, or 0. *)
Definition popLocalFrame (fuel : nat) (s : lstate) (result a : Z) : res (Z * lstate) :=
  if result =? 0 then do s1 <- popFrame fuel s; Ok (0, s1)
  else
    do c <- of_option (cells (rs s) result);
    do s1 <- popFrame fuel s;
    do (v, r) <- makeLocal fuel (rs s1) (target c) a;
    Ok (v, LState r (saved s1)).

(** compile.cpp 7672 and 7721-7751: the end of a native method entered with
    [reference] as the head; [threw]: it left an exception, which is thrown on before
    the references are disposed of. *)
Definition endNative (fuel : nat) (s : lstate) (reference : Z) (threw : bool) : res lstate :=
  if threw then Ok s
  else do s1 <- disposeUntil fuel (rs s) reference; Ok (LState s1 (saved s)).

(** The JNI functions on local references. *)
Inductive op := New (o a : Z) | Delete (v : Z) | Push | Pop (result a : Z).
Definition exec (fuel : nat) (s : lstate) (e : op) : res (Z * lstate) :=
  match e with
  | New o a => do (v, r) <- makeLocal fuel (rs s) o a; Ok (v, LState r (saved s))
  | Delete v => do r <- disposeLocal (rs s) v; Ok (0, LState r (saved s))
  | Push => Ok (0, pushFrame s)
  | Pop result a => popLocalFrame fuel s result a
  end.
