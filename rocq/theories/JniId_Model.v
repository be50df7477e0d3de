(** Field and method ids of JNI: src/jnienv.cpp:510-533 (methodID), 581-591 (getMethod),
    1393-1416 (fieldID), 1447-1456 (getField), with src/util.cpp:526-547 (vectorAppend).
    Fields and methods have the same code with a table each; the model is one of them. *)
From Coq Require Import List Arith Bool.
Import ListNotations.

(** A vector object: its elements (as many as its length) and its size. Fields are numbers. *)
Record vec := { body : list (option nat); vsize : nat }.

(** Where a thread is. [f]: the field whose id is asked for; [v]: a vector. *)
Inductive pc :=
| Idle
| Enter (f : nat)                    (* int id = field->nativeID(), 1395 *)
| Lock (f : nat)                     (* ACQUIRE(referenceLock), 1402 *)
| Check (f : nat)                    (* field->nativeID() == 0, 1404 *)
| Grow (f : nat)                     (* vectorAppend: length == size, util.cpp:528-542 *)
| Store (f v : nat)                  (* setBodyElement(size, value), util.cpp:544 *)
| Size (f v : nat)                   (* ++ vector->size(), util.cpp:545 *)
| Publish (f v : nat)                (* setJNIFieldTable, 1407 *)
| Write (f : nat)                    (* nativeID() = table->size(), 1411 *)
| Unlock (f : nat)                   (* the end of the block, 1413 *)
| Return (f : nat)                   (* return field->nativeID(), 1415 *)
| Use (f id : nat)                   (* getField(id): roots(t)->jNIFieldTable(), 1451 *)
| Index (f id v : nat).              (* body()[id - 1], 1451 *)

(** [nid]: the fields' nativeID (a 32-bit int; that 2^31 ids are used up is not modelled).
    [issued]: the ids returned so far, with the field they were asked for; [used]: what was
    found with an id, with the field it was issued for; [None] stands for memory outside the
    vector, [Some None] for a null element. *)
Record state := { vecs : list vec; table : nat; nid : nat -> nat; lock : option nat;
                  at_ : nat -> pc; issued : list (nat * nat); used : list (nat * option (option nat)) }.

(** machine.cpp:3930-3937: the tables start as vectors of size and length 0. *)
Definition initial : state :=
  {| vecs := [ {| body := []; vsize := 0 |} ]; table := 0; nid := fun _ => 0; lock := None;
     at_ := fun _ => Idle; issued := []; used := [] |}.

Definition upd {A} (g : nat -> A) (k : nat) (x : A) : nat -> A := fun j => if Nat.eqb j k then x else g j.
Fixpoint setNth {A} (l : list A) (i : nat) (x : A) : list A :=
  match l, i with
  | [], _ => []
  | _ :: l', O => x :: l'
  | y :: l', S i' => y :: setNth l' i' x
  end.
Definition vecAt (s : state) (v : nat) : vec := nth v (vecs s) {| body := []; vsize := 0 |}.

Definition go (s : state) (t : nat) (p : pc) : state :=
  {| vecs := vecs s; table := table s; nid := nid s; lock := lock s; at_ := upd (at_ s) t p;
     issued := issued s; used := used s |}.
Definition withVecs (s : state) (l : list vec) : state :=
  {| vecs := l; table := table s; nid := nid s; lock := lock s; at_ := at_ s; issued := issued s; used := used s |}.
Definition withTable (s : state) (v : nat) : state :=
  {| vecs := vecs s; table := v; nid := nid s; lock := lock s; at_ := at_ s; issued := issued s; used := used s |}.
Definition withNid (s : state) (f n : nat) : state :=
  {| vecs := vecs s; table := table s; nid := upd (nid s) f n; lock := lock s; at_ := at_ s; issued := issued s; used := used s |}.
Definition withLock (s : state) (o : option nat) : state :=
  {| vecs := vecs s; table := table s; nid := nid s; lock := o; at_ := at_ s; issued := issued s; used := used s |}.
Definition issue (s : state) (f n : nat) : state :=
  {| vecs := vecs s; table := table s; nid := nid s; lock := lock s; at_ := at_ s; issued := (f, n) :: issued s; used := used s |}.
Definition look (s : state) (f : nat) (x : option (option nat)) : state :=
  {| vecs := vecs s; table := table s; nid := nid s; lock := lock s; at_ := at_ s; issued := issued s; used := (f, x) :: used s |}.

(** util.cpp:532-541: a vector of twice the length, at least 16, with the elements copied. *)
Definition grown (w : vec) : vec :=
  {| body := firstn (vsize w) (body w) ++ repeat None (Nat.max 16 (vsize w * 2) - length (firstn (vsize w) (body w)));
     vsize := vsize w |}.

(** One step of thread [t]. Every step is one access to shared memory; the memory is
    sequentially consistent (the code's barriers are there to make it so). The collector,
    which may move the objects, is C18. *)
Definition step (t : nat) (s : state) : option state :=
  match at_ s t with
  | Idle => None
  | Enter f => Some (go s t (if nid s f =? 0 then Lock f else Return f))
  | Lock f => match lock s with None => Some (go (withLock s (Some t)) t (Check f)) | Some _ => None end
  | Check f => Some (go s t (if nid s f =? 0 then Grow f else Unlock f))
  | Grow f =>
      let w := vecAt s (table s) in
      if length (body w) =? vsize w
      then Some (go (withVecs s (vecs s ++ [grown w])) t (Store f (length (vecs s))))
      else Some (go s t (Store f (table s)))
  | Store f v =>
      let w := vecAt s v in
      Some (go (withVecs s (setNth (vecs s) v {| body := setNth (body w) (vsize w) (Some f); vsize := vsize w |})) t (Size f v))
  | Size f v =>
      let w := vecAt s v in
      Some (go (withVecs s (setNth (vecs s) v {| body := body w; vsize := S (vsize w) |})) t (Publish f v))
  | Publish f v => Some (go (withTable s v) t (Write f))
  | Write f => Some (go (withNid s f (vsize (vecAt s (table s)))) t (Unlock f))
  | Unlock f => Some (go (withLock s None) t (Return f))
  | Return f => Some (go (issue s f (nid s f)) t Idle)
  | Use f id => Some (go s t (Index f id (table s)))
  | Index f id v => Some (go (look s f (nth_error (body (vecAt s v)) (id - 1))) t Idle)
  end.
(** What a program does: asks for the id of a field, uses an id it has been given, or goes on. *)
Inductive act := Ask (t f : nat) | UseId (t f id : nat) | Step (t : nat).
Definition do_ (a : act) (s : state) : option state :=
  match a with
  | Ask t f => match at_ s t with Idle => Some (go s t (Enter f)) | _ => None end
  | UseId t f id =>
      match at_ s t with
      | Idle => if existsb (fun p => (fst p =? f) && (snd p =? id)) (issued s) then Some (go s t (Use f id)) else None
      | _ => None
      end
  | Step t => step t s
  end.
(** A schedule; acts that are not possible are passed over. *)
Fixpoint run (l : list act) (s : state) : state :=
  match l with
  | [] => s
  | a :: l' => run l' (match do_ a s with Some s' => s' | None => s end)
  end.
