(** What a frame map has to say, stated on the bytecode of a method: the paths
    execution can take, and which slots hold an object reference along them.
    Nothing here refers to the compiler's event log, tables or passes. *)
From Verif Require Import Base FrameMap_Model.
Local Open Scope nat_scope.

(** Which slots of the frame hold an object reference. *)
Definition slots := N -> bool.

Definition put (s : slots) (i : N) (b : bool) : slots := fun j => if (j =? i)%N then b else s j.

(** What one effect of an instruction does to the slots: an object or something
    else is stored in a slot; a call stores nothing. *)
Definition after1 (s : slots) (e : effect) : slots :=
  match e with
  | EMark i => put s i true
  | EClear i => put s i false
  | ETrace => s
  end.
Definition after (s : slots) (es : list effect) : slots := fold_left after1 es s.

(** When a method is entered its slots hold no object except the parameters. *)
Definition entrySlots (m : method) : slots :=
  fold_left (fun s (p : N * bool) => put s (fst p) (snd p)) (params m) (fun _ => false).

(** When a handler is entered the operand stack holds the exception and nothing
    else; the local variables are as they were at the call that threw. *)
Definition handlerSlots (m : method) (s : slots) : slots :=
  fun j => if (j =? localSize m)%N then true
           else if ((localSize m <? j) && (j <? localSize m + maxStack m))%N then false
           else s j.

Definition isHandler (m : method) (ip : nat) : bool := existsb (fun h => hip h =? ip) (handlers m).

(** What happens at an instruction.  The code of a handler starts with a call that
    lets the collector run. *)
Definition doing (m : method) (ip : nat) (ins : insn) : list effect :=
  if isHandler m ip then ETrace :: effects ins else effects ins.

Definition succs (ins : insn) : list nat :=
  branches ins ++ match next ins with Some n => [n] | None => [] end.

Definition calls (es : list effect) : nat :=
  length (filter (fun e => match e with ETrace => true | _ => false end) es).

(** [reach m ip s]: some path leads to instruction [ip] with the slots [s].
    [at_ m (ip, k) s]: on some path call number [k] of instruction [ip] is being
    made with the slots [s].  A call may throw: to every handler whose range
    contains the instruction. *)
Inductive reach (m : method) : nat -> slots -> Prop :=
| reach_entry : reach m 0 (entrySlots m)
| reach_succ : forall ip ins s n,
    reach m ip s -> nth_error (code m) ip = Some ins -> In n (succs ins) ->
    reach m n (after s (doing m ip ins))
| reach_throw : forall ip k s h,
    at_ m (ip, k) s -> In h (handlers m) -> hstart h <= ip < hend h ->
    reach m (hip h) (handlerSlots m s)
with at_ (m : method) : te -> slots -> Prop :=
| at_call : forall ip ins s pre post,
    reach m ip s -> nth_error (code m) ip = Some ins ->
    doing m ip ins = pre ++ ETrace :: post ->
    at_ m (ip, calls pre) (after s pre).

(** A map is right at a call when it has exactly the slots that hold an object
    reference on every path to the call.  One half keeps the collector from
    following a number as if it were a reference; the other keeps it from missing
    an object. *)
Definition sound (m : method) (f : te -> N) : Prop :=
  forall e s i, at_ m e s -> N.testbit (f e) i = true -> s i = true.
Definition misses_nothing (m : method) (f : te -> N) : Prop :=
  forall e i, (exists s, at_ m e s) -> (i < localSize m + maxStack m)%N ->
    (forall s, at_ m e s -> s i = true) -> N.testbit (f e) i = true.

(** Frame::set asserts that the slot lies in the frame (compile.cpp 1569), and a
    handler needs a stack slot for the exception. *)
Definition slotsOk (m : method) : Prop :=
  (forall ins e i, In ins (code m) -> In e (effects ins) -> e = EMark i \/ e = EClear i ->
     (i < localSize m + maxStack m)%N)
  /\ (forall p, In p (params m) -> (fst p < localSize m + maxStack m)%N)
  /\ (handlers m <> [] -> (0 < maxStack m)%N).

(** Handlers are entered by exceptions only (as in the code of Java compilers). *)
Definition handlersByException (m : method) : Prop :=
  isHandler m 0 = false
  /\ forall ip ins n, nth_error (code m) ip = Some ins -> In n (succs ins) -> isHandler m n = false.

(** Every handler can be entered. *)
Definition handlersLive (m : method) : Prop :=
  forall h, In h (handlers m) -> exists s, reach m (hip h) s.

(** No handler lies in the range it handles. *)
Definition notInOwnRange (m : method) : Prop :=
  forall h, In h (handlers m) -> ~ (hstart h <= hip h < hend h).
