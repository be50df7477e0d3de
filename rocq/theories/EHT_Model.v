(** What becomes of the exception handlers and line numbers of a class file when a method is compiled, src/compile.cpp.  Subroutines (jsr, ret)
    are left out: subroutineCount is 0.  Offsets in machine code are unbounded. *)
From Coq Require Import List Arith Bool Lia.
Import ListNotations.
From Verif Require Import CLayout_Model.

(** An entry of the Code attribute's exception_table, parsed by parseExceptionHandlerTable, machine.cpp 1838-1870; [T] is what it may catch. *)
Record entry (T : Type) := { eStart : nat; eEnd : nat; eHandler : nat; eType : T }.
Arguments eStart {T}. Arguments eEnd {T}. Arguments eHandler {T}. Arguments eType {T}.

Section Table.
Context {T : Type} (len : nat).
Definition seen (vis : list nat) (i : nat) : bool := existsb (Nat.eqb i) vis.
(** resolveIpForwards, compile.cpp 6568-6583; None is -1. *)
Definition forwards (vis : list nat) (start end_ : nat) : option nat := find (seen vis) (seq start (end_ - start)).
(** resolveIpBackwards, 6585-6602. *)
Fixpoint back (vis : list nat) (start end_ : nat) : option nat :=
  if start <? end_ then None
  else if seen vis start then Some start
  else match start with O => None | S s => back vis s end_ end.
Definition backwards (vis : list nat) (start end_ : nat) : option nat :=
  if len <=? start then (if len <? end_ then None else Some len) else back vis start end_.

(** *** Compiling the handlers *)
Section Compile.
Context (code : nat -> instr).
(** The body of the loop of compile(), 7395-7440, over the entries whose handler is not compiled yet; those left over. *)
Fixpoint pass (fuel : nat) (es : list (entry T)) (vis evs : list nat) : option (list (entry T) * list nat * list nat) :=
  match es with
  | [] => Some ([], vis, evs)
  | e :: es' =>
      match forwards vis (eStart e) (eEnd e) with
      | Some _ =>
          match emit len code fuel [] vis evs (Some (eHandler e)) with Some (vis', evs') => pass fuel es' vis' evs' | None => None end
      | None => match pass fuel es' vis evs with Some (r, v, w) => Some (e :: r, v, w) | None => None end
      end
  end.
(** [while (progress)]. *)
Fixpoint passes (fuel n : nat) (es : list (entry T)) (vis evs : list nat) : option (list nat * list nat) :=
  match n with
  | O => None
  | S m =>
      match pass fuel es vis evs with
      | None => None
      | Some (r, v, w) => if length r =? length es then Some (v, w) else passes fuel m r v w
      end
  end.
(** compile(), 7374-7440: the instructions visited, and the events in the order they are made. *)
Definition compileMethod (fuel : nat) (table : list (entry T)) : option (list nat * list nat) :=
  match emit len code fuel [] [] [0] (Some 0) with
  | None => None
  | Some (v, w) => match passes fuel (S (length table)) table v w with Some (v', w') => Some (v', rev w') | None => None end
  end.
End Compile.

(** *** Machine code *)
(** The pieces of machine code in the order they are put, each with its instruction (number 0 is the entrance, number [S ip] the one at [ip]) and
    its size; [size p] is that of event [p], with any padding behind it. *)
Definition pieces (size : nat -> nat) (evs : list nat) : list (nat * nat) :=
  match layout (S len) evs with Some l => map (fun p => (nth p evs 0, size p)) l | None => [] end.
(** The offset of the first piece of [i]: IpPromise::value, codegen/compiler/promise.cpp 70-80; machineOffset, compiler.cpp 1999-2001. *)
Fixpoint offsetOf (i : nat) (ps : list (nat * nat)) : nat :=
  match ps with [] => 0 | (j, n) :: r => if j =? i then 0 else n + offsetOf i r end.
Definition total (ps : list (nat * nat)) : nat := list_sum (map snd ps).
Definition machineIp (size : nat -> nat) (evs : list nat) (ip : nat) : nat := offsetOf (S ip) (pieces size evs).

(** *** The tables of the compiled method *)
Context (size : nat -> nat) (vis evs : list nat).
Record range := { rStart : nat; rEnd : nat; rHandler : nat; rType : T }.
(** translateExceptionHandlerTable, 6651-6740.  Offset 0 for the end is machineIp(-1), the entrance. *)
Definition translate1 (e : entry T) : list range :=
  match forwards vis (eStart e) (eEnd e) with
  | None => []
  | Some s =>
      [{| rStart := machineIp size evs s;
          rEnd := match backwards vis (eEnd e) (eStart e) with
                  | Some h => if h =? len then total (pieces size evs) else machineIp size evs h
                  | None => 0
                  end;
          rHandler := machineIp size evs (eHandler e);
          rType := eType e |}]
  end.
Definition translate (table : list (entry T)) : list range := flat_map translate1 table.
(** findExceptionHandler, 2116-2141: [ip] is the offset of the address behind the instruction that threw, [match_] is exceptionMatch. *)
Definition findHandler (match_ : T -> bool) (rs : list range) (ip : nat) : option nat :=
  option_map rHandler (find (fun r => (rStart r <=? ip - 1) && (ip - 1 <? rEnd r) && match_ (rType r)) rs).

(** translateLineNumberTable, 6742-6780: pairs of ip and line. *)
Fixpoint lines (table : list (nat * nat)) : list (nat * nat) :=
  match table with
  | [] => []
  | (ip, line) :: r =>
      match forwards vis ip (match r with (ip', _) :: _ => ip' - 1 | [] => ip + 1 end) with
      | Some i => (machineIp size evs i, line) :: lines r
      | None => lines r
      end
  end.
End Table.
