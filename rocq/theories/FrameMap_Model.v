(** Model of the calculation of the JIT's frame maps: which stack slots and
    local variables of a compiled frame hold object references at each call.
    src/compile.cpp: Frame::set, Frame::trace, compile, calculateTryCatchRoots,
    calculateFrameMaps.

    Bit maps: the code keeps a map in ceilingDivide(frame size, 64) words and
    works on it with markBit, clearBit (common.h 358-369), word-wise `&' and
    comparison.  The model keeps the words of one map concatenated in one [N]:
    the operations are bit-wise, and two maps differ in some word exactly when
    the numbers differ.

    Trace elements: the code allocates one per call compiled; the model names
    the element by the instruction ([TraceElement::ip]) and the ordinal of the
    call within the instruction, since no instruction is compiled twice
    (visitTable, compile.cpp 4092).

    Not modelled: subroutines (jsr and ret), whose code is duplicated
    (compile.cpp 2060-2095); the monitor call at the entrance of a synchronized
    method (handleEntrance); 16-bit wraparound of visitTable. *)
From Verif Require Import Base.
Local Open Scope nat_scope.

(** What compiling one instruction does to the frame, in order:
    Frame::set (compile.cpp 1567-1584) with the object type or another type,
    and Frame::trace (compile.cpp 1958-1977). *)
Inductive effect := EMark (i : N) | EClear (i : N) | ETrace.

(** A bytecode instruction as the compile loop (compile.cpp 4089-6435) sees it:
    what it does to the frame; the targets it explores in a context of their own
    (`goto branch' 6560-6566; the cases of a switch 6455-6558, where the default
    target of a tableswitch comes first, twice); and where the same context goes
    on (the next instruction, the target of a goto, the default of a switch), or
    [None] for return and throw (`goto next').  Simplification: instructions are
    numbered consecutively, not by byte offset; and the slots an instruction sets
    depend on the instruction only (verified code has one stack depth at each
    instruction). *)
Record insn := { effects : list effect; branches : list nat; next : option nat }.

(** exceptionHandlerStart, exceptionHandlerEnd, exceptionHandlerIp of an entry of
    the exception table; the catch type does not matter here. *)
Record handler := { hstart : nat; hend : nat; hip : nat }.

(** The method: its code, its exception table, Frame::localSize, maxStack
    (compile.cpp 422-429, 1552-1560), and the parameters that arrive in slots
    (compile.cpp 7331-7370: one Frame::set each). *)
Record method := {
  code : list insn;
  handlers : list handler;
  localSize : N;
  maxStack : N;
  params : list (N * bool) }.

(** The name of a trace element (TraceElement, compile.cpp 794-838). *)
Definition te := (nat * nat)%type.
Definition te_eqb (a b : te) : bool := (fst a =? fst b) && (snd a =? snd b).

(** enum Event, compile.cpp 859-867. *)
Inductive event :=
| PushContextEvent
| PopContextEvent
| IpEvent (ip : nat)
| MarkEvent (i : N)
| ClearEvent (i : N)
| PushExceptionHandlerEvent (start end_ : nat)
| TraceEvent (e : te).

(** Assignment to an element of visitTable or rootTable, or to a field of a trace
    element. *)
Definition upd {A} (f : nat -> A) (k : nat) (v : A) : nat -> A :=
  fun x => if x =? k then v else f x.
Definition updT {A} (f : te -> A) (k : te) (v : A) : te -> A :=
  fun x => if te_eqb x k then v else f x.

(** Frame::set and Frame::trace append to the event log (compile.cpp 1571-1577,
    1973-1974).  [k]: calls of this instruction traced so far. *)
Fixpoint effectEvents (ip k : nat) (es : list effect) : list event :=
  match es with
  | [] => []
  | EMark i :: es' => MarkEvent i :: effectEvents ip k es'
  | EClear i :: es' => ClearEvent i :: effectEvents ip k es'
  | ETrace :: es' => TraceEvent (ip, k) :: effectEvents ip (S k) es'
  end.

(** A new context around the compilation of each target: Frame::Frame and
    Frame::dispose, compile.cpp 1486-1517. *)
Fixpoint compileBranches (g : nat -> (nat -> nat) -> option (list event * (nat -> nat)))
         (bs : list nat) (v : nat -> nat) : option (list event * (nat -> nat)) :=
  match bs with
  | [] => Some ([], v)
  | b :: bs' =>
      match g b v with
      | None => None
      | Some (es, v1) =>
          match compileBranches g bs' v1 with
          | None => None
          | Some (es', v2) =>
              Some (PushContextEvent :: es ++ PopContextEvent :: es', v2)
          end
      end
  end.

(** compile(t, initialFrame, initialIp, exceptionHandlerStart), compile.cpp
    4066-6567, from the label `loop' on: the events logged and the visitTable
    afterwards.  The explicit stack of suspended contexts becomes recursion.
    [hs]: exceptionHandlerStart >= 0, that is, this is the first instruction of
    a handler; its stack holds the exception (pushObject, 4105), and it begins
    with a call of gcIfNecessary (4107-4112).  [fuel] bounds the depth; see
    [frameMaps_total]. *)
Fixpoint comp (fuel : nat) (m : method) (ip : nat) (hs : bool) (v : nat -> nat)
  : option (list event * (nat -> nat)) :=
  match fuel with
  | O => None
  | S f =>
      match nth_error (code m) ip with
      | None => Some ([], v)
      | Some ins =>
          let v1 := upd v ip (S (v ip)) in
          if 0 <? v ip then Some ([IpEvent ip], v1)
          else
            let own := if hs then EMark (localSize m) :: ETrace :: effects ins else effects ins in
            match compileBranches (fun b => comp f m b false) (branches ins) v1 with
            | None => None
            | Some (bes, v2) =>
                match next ins with
                | None => Some (IpEvent ip :: effectEvents ip 0 own ++ bes, v2)
                | Some n =>
                    match comp f m n false v2 with
                    | None => None
                    | Some (nes, v3) =>
                        Some (IpEvent ip :: effectEvents ip 0 own ++ bes ++ nes, v3)
                    end
                end
            end
      end
  end.

(** The part of Context that calculateFrameMaps works on: rootTable, the map and
    the watch flag of each trace element, dirtyRoots (compile.cpp 1271-1280,
    833-837). *)
Record cst := { table : nat -> N; maps : te -> N; watch : te -> bool; dirty : bool }.

(** Assignments to the fields of the context. *)
Definition setTable (s : cst) (f : nat -> N) (d : bool) : cst :=
  {| table := f; maps := maps s; watch := watch s; dirty := d |}.
Definition setMaps (s : cst) (f : te -> N) (d : bool) : cst :=
  {| table := table s; maps := f; watch := watch s; dirty := d |}.
Definition setWatch (s : cst) (f : te -> bool) : cst :=
  {| table := table s; maps := maps s; watch := f; dirty := dirty s |}.

(** frameMapSizeInBits, frameMapSizeInWords (compile.cpp 869-877), in bits of whole
    words. *)
Definition mapBits (m : method) : N := (64 * ((localSize m + maxStack m + 63) / 64))%N.

(** calculateTryCatchRoots, compile.cpp 6793-6834, from the loop on: the
    conjunction of the maps of the calls in the range, each of which is watched
    from now on. *)
Fixpoint tryCatchRoots (tl : list te) (start end_ : nat) (roots : N) (s : cst) : N * cst :=
  match tl with
  | [] => (roots, s)
  | e :: tl' =>
      if (start <=? fst e) && (fst e <? end_)
      then tryCatchRoots tl' start end_ (N.land roots (maps s e))
                         (setWatch s (updT (watch s) e true))
      else tryCatchRoots tl' start end_ roots s
  end.

(** calculateFrameMaps, compile.cpp 6836-6996.  [all]: a map of ones (memset
    0xFF, 6799); [tl]: context->traceLog; [vis]: context->visitTable; [evs]: the
    events from eventIndex on; returns the events left.  resultRoots is always
    null (7376, 7434, 7445) and is left out. *)
Fixpoint calc (fuel : nat) (all : N) (tl : list te) (vis : nat -> nat)
         (evs : list event) (roots : N) (s : cst) : option (list event * cst) :=
  match fuel with
  | O => None
  | S f =>
      match evs with
      | [] => Some ([], s)
      | PushContextEvent :: r =>
          match calc f all tl vis r roots s with
          | None => None
          | Some (r', s') => calc f all tl vis r' roots s'
          end
      | PopContextEvent :: r => Some (r, s)
      | IpEvent ip :: r =>
          if 1 <? vis ip then
            let newRoots := N.land (table s ip) roots in
            let last := match r with
                        | [] => true
                        | PopContextEvent :: _ => true
                        | _ => false
                        end in
            calc f all tl vis r (N.land roots newRoots)
                 (setTable s (upd (table s) ip newRoots)
                           (dirty s || (last && negb (newRoots =? table s ip)%N)))
          else
            calc f all tl vis r roots (setTable s (upd (table s) ip roots) (dirty s))
      | MarkEvent i :: r => calc f all tl vis r (N.setbit roots i) s
      | ClearEvent i :: r => calc f all tl vis r (N.clearbit roots i) s
      | PushExceptionHandlerEvent start end_ :: r =>
          let (roots', s1) := tryCatchRoots tl start end_ all s in
          match calc f all tl vis r roots' s1 with
          | None => None
          | Some (r', s') => calc f all tl vis r' roots' s'
          end
      | TraceEvent e :: r =>
          calc f all tl vis r roots
               (setMaps s (updT (maps s) e roots)
                        (dirty s || (watch s e && negb (maps s e =? roots)%N)))
      end
  end.

(** The trace elements made so far (context->traceLog, newest first). *)
Fixpoint traceLog (evs : list event) : list te :=
  match evs with
  | [] => []
  | TraceEvent e :: r => traceLog r ++ [e]
  | _ :: r => traceLog r
  end.

(** resolveIpForwards, compile.cpp 6568-6583: the first visited instruction of the
    range; [None] for -1. *)
Fixpoint resolveIpForwards (fuel : nat) (vis : nat -> nat) (start end_ : nat) : option nat :=
  match fuel with
  | O => None
  | S f =>
      if start <? end_ then
        if vis start =? 0 then resolveIpForwards f vis (S start) end_ else Some start
      else None
  end.

(** What the compilation of one method has done so far: the event log, visitTable,
    which handlers have been compiled (`visited', 7387), and the maps. *)
Record cctx := { log : list event; visits : nat -> nat; done : list bool; cs : cst }.

(** One call of calculateFrameMaps with originalRoots null (6850-6854). *)
Definition pass (m : method) (tl : list te) (vis : nat -> nat) (evs : list event) (s : cst)
  : option cst :=
  match calc (S (length evs)) (N.ones (mapBits m)) tl vis evs 0%N s with
  | None => None
  | Some (_, s') => Some s'
  end.

(** compile.cpp 7428-7430: the stack slots above the first hold no object when a
    handler starts. *)
Definition clearStack (m : method) : list event :=
  map (fun i => ClearEvent (localSize m + N.of_nat i)%N) (seq 1 (N.to_nat (maxStack m) - 1)).

(** compile.cpp 7417-7421: the range is cut short at the handler if the handler
    lies inside. *)
Definition handlerEnd (start : nat) (h : handler) : nat :=
  if (start <=? hip h) && (hip h <? hend h) then hip h else hend h.

(** The body of the loop over the exception table, compile.cpp 7400-7437; the
    result says whether there was progress. *)
Definition compileHandler (m : method) (i : nat) (h : handler) (c : cctx) : option (cctx * bool) :=
  match resolveIpForwards (S (hend h - hstart h)) (visits c) (hstart h) (hend h),
        nth i (done c) true with
  | Some start, false =>
      match comp (S (S (length (code m)))) m (hip h) true (visits c) with
      | None => None
      | Some (es, v') =>
          let evs := PushExceptionHandlerEvent start (handlerEnd start h)
                     :: clearStack m ++ PushContextEvent :: es
                     ++ [PopContextEvent; PopContextEvent] in
          let l := log c ++ evs in
          match pass m (traceLog l) v' evs (cs c) with
          | None => None
          | Some s' =>
              Some ({| log := l; visits := v';
                       done := firstn i (done c) ++ true :: skipn (S i) (done c);
                       cs := s' |}, true)
          end
      end
  | _, _ => Some (c, false)
  end.

(** The loop over the exception table, compile.cpp 7400-7438. *)
Fixpoint handlerRound (m : method) (i : nat) (hs : list handler) (c : cctx) : option (cctx * bool) :=
  match hs with
  | [] => Some (c, false)
  | h :: hs' =>
      match compileHandler m i h c with
      | None => None
      | Some (c1, p) =>
          match handlerRound m (S i) hs' c1 with
          | None => None
          | Some (c2, q) => Some (c2, p || q)
          end
      end
  end.

(** while (progress), compile.cpp 7391-7440. *)
Fixpoint handlerLoop (fuel : nat) (m : method) (c : cctx) : option cctx :=
  match fuel with
  | O => None
  | S f =>
      match handlerRound m 0 (handlers m) c with
      | None => None
      | Some (c', true) => handlerLoop f m c'
      | Some (c', false) => Some c'
      end
  end.

(** while (context->dirtyRoots), compile.cpp 7443-7446. *)
Fixpoint dirtyLoop (fuel : nat) (m : method) (tl : list te) (vis : nat -> nat)
         (evs : list event) (s : cst) : option cst :=
  match fuel with
  | O => None
  | S f =>
      if dirty s then
        match pass m tl vis evs (setMaps s (maps s) false) with
        | None => None
        | Some s' => dirtyLoop f m tl vis evs s'
        end
      else Some s
  end.

(** compile.cpp 7331-7370. *)
Definition paramEvents (ps : list (N * bool)) : list event :=
  map (fun p : N * bool => if snd p then MarkEvent (fst p) else ClearEvent (fst p)) ps.

(** Context::Context (compile.cpp 1177-1185), TraceElement::TraceElement (815). *)
Definition initialState (m : method) : cst :=
  {| table := fun _ => N.ones (mapBits m);
     maps := fun _ => N.ones (mapBits m);
     watch := fun _ => false;
     dirty := false |}.

(** compile(t, context), compile.cpp 7309-7448, up to the last loop. *)
Definition compileCode (m : method) : option cctx :=
  match comp (S (S (length (code m)))) m 0 false (fun _ => 0) with
  | None => None
  | Some (es, v) =>
      let l := paramEvents (params m) ++ es in
      match pass m (traceLog l) v l (initialState m) with
      | None => None
      | Some s =>
          handlerLoop (S (length (handlers m))) m
                      {| log := l; visits := v;
                         done := repeat false (length (handlers m)); cs := s |}
      end
  end.

(** The maps in the end; [fuel] bounds the passes of the last loop. *)
Definition frameMaps (fuel : nat) (m : method) : option (te -> N) :=
  match compileCode m with
  | None => None
  | Some c =>
      match dirtyLoop fuel m (traceLog (log c)) (visits c) (log c) (cs c) with
      | None => None
      | Some s => Some (maps s)
      end
  end.
