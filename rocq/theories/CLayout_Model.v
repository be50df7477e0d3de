(** How the code generator orders the machine code of a method: the walk of compile() over the bytecode, src/compile.cpp, the cutting of the
    code into blocks, src/codegen/compiler.cpp, and their final order.  Register allocation and the code itself are left out: an "event" here
    stands for a piece of machine code of one bytecode instruction. *)
From Coq Require Import List Arith Bool Lia.
Import ListNotations.

(** ** Blocks *)
(** LogicalInstruction::next, codegen/compiler/ir.cpp 29-38: the next instruction that has been compiled.  Instructions are numbered from 0 for
    the entrance (logical index -1); every compiled one has an event (appendDummy, compiler/event.cpp 2176-2189). *)
Definition nextOf (count : nat) (evs : list nat) (i : nat) : option nat :=
  find (fun n => existsb (Nat.eqb n) evs) (seq (S i) (count - S i)).

Section Blocks.
Context (nx : nat -> option nat).
(** compiler.cpp 1954-1958: does a block end behind an event of instruction [e], given the instructions of the events that follow?
    [e != e->logicalInstruction->lastEvent] is that [e] has further events. *)
Definition breakAfter (e : nat) (rest : list nat) : bool :=
  match rest with
  | [] => true
  | e' :: _ => negb (e' =? e) && (negb (match nx e with Some n => n =? e' | None => false end) || existsb (Nat.eqb e) rest)
  end.
(** The blocks, as the positions of their first event and behind their last. *)
Fixpoint cut (start p : nat) (es : list nat) : list (nat * nat) :=
  match es with
  | [] => []
  | e :: rest => if breakAfter e rest then (start, S p) :: cut (S p) (S p) rest else cut start (S p) rest
  end.
(** [firstEvent] of an instruction. *)
Fixpoint posOf (i : nat) (es : list nat) : nat :=
  match es with [] => 0 | e :: rest => if e =? i then 0 else S (posOf i rest) end.
(** The number of the block that an event is in. *)
Fixpoint blockOf (p : nat) (bs : list (nat * nat)) : nat :=
  match bs with [] => 0 | b :: r => if p <? snd b then 0 else S (blockOf p r) end.
Definition lastInstr (evs : list nat) (bs : list (nat * nat)) (k : nat) : nat := nth (snd (nth k bs (0, 0)) - 1) evs 0.
(** compiler.cpp 1959-1967, [nb] is the field nextBlock. *)
Fixpoint endOfChain (fuel : nat) (nb : nat -> option nat) (b : nat) : nat :=
  match fuel with O => b | S f => match nb b with None => b | Some b' => endOfChain f nb b' end end.
Definition link1 (evs : list nat) (bs : list (nat * nat)) (nb : nat -> option nat) (k : nat) : nat -> option nat :=
  let b := endOfChain (length bs) nb (blockOf (posOf (lastInstr evs bs k) evs) bs) in
  if b =? k then nb else fun x => if x =? b then Some k else nb x.
Definition links (evs : list nat) (bs : list (nat * nat)) : nat -> option nat := fold_left (link1 evs bs) (seq 0 (length bs)) (fun _ => None).
(** resolve, compiler.cpp 2883-2902: the order in which the blocks are put; None if it does not come to an end. *)
Fixpoint walk (fuel : nat) (evs : list nat) (bs : list (nat * nat)) (nb : nat -> option nat) (k : nat) : option (list nat) :=
  match fuel with
  | O => None
  | S f =>
      match nb k with
      | Some k' => option_map (cons k) (walk f evs bs nb k')
      | None =>
          match nx (lastInstr evs bs k) with
          | Some j => option_map (cons k) (walk f evs bs nb (blockOf (posOf j evs) bs))
          | None => Some [k]
          end
      end
  end.
End Blocks.
(** The positions of the events in the order of the machine code. *)
Definition layout (count : nat) (evs : list nat) : option (list nat) :=
  let nx := nextOf count evs in
  let bs := cut nx 0 0 evs in
  option_map (flat_map (fun k => seq (fst (nth k bs (0, 0))) (snd (nth k bs (0, 0)) - fst (nth k bs (0, 0))))) (walk nx (length evs) evs bs (links evs bs) 0).

(** ** The walk over the bytecode *)
(** What matters of an instruction: its length and where it goes.  [Jsr] and [ret] are left out. *)
Inductive instr :=
| Plain (n : nat)                       (* goes on *)
| Goto (t : nat)
| Branch (n : nat) (t : nat)            (* an if *)
| Stop                                  (* a return or athrow *)
| Lookup (d : nat) (cs : list nat)      (* lookupswitch *)
| Table (d : nat) (cs : list nat).      (* tableswitch *)
(** What is on the stack of compile(): Unbranch, Untable0, Untable1, Unswitch. *)
Inductive todo :=
| Unbranch (ip : nat) | Untable0 (i d : nat) (cs : list nat) | Untable1 (i d : nat) (cs : list nat) | Unswitch (d : nat) (cs : list nat).

Section Emit.
Context (len : nat) (code : nat -> instr).
(** compile.cpp 4066-6566.  [vis] is the set of instructions visited, [evs] the events so far, the last first, [ip] the next
    instruction if there is one.  The events an instruction appends at one go are one event here.  *)
Fixpoint emit (fuel : nat) (ks : list todo) (vis evs : list nat) (ip : option nat) : option (list nat * list nat) :=
  match fuel with
  | O => None
  | S f =>
      match ip with
      | Some i =>
          if (i <? len) && negb (existsb (Nat.eqb i) vis) then
            match code i with
            | Plain n => emit f ks (i :: vis) (S i :: evs) (Some (i + n))
            | Goto t => emit f ks (i :: vis) (S i :: evs) (Some t)
            | Branch n t => emit f (Unbranch (i + n) :: ks) (i :: vis) (S i :: evs) (Some t)
            | Stop => emit f ks (i :: vis) (S i :: evs) None
            | Lookup d cs => emit f (Unswitch d cs :: ks) (i :: vis) (S i :: evs) None
            | Table d cs => emit f (Untable0 i d cs :: ks) (i :: vis) (S i :: evs) (Some d)
            end
          else emit f ks vis evs None
      | None =>
          match ks with
          | [] => Some (vis, evs)
          | Unbranch j :: ks' => emit f ks' vis evs (Some j)
          | Untable0 i d cs :: ks' => emit f (Untable1 i d cs :: ks') vis (S i :: evs) (Some d)
          | Untable1 i d cs :: ks' => emit f (Unswitch d cs :: ks') vis (S i :: evs) None
          | Unswitch d (c :: cs) :: ks' => emit f (Unswitch d cs :: ks') vis evs (Some c)
          | Unswitch d [] :: ks' => emit f ks' vis evs (Some d)
          end
      end
  end.
(** The method from its start and from the handlers that are compiled, 7375-7436, one after the other; the entrance comes first. *)
Fixpoint emitAll (fuel : nat) (entries : list nat) (vis evs : list nat) : option (list nat * list nat) :=
  match entries with
  | [] => Some (vis, rev evs)
  | e :: es => match emit fuel [] vis evs (Some e) with Some (vis', evs') => emitAll fuel es vis' evs' | None => None end
  end.
Definition events (fuel : nat) (entries : list nat) : option (list nat * list nat) := emitAll fuel entries [] [0].
End Emit.
