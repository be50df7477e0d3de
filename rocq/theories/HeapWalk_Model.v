(** Model of the heap walker (src/heapwalk.cpp) with the visitor of the heap dump (src/heapdump.cpp). *)
From Coq Require Import List ZArith Bool.
From Verif Require Import Res JMap_Model.
Import ListNotations.
Local Open Scope Z_scope.
Local Open Scope res_scope.

(** The heap as the walker sees it: the reference fields of an object, as word offsets in increasing
    order with their values (0 is null).  Which words are references is settled by walk(Thread*,
    Walker*, object, unsigned) in machine.cpp:5542-5589, modelled in Layout_Model. *)
Definition heap := nat -> list (Z * nat).
(** machine.cpp:5591-5610 [walkNext]: the first offset after [previous], or -1 *)
Fixpoint nextOffset (l : list (Z * nat)) (previous : Z) : Z :=
  match l with
  | [] => -1
  | (o, _) :: r => if previous <? o then o else nextOffset r previous
  end.
Definition walkNext (h : heap) (p : nat) (previous : Z) : Z := nextOffset (h p) previous.
(** heapwalk.cpp:223-227 [get]: the reference at an offset *)
Fixpoint getIn (l : list (Z * nat)) (offset : Z) : option nat :=
  match l with
  | [] => None
  | (o, c) :: r => if o =? offset then Some c else getIn r offset
  end.
Definition getField (h : heap) (p : nat) (offset : Z) : option nat := getIn (h p) offset.

(** ** The set of objects seen: heapwalk.cpp:24-61.  An index -1 is None; the size is the number of
    entries, the capacity the length of the index. *)
Record entry := Entry { evalue : nat; enumber : nat; enext : option nat }.
Record set := Set_ { index : list (option nat); entries : list entry }.
Definition capacity (s : set) : nat := length (index s).

(** heapwalk.cpp:136-139 [hash]; PointerShift is 3 *)
Definition hashOf (p capacity : nat) : nat :=
  Z.to_nat (Z.land (Z.shiftr (Z.of_nat p) 3) (Z.of_nat capacity - 1)).

(** heapwalk.cpp:146-152: the loop of find *)
Fixpoint findLoop (fuel : nat) (s : set) (p : nat) (i : option nat) : res (option nat) :=
  match i with
  | None => Ok None
  | Some j =>
    match fuel with
    | O => Fuel
    | S k => do e <- of_option (nth_error (entries s) j);
             if Nat.eqb (evalue e) p then Ok (Some j) else findLoop k s p (enext e)
    end
  end.
(** heapwalk.cpp:141-155 [find] in a set *)
Definition findIn (s : set) (p : nat) : res (option nat) :=
  do i <- of_option (nth_error (index s) (hashOf p (capacity s)));
  findLoop (S (length (entries s))) s p i.

(** heapwalk.cpp:172-185 [add] to a set; beyond the capacity the entry is outside the memory *)
Definition addTo (s : set) (p number : nat) : res set :=
  if Nat.ltb (length (entries s)) (capacity s) then
    let i := hashOf p (capacity s) in
    do head <- of_option (nth_error (index s) i);
    Ok (Set_ (setNth (index s) i (Some (length (entries s)))) (entries s ++ [Entry p number head]))
  else UB.

(** heapwalk.cpp:202-209: copying the entries to the larger set *)
Fixpoint copyChain (fuel : nat) (old : set) (j : option nat) (s : set) : res set :=
  match j with
  | None => Ok s
  | Some i =>
    match fuel with
    | O => Fuel
    | S k => do e <- of_option (nth_error (entries old) i);
             do s' <- addTo s (evalue e) (enumber e);
             copyChain k old (enext e) s'
    end
  end.
Fixpoint copyAll (old : set) (heads : list (option nat)) (s : set) : res set :=
  match heads with
  | [] => Ok s
  | j :: r => do s' <- copyChain (S (length (entries old))) old j s; copyAll old r s'
  end.

Section Walk.
(** [capacity0] is the first capacity (4096, heapwalk.cpp:194) and [chunk] is Stack::Capacity (4096,
    heapwalk.cpp:71). *)
Context (capacity0 chunk : nat) (h : heap).

(** heapwalk.cpp:79-100 [Context]; [numbers] is Visitor::nextNumber of heapdump.cpp:59.  The
    capacities and numbers are unbounded here (32 bits in the code). *)
Record context := Context { objects : option set; stack : list (list (nat * Z)); numbers : nat }.

Definition find (c : context) (p : nat) : res (option nat) :=
  match objects c with None => Ok None | Some s => findIn s p end.
(** find(c, p)->number *)
Definition numberOf (c : context) (p : nat) : res nat :=
  do s <- of_option (objects c);
  do i <- find c p;
  do j <- of_option i;
  do e <- of_option (nth_error (entries s) j);
  Ok (enumber e).

(** heapwalk.cpp:187-221 [add]; the entry made is the last one *)
Definition add (c : context) (p : nat) : res context :=
  do s <- match objects c with
          | None => Ok (Set_ (repeat None capacity0) [])
          | Some s =>
            if Nat.eqb (length (entries s)) (capacity s)
            then copyAll s (index s) (Set_ (repeat None (capacity s * 2)) [])
            else Ok s
          end;
  do s' <- addTo s p 0;
  Ok (Context (Some s') (stack c) (numbers c)).
(** e->number = n for the entry just made *)
Definition setNumber (c : context) (n : nat) : context :=
  match objects c with
  | None => c
  | Some s =>
    let last := Nat.pred (length (entries s)) in
    match nth_error (entries s) last with
    | None => c
    | Some e => Context (Some (Set_ (index s) (setNth (entries s) last (Entry (evalue e) n (enext e)))))
                        (stack c) (numbers c)
    end
  end.

(** heapwalk.cpp:102-111 [push]: the stack is a list of chunks, the top first *)
Definition push (c : context) (p : nat) (offset : Z) : context :=
  Context (objects c)
    match stack c with
    | [] => [[(p, offset)]]
    | top :: rest => if Nat.eqb (length top) chunk then [(p, offset)] :: top :: rest
                     else ((p, offset) :: top) :: rest
    end (numbers c).
(** heapwalk.cpp:113-134 [pop]; reading entry -1 of an empty chunk is outside the memory *)
Definition pop (c : context) : res (option (nat * Z) * context) :=
  match stack c with
  | [] => Ok (None, c)
  | [] :: [] => Ok (None, c)
  | [] :: (e :: top) :: rest => Ok (Some e, Context (objects c) (top :: rest) (numbers c))
  | [] :: [] :: _ => UB
  | (e :: top) :: rest => Ok (Some e, Context (objects c) (top :: rest) (numbers c))
  end.

(** What the visitor is told. *)
Inductive event := ERoot | ENew (p n : nat) | EOld (p n : nat) | EPush (p n : nat) (offset : Z) | EPop.

(** heapdump.cpp:68-90 [visitNew] *)
Definition visitNew (c : context) (p : nat) : nat * context :=
  if Nat.eqb p 0 then (0%nat, c)
  else (numbers c, Context (objects c) (stack c) (S (numbers c))).

(** heapwalk.cpp:229-277 [walk]: the labels and the code between them *)
Inductive label := Visit (p : nat) | Children (p : nat) (offset : Z) | Pop.
Fixpoint loop (fuel : nat) (c : context) (l : label) (out : list event) : res (list event * context) :=
  match fuel with
  | O => Fuel
  | S k =>
    match l with
    | Visit p =>
      do e <- find c p;
      match e with
      | Some _ => do n <- numberOf c p; loop k c Pop (out ++ [EOld p n])
      | None =>
        do c1 <- add c p;
        let '(n, c2) := visitNew c1 p in
        let c3 := setNumber c2 n in
        let next := walkNext h p (-1) in
        if next =? -1 then loop k c3 Pop (out ++ [ENew p n])
        else loop k c3 (Children p next) (out ++ [ENew p n])
      end
    | Children p offset =>
      do n <- numberOf c p;
      do child <- of_option (getField h p offset);
      loop k (push c p offset) (Visit child) (out ++ [EPush p n offset])
    | Pop =>
      do r <- pop c;
      match fst r with
      | Some (p, offset) =>
        let next := walkNext h p offset in
        if 0 <=? next then loop k (snd r) (Children p next) (out ++ [EPop])
        else loop k (snd r) Pop (out ++ [EPop])
      | None => Ok (out, snd r)
      end
    end
  end.
Definition walk (fuel : nat) (c : context) (root : nat) : res (list event * nat * context) :=
  do r <- loop fuel c (Visit root) [ERoot];
  do n <- numberOf (snd r) root;
  Ok (fst r, n, snd r).

(** heapwalk.cpp:281-284: the constructor; heapdump.cpp:59 *)
Definition makeWalker : res context :=
  let c := Context None [] 1 in
  do c1 <- add c 0;
  let '(n, c2) := visitNew c1 0 in
  Ok (setNumber c2 n).
(** heapwalk.cpp:291-312 [visitAllRoots], for the roots in the order of visitRoots *)
Fixpoint visitRoots (fuel : nat) (c : context) (roots : list nat) : res (list event * context) :=
  match roots with
  | [] => Ok ([], c)
  | r :: rest =>
    do x <- walk fuel c r;
    do y <- visitRoots fuel (snd x) rest;
    Ok (fst (fst x) ++ fst y, snd y)
  end.
(** heapwalk.cpp:157-165 [Set::find]: -1 is None *)
Definition mapFind (c : context) (p : nat) : res (option nat) :=
  do i <- find c p;
  match i with None => Ok None | Some _ => do n <- numberOf c p; Ok (Some n) end.
End Walk.

(** ** The bytes of the dump *)
(** heapdump.cpp:27-35 [write4]: big-endian *)
Definition byteOf (n shift : Z) : Z := Z.land (Z.shiftr n shift) 255.
Definition write4 (n : nat) : list Z :=
  let z := Z.of_nat n in [byteOf z 24; byteOf z 16; byteOf z 8; byteOf z 0].
(** heapdump.cpp:20: the tags *)
Definition TagRoot : Z := 0.  Definition TagSize : Z := 1.  Definition TagClassName : Z := 2.
Definition TagPush : Z := 3.  Definition TagPop : Z := 4.
(** heapdump.cpp:60-104: what each call of the visitor writes, given the size of each object
    (objectSize) and the name of each object that is a class with a name *)
Definition writeEvent (size : nat -> nat) (name : nat -> option (list Z)) (e : event) : list Z :=
  match e with
  | ERoot => [TagRoot]
  | ENew p n =>
    write4 n ++ [TagSize] ++ write4 (size p) ++
    match name p with
    | Some s => [TagClassName] ++ write4 (length s) ++ s
    | None => []
    end
  | EOld _ n => write4 n
  | EPush _ _ _ => [TagPush]
  | EPop => [TagPop]
  end.
Definition dumpBytes size name (es : list event) : list Z := flat_map (writeEvent size name) es.
