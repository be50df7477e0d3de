(** Reading the constant pool of a class file: src/machine.cpp:876-1200 (parsePoolEntry,
    parsePool), with the layout of the table it fills, src/avian/machine.h:3253-3369. *)
From Coq Require Import NArith List Bool.
From Verif Require Import Res Stream_Model.
Import ListNotations.
Local Open Scope N_scope.
Local Open Scope res_scope.

(** machine.cpp:4741-4761: the client of parseClass's stream aborts at the first error, so a
    read or skip beyond the end does not come back. *)
Definition checked {A} (r : res (A * stream)) : res (A * stream) :=
  do x <- r; if errors (snd x) =? 0 then Ok x else Abort.
Definition skipA (s : stream) (n : N) : res stream :=
  let s' := skip s n in if errors s' =? 0 then Ok s' else Abort.

(** What the table's words may hold: a number, or a pointer to an object. Byte arrays are
    taken by their contents without the final zero; interning (machine.cpp:859-874, and
    intern of strings) chooses among arrays of equal contents and is left out. *)
Inductive obj :=
| OBytes (b : list N)
| OReference (kind : N) (class_ name spec : option (list N))
| OString (utf8 : list N)
| OPair (first second : list N)
| OInvocation (bootstrap : N) (name spec : list N).
Inductive slot := Word (w : N) | Obj (o : obj).

(** The stream, the table's words, and the list of invocations. *)
Record pst := { strm : stream; pool : list slot; invs : list obj }.
Definition onStream (p : pst) (s : stream) : pst := {| strm := s; pool := pool p; invs := invs p |}.

(** [a[i]]; an index beyond the array is [UB]. *)
Definition at_ {A} (l : list A) (i : N) : res A :=
  if i <? N.of_nat (length l) then of_option (nth_error l (N.to_nat i)) else UB.
Fixpoint setNth {A} (l : list A) (i : nat) (x : A) : list A :=
  match l, i with
  | [], _ => []
  | _ :: l', O => x :: l'
  | y :: l', S i' => y :: setNth l' i' x
  end.
(** pool->setBodyElement(t, i, x), singletonValue(t, pool, i) = x *)
Definition setSlot (p : pst) (i : N) (x : slot) : pst :=
  {| strm := strm p; pool := setNth (pool p) (N.to_nat i) x; invs := invs p |}.

(** machine.h:3307-3313: singletonObject; the test == 0. *)
Definition isNull (p : pst) (i : N) : res bool :=
  do x <- at_ (pool p) i; Ok (match x with Word 0 => true | _ => false end).
(** cast<GcByteArray>(t, singletonObject(t, pool, i)) and what is read from it: the class is
    checked only in builds with assertions; using another object so is [UB]. *)
Definition asBytes (p : pst) (i : N) : res (list N) :=
  do x <- at_ (pool p) i; match x with Obj (OBytes b) => Ok b | _ => UB end.
(** cast<GcPair>(...): first and second are themselves cast to byte arrays *)
Definition asPair (p : pst) (i : N) : res (list N * list N) :=
  do x <- at_ (pool p) i; match x with Obj (OPair a b) => Ok (a, b) | _ => UB end.
(** cast<GcReference>(...) *)
Definition asReference (p : pst) (i : N) : res (N * option (list N) * option (list N) * option (list N)) :=
  do x <- at_ (pool p) i; match x with Obj (OReference k c n s) => Ok (k, c, n, s) | _ => UB end.

(** machine.cpp:925 and the like: unsigned x = s.read2() - 1. *)
Definition read2less (s : stream) : res (N * stream) :=
  do r <- checked (read2 s); Ok (sub32 (fst r) 1, snd r).

(** machine.cpp:876-1103. Calls nest to depth [fuel]; [Fuel] means deeper recursion. The
    debug output is left out, and of CONSTANT_InvokeDynamic the scan of the descriptor
    (scanMethodSpec, Desc_Model) and the template method made from it. *)
Fixpoint parsePoolEntry (fuel : nat) (index : list (option N)) (i : N) (p : pst) : res (N * pst) :=
  match fuel with
  | O => Fuel
  | S f =>
      do o <- at_ index i;
      do pos <- of_option o;
      do t <- checked (read1 (setPosition (strm p) pos));
      let s := snd t in
      let once (k : res pst) : res (N * pst) :=
        do z <- isNull p i;
        if z then (do q <- k; Ok (1, q)) else Ok (1, onStream p s) in
      match fst t with
      | 3 | 4 =>
          do v <- checked (read4 s);
          Ok (1, setSlot (onStream p (snd v)) i (Word (fst v)))
      | 5 | 6 =>
          do v <- checked (read8 s);
          Ok (2, setSlot (onStream p (snd v)) i (Word (fst v)))
      | 1 =>
          once (do n <- checked (read2 s);
                do b <- checked (read (snd n) (fst n));
                Ok (setSlot (onStream p (snd b)) i (Obj (OBytes (fst b)))))
      | 7 =>
          once (do a <- read2less s;
                do q <- parsePoolEntry f index (fst a) (onStream p (snd a));
                do b <- asBytes (snd q) (fst a);
                Ok (setSlot (snd q) i (Obj (OReference 0 None (Some b) None))))
      | 8 =>
          once (do a <- read2less s;
                do q <- parsePoolEntry f index (fst a) (onStream p (snd a));
                do b <- asBytes (snd q) (fst a);
                Ok (setSlot (snd q) i (Obj (OString b))))
      | 12 =>
          once (do a <- read2less s;
                do b <- read2less (snd a);
                do q <- parsePoolEntry f index (fst a) (onStream p (snd b));
                do r <- parsePoolEntry f index (fst b) (snd q);
                do n <- asBytes (snd r) (fst a);
                do d <- asBytes (snd r) (fst b);
                Ok (setSlot (snd r) i (Obj (OPair n d))))
      | 9 | 10 | 11 =>
          once (do a <- read2less s;
                do b <- read2less (snd a);
                do q <- parsePoolEntry f index (fst a) (onStream p (snd b));
                do r <- parsePoolEntry f index (fst b) (snd q);
                do c <- asReference (snd r) (fst a);
                do nt <- asPair (snd r) (fst b);
                let '(_, _, name, _) := c in
                Ok (setSlot (snd r) i (Obj (OReference 0 name (Some (fst nt)) (Some (snd nt))))))
      | 15 =>
          once (do k <- checked (read1 s);
                do a <- read2less (snd k);
                do q <- parsePoolEntry f index (fst a) (onStream p (snd a));
                do c <- asReference (snd q) (fst a);
                let '(_, cl, name, spec) := c in
                Ok (setSlot (snd q) i (Obj (OReference (fst k) cl name spec))))
      | 16 =>
          once (do a <- read2less s;
                do q <- parsePoolEntry f index (fst a) (onStream p (snd a));
                do x <- at_ (pool (snd q)) (fst a);
                Ok (setSlot (snd q) i x))
      | 18 =>
          once (do b <- checked (read2 s);
                do a <- read2less (snd b);
                do q <- parsePoolEntry f index (fst a) (onStream p (snd a));
                do nt <- asPair (snd q) (fst a);
                let v := OInvocation (fst b) (fst nt) (snd nt) in
                let r := setSlot (snd q) i (Obj v) in
                Ok {| strm := strm r; pool := pool r; invs := invs r ++ [v] |})
      | _ => Abort
      end
  end.

(** machine.cpp:1129-1189: the first pass. [mask] holds the bits of singletonMarkObject
    (machine.h:3287-3297, bit index + 2 of the 32-bit words), [floats] those of
    singletonSetBit (3333-3340), each as one number instead of an array of words. *)
Record scanned := { sstrm : stream; index_ : list (option N); mask : N; floats : N }.
Definition markObject (m : N) (i : N) : N := N.setbit m (i + 2).
Fixpoint scan (fuel : nat) (i count : N) (c : scanned) : res scanned :=
  if i <? count then
    match fuel with
    | O => Fuel
    | S f =>
        let pos := position (sstrm c) in
        let ix := setNth (index_ c) (N.to_nat i) (Some pos) in
        do t <- checked (read1 (sstrm c));
        let s := snd t in
        let object_ n :=
          do s' <- skipA s n;
          scan f (i + 1) count {| sstrm := s'; index_ := ix; mask := markObject (mask c) i; floats := floats c |} in
        match fst t with
        | 7 | 8 => object_ 2
        | 3 => do s' <- skipA s 4;
               scan f (i + 1) count {| sstrm := s'; index_ := ix; mask := mask c; floats := floats c |}
        | 4 => do s' <- skipA s 4;
               scan f (i + 1) count {| sstrm := s'; index_ := ix; mask := mask c; floats := N.setbit (floats c) i |}
        | 12 | 9 | 10 | 11 => object_ 4
        | 5 => do s' <- skipA s 8;
               scan f (i + 2) count {| sstrm := s'; index_ := ix; mask := mask c; floats := floats c |}
        | 6 => do s' <- skipA s 8;
               scan f (i + 2) count {| sstrm := s'; index_ := ix; mask := mask c;
                                       floats := N.setbit (N.setbit (floats c) i) (i + 1) |}
        | 1 => do n <- checked (read2 s);
               do s' <- skipA (snd n) (fst n);
               scan f (i + 1) count {| sstrm := s'; index_ := ix; mask := markObject (mask c) i; floats := floats c |}
        | 15 => object_ 3
        | 16 => object_ 2
        | 18 => object_ 4
        | _ => Abort
        end
    end
  else Ok c.

(** machine.cpp:1193-1195: the second pass. *)
Fixpoint parseAll (fuel depth : nat) (index : list (option N)) (i count : N) (p : pst) : res pst :=
  if i <? count then
    match fuel with
    | O => Fuel
    | S f => do r <- parsePoolEntry depth index i p;
             parseAll f depth index (i + fst r) count (snd r)
    end
  else Ok p.

(** math.h:35-38; unsigned. *)
Definition ceilingDivide (n d : N) : N := add32 n (d - 1) / d.
(** machine.h:3253-3264, 3266-3273, 3275-3278, 3351-3369; 64-bit words. *)
Definition singletonMaskSize (count : N) : N :=
  if count =? 0 then 0 else ceilingDivide (add32 count 2) 64.
Definition maskSizeOf (length : N) : N :=
  if length =? 0 then 0 else ceilingDivide (add32 length 2) 65.
Definition singletonCount (length : N) : N := sub32 length (maskSizeOf length).
Definition poolMaskSize (count : N) : N := ceilingDivide count 64.
Definition poolMaskSizeOf (length : N) : N := ceilingDivide (singletonCount length) 65.
Definition poolSize (length : N) : N := sub32 (singletonCount length) (poolMaskSizeOf length).
(** machine.h:3323-3331: the length of the new object, whose first mask word is then set. *)
Definition makeSingletonOfSize (count : N) : res N :=
  let length := add32 count (singletonMaskSize count) in
  if count =? 0 then Ok length
  else if singletonCount length <? length then Ok length else UB.

(** The result of parsePool: the object's length, the words of the entries, the two bit sets,
    the list of invocations and the stream. *)
Record parsed := { length_ : N; entries : list slot; objectBits : N; floatBits : N;
                   invocations : list obj; rest : stream }.

(** machine.cpp:1105-1201. The array [index] comes uninitialised from the heap; that its
    allocation fails is not modelled. *)
Definition parsePool (depth : nat) (s : stream) : res parsed :=
  do c <- checked (read2 s);
  let count := sub32 (fst c) 1 in
  do len <- makeSingletonOfSize (add32 count (poolMaskSize count));
  if count =? 0 then Ok {| length_ := len; entries := []; objectBits := 0; floatBits := 0; invocations := []; rest := snd c |}
  else
    let n := N.to_nat count in
    do t <- scan n 0 count {| sstrm := snd c; index_ := repeat None n; mask := 1; floats := 0 |};
    do p <- parseAll n depth (index_ t) 0 count {| strm := sstrm t; pool := repeat (Word 0) n; invs := [] |};
    Ok {| length_ := len; entries := pool p; objectBits := mask t; floatBits := floats t;
          invocations := invs p; rest := setPosition (strm p) (position (sstrm t)) |}.
