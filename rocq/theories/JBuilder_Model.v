(** Model of java.lang.StringBuilder: classpath/java/lang/StringBuilder.java 13-384, with the methods of String it calls:
    classpath/java/lang/String.java substring 378-393, getChars 476-494, charAt 503-513.

    Simplifications.
    - Characters are numbers; a string is the list of its characters. Lengths are integers without a bound: a builder is
      taken to hold fewer than 2^31 characters.
    - The append methods for other types all call append(String) (lines 57-105) and are left out.
    - The chain of cells, whose head holds the end of the text, is a list of strings; cells are private, so no two builders
      share one. *)
From Coq Require Import List NArith ZArith Bool.
Import ListNotations.
Local Open Scope Z_scope.

Definition jstring := list N.
Definition len (s : jstring) : Z := Z.of_nat (length s).

(** String.substring, String.java 378-393; [None]: StringIndexOutOfBoundsException *)
Definition substring (s : jstring) (a b : Z) : option jstring :=
  if (a <? 0) || (len s <? b) || (b - a <? 0) then None
  else Some (firstn (Z.to_nat (b - a)) (skipn (Z.to_nat a) s)).

(** String.charAt of an index below the length, String.java 503-513 *)
Definition charOf (s : jstring) (i : Z) : option N :=
  if (i <? 0) || (len s <? i) then None else nth_error s (Z.to_nat i).

(** The fields, StringBuilder.java 16-19: [buffer] null or an array of 32 characters of which [position] are used: those
    used are kept *)
Record builder := mkB { chain : list jstring; blen : Z; buffer : option jstring }.

(** lines 21-29 *)
Definition empty : builder := mkB [] 0 None.

Inductive outcome (A : Type) := Returns (b : builder) (x : A) | Throws (b : builder).
Arguments Returns {A}. Arguments Throws {A}.

(** lines 31-37 *)
Definition flush (b : builder) : builder :=
  match buffer b with
  | Some ((_ :: _) as t) => mkB (t :: chain b) (blen b) None
  | _ => b
  end.

Definition BufferSize : Z := 32.
Definition nullString : jstring := [110; 117; 108; 108]%N.

(** lines 39-56, for a string that is not null *)
Definition appendText (s : jstring) (b : builder) : builder :=
  if 0 <? len s then
    let b1 :=
      match buffer b with
      | Some t => if len s <=? BufferSize - len t then mkB (chain b) (blen b) (Some (t ++ s))
                  else let f := flush b in mkB (s :: chain f) (blen f) (buffer f)
      | None => let f := flush b in mkB (s :: chain f) (blen f) (buffer f)
      end in
    mkB (chain b1) (blen b1 + len s) (buffer b1)
  else b.
Definition append (o : option jstring) (b : builder) : builder :=
  appendText (match o with Some s => s | None => nullString end) b.

(** lines 82-94 *)
Definition appendChar (v : N) (b : builder) : builder :=
  let b1 :=
    match buffer b with
    | None => mkB (chain b) (blen b) (Some [])
    | Some t => if BufferSize <=? len t then let f := flush b in mkB (chain f) (blen f) (Some []) else b
    end in
  match buffer b1 with
  | Some t => mkB (chain b1) (blen b1 + 1) (Some (t ++ [v]))
  | None => b1
  end.

(** lines 125-134 *)
Fixpoint charAtLoop (cs : list jstring) (index i : Z) : option N :=
  match cs with
  | [] => None
  | c :: r =>
      let start := index - len c in
      if start <=? i then charOf c (i - start) else charAtLoop r start i
  end.

(** lines 117-137 *)
Definition charAt (i : Z) (b : builder) : outcome N :=
  if (i <? 0) || (blen b <=? i) then Throws b
  else
    let b1 := flush b in
    match charAtLoop (chain b1) (blen b1) i with
    | Some c => Returns b1 c
    | None => Throws b1
    end.

(** lines 151-165. [None]: substring throws *)
Fixpoint insertLoop (cs : list jstring) (index i : Z) (s : jstring) : option (list jstring) :=
  match cs with
  | [] => Some []
  | c :: r =>
      let start := index - len c in
      if start <=? i then
        if i =? start then Some (c :: s :: r)
        else
          match substring c (i - start) (len c), substring c 0 (i - start) with
          | Some c2, Some c1 => Some (c2 :: s :: c1 :: r)
          | _, _ => None
          end
      else
        match insertLoop r start i s with
        | Some r' => Some (c :: r')
        | None => None
        end
  end.

(** lines 139-172. A null string inserted before the end throws only at line 167, when its cell is in the chain: the
    builder is left with it; here with the cell empty *)
Definition insert (i : Z) (o : option jstring) (b : builder) : outcome unit :=
  if (i <? 0) || (blen b <? i) then Throws b
  else if i =? blen b then Returns (append o b) tt
  else
    let b1 := flush b in
    let s := match o with Some s => s | None => [] end in
    match insertLoop (chain b1) (blen b1) i s with
    | None => Throws b1
    | Some cs =>
        match o with
        | Some _ => Returns (mkB cs (blen b1 + len s) (buffer b1)) tt
        | None => Throws (mkB cs (blen b1) (buffer b1))
        end
    end.

(** lines 197-229: [seen] are the cells passed that the chain still leads to; the variable p is null throughout.
    The flag tells an exception of substring *)
Fixpoint deleteLoop (seen cs : list jstring) (index start end_ : Z) : bool * list jstring :=
  match cs with
  | [] => (true, seen)
  | c :: r =>
      let e := index in
      let s := index - len c in
      if e <=? end_ then
        if start <=? s then deleteLoop [] r s start end_
        else
          match substring c 0 (start - s) with
          | Some v => (true, seen ++ v :: r)
          | None => (false, seen ++ c :: r)
          end
      else
        match substring c (end_ - s) (e - s) with
        | None => (false, seen ++ c :: r)
        | Some v =>
            if start <=? s then deleteLoop (seen ++ [v]) r s start end_
            else
              match substring c 0 (start - s) with
              | Some v1 => (true, seen ++ v :: v1 :: r)
              | None => (false, seen ++ v :: r)
              end
        end
  end.

(** lines 186-234 *)
Definition delete (start end_ : Z) (b : builder) : outcome unit :=
  if end_ <=? start then Returns b tt
  else if (start <? 0) || (blen b <? end_) then Throws b
  else
    let b1 := flush b in
    match deleteLoop [] (chain b1) (blen b1) start end_ with
    | (true, cs) => Returns (mkB cs (blen b1 - (end_ - start)) (buffer b1)) tt
    | (false, cs) => Throws (mkB cs (blen b1) (buffer b1))
    end.

(** lines 236-238 *)
Definition deleteCharAt (i : Z) (b : builder) : outcome unit := delete i (i + 1) b.

(** lines 240-244 *)
Definition replace (start end_ : Z) (o : option jstring) (b : builder) : outcome unit :=
  match delete start end_ b with
  | Returns b1 _ => insert start o b1
  | Throws b1 => Throws b1
  end.

(** lines 374-378 *)
Definition setCharAt (i : Z) (c : N) (b : builder) : outcome unit :=
  if (i <? 0) || (blen b <=? i) then Throws b
  else
    match deleteCharAt i b with
    | Returns b1 _ => insert i (Some [c]) b1
    | Throws b1 => Throws b1
    end.

(** lines 308-321 *)
Fixpoint setLengthLoop (cs : list jstring) (index v : Z) : option (list jstring) :=
  match cs with
  | [] => Some []
  | c :: r =>
      let start := index - len c in
      if start <? v then
        if v <? index then
          match substring c 0 (v - start) with Some c' => Some (c' :: r) | None => None end
        else Some (c :: r)
      else setLengthLoop r start v
  end.

(** lines 292-322 *)
Definition setLength (v : Z) (b : builder) : outcome unit :=
  if v <? 0 then Throws b
  else if v =? 0 then Returns (mkB [] 0 (buffer b)) tt
  else
    let b1 := flush b in
    match setLengthLoop (chain b1) (blen b1) v with
    | Some cs => Returns (mkB cs v (buffer b1)) tt
    | None => Throws b1
    end.

(** System.arraycopy into a new array at [pos] (ArrayCopy_Props); [None]: out of the array *)
Definition blit (dst : jstring) (pos : Z) (seg : jstring) : option jstring :=
  if (pos <? 0) || (len dst <? pos + len seg) then None
  else Some (firstn (Z.to_nat pos) dst ++ seg ++ skipn (Z.to_nat pos + length seg) dst).

(** lines 331-350 *)
Fixpoint getCharsLoop (cs : list jstring) (index srcStart srcEnd : Z) (dst : jstring) : option jstring :=
  match cs with
  | [] => Some dst
  | c :: r =>
      let index' := index - len c in
      let start := if index' <? srcStart then srcStart else index' in
      let end_ := if srcEnd <? index then srcEnd else index in
      if start <? end_ then
        match substring c (start - index') (end_ - index') with
        | None => None
        | Some seg =>
            match blit dst (0 + (start - srcStart)) seg with
            | None => None
            | Some dst' => getCharsLoop r index' srcStart srcEnd dst'
            end
        end
      else getCharsLoop r index' srcStart srcEnd dst
  end.

(** lines 364-369 with getChars 324-351: the characters of a new array *)
Definition substringOf (start end_ : Z) (b : builder) : outcome jstring :=
  if end_ - start <? 0 then Throws b
  else if (start <? 0) || (blen b <? end_) then Throws b
  else
    let b1 := flush b in
    match getCharsLoop (chain b1) (blen b1) start end_ (repeat 0%N (Z.to_nat (end_ - start))) with
    | Some d => Returns b1 d
    | None => Throws b1
    end.

(** lines 353-357 *)
Definition toString (b : builder) : outcome jstring := substringOf 0 (blen b) b.
