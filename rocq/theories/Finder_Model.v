(** src/finder.cpp, src/avian/finder.h, include/avian/util/{hash,tokenizer}.h: class path and jar lookup.
    Bytes are Z; C strings are lists of non-zero bytes. *)
From Coq Require Import List ZArith Bool Lia.
Import ListNotations.
Local Open Scope Z_scope.

Definition bytes : Set := list Z.
Fixpoint beq (a b : bytes) : bool := match a, b with [], [] => true | x :: a, y :: b => (x =? y) && beq a b | _, _ => false end.

(** ** Tokenizer: include/avian/util/tokenizer.h:19-54 (both constructors: [s] is the text up to the limit or the NUL) *)
(** hasMore: skips delimiters; the text left (empty: no more). *)
Fixpoint skip (d : Z) (s : bytes) : bytes := match s with c :: s' => if c =? d then skip d s' else s | [] => [] end.
(** next: the text up to the next delimiter, and the rest. *)
Fixpoint next (d : Z) (s : bytes) : bytes * bytes :=
  match s with [] => ([], []) | c :: s' => if c =? d then ([], s) else let (t, r) := next d s' in (c :: t, r) end.
(** [for (Tokenizer t(..); t.hasMore();) t.next()]; the fuel is the length of the text. *)
Fixpoint tokens (fuel : nat) (d : Z) (s : bytes) : list bytes :=
  match fuel with
  | O => []
  | S fuel => match skip d s with [] => [] | s' => let (t, r) := next d s' in t :: tokens fuel d r end
  end.

(** ** Hashes: include/avian/util/hash.h:19-36; [char] is signed (x86) in the first *)
Definition signed (c : Z) : Z := if c <? 128 then c else c - 256.
Definition hashChars (s : bytes) : Z := fold_left (fun h c => (h * 31 + signed c) mod 2 ^ 32) s 0.
Definition hashBytes (s : bytes) : Z := fold_left (fun h c => (h * 31 + c) mod 2 ^ 32) s 0.

(** ** JarIndex: finder.cpp:260-425. An entry is its name and what else the header says. *)
Record entry := Entry { fileName : bytes; rest : Z }.
(** [nodes] up to [position]; [table]: the chains, newest first. *)
Record index := Index { capacity : Z; nodes : list entry; table : Z -> list entry }.
(** finder.cpp:275-292 *)
Definition make (c : Z) : index := Index c [] (fun _ => []).
Definition bucket (c h : Z) : Z := Z.land h (c - 1).
Definition hashOf (e : entry) : Z := hashBytes (fileName e).
(** finder.cpp:326-329 *)
Definition add1 (x : index) (e : entry) : option index :=
  if Z.of_nat (length (nodes x)) <? capacity x then
    let i := bucket (capacity x) (hashOf e) in
    Some (Index (capacity x) (nodes x ++ [e]) (fun j => if j =? i then e :: table x i else table x j))
  else None.
Fixpoint addAll (x : index) (es : list entry) : option index :=
  match es with [] => Some x | e :: es => match add1 x e with Some x' => addAll x' es | None => None end end.
(** finder.cpp:324-340: the recursive calls are to an index of twice the capacity, which has room: [addAll]
    (None otherwise; proved not to happen). *)
Definition add (x : index) (e : entry) : option index :=
  match add1 x e with
  | Some x' => Some x'
  | None => match addAll (make (capacity x * 2)) (nodes x) with Some y => add1 y e | None => None end
  end.
(** The index of a central directory: finder.cpp:296, 306-310. *)
Definition build (es : list entry) : option index :=
  fold_left (fun x e => match x with Some x => add x e | None => None end) es (Some (make 32)).
(** finder.cpp:342-353 *)
Definition findNode (x : index) (name : bytes) : option entry :=
  find (fun e => beq (fileName e) name) (table x (bucket (capacity x) (hashChars name))).

(** ** The archive as bytes: finder.h:33-125 *)
Definition byteAt (a : bytes) (p : Z) : option Z := if p <? 0 then None else nth_error a (Z.to_nat p).
Definition get2 (a : bytes) (p : Z) : option Z :=
  match byteAt a p, byteAt a (p + 1) with Some x, Some y => Some (x + 256 * y) | _, _ => None end.
Definition get4 (a : bytes) (p : Z) : option Z :=
  match get2 a p, get2 a (p + 2) with Some x, Some y => Some (x + 65536 * y) | _, _ => None end.
Definition slice (a : bytes) (p n : Z) : option bytes :=
  if (0 <=? p) && (p + n <=? Z.of_nat (length a)) then Some (firstn (Z.to_nat n) (skipn (Z.to_nat p) a)) else None.
Definition CentralDirectorySignature : Z := 101010256. (* 0x06054b50, finder.h:28 *)
Definition EntrySignature : Z := 33639248. (* 0x02014b50, finder.h:29 *)
(** finder.cpp:303-315: the loop over the entries; [rest] is the local header offset. None: a read outside the
    archive. [inr p]: the loop ended because [p >= end]. *)
Fixpoint entries (fuel : nat) (a : bytes) (p : Z) (x : index) : option (index + index * Z) :=
  match fuel with
  | O => None
  | S fuel =>
      if p <? Z.of_nat (length a) then
        match get4 a p with
        | None => None
        | Some sg => if sg =? EntrySignature then
            match get2 a (p + 28), get2 a (p + 30), get2 a (p + 32), get4 a (p + 42) with
            | Some n, Some ex, Some co, Some off =>
                match slice a (p + 46) n with
                | Some nm => match add x (Entry nm off) with Some x' => entries fuel a (p + 46 + n + ex + co) x' | None => None end
                | None => None end
            | _, _, _, _ => None end
          else Some (inl x) end
      else Some (inr (x, p))
  end.
(** finder.cpp:294-322: the search from the end. When the entries run to the end of the archive the outer loop
    goes on reading there: None. *)
Fixpoint search (fuel : nat) (a : bytes) (p : Z) : option index :=
  match fuel with
  | O => None
  | S fuel =>
      if 0 <? p then
        match get4 a p with
        | None => None
        | Some sg => if sg =? CentralDirectorySignature then
            match get4 a (p + 16) with
            | Some off => match entries (S (length a)) a off (make 32) with Some (inl x) => Some x | _ => None end
            | None => None end
          else search fuel a (p - 1) end
      else Some (make 32)
  end.
Definition openJar (a : bytes) : option index := search (S (length a)) a (Z.of_nat (length a) - 22).

(** ** Finder: the elements of the path in order. What an element holds is a function from names. *)
(** finder.cpp:1000-1010 MyFinder::find *)
Fixpoint lookup {R} (path : list (bytes -> option R)) (name : bytes) : option R :=
  match path with [] => None | e :: path => match e name with Some r => Some r | None => lookup path name end end.

(** finder.cpp:826-916 add, addJar, addTokens: what a name stands for. A jar comes with the tokens of the
    Class-Path of its manifest (already prefixed with the directory of the jar). *)
Inductive file := Missing | Directory | Jar (classPath : list bytes).
(** The elements added for a list of tokens, depth first; None: out of fuel, the recursion has not ended. A
    token in brackets is a builtin element. *)
Inductive element := EDir (n : bytes) | EJar (n : bytes) | EBuiltin (n : bytes).
Definition isBuiltin (t : bytes) : bool := match t with 91 :: t' => last t' 0 =? 93 | _ => false end.
Fixpoint addTokens (fuel : nat) (fs : bytes -> file) (ts : list bytes) : option (list element) :=
  match fuel with
  | O => None
  | S fuel =>
      match ts with
      | [] => Some []
      | t :: ts =>
          match (if isBuiltin t then Some [EBuiltin (removelast (tl t))] else
                 match fs t with
                 | Missing => Some []
                 | Directory => Some [EDir t]
                 | Jar cp => match addTokens fuel fs cp with Some es => Some (EJar t :: es) | None => None end
                 end), addTokens fuel fs ts with
          | Some l, Some r => Some (l ++ r)
          | _, _ => None
          end
      end
  end.
(** finder.cpp:918-932 *)
Definition parsePath (fuel : nat) (fs : bytes -> file) (sep : Z) (path : bytes) : option (list element) :=
  addTokens fuel fs (tokens (length path) sep path).

(** ** Manifest lines: finder.h:127-146, finder.cpp:728-818 *)
Definition isEol (c : Z) : bool := (c =? 10) || (c =? 13).
Fixpoint skipEol (s : bytes) : bytes := match s with c :: s' => if isEol c then skipEol s' else s | [] => [] end.
Fixpoint lineOf (s : bytes) : bytes := match s with c :: s' => if isEol c then [] else c :: lineOf s' | [] => [] end.
(** readLine on the text from [start] on: skipped text, the line. *)
Definition readLine (s : bytes) : bytes * bytes := let s' := skipEol s in (s', lineOf s').
(** The continuation lines from here on: their total length and the text (each without its leading blank). *)
Fixpoint continuations (fuel : nat) (s : bytes) : nat * bytes :=
  match fuel with
  | O => (O, [])
  | S fuel => let (s', l) := readLine s in
      match l with
      | 32 :: l' => let (n, t) := continuations fuel (skipn (length l) s') in ((length l + n)%nat, l' ++ t)
      | _ => (O, []) end
  end.
Definition prefix : bytes := [67; 108; 97; 115; 115; 45; 80; 97; 116; 104; 58; 32]. (* "Class-Path: " *)
(** addJar's loop over the lines: the values of the Class-Path headers it sees. *)
Fixpoint classPaths (fuel : nat) (s : bytes) : list bytes :=
  match fuel with
  | O => []
  | S fuel =>
      let (s', l) := readLine s in
      match l with
      | [] => []
      | _ =>
          if (12 <? Z.of_nat (length l)) && beq (firstn 12 l) prefix
          then let (n, t) := continuations (length s') (skipn (length l) s') in
               (skipn 12 l ++ t) :: classPaths fuel (skipn (length l + n) s')
          else classPaths fuel (skipn (length l) s')
      end
  end.
