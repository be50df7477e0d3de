(** Field layout, object masks and the static table: src/machine.cpp parseFieldTable, walk; src/avian/machine.h
    singleton*. *)
From Coq Require Import List ZArith Bool.
From Verif Require Import Res.
Import ListNotations.
Local Open Scope Z_scope.
Local Open Scope res_scope.

(** Unsigned 32- and 16-bit arithmetic. GcClass::fixedSize and GcField::offset are declared short in
    classpath/avian/VMClass.java:16 and VMField.java:17 and become uint16_t (type-generator/main.cpp:602). *)
Definition u32 (x : Z) : Z := x mod 2 ^ 32.
Definition u16 (x : Z) : Z := x mod 2 ^ 16.
(** src/avian/common.h:291-294 *)
Definition pad (n a : Z) : Z := Z.land (u32 (n + u32 (a - 1))) (u32 (Z.lnot (u32 (a - 1)))).
(** include/avian/util/math.h ceilingDivide *)
Definition cdiv (n d : Z) : Z := u32 (n + d - 1) / d.

(** fieldCode, src/machine.cpp:4658-4686: the first character of the descriptor; any other character aborts and is not a
    value here. *)
Inductive fcode := FVoid | FByte | FBoolean | FChar | FShort | FInt | FFloat | FLong | FDouble | FObject.
(** fieldSize, src/avian/machine.h:2325-2332; primitiveSize, src/machine.cpp:4714-4734. *)
Definition fieldSize (c : fcode) : Z :=
  match c with
  | FVoid => 0
  | FByte | FBoolean => 1
  | FChar | FShort => 2
  | FInt | FFloat => 4
  | FLong | FDouble | FObject => 8
  end.
Definition isObject (c : fcode) : bool := match c with FObject => true | _ => false end.

(** One field_info: code, ACC_STATIC, and the pool word the ConstantValue attribute refers to (None: no attribute,
    index 0). Other attributes do not influence the layout. *)
Record field := Fld { code : fcode; static : bool; constant : option Z }.
(** The part of GcClass this function fills in; the mask is an int array. *)
Record class := Cls { fixedSize : Z; objectMask : option (list Z) }.

(** src/machine.cpp:1396-1419: the loop over the fields: the offset stored for each, and the final counters. *)
Fixpoint offsets (fs : list field) (so mo : Z) : list Z * Z * Z :=
  match fs with
  | [] => ([], so, mo)
  | f :: fs =>
    let size := fieldSize (code f) in
    if static f then
      let so := pad so size in
      let '(l, so', mo') := offsets fs (u32 (so + size)) mo in (u16 so :: l, so', mo')
    else
      let mo := pad mo size in
      let '(l, so', mo') := offsets fs so (u32 (mo + size)) in (u16 mo :: l, so', mo')
  end.

(** Arrays of 32-bit words, indexed by bit. *)
Fixpoint orAt (m : list Z) (w : nat) (b : Z) : option (list Z) :=
  match m, w with
  | [], _ => None
  | x :: m, O => Some (Z.lor x b :: m)
  | x :: m, S w => option_map (cons x) (orAt m w b)
  end.
Definition setBit (m : list Z) (k : Z) : res (list Z) := of_option (orAt m (Z.to_nat (k / 32)) (2 ^ (k mod 32))).
Definition bitAt (m : list Z) (k : Z) : res bool :=
  do x <- of_option (nth_error m (Z.to_nat (k / 32))); Ok (Z.testbit x (k mod 32)).

(** machine.cpp:1506-1516: from the last field to the first. *)
Fixpoint markFields (fs : list (field * Z)) (m : list Z) : res (list Z) :=
  match fs with
  | [] => Ok m
  | (f, o) :: fs => if negb (static f) && isObject (code f) then do m <- setBit m (o / 8); markFields fs m else markFields fs m
  end.
(** memcpy of [n] words into the beginning of [m]: from [src], which must have them. *)
Definition copyWords (n : Z) (src m : list Z) : res (list Z) :=
  let k := Z.to_nat n in
  if (Nat.leb k (length src) && Nat.leb k (length m))%bool then Ok (firstn k src ++ skipn k m) else UB.
(** machine.cpp:1485-1522 *)
Definition parseMask (super : option class) (mo : Z) (fs : list (field * Z)) : res class :=
  let fixed := u16 mo in
  let fresh :=
    do m <- setBit (repeat 0 (Z.to_nat (cdiv fixed 256))) 0;
    let superMask := match super with Some s => objectMask s | None => None end in
    do m <- match super, superMask with
            | Some s, Some sm => copyWords (cdiv (fixedSize s) 256) sm m
            | _, _ => Ok m
            end;
    do m <- markFields (rev fs) m;
    Ok (Cls fixed (if (match superMask with Some _ => true | None => false end)
                      || existsb (fun x => negb (static (fst x)) && isObject (code (fst x))) fs
                   then Some m else None)) in
  match super with
  | Some s => if mo =? fixedSize s then Ok (Cls fixed (objectMask s)) else fresh
  | None => fresh
  end.

(** Memory: bytes; [put]/[get] little-endian values of [n] bytes. *)
Definition put (m : Z -> Z) (a n v : Z) : Z -> Z :=
  fun x => if (a <=? x) && (x <? a + n) then (v / 256 ^ (x - a)) mod 256 else m x.
Fixpoint getn (m : Z -> Z) (a : Z) (n : nat) : Z :=
  match n with O => 0 | S n => m a + 256 * getn m (a + 1) n end.
Definition get (m : Z -> Z) (a n : Z) : Z := getn m a (Z.to_nat n).

(** GcSingleton: length in words, and the bytes of the body (src/types.def singleton). *)
Record singleton := Sng { slength : Z; body : Z -> Z }.
Definition store (s : singleton) (a n v : Z) : res singleton :=
  if (0 <=? a) && (a + n <=? 8 * slength s) then Ok (Sng (slength s) (put (body s) a n v)) else UB.
(** src/avian/machine.h:3253-3278: BitsPerWord = 64. *)
Definition maskSizeFor (count : Z) : Z := if count =? 0 then 0 else cdiv (u32 (count + 2)) 64.
Definition maskSize (s : singleton) : Z := if slength s =? 0 then 0 else cdiv (u32 (slength s + 2)) 65.
Definition count (s : singleton) : Z := slength s - maskSize s.
(** 3280-3297: or a bit into the 32-bit word of the mask behind the values. *)
Definition markObject (s : singleton) (index : Z) : res singleton :=
  let a := 8 * count s + 4 * ((index + 2) / 32) in
  store s a 4 (Z.lor (get (body s) a 4) (2 ^ ((index + 2) mod 32))).
(** 3323-3331: a fresh object is zero. *)
Definition makeSingleton (n : Z) : res singleton :=
  let s := Sng (n + maskSizeFor n) (fun _ => 0) in
  if n =? 0 then Ok s else store s (8 * count s) 4 1.

(** machine.cpp:1434-1478: the values, then the marks, of the static fields, at offsets computed once more. The pool
    word is stored truncated to the size of the field. *)
Fixpoint fillStatics (fs : list field) (offset : Z) (s : singleton) : res singleton :=
  match fs with
  | [] => Ok s
  | f :: fs =>
    if static f then
      let size := fieldSize (code f) in
      let offset := pad offset size in
      do s <- match constant f with
              | Some v => match code f with FVoid => Abort | _ => store s offset size v end
              | None => Ok s
              end;
      do s <- (if isObject (code f) then markObject s (offset / 8) else Ok s);
      fillStatics fs (u32 (offset + size)) s
    else fillStatics fs offset s
  end.
(** 1424-1481; [self]: the class pointer stored in the first word. *)
Definition staticTable (self : Z) (fs : list field) (so : Z) : res (option singleton) :=
  if existsb static fs then
    do s <- makeSingleton (cdiv (u32 (so - 16)) 8);
    do s <- store s 0 8 self;
    do s <- markObject s 0;
    do s <- fillStatics fs 8 s;
    Ok (Some s)
  else Ok None.

(** parseFieldTable: offsets of all fields, the class, its static table. *)
Definition parseFieldTable (self : Z) (super : option class) (fs : list field) : res (list Z * class * option singleton) :=
  let mo := match super with Some s => fixedSize s | None => 8 end in
  let '(offs, so, mo) := offsets fs 24 mo in
  do st <- staticTable self fs so;
  do c <- parseMask super mo (combine fs offs);
  Ok (offs, c, st).

(** The numbers from [a] to [b - 1]. *)
Definition upto (a b : Z) : list Z := map (fun k => a + Z.of_nat k) (seq 0 (Z.to_nat (b - a))).
Fixpoint filterR (f : Z -> res bool) (l : list Z) : res (list Z) :=
  match l with
  | [] => Ok []
  | x :: l => do b <- f x; do r <- filterR f l; Ok (if b : bool then x :: r else r)
  end.
Fixpoint existsR (f : Z -> res bool) (l : list Z) : res bool :=
  match l with
  | [] => Ok false
  | x :: l => do b <- f x; if b : bool then Ok true else existsR f l
  end.
Fixpoint flatR (f : Z -> res (list Z)) (l : list Z) : res (list Z) :=
  match l with
  | [] => Ok []
  | x :: l => do a <- f x; do r <- flatR f l; Ok (a ++ r)
  end.
(** machine.cpp:306-358: the word indices passed to a visitor that never stops the walk. *)
Definition walk (mask : list Z) (fixed elementSize length start : Z) : res (list Z) :=
  let fw := cdiv fixed 8 in
  let ew := cdiv elementSize 8 in
  do a <- filterR (bitAt mask) (upto start fw);
  do e <- existsR (bitAt mask) (upto fw (fw + ew));
  if e : bool then
    let '(arrayStart, elementStart) :=
      if fw <? start then ((start - fw) / ew, (start - fw) mod ew) else (0, 0) in
    do b <- flatR (fun i => do js <- filterR (fun j => bitAt mask (fw + j)) (upto elementStart ew);
                            Ok (map (fun j => fw + i * ew + j) js)) (upto arrayStart length);
    Ok (a ++ b)
  else Ok a.
(** machine.cpp:5542-5592 for an instance (no array part; continuations are not modelled), for an array of [n] elements,
    and for a singleton. *)
Definition walkArray (c : class) (elementSize n start : Z) : res (list Z) :=
  match objectMask c with
  | Some m => walk m (fixedSize c) elementSize (if elementSize =? 0 then 0 else n) start
  | None => Ok (if start =? 0 then [0] else [])
  end.
Definition walkInstance (c : class) (start : Z) : res (list Z) := walkArray c 0 0 start.
Definition maskWords (s : singleton) : list Z :=
  map (fun i => get (body s) (8 * count s + 4 * i) 4) (upto 0 (2 * maskSize s)).
Definition walkSingleton (s : singleton) (start : Z) : res (list Z) :=
  if slength s =? 0 then Ok (if start =? 0 then [0] else [])
  else walk (maskWords s) ((count s + 2) * 8) 0 0 start.

(** Loading a chain of classes, root first: the offsets given to the fields of each class and the last class. The static
    tables are dropped. *)
Fixpoint loadChain (super : option class) (chain : list (list field)) : res (list (list Z) * option class) :=
  match chain with
  | [] => Ok ([], super)
  | fs :: chain =>
    do r <- parseFieldTable 0 super fs;
    let '(offs, c, _) := r in
    do r <- loadChain (Some c) chain;
    let '(l, c) := r in Ok (offs :: l, c)
  end.

(** The mask and header of the object array class: words 0 (class) and 2 (first element) are references
    (type-generator, type array: class, length, body). *)
Definition arrayClass : class := Cls 16 (Some [5]).
Definition primitiveArrayClass : class := Cls 16 None.
