(** Model of the loading of classes by name and of array classes: src/machine.cpp saveLoadedClass 2988-3002,
    makeArrayClass 2933-2986 and 3004-3085, resolveArrayClass 3087-3116, resolveSystemClass 4888-4999, findLoadedClass
    5001-5016, resolveClass 5018-5104, resolveObjectArrayClass 5272-5312, defineClass 5933-5962; and of the Java side:
    classpath/java/lang/ClassLoader.java 101-163, classpath/avian/SystemClassLoader.java 24-60, classpath/avian/Classes.java
    289-303.

    Simplifications.
    - A name is the list of its characters without the terminating zero; reading at its end gives that zero.
    - The hash map of a loader is a list of entries, newest first, searched from the front: src/util.cpp hashMapInsert
      puts an entry at the head of its bucket (that the map finds what was inserted is proved in HashMap_Props).
    - Parsing a class file gives a class with the name the file says; the loading of superclasses that parsing starts is
      not modelled here (it is further requests of the same kind).
    - A request that throws and one that returns null are not told apart: both are "no class".
    - Everything here runs under classLock, which resolveSystemClass holds from its first to its last line, so requests to
      system loaders happen one after the other. The Java code of a user's loader runs without the lock; only requests made
      one after the other are modelled for it.
    - updatePackageMap, the virtual tables and the source of a class are left out. *)
From Coq Require Import List NArith ZArith Arith Bool Lia.
Import ListNotations.
Local Open Scope nat_scope.

(** The characters of a name, src/machine.cpp 3012-3014: '[' = 91, 'L' = 76, ';' = 59, '.' and '/' are not told apart *)
Definition char := N.
Definition name := list char.
Definition chBracket : char := 91%N.
Definition chL : char := 76%N.
Definition chSemi : char := 59%N.
Definition chNul : char := 0%N.

Definition nameEq (a b : name) : bool := if list_eq_dec N.eq_dec a b then true else false.

(** A class, src/types.def class: its name, its defining loader, arrayDimensions (a uint8_t), arrayElementClass *)
Record cls := mkCls { c_name : name; c_loader : nat; c_dims : N; c_elem : option nat }.

(** A loader. [LSys]: an instance of avian.SystemClassLoader with its parent and its finder: for a class name, the name the
    class file found says it defines (src/machine.cpp 4912-4940). [LUser]: an instance of a subclass of
    java.lang.ClassLoader whose findClass finds class files and calls defineClass, as java.net.URLClassLoader's does
    (classpath/java/net/URLClassLoader.java 35-56); with [childFirst] its loadClass asks findClass before the parent *)
Inductive loader :=
| LSys (parent : option nat) (files : name -> option name)
| LUser (parent : option nat) (childFirst : bool) (files : name -> option name).

(** The state: all classes made so far, in order, and the map of each loader *)
Record st := mkSt { classes : list cls; maps : nat -> list (name * nat) }.

Inductive out := Done (s : st) (c : option nat) | Aborted | NoFuel.

Definition bindOut (o : out) (f : st -> option nat -> out) : out :=
  match o with Done s c => f s c | Aborted => Aborted | NoFuel => NoFuel end.

(** src/util.cpp hashMapFind: the newest entry *)
Fixpoint findIn (m : list (name * nat)) (n : name) : option nat :=
  match m with
  | [] => None
  | (k, c) :: rest => if nameEq k n then Some c else findIn rest n
  end.

(** src/machine.cpp 5001-5016 *)
Definition findLoadedClass (s : st) (l : nat) (n : name) : option nat := findIn (maps s l) n.

(** hashMapInsert into the map of loader [l], src/machine.cpp 3000-3001, 4988-4989 *)
Definition insertMap (s : st) (l : nat) (n : name) (c : nat) : st :=
  mkSt (classes s) (fun k => if k =? l then (n, c) :: maps s k else maps s k).

(** a new class object, src/machine.cpp 2960-2978 *)
Definition addClass (s : st) (k : cls) : st := mkSt (classes s ++ [k]) (maps s).

Definition classAt (s : st) (c : nat) : cls := nth c (classes s) (mkCls [] 0 0%N None).

(** src/machine.cpp 2988-3002: entered under the name of the class *)
Definition saveLoadedClass (s : st) (l c : nat) : st := insertMap s l (c_name (classAt s c)) c.

(** src/machine.cpp 3012-3015: the number of leading brackets *)
Fixpoint brackets (n : name) : nat :=
  match n with
  | c :: n' => if (c =? chBracket)%N then S (brackets n') else 0
  | [] => 0
  end.

(** src/machine.cpp 3022-3023: up to the first semicolon or zero *)
Fixpoint scanName (n : name) : nat :=
  match n with
  | c :: n' => if (c =? chNul)%N || (c =? chSemi)%N then 0 else S (scanName n')
  | [] => 0
  end.

(** src/machine.cpp 3017-3052: the name of the element class and the dimensions passed to the class; [None]: abort.
    [n ++ [chNul]] is the byte array with its terminating zero *)
Definition elementSpec (n : name) : option (name * nat) :=
  let d := brackets n in
  let body := n ++ [chNul] in
  if (nth d body chNul =? chL)%N then
    let start := S d in
    let e := start + scanName (skipn start n) in
    if 1 <? d then Some (firstn (S e - (start - d)) (skipn (start - d) body), d)
    else Some (firstn (e - start) (skipn start body), d)
  else
    if 1 <? d then Some (repeat chBracket (d - 1) ++ [nth d body chNul], d - 1)
    else None.

(** src/machine.cpp 4905, 5034: spec->body()[0] == '[' *)
Definition isArrayName (n : name) : bool := (nth 0 n chNul =? chBracket)%N.

Section Load.
(** the loaders of the VM and the map of bootstrap classes (src/machine.cpp 3228-3250, 3289-3360): neither changes while
    classes are loaded *)
Variable ls : nat -> loader.
Variable boot : name -> option nat.

(** src/machine.cpp 3068-3084, under classLock; the dimensions are stored in a uint8_t (src/avian/processor.h 101) *)
Definition finishArray (n : name) (dims e : nat) (s : st) : out :=
  let d := c_loader (classAt s e) in
  match findLoadedClass s d n with
  | Some c => Done s (Some c)
  | None =>
      let c := length (classes s) in
      let s1 := addClass s (mkCls n d (N.of_nat dims mod 256) (Some e)) in
      Done (saveLoadedClass s1 d c) (Some c)
  end.

(** src/machine.cpp 3004-3085; [rc] is resolveClass with the loader of the call *)
Definition makeArrayClass (rc : name -> st -> out) (n : name) (s : st) : out :=
  match elementSpec n with
  | None => Aborted
  | Some (en, dims) =>
      match boot en with
      | Some e => finishArray n dims e s
      | None =>
          bindOut (rc en s)
            (fun s1 o => match o with None => Done s1 None | Some e => finishArray n dims e s1 end)
      end
  end.

(** src/machine.cpp 3087-3116; loader 0 is the boot loader *)
Definition resolveArrayClass (rc : name -> st -> out) (n : name) (s : st) : out :=
  match boot n with
  | Some c => Done s (Some c)
  | None =>
      match findLoadedClass s 0 n with
      | Some c => Done s (Some c)
      | None => makeArrayClass rc n s
      end
  end.

(** src/machine.cpp 5933-5962 and classpath/java/lang/ClassLoader.java 101-113: the file is parsed and the class saved *)
Definition defineClass (l : nat) (fname : name) (s : st) : out :=
  let c := length (classes s) in
  let s1 := addClass s (mkCls fname l 0%N None) in
  Done (saveLoadedClass s1 l c) (Some c).

(** findClass of a user's loader, classpath/java/net/URLClassLoader.java 35-56 *)
Definition userFindClass (l : nat) (files : name -> option name) (n : name) (s : st) : out :=
  match files n with
  | None => Done s None
  | Some fname => defineClass l fname s
  end.

(** src/machine.cpp 4912-4984: reading a class file for a system loader *)
Definition systemRead (l : nat) (files : name -> option name) (n : name) (s : st) : out :=
  match files n with
  | None => Done s None
  | Some fname =>
      match boot n with
      | Some c => Done s (Some c)
      | None => Done (addClass s (mkCls fname l 0%N None)) (Some (length (classes s)))
      end
  end.

Definition parentOf (l : nat) : option nat :=
  match ls l with LSys p _ => p | LUser p _ _ => p end.

(** Loading [n] by loader [l]. [java] = false: resolveClass of the VM, src/machine.cpp 4888-4999 for a system loader and
    5018-5104 for another one. [java] = true: the Java method loadClass, classpath/avian/SystemClassLoader.java 42-62 (which
    asks the map, the parent and then findVMClass = resolveSystemClass, so that it does what resolveSystemClass does) and
    classpath/java/lang/ClassLoader.java 136-163 (findLoadedClass is null for every loader that is not a
    SystemClassLoader: reallyFindLoadedClass, lines 128-134) *)
Fixpoint load (fuel : nat) (java : bool) (l : nat) (n : name) (s : st) : out :=
  match fuel with
  | 0 => NoFuel
  | S f =>
      match ls l with
      | LSys parent files =>
          match findLoadedClass s l n with
          | Some c => Done s (Some c)
          | None =>
              bindOut (match parent with Some p => load f false p n s | None => Done s None end)
                (fun s1 o =>
                   match o with
                   | Some c => Done s1 (Some c)
                   | None =>
                       bindOut (if isArrayName n
                                then resolveArrayClass (load f false l) n s1
                                else systemRead l files n s1)
                         (fun s2 o2 =>
                            match o2 with
                            | Some c => Done (insertMap s2 l n c) (Some c)
                            | None => Done s2 None
                            end)
                   end)
          end
      | LUser parent childFirst files =>
          if java then
            if childFirst then
              bindOut (userFindClass l files n s)
                (fun s1 o =>
                   match o with
                   | Some c => Done s1 (Some c)
                   | None => match parent with Some p => load f true p n s1 | None => Done s1 None end
                   end)
            else
              bindOut (match parent with Some p => load f true p n s | None => Done s None end)
                (fun s1 o =>
                   match o with
                   | Some c => Done s1 (Some c)
                   | None => userFindClass l files n s1
                   end)
          else
            match findLoadedClass s l n with
            | Some c => Done s (Some c)
            | None =>
                bindOut (if isArrayName n
                         then resolveArrayClass (load f false l) n s
                         else load f true l n s)
                  (fun s1 o =>
                     match o with
                     | Some c => Done (saveLoadedClass s1 l c) (Some c)
                     | None => Done s1 None
                     end)
            end
      end
  end.

(** A bound on the calls one request makes: names get shorter towards the element, loaders smaller towards the root *)
Definition measure (n : name) : nat := 2 * length n + (if in_dec N.eq_dec chNul n then 0 else 1).
Definition enough (java : bool) (l : nat) (n : name) : nat :=
  S (2 * (measure n + l) + (if java then 0 else 1)).

(** resolveClass, src/machine.cpp 5018-5104 *)
Definition resolveClass (l : nat) (n : name) (s : st) : out := load (enough false l n) false l n s.

(** ClassLoader.loadClass, classpath/java/lang/ClassLoader.java 136-163; also what Class.forName calls
    (classpath/avian/Classes.java 289-303) *)
Definition loadClass (l : nat) (n : name) (s : st) : out := load (enough true l n) true l n s.

(** src/machine.cpp 5284-5306: the name of the array class of a class; makeObjectArray 5314-5325 and Array.newInstance
    resolve it with the loader of the element class. The class kept in the runtime data (5278-5283, 5308) is left out *)
Definition arrayNameOf (n : name) : name :=
  if isArrayName n then chBracket :: n else chBracket :: chL :: n ++ [chSemi].

Definition resolveObjectArrayClass (e : nat) (s : st) : out :=
  resolveClass (c_loader (classAt s e)) (arrayNameOf (c_name (classAt s e))) s.

(** A history of requests for classes, each by a loader and a name *)
Fixpoint requests (rs : list (nat * name)) (s : st) : option st :=
  match rs with
  | [] => Some s
  | (l, n) :: rest => match resolveClass l n s with Done s1 _ => requests rest s1 | _ => None end
  end.
End Load.
