(** Interface tables, method tables, virtual and interface dispatch, and assignability: src/machine.cpp
    parseInterfaceTable, addInterfaces, parseMethodTable, addInterfaceMethods, isAssignableFrom; src/avian/machine.h
    findVirtualMethod, findInterfaceMethod. Classes are numbered in the order they are loaded; class 0 is
    java.lang.Object. One class loader, so that interfaces with equal names are equal. Hash maps are association lists
    (their own behaviour is proved separately); the order in which a map of interfaces is enumerated is the
    parameter [order]. Offsets are unbounded (16 bits in VMMethod.java:19). Bootstrap classes are taken as resolved. *)
From Coq Require Import List Arith Bool.
Import ListNotations.

(** A method_info: name and descriptor together are one number; [virtual] is methodVirtual (machine.h:3247-3251): neither
    static nor private nor named "<...". *)
Record mdecl := Dec { dsig : nat; virtual : bool }.
(** A class file: ACC_INTERFACE, super_class, interfaces, methods. *)
Record cdef := Def { isInterface : bool; super : option nat; ifaces : list nat; decls : list mdecl }.
(** A method object: signature, class_, offset, methodVirtual; [origin] is the class whose declaration provided the code. *)
Record meth := Met { sig : nat; mclass : nat; offset : nat; origin : nat; mvirtual : bool }.
(** A loaded class; a null virtual table is None. The interface table holds each interface with its method table (which
    interfaces do not have: stride 1 in the code, an empty list here). *)
Record cls := Cls { def : cdef; itable : list (nat * list meth); vtable : option (list meth); methods : list meth }.
Definition world := list cls.

Definition find_vtable (w : world) (i : nat) : list meth :=
  match nth_error w i with Some c => match vtable c with Some v => v | None => [] end | None => [] end.
Definition interfacesOf (w : world) (i : nat) : list nat :=
  match nth_error w i with Some c => map fst (itable c) | None => [] end.

(** hashMapInsertMaybe, src/machine.cpp *)
Definition insertMaybe (m : list nat) (i : nat) : list nat := if existsb (Nat.eqb i) m then m else m ++ [i].
(** machine.cpp addInterfaces *)
Definition addInterfaces (w : world) (i : nat) (m : list nat) : list nat := fold_left insertMaybe (interfacesOf w i) m.
(** machine.cpp:1244-1311 parseInterfaceTable: the enumerated map *)
Definition parseInterfaces (order : list nat -> list nat) (w : world) (d : cdef) : list nat :=
  let m := match super d with Some s => addInterfaces w s [] | None => [] end in
  order (fold_left (fun m i => addInterfaces w i (insertMaybe m i)) (ifaces d) m).

(** The map from signatures to (first, second). *)
Definition vmap := list (nat * (meth * meth)).
Definition findNode (m : vmap) (s : nat) : option (meth * meth) :=
  option_map snd (find (fun p => Nat.eqb (fst p) s) m).
Definition insert (m : vmap) (x : meth) : vmap := m ++ [(sig x, (x, x))].
Fixpoint setSecond (m : vmap) (s : nat) (x : meth) : vmap :=
  match m with
  | [] => []
  | (k, (a, b)) :: m => if Nat.eqb k s then (k, (a, x)) :: m else (k, (a, b)) :: setSecond m s x
  end.

(** State of the loop over the declared methods: map, virtualCount, newVirtuals, methodTable. *)
Record pstate := PS { vm : vmap; vcount : nat; news : list meth; mtab : list meth }.
(** machine.cpp:2567-2629 *)
Definition declare (self : nat) (st : pstate) (d : mdecl) : pstate :=
  if virtual d then
    match findNode (vm st) (dsig d) with
    | Some (f, _) => let x := Met (dsig d) self (offset f) self true in
                     PS (setSecond (vm st) (dsig d) x) (vcount st) (news st) (mtab st ++ [x])
    | None => let x := Met (dsig d) self (vcount st) self true in
              PS (insert (vm st) x) (S (vcount st)) (news st ++ [x]) (mtab st ++ [x])
    end
  else PS (vm st) (vcount st) (news st) (mtab st ++ [Met (dsig d) self (length (mtab st)) self false]).
(** machine.cpp:2347-2414 addInterfaceMethods: one method of one interface; the state is map, virtualCount, list. *)
Definition addAbstract (self : nat) (st : vmap * nat * list meth) (x : meth) : vmap * nat * list meth :=
  let '(m, n, l) := st in
  match findNode m (sig x) with
  | Some _ => st
  | None => let y := Met (sig x) self n (origin x) (mvirtual x) in (insert m y, S n, l ++ [y])
  end.
Definition addInterfaceMethods (w : world) (self : nat) (is : list nat) (st : vmap * nat * list meth) : vmap * nat * list meth :=
  fold_left (fun st i => fold_left (addAbstract self) (find_vtable w i) st) is st.

Fixpoint sequence {A} (l : list (option A)) : option (list A) :=
  match l with
  | [] => Some []
  | Some x :: l => option_map (cons x) (sequence l)
  | None :: _ => None
  end.
(** machine.cpp:2662-2673: an array filled by offset; None: an element stays null. *)
Definition byOffset (m : vmap) (n : nat) : option (list meth) :=
  sequence (map (fun i => find (fun x => Nat.eqb (offset x) i) (map (fun p => fst (snd p)) m)) (seq 0 n)).
(** hashMapFind: the value of each method of [l] (None: one is missing) *)
Definition values (m : vmap) (l : list meth) : option (list meth) :=
  sequence (map (fun x => option_map snd (findNode m (sig x))) l).

Definition obind {A B} (x : option A) (f : A -> option B) : option B := match x with Some a => f a | None => None end.
(** machine.cpp:2727-2752 *)
Definition populate (w : world) (m : vmap) (is : list nat) : option (list (nat * list meth)) :=
  sequence (map (fun i => option_map (pair i) (values m (find_vtable w i))) is).

(** machine.cpp:2416-2753 parseMethodTable, after the interfaces [is]. None: a null pointer is stored or followed. *)
Definition parseMethods (w : world) (self : nat) (d : cdef) (is : list nat) : option cls :=
  let sup := match super d with Some s => nth_error w s | None => None end in
  let superVT := if isInterface d then [] else match sup with Some s => match vtable s with Some v => v | None => [] end | None => [] end in
  let st := fold_left (declare self) (decls d) (PS (fold_left insert superVT []) (length superVT) [] []) in
  let '(m, n, abs) := addInterfaceMethods w self is (vm st, vcount st, []) in
  let bare := map (fun i => (i, [])) is in
  let mt := mtab st ++ abs in
  let none (A : Type) (l : list A) := match l with [] => true | _ => false end in
  if negb (existsb virtual (decls d)) && none _ abs && negb (isInterface d) then
    match sup with
    | Some s =>
      if negb (none _ (itable s)) && Nat.eqb (length is) (length (itable s))
      then Some (Cls d (itable s) (vtable s) mt)
      else obind (populate w m is) (fun it => Some (Cls d it (vtable s) mt))
    | None => Some (Cls d bare (Some []) mt)
    end
  else if Nat.eqb n 0 then Some (Cls d bare None mt)
  else if isInterface d then
    obind (byOffset m n) (fun v => Some (Cls d bare (Some v) mt))
  else
    obind (values m superVT) (fun inherited =>
    obind (populate w m is) (fun it => Some (Cls d it (Some (inherited ++ news st ++ abs)) mt))).

(** Loading class files one after the other. *)
Definition load (order : list nat -> list nat) (w : world) (d : cdef) : option world :=
  obind (parseMethods w (length w) d (parseInterfaces order w d)) (fun c => Some (w ++ [c])).
Fixpoint loadAll (order : list nat -> list nat) (w : world) (ds : list cdef) : option world :=
  match ds with
  | [] => Some w
  | d :: ds => obind (load order w d) (fun w => loadAll order w ds)
  end.

(** machine.h:2689-2693 *)
Definition findVirtualMethod (w : world) (m : meth) (c : nat) : option meth := nth_error (find_vtable w c) (offset m).
(** machine.h:2695-2717; None: abort *)
Definition findInterfaceMethod (w : world) (m : meth) (c : nat) : option meth :=
  match nth_error w c with
  | None => None
  | Some k =>
    match find (fun p => Nat.eqb (fst p) (mclass m)) (itable k) with
    | Some (_, v) => nth_error v (offset m)
    | None => None
    end
  end.

(** Class objects: of loaded classes, of primitives, and array classes (with their element class). *)
Inductive ty := TClass (i : nat) | TPrim (p : nat) | TArray (e : ty).
Fixpoint ty_eqb (a b : ty) : bool :=
  match a, b with
  | TClass i, TClass j => Nat.eqb i j
  | TPrim i, TPrim j => Nat.eqb i j
  | TArray a, TArray b => ty_eqb a b
  | _, _ => false
  end.
(** The loop over super() pointers (machine.cpp:4625-4629); [fuel]: at most so many classes (None: not ended). *)
Fixpoint onChain (w : world) (fuel a b : nat) : option bool :=
  match fuel with
  | O => None
  | S fuel =>
    if Nat.eqb b a then Some true else
    match nth_error w b with
    | None => None
    | Some c => match super (def c) with Some s => onChain w fuel a s | None => Some false end
    end
  end.
(** machine.cpp:4591-4632. [object], [serializable] and [cloneable] are the superclass and the two entries of the interface
    table of every array class (machine.cpp:2971-2972, makeArrayInterfaceTable). *)
Fixpoint isAssignableFrom (w : world) (serializable cloneable : nat) (a b : ty) : option bool :=
  if ty_eqb a b then Some true else
  match a with
  | TClass i =>
    match nth_error w i with
    | None => None
    | Some ca =>
      if isInterface (def ca) then
        match b with
        | TClass j => Some (existsb (Nat.eqb i) (interfacesOf w j))
        | TArray _ => Some (existsb (Nat.eqb i) [serializable; cloneable])
        | TPrim _ => Some false
        end
      else
        match b with
        | TPrim _ => Some false
        | TClass j => onChain w (S (length w)) i j
        | TArray _ => onChain w (S (length w)) i 0
        end
    end
  | TArray e => match b with TArray e' => isAssignableFrom w serializable cloneable e e' | _ => Some false end
  | TPrim _ => Some false
  end.
(** machine.cpp:4634-4641, the null reference aside. *)
Definition instanceOf := isAssignableFrom.
