(** Resolution of fields and methods by name and descriptor: src/machine.cpp findInTable, findInInterfaces,
    findInHierarchyOrNull, resolveField. Over the loaded classes of Hier_Model; a name and descriptor together are one number, and
    descriptors of fields differ from those of methods. The answer for a field is the class whose field it is. *)
From Coq Require Import List Arith Bool.
Import ListNotations.
From Verif Require Import Hier_Model.

Section Model.
Variable w : world.
(** The fieldTable of each class: the fields its class file declares (machine.cpp:1313-1538 parseFieldTable). *)
Variable fields : nat -> list nat.
(** findFieldInClass, machine.cpp:5347-5358 *)
Definition findFieldInClass (c f : nat) : option nat := if existsb (Nat.eqb f) (fields c) then Some c else None.
(** findMethodInClass, machine.cpp:5360-5371: findInTable, 3589-3599, finds the first. *)
Definition findMethodInClass (c s : nat) : option meth :=
  match nth_error w c with Some k => find (fun m => Nat.eqb (sig m) s) (methods k) | None => None end.
(** The elements of interfaceTable: interfaces (Some), each followed by a method table (None) unless the class is an interface
    itself (machine.cpp:1284-1308). *)
Definition rawTable (c : nat) : list (option nat) :=
  match nth_error w c with
  | None => []
  | Some k => if isInterface (def k) then map (fun p => Some (fst p)) (itable k) else flat_map (fun p => [Some (fst p); None]) (itable k)
  end.
(** findInInterfaces, machine.cpp:363-378: i += 2 for every class. *)
Fixpoint findInInterfaces (raw : list (option nat)) (f : nat) : option nat :=
  match raw with
  | [] => None
  | e :: raw' =>
      match (match e with Some i => findFieldInClass i f | None => None end) with
      | Some r => Some r
      | None => match raw' with [] => None | _ :: raw'' => findInInterfaces raw'' f end
      end
  end.
(** The loop over superclasses, machine.cpp:5392-5394 and 5152-5154: [fuel] classes at most. *)
Fixpoint upwards {A} (find : nat -> option A) (fuel c : nat) : option A :=
  match fuel with
  | O => None
  | S fuel =>
    match find c with
    | Some r => Some r
    | None => match nth_error w c with Some k => match super (def k) with Some s => upwards find fuel s | None => None end | None => None end
    end
  end.
(** findInHierarchyOrNull, machine.cpp:5373-5402, with findFieldInClass; 5383-5389 finds no field, as the entries are methods. *)
Definition findField (c f : nat) : option nat :=
  match upwards (fun c => findFieldInClass c f) (length w) c with Some r => Some r | None => findInInterfaces (rawTable c) f end.
(** findInHierarchyOrNull with findMethodInClass *)
Definition findMethod (c s : nat) : option meth :=
  match nth_error w c with
  | None => None
  | Some k =>
    match (if isInterface (def k) then match vtable k with Some v => find (fun m => Nat.eqb (sig m) s) v | None => None end else None) with
    | Some m => Some m
    | None => upwards (fun c => findMethodInClass c s) (length w) c
    end
  end.
(** resolveField, machine.cpp:5133-5165, of JNI's GetFieldID and GetStaticFieldID (jnienv.cpp:1418-1460) *)
Definition resolveFieldByName (c f : nat) : option nat :=
  match findInInterfaces (rawTable c) f with Some r => Some r | None => upwards (fun c => findFieldInClass c f) (length w) c end.
End Model.
