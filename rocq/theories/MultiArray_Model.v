(** Model of the multianewarray instruction: src/machine.cpp populateMultiArray 5964-5997, src/compile.cpp
    makeMultidimensionalArray2 2760-2786, src/interpret.cpp 2564-2591.

    Simplifications.
    - Classes are types (ClassLoad_Spec.type); that resolving the name of the element type gives its class is proved in
      ClassLoad_Props, so that the name taken at 5975-5979 is not modelled again.
    - An array is its class, its length, the bytes allocated for it and its references; the elements of arrays of
      primitive types are zero, as all new memory is (Alloc_Props).
    - Allocation does not fail and objects do not move: the array is found again by its number. *)
From Coq Require Import List NArith ZArith Arith Bool.
From Verif Require Import ClassLoad_Spec Alloc_Model.
Import ListNotations.
Local Open Scope Z_scope.

(** An array object, src/types.def array *)
Record arr := mkArr { a_type : type; a_length : Z; a_bytes : Z; a_refs : nat -> option nat }.
Definition heapOf := list arr.

(** arrayElementSize of an array class: src/machine.cpp 2966 (arrays of references: BytesPerWord) and 3299-3325 (arrays of
    primitive types: the size of the type) *)
Definition elementSize (t : type) : Z :=
  match t with
  | TPrims c => if ((c =? 90) || (c =? 66))%N then 1
                else if ((c =? 83) || (c =? 67))%N then 2
                else if ((c =? 73) || (c =? 70))%N then 4
                else 8
  | _ => 8
  end.

(** The class named by the name without its first character, src/machine.cpp 5975-5982; none for an element that is not an
    array *)
Definition elementArray (t : type) : option type :=
  match t with
  | TArrayOf (TClass _) => None
  | TArrayOf t' => Some t'
  | _ => None
  end.

(** makeArray(t, words), generated: src/tools/type-generator/main.cpp 1274-1310, with the length 5990 and the class 5991 set
    afterwards *)
Definition newArray (t : type) (words len : Z) (h : heapOf) : nat * heapOf :=
  (length h, h ++ [mkArr t len (arrayBytes 16 8 words) (fun _ => None)]).

(** setField, src/machine.cpp 5992 *)
Fixpoint setRef (h : heapOf) (a i b : nat) : heapOf :=
  match h, a with
  | [], _ => []
  | r :: h', O => mkArr (a_type r) (a_length r) (a_bytes r) (fun k => if Nat.eqb k i then Some b else a_refs r k) :: h'
  | r :: h', S a' => r :: setRef h' a' i b
  end.

(** src/machine.cpp 5964-5997: [cs] are the counts from [index] on. The product of 5988 is computed in 32 bits: an [int]
    that overflows, taken as wrapping, given to [ceilingDivide], which takes [unsigned]. [None]: there is no such class *)
Fixpoint populate (cs : list Z) (t : type) (a : nat) (h : heapOf) : option heapOf :=
  match cs with
  | c :: (c' :: _) as rest =>
      if c =? 0 then Some h
      else
        match elementArray t with
        | None => None
        | Some t' =>
            fold_left (fun oh i =>
              match oh with
              | None => None
              | Some h1 =>
                  let (b, h2) := newArray t' (ceilingDivide (u32 (c' * elementSize t')) 8) c' h1 in
                  populate rest t' b (setRef h2 a i b)
              end) (seq 0 (Z.to_nat c)) (Some h)
        end
  | _ => Some h
  end.

Inductive result := Array (a : nat) (h : heapOf) | NegativeSize | NoClass.

(** src/compile.cpp 2760-2786, src/interpret.cpp 2571-2589: counts are checked from the last to the first *)
Definition multianewarray (t : type) (counts : list Z) (h : heapOf) : result :=
  if existsb (fun c => c <? 0) (rev counts) then NegativeSize
  else
    let (a, h1) := newArray t (hd 0 counts) (hd 0 counts) h in
    match populate counts t a h1 with
    | Some h2 => Array a h2
    | None => NoClass
    end.
