(** Every way to build a BitSet, with the set of indexes it should contain. *)
From Coq Require Import ZArith Bool List.
From Verif Require Import JDeque_Model JBits_Model.
Local Open Scope Z_scope.

(** The greatest index considered: 2^31 - 65 (the last word of the greatest array an int
    can index is left out). *)
Definition greatest : Z := 2147483583.
(** The arrays are below 2^25 words. *)
Definition small (b : bitset) : Prop := len b < 33554432.

Inductive built : bitset -> (Z -> bool) -> Prop :=
| BuiltNew n b : 0 <= n <= greatest -> newBitSet n = Val b -> built b (fun _ => false)
| BuiltDefault b : newBitSetDefault = Val b -> built b (fun _ => false)
| BuiltSet b S k b' : built b S -> 0 <= k <= greatest -> set b k = Val b' -> built b' (fun i => (i =? k) || S i)
| BuiltClear b S k b' : built b S -> 0 <= k <= greatest -> clear b k = Val b' -> built b' (fun i => negb (i =? k) && S i)
| BuiltFlip b S k b' : built b S -> 0 <= k <= greatest -> flip b k = Val b' -> built b' (fun i => xorb (i =? k) (S i))
| BuiltSetRange b S s e b' : built b S -> 0 <= s < e -> e <= greatest -> setRange b s e = Val b' ->
    built b' (fun i => (s <=? i) && (i <? e) || S i)
| BuiltFlipRange b S s e b' : built b S -> 0 <= s <= e -> e <= greatest -> flipRange b s e = Val b' ->
    built b' (fun i => xorb ((s <=? i) && (i <? e)) (S i))
| BuiltAnd a A b B : built a A -> built b B -> built (and_ a b) (fun i => A i && B i)
| BuiltOr a A b B c : built a A -> built b B -> small a -> small b -> or_ a b = Val c -> built c (fun i => A i || B i)
| BuiltXor a A b B c : built a A -> built b B -> small a -> small b -> xor_ a b = Val c -> built c (fun i => xorb (A i) (B i))
| BuiltAndNot a A b B c : built a A -> built b B -> small a -> small b -> andNot a b = Val c -> built c (fun i => A i && negb (B i)).
