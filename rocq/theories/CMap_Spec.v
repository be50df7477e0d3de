(** What users expect of ConcurrentHashMap: every call acts at once on a map. *)
From Coq Require Import ZArith Bool List.
Import ListNotations.
From Verif Require Import CMap_Model.

Section Spec.
Context {K V : Type}.
Variable keq : K -> K -> bool.
Variable veq : V -> V -> bool.
Variable hash : K -> Z.
Definition amap : Type := K -> option V.
Definition same (m m' : amap) : Prop := forall k, m' k = m k.
Definition sets (m m' : amap) (k : K) (v : option V) : Prop := forall k', m' k' = if keq k' k then v else m k'.
(** The list of a map's entries, in any order. *)
Definition enumerates (l : list (K * V)) (m : amap) : Prop := NoDup (map fst l) /\ forall k v, In (k, v) l <-> m k = Some v.
Definition has (o : option V) (v : V) : bool := match o with Some w => veq w v | None => false end.

(** The call [o] turns [m] into [m'] and answers [a]. *)
Definition acts (o : op K V) (m m' : amap) (a : answer K V) : Prop :=
  match o with
  | Get k => same m m' /\ a = Value (m k)
  | ContainsKey k => same m m' /\ a = Yes (match m k with Some _ => true | None => false end)
  | Size => same m m' /\ exists l, enumerates l m /\ a = Number (Z.of_nat (length l))
  | Entries => same m m' /\ exists l, enumerates l m /\ a = All l
  | Clear => (forall k, m' k = None) /\ a = Done
  | Put k v => sets m m' k (Some v) /\ a = Value (m k)
  | PutIfAbsent k v => (match m k with Some _ => same m m' | None => sets m m' k (Some v) end) /\ a = Value (m k)
  | Replace k v => (match m k with Some _ => sets m m' k (Some v) | None => same m m' end) /\ a = Value (m k)
  | ReplaceIf k old v => (if has (m k) old then sets m m' k (Some v) else same m m') /\ a = Yes (has (m k) old)
  | Remove k => sets m m' k None /\ a = Value (m k)
  | RemoveIf k v => (if has (m k) v then sets m m' k None else same m m') /\ a = Yes (has (m k) v)
  end.
(** A list of calls with their answers, made one after the other. *)
Inductive legal : amap -> list (nat * op K V * answer K V) -> amap -> Prop :=
| legalNil m : legal m [] m
| legalSnoc m l m1 i o a m2 : legal m l m1 -> acts o m1 m2 a -> legal m (l ++ [(i, o, a)]) m2.

Definition keyOf (o : op K V) : option K :=
  match o with
  | Get k | ContainsKey k | Put k _ | PutIfAbsent k _ | Replace k _ | ReplaceIf k _ _ | Remove k | RemoveIf k _ => Some k
  | _ => None
  end.
Definition uses (os : list (op K V)) (k : K) : Prop := exists o, In o os /\ keyOf o = Some k.
(** The keys have different hash codes, no two of which are too far apart. *)
Definition spread (used : K -> Prop) : Prop :=
  forall a b, used a -> used b -> (hash a = hash b -> a = b) /\ (Z.abs (hash a - hash b) < 2 ^ 31)%Z.
Definition ofCall (i : nat) (l : list (nat * op K V * answer K V)) := filter (fun e => Nat.eqb (fst (fst e)) i) l.
End Spec.
