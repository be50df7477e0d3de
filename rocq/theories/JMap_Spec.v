(** What a map is: a partial function on keys, up to equality of keys. *)
From Coq Require Import List ZArith Bool.
From Verif Require Import JMap_Model.
Import ListNotations.
Local Open Scope Z_scope.

Section Spec.
Context {K V : Type} (hash : K -> Z) (equal : K -> K -> bool) (equalV : V -> V -> bool).

(** The contract of equals and hashCode. *)
Record lawful : Prop := {
  eq_refl_ : forall a, equal a a = true;
  eq_sym_ : forall a b, equal a b = true -> equal b a = true;
  eq_trans_ : forall a b c, equal a b = true -> equal b c = true -> equal a c = true;
  eq_hash_ : forall a b, equal a b = true -> hash a = hash b }.

Definition content := K -> option V.

(** [l] has every entry of [f] exactly once. *)
Definition lists (l : list (K * V)) (f : content) : Prop :=
  ForallOrdPairs (fun a b => equal (fst a) (fst b) = false) l /\
  forall k v, f k = Some v <-> exists k', In (k', v) l /\ equal k k' = true.

(** Effect and result of each operation; [f'] is the content afterwards. *)
Definition step (f : content) (o : @op K V) (r : @result K V) (f' : content) : Prop :=
  match o with
  | Put k v => r = RVal (f k) /\ forall x, f' x = if equal x k then Some v else f x
  | Get k => r = RVal (f k) /\ forall x, f' x = f x
  | Remove k => r = RVal (f k) /\ forall x, f' x = if equal x k then None else f x
  | ContainsKey k => r = RBool (match f k with Some _ => true | None => false end) /\ forall x, f' x = f x
  | ContainsValue v => (exists b, r = RBool b /\
      (b = true <-> exists k w, f k = Some w /\ equalV v w = true)) /\ forall x, f' x = f x
  | Size => (exists l, lists l f /\ (Z.of_nat (length l) < 2 ^ 31 -> r = RInt (Z.of_nat (length l)))) /\
      forall x, f' x = f x
  | Clear => r = RUnit /\ forall x, f' x = None
  | Walk _ p => exists l, r = RSeen l /\ lists l f /\
      forall x, f' x = if existsb (fun e => equal x (fst e) && p (fst e) (snd e)) l then None else f x
  end.
Fixpoint history (f : content) (os : list op) (rs : list result) (f' : content) : Prop :=
  match os, rs with
  | [], [] => forall x, f' x = f x
  | o :: os, r :: rs => exists g, step f o r g /\ history g os rs f'
  | _, _ => False
  end.
End Spec.
