(** Specification of the hash map: a finite map kept as an association list in which
    no two keys are equal.  Nothing here mentions buckets, hashes or sizes. *)
From Coq Require Import NArith List Bool.
From Verif Require Import HashMap_Model.
Import ListNotations.

Section Spec.
Context {K V : Type}.
Variable equal : K -> K -> bool.
Variable weak : bool.

Definition sget (k : K) (l : list (K * V)) : option V :=
  match List.find (fun kv => equal k (fst kv)) l with Some kv => Some (snd kv) | None => None end.
Definition smem (k : K) (l : list (K * V)) : bool :=
  match sget k l with Some _ => true | None => false end.
Definition sdel (k : K) (l : list (K * V)) : list (K * V) :=
  filter (fun kv => negb (equal k (fst kv))) l.
Definition sadd (k : K) (v : V) (l : list (K * V)) : list (K * V) := (k, v) :: l.
Definition sset (k : K) (v : V) (l : list (K * V)) : list (K * V) :=
  map (fun kv => if equal k (fst kv) then (fst kv, v) else kv) l.
(** A collection clears the weak references to [ks]: their entries vanish
    (only in weak maps). *)
Definition skill (ks : K -> bool) (l : list (K * V)) : list (K * V) :=
  if weak then filter (fun kv => negb (ks (fst kv))) l else l.

(** State: the entries and the keys already collected. *)
Definition sstep (s : list (K * V) * (K -> bool)) (o : op K V)
  : (list (K * V) * (K -> bool)) * out V :=
  let '(l, d) := s in
  match o with
  | OInsert k v mid => ((skill mid (sadd k v l), fun x => d x || mid x), RUnit)
  | OReplace k v mid =>
      if smem k l then ((skill mid (sset k v l), fun x => d x || mid x), RBool false)
      else ((skill mid (sadd k v l), fun x => d x || mid x), RBool true)
  | OMaybe k v mid =>
      if smem k l then ((skill mid l, fun x => d x || mid x), RBool false)
      else ((skill mid (sadd k v l), fun x => d x || mid x), RBool true)
  | ORemove k => ((sdel k l, d), RVal (sget k l))
  | OFind k => (s, RVal (sget k l))
  | ODie ks => ((skill ks l, fun x => d x || ks x), RUnit)
  end.

Fixpoint srun (s : list (K * V) * (K -> bool)) (ops : list (op K V))
  : (list (K * V) * (K -> bool)) * list (out V) :=
  match ops with
  | [] => (s, [])
  | o :: r => let '(s1, x) := sstep s o in let '(s2, xs) := srun s1 r in (s2, x :: xs)
  end.

(** What a caller must respect: a key it uses is still alive (in a weak map), and
    the raw insertion is only used for a key that is absent. *)
Definition alive (d : K -> bool) (k : K) : Prop := weak = true -> d k = false.
Definition allowed (s : list (K * V) * (K -> bool)) (o : op K V) : Prop :=
  let '(l, d) := s in
  match o with
  | OInsert k _ mid => alive (fun x => d x || mid x) k /\ smem k l = false
  | OReplace k _ mid | OMaybe k _ mid => alive (fun x => d x || mid x) k
  | ORemove k | OFind k => alive d k
  | ODie _ => True
  end.
Fixpoint allowed_all (s : list (K * V) * (K -> bool)) (ops : list (op K V)) : Prop :=
  match ops with
  | [] => True
  | o :: r => allowed s o /\ allowed_all (fst (sstep s o)) r
  end.
End Spec.
