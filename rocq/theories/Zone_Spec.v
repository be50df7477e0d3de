(** What a user of the arena sees: a stack of blocks. *)
From Coq Require Import List ZArith Bool.
From Verif Require Import Zone_Model.
Import ListNotations.
Local Open Scope Z_scope.

(** A block: the segment, the offset, the length asked for rounded up to words. *)
Definition block : Set := (nat * Z * Z)%type.
Definition len (b : block) : Z := snd b.
Definition total (bs : list block) : Z := fold_right (fun b n => len b + n) 0 bs.
(** Words needed for [n] bytes. *)
Definition rounded (n r : Z) : Prop := n <= r < n + 8 /\ r mod 8 = 0.

(** Histories: blocks of at least one byte are allocated, and the last [k] blocks are popped; the arena
    never holds more than 2^30 bytes. [Run z bs]: zone [z] is reached, [bs] are the live blocks, newest first. *)
Inductive Run : zone -> list block -> Prop :=
| run_new : forall mf, 0 <= mf <= 2 ^ 30 -> Run (create mf) []
| run_alloc : forall z bs a1 a2 n r p off z', Run z bs -> 0 < n -> rounded n r -> total bs + r <= 2 ^ 30 ->
    allocate a1 a2 n z = (Some (p, off), z') -> Run z' ((p, off, r) :: bs)
| run_pop : forall z bs k n z', Run z bs -> (k <= length bs)%nat -> 0 <= n -> rounded n (total (firstn k bs)) -> segs z <> [] ->
    pop n z = Some z' -> Run z' (skipn k bs).

Definition disjoint (b c : block) : Prop :=
  let '(p, o, l) := b in let '(q, o', l') := c in p <> q \/ o + l <= o' \/ o' + l' <= o.
Definition inside (z : zone) (b : block) : Prop :=
  let '(p, o, l) := b in exists s, In s (segs z) /\ id s = p /\ 0 <= o /\ o mod 8 = 0 /\ header + o + l <= real s.
