(** src/avian/zone.h: Zone, the arena allocator. A segment is known by a number, a block by segment number and
    offset into [data]. What the underlying allocator answers is given with each operation. *)
From Coq Require Import List ZArith Bool.
Import ListNotations.
Local Open Scope Z_scope.

(** 32-bit unsigned arithmetic. *)
Definition u32 (x : Z) : Z := x mod 2 ^ 32.
(** src/avian/common.h:291-299 pad(n, 8): [& ~7] written as a division; the argument is converted to unsigned. *)
Definition pad (n : Z) : Z := u32 (u32 n + 7) / 8 * 8.
(** zone.h:98-101 *)
Definition padToPage (n : Z) : Z := u32 (u32 n + 4095) / 4096 * 4096.
(** include/avian/util/math.h:20-23: both arguments are converted to unsigned. *)
Definition umax (a b : Z) : Z := Z.max (u32 a) (u32 b).
(** sizeof(Segment): three words (zone.h:22-32). *)
Definition header : Z := 24.

(** zone.h:22-32; [real] is what was requested from the allocator for it (not a field in the code). *)
Record segment := Seg { id : nat; size : Z; position : Z; real : Z }.
Record zone := Zn { segs : list segment; minimumFootprint : Z; fresh : nat; freed : list (nat * Z); got : list (nat * Z) }.
(** zone.h:34-41 *)
Definition create (mf : Z) : zone := Zn [] (if mf <? header then 0 else u32 (mf - header)) 0 [] [].

(** A new segment of [n] bytes in front: [Segment(segment, n - sizeof(Segment))], the size passed as unsigned
    (zone.h:25, 119, 130). *)
Definition push (z : zone) (n : Z) : zone :=
  Zn (Seg (fresh z) (u32 (n - header)) 0 n :: segs z) (minimumFootprint z) (S (fresh z)) (freed z) ((fresh z, n) :: got z).
(** zone.h:105, 125: the head has no room. *)
Definition full (z : zone) (space : Z) : bool :=
  match segs z with [] => true | s :: _ => size s <? position s + space end.
(** zone.h:103-122; [a1], [a2] : do the two tryAllocate calls succeed. *)
Definition tryEnsure (a1 a2 : bool) (space : Z) (z : zone) : option zone :=
  if full z space then
    let n := padToPage (umax space (umax (minimumFootprint z) (match segs z with [] => 0 | s :: _ => size s * 2 end)) + header) in
    if a1 then Some (push z n) else if a2 then Some (push z (padToPage (space + header))) else None
  else Some z.
(** zone.h:124-132 (the underlying allocate aborts rather than fail) *)
Definition ensure (space : Z) (z : zone) : zone := if full z space then push z (padToPage (space + header)) else z.
(** zone.h:61-63, 138-140 *)
Definition bump (n : Z) (z : zone) : option (nat * Z) * zone :=
  match segs z with
  | [] => (None, z)
  | s :: ss => (Some (id s, position s), Zn (Seg (id s) (size s) (position s + n) (real s) :: ss) (minimumFootprint z) (fresh z) (freed z) (got z))
  end.
(** zone.h:53-65; tryAllocate (134-145) pads again; both callees take an unsigned. *)
Definition allocate (a1 a2 : bool) (n : Z) (z : zone) : option (nat * Z) * zone :=
  let n := pad n in
  match tryEnsure a1 a2 (pad n) z with
  | Some z' => bump (pad n) z'
  | None => bump n (ensure n z)
  end.
(** zone.h:67-76: the walk; None: it ran off the end of the list (null dereference). *)
Fixpoint walk (ss : list segment) (n : Z) : option (nat * Z) :=
  match ss with
  | [] => None
  | s :: ss => if position s <? n then walk ss (n - position s) else Some (id s, position s - n)
  end.
Definition peek (n : Z) (z : zone) : option (nat * Z) := walk (segs z) (pad n).
(** zone.h:78-90: segments passed over go back to the allocator, with their size. *)
Fixpoint drop (ss : list segment) (n : Z) (fr : list (nat * Z)) : option (list segment * list (nat * Z)) :=
  match ss with
  | [] => None
  | s :: ss => if position s <? n then drop ss (n - position s) ((id s, header + size s) :: fr)
      else Some (Seg (id s) (size s) (position s - n) (real s) :: ss, fr)
  end.
Definition pop (n : Z) (z : zone) : option zone :=
  match drop (segs z) (pad n) (freed z) with
  | Some (ss, fr) => Some (Zn ss (minimumFootprint z) (fresh z) fr (got z))
  | None => None
  end.
(** zone.h:48-56 *)
Definition dispose (z : zone) : zone :=
  Zn [] (minimumFootprint z) (fresh z) (rev (map (fun s => (id s, header + size s)) (segs z)) ++ freed z) (got z).
