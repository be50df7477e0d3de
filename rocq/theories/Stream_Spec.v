(** What a user of the stream expects (C10). *)
From Coq Require Import NArith List Bool.
Import ListNotations.
Local Open Scope N_scope.

Inductive sop :=
| Skip (n : N) | Read (n : N) | Read1 | Read2 | Read4 | Read8
| Tell                (* remember the current position *)
| Seek (k : nat).     (* go back to the k-th remembered position *)

(** Big-endian value of a list of bytes. *)
Definition bigEndian (l : list N) : N := fold_left (fun acc b => acc * 256 + b) l 0.

(** The [n] bytes at [pos], zeros standing for the bytes after the end of the buffer. *)
Definition padded (d : list N) (pos n : N) : list N :=
  let got := firstn (N.to_nat n) (skipn (N.to_nat pos) d) in
  got ++ repeat 0 (N.to_nat n - length got).

(** One operation at [pos]: its result (as a list of numbers), the new position and whether
    an error was reported. *)
Definition fits (d : list N) (pos n : N) : bool := pos + n <=? N.of_nat (length d).
Definition spec_num (d : list N) (pos w : N) : list N * N * bool :=
  ([bigEndian (padded d pos w)], N.min (pos + w) (N.of_nat (length d)), negb (fits d pos w)).
Definition spec_op (d : list N) (saved : list N) (pos : N) (o : sop) : list N * N * bool :=
  match o with
  | Skip n => if fits d pos n then ([], pos + n, false) else ([], pos, true)
  | Read n => if fits d pos n then (padded d pos n, pos + n, false)
              else (repeat 0 (N.to_nat n), pos, true)
  | Read1 => spec_num d pos 1
  | Read2 => spec_num d pos 2
  | Read4 => spec_num d pos 4
  | Read8 => spec_num d pos 8
  | Tell => ([pos], pos, false)
  | Seek k => ([], nth k saved 0, false)
  end.
Definition saves (o : sop) (saved : list N) (pos : N) : list N :=
  match o with Tell => saved ++ [pos] | _ => saved end.

(** The results of a sequence of operations, and the final position. *)
Fixpoint spec_run (d saved : list N) (pos : N) (ops : list sop) : list (list N * bool) * N :=
  match ops with
  | [] => ([], pos)
  | o :: r =>
      let '(v, pos', err) := spec_op d saved pos o in
      let '(rest, p) := spec_run d (saves o saved pos) pos' r in
      ((v, err) :: rest, p)
  end.
(** Arguments are 32-bit unsigned. *)
Definition sop_ok (o : sop) : Prop := match o with Skip n | Read n => n < 2 ^ 32 | _ => True end.
