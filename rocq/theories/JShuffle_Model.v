(** java.util.Collections.shuffle: classpath/java/util/Collections.java:19-32, with
    java.util.Random.nextInt(int) of JRandom. *)
From Coq Require Import ZArith List Bool Arith.
From Verif Require Import JRandom_Model.
Import ListNotations.

Section Shuffle.
Context {A : Type}.
Definition put (l : list A) (i : nat) (x : A) : list A := firstn i l ++ x :: skipn (S i) l.
(** Collections.java:23-25; [None] is ArrayIndexOutOfBoundsException *)
Definition swap (l : list A) (i j : nat) : option (list A) :=
  match nth_error l i, nth_error l j with
  | Some a, Some b => Some (put (put l i b) j a)
  | _, _ => None
  end.
(** Collections.java:21-26 with the numbers drawn, from index [i] on *)
Fixpoint swaps (draws : list nat) (i : nat) (l : list A) : option (list A) :=
  match draws with
  | [] => Some l
  | j :: r => match swap l i j with Some l' => swaps r (S i) l' | None => None end
  end.
End Shuffle.
(** Collections.java:22: [n] numbers below [limit]; [None]: not found in [fuel] rounds, or an exception *)
Fixpoint drawn (n fuel : nat) (limit seed : Z) : option (list nat) :=
  match n with
  | O => Some []
  | S m => match nextIntBelow fuel limit seed with
           | Drawn s v => match drawn m fuel limit s with Some r => Some (Z.to_nat v :: r) | None => None end
           | _ => None
           end
  end.
(** Collections.java:19-32; clear and add fill the list with the array *)
Definition shuffle {A} (fuel : nat) (l : list A) (seed : Z) : option (list A) :=
  match drawn (length l) fuel (Z.of_nat (length l)) seed with Some js => swaps js 0 l | None => None end.
