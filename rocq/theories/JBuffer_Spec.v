(** What is expected of a ByteBuffer: a window of bytes with a position and a limit. *)
From Coq Require Import ZArith List Bool.
From Verif Require Import JBuffer_Model.
Import ListNotations.
Local Open Scope Z_scope.

Record abuf := { window : list Z; apos : nat; alim : nat }.

(** The number whose bytes, most significant first, are [l]. *)
Fixpoint number (l : list Z) : Z := match l with [] => 0 | b :: r => b * 2 ^ (8 * Z.of_nat (length r)) + number r end.
(** The [n] bytes of the number [v]: there is only one such list. *)
Definition isBytes (n : nat) (v : Z) (l : list Z) : Prop :=
  length l = n /\ Forall (fun b => 0 <= b < 256) l /\ number l = v mod 2 ^ (8 * Z.of_nat n).
(** The number is the value of the bytes, as a signed number of that size. *)
Definition isValue (l : list Z) (z : Z) : Prop :=
  - 2 ^ (8 * Z.of_nat (length l) - 1) <= z < 2 ^ (8 * Z.of_nat (length l) - 1) /\ z mod 2 ^ (8 * Z.of_nat (length l)) = number l.
Definition part (w : list Z) (i n : nat) : list Z := firstn n (skipn i w).
Definition overwrite (w : list Z) (i : nat) (l : list Z) : list Z := firstn i w ++ l ++ skipn (i + length l) w.

(** The call on a writable buffer [a] leaves [a'] and gives [r]. *)
Definition acts (c : call) (a a' : abuf) (r : answer) : Prop :=
  match c with
  | Put n v =>
      if (apos a + n <=? alim a)%nat
      then r = Done /\ exists l, isBytes n v l /\ a' = {| window := overwrite (window a) (apos a) l; apos := apos a + n; alim := alim a |}
      else r = Overflow /\ a' = a
  | PutAt p n v =>
      if (0 <=? p) && (p + Z.of_nat n <=? Z.of_nat (alim a))
      then r = Done /\ exists l, isBytes n v l /\ a' = {| window := overwrite (window a) (Z.to_nat p) l; apos := apos a; alim := alim a |}
      else r = OutOfBounds /\ a' = a
  | Get n =>
      if (apos a + n <=? alim a)%nat
      then (exists z, r = Got z /\ isValue (part (window a) (apos a) n) z) /\ a' = {| window := window a; apos := apos a + n; alim := alim a |}
      else r = Underflow /\ a' = a
  | GetAt p n =>
      if (0 <=? p) && (p + Z.of_nat n <=? Z.of_nat (alim a))
      then (exists z, r = Got z /\ isValue (part (window a) (Z.to_nat p) n) z) /\ a' = a
      else r = OutOfBounds /\ a' = a
  | PutBytes l =>
      if (apos a + length l <=? alim a)%nat
      then r = Done /\ a' = {| window := overwrite (window a) (apos a) l; apos := apos a + length l; alim := alim a |}
      else r = Overflow /\ a' = a
  | GetBytes n =>
      if (apos a + n <=? alim a)%nat
      then r = GotBytes (part (window a) (apos a) n) /\ a' = {| window := window a; apos := apos a + n; alim := alim a |}
      else r = Underflow /\ a' = a
  | Flip => r = Done /\ a' = {| window := window a; apos := 0; alim := apos a |}
  | Clear => r = Done /\ a' = {| window := window a; apos := 0; alim := length (window a) |}
  | Rewind => r = Done /\ a' = {| window := window a; apos := 0; alim := alim a |}
  | Compact =>
      r = Done /\ a' = {| window := overwrite (window a) 0 (part (window a) (apos a) (alim a - apos a)); apos := alim a - apos a; alim := length (window a) |}
  | SetPosition p => r = Done /\ a' = {| window := window a; apos := Z.to_nat p; alim := alim a |}
  | SetLimit l => r = Done /\ a' = {| window := window a; apos := apos a; alim := Z.to_nat l |}
  end.
(** The calls for which the code keeps to this: indices of get are not negative, sums of
    indices and sizes stay below 2^31, positions and limits are set inside the buffer, and
    a direct buffer is not read into arrays nor compacted over itself (see C166). *)
Definition tame (d : bool) (c : call) (a : abuf) : Prop :=
  let cap := Z.of_nat (length (window a)) in
  match c with
  | Put n _ | Get n => (0 < n)%nat /\ cap + Z.of_nat n < 2 ^ 31
  | GetBytes n => d = false /\ cap + Z.of_nat n < 2 ^ 31
  | PutBytes l => cap + Z.of_nat (length l) < 2 ^ 31 /\ Forall (fun b => 0 <= b < 256) l
  | PutAt p n _ => (0 < n)%nat /\ - 2 ^ 31 <= p < 2 ^ 31 - Z.of_nat n
  | GetAt p n => (0 < n)%nat /\ Z.of_nat n < 2 ^ 31 /\ 0 <= p < 2 ^ 31
  | SetPosition p => 0 <= p <= Z.of_nat (alim a)
  | SetLimit l => Z.of_nat (apos a) <= l <= cap
  | Compact => d = false \/ apos a = 0%nat \/ (alim a - apos a <= apos a)%nat
  | Flip | Clear | Rewind => True
  end.

(** The buffer [b] shows [a]; the bytes around its window are [pre] and [post]. *)
Definition shows (d : bool) (pre post : list Z) (b : buffer) (a : abuf) : Prop :=
  direct b = d /\ mem b = pre ++ window a ++ post /\ base b = Z.of_nat (length pre) /\
  capacity b = Z.of_nat (length (window a)) /\ position b = Z.of_nat (apos a) /\ limit b = Z.of_nat (alim a) /\
  readonly b = false /\ (apos a <= alim a <= length (window a))%nat.
(** Every call of the history that is tame does what is expected, touches no byte outside
    the window, and leaves a buffer that goes on so. *)
Fixpoint follows (d : bool) (pre post : list Z) (l : list call) (b : buffer) (a : abuf) : Prop :=
  match l with
  | [] => True
  | c :: r => tame d c a ->
              exists a', acts c a a' (snd (exec c b)) /\ shows d pre post (fst (exec c b)) a' /\ follows d pre post r (fst (exec c b)) a'
  end.
