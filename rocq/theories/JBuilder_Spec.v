(** What java.lang.StringBuilder is documented to do, on the text alone. *)
From Coq Require Import List NArith ZArith.
Import ListNotations.
Local Open Scope Z_scope.

Definition text := list N.
Definition size (t : text) : Z := Z.of_nat (length t).
Definition upTo (i : Z) (t : text) : text := firstn (Z.to_nat i) t.
Definition from (i : Z) (t : text) : text := skipn (Z.to_nat i) t.

(** Calls and what they answer; [Refused]: an IndexOutOfBoundsException, the text unchanged *)
Inductive call :=
| Append (s : option text) | AppendChar (c : N) | CharAt (i : Z) | Insert (i : Z) (s : option text)
| Delete (i j : Z) | Replace (i j : Z) (s : text) | SetCharAt (i : Z) (c : N) | SetLength (n : Z)
| Substring (i j : Z) | ToString | Length.
Inductive answer := Nothing | Char (c : N) | Text (t : text) | Number (n : Z) | Refused.

Definition orNull (s : option text) : text := match s with Some t => t | None => [110; 117; 108; 108]%N end.

Definition documented (c : call) (t : text) : text * answer :=
  match c with
  | Append s => (t ++ orNull s, Nothing)
  | AppendChar c => (t ++ [c], Nothing)
  | CharAt i => if (0 <=? i) && (i <? size t) then (t, Char (nth (Z.to_nat i) t 0%N)) else (t, Refused)
  | Insert i s => if (0 <=? i) && (i <=? size t) then (upTo i t ++ orNull s ++ from i t, Nothing) else (t, Refused)
  | Delete i j =>
      let j := Z.min j (size t) in
      if (0 <=? i) && (i <=? j) then (upTo i t ++ from j t, Nothing) else (t, Refused)
  | Replace i j s =>
      let j := Z.min j (size t) in
      if (0 <=? i) && (i <=? j) then (upTo i t ++ s ++ from j t, Nothing) else (t, Refused)
  | SetCharAt i c =>
      if (0 <=? i) && (i <? size t) then (upTo i t ++ c :: from (i + 1) t, Nothing) else (t, Refused)
  | SetLength n =>
      if 0 <=? n then (upTo n t ++ repeat 0%N (Z.to_nat (n - size t)), Nothing) else (t, Refused)
  | Substring i j => if (0 <=? i) && (i <=? j) && (j <=? size t) then (t, Text (upTo (j - i) (from i t))) else (t, Refused)
  | ToString => (t, Text t)
  | Length => (t, Number (size t))
  end%bool.
