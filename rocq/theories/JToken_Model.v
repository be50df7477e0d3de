(** java.util.StringTokenizer: classpath/java/util/StringTokenizer.java:13-108. A loop over the
    characters from the position on is a recursion on them, with the index. *)
From Coq Require Import NArith List Bool Arith.
Import ListNotations.

(** StringTokenizer.java:14-17 *)
Record tokenizer := { text : list N; delimiters : list N; includeDelimiters : bool; position : nat }.
Definition moved (t : tokenizer) (p : nat) : tokenizer :=
  {| text := text t; delimiters := delimiters t; includeDelimiters := includeDelimiters t; position := p |}.
(** StringTokenizer.java:35-37; indexOf is C153 *)
Definition isDelimiter (ds : list N) (c : N) : bool := existsb (N.eqb c) ds.
(** StringTokenizer.java:39-62 *)
Fixpoint countLoop (ds : list N) (inc : bool) (rest : list N) (count : nat) (sawNonDelimiter : bool) : nat :=
  match rest with
  | [] => if sawNonDelimiter then S count else count
  | c :: r =>
      if isDelimiter ds c then
        let c1 := if sawNonDelimiter then S count else count in
        countLoop ds inc r (if inc then S c1 else c1) false
      else countLoop ds inc r count true
  end.
Definition countTokens (t : tokenizer) : nat := countLoop (delimiters t) (includeDelimiters t) (skipn (position t) (text t)) 0 false.
(** StringTokenizer.java:64-76: the answer and the new position *)
Fixpoint moreLoop (ds : list N) (inc : bool) (rest : list N) (i p : nat) : bool * nat :=
  match rest with
  | [] => (false, p)
  | c :: r => if isDelimiter ds c then if inc then (true, p) else moreLoop ds inc r (S i) p else (true, i)
  end.
Definition hasMoreTokens (t : tokenizer) : tokenizer * bool :=
  let '(b, p) := moreLoop (delimiters t) (includeDelimiters t) (skipn (position t) (text t)) (position t) (position t) in (moved t p, b).
(** StringTokenizer.java:86-88 *)
Fixpoint endLoop (ds : list N) (rest : list N) (p : nat) : nat :=
  match rest with [] => p | c :: r => if isDelimiter ds c then p else endLoop ds r (S p) end.
(** StringTokenizer.java:78-93; [None] is NoSuchElementException *)
Fixpoint nextLoop (t : tokenizer) (rest : list N) (i : nat) : option (list N * nat) :=
  match rest with
  | [] => None
  | c :: r =>
      if isDelimiter (delimiters t) c then
        if includeDelimiters t then Some (firstn 1 (skipn i (text t)), position t) else nextLoop t r (S i)
      else let p := endLoop (delimiters t) rest i in Some (firstn (p - i) (skipn i (text t)), p)
  end.
Definition nextToken (t : tokenizer) : tokenizer * option (list N) :=
  match nextLoop t (skipn (position t) (text t)) (position t) with
  | Some (w, p) => (moved t p, Some w)
  | None => (t, None)
  end.
(** StringTokenizer.java:95-98 *)
Definition nextTokenWith (ds : list N) (t : tokenizer) : tokenizer * option (list N) :=
  nextToken {| text := text t; delimiters := ds; includeDelimiters := includeDelimiters t; position := position t |}.

Inductive call := HasMore | Count | Next.
Inductive answer := Bool (b : bool) | Number (n : nat) | Token (w : list N) | NoSuchElement.
Definition exec (c : call) (t : tokenizer) : tokenizer * answer :=
  match c with
  | HasMore => let '(t', b) := hasMoreTokens t in (t', Bool b)
  | Count => (t, Number (countTokens t))
  | Next => let '(t', w) := nextToken t in (t', match w with Some w => Token w | None => NoSuchElement end)
  end.
Fixpoint run (l : list call) (t : tokenizer) : list answer :=
  match l with [] => [] | c :: r => let '(t', a) := exec c t in a :: run r t' end.
(** StringTokenizer.java:19-29 *)
Definition make (s ds : list N) (inc : bool) : tokenizer := {| text := s; delimiters := ds; includeDelimiters := inc; position := 0 |}.
