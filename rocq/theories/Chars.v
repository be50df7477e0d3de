(** ASCII characters as byte values, so that models and specifications read like the
    source.  No model content. *)
From Coq Require Export Ascii String.
From Coq Require Import NArith.
From Coq Require Export List.
Import ListNotations.
Definition ch (a : ascii) : N := N_of_ascii a.
Arguments ch a%char.
(** The bytes of a string literal (no terminating NUL). *)
Fixpoint bytes (s : string) : list N :=
  match s with EmptyString => [] | String c r => ch c :: bytes r end.
Arguments bytes s%string.
