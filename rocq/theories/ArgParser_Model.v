(** src/util/arg-parser.cpp: ArgParser::parse. Strings are Coq strings (C strings without the NUL). *)
From Coq Require Import List Bool Arith String Ascii.
From Verif Require Import Chain.
Import ListNotations.

(** include/avian/util/arg-parser.h:35-45 Arg: [takes] is [desc != 0]. The field [value] is kept apart. *)
Record opt := Opt { name : string; takes : bool; required : bool }.
(** The field [value] of each Arg, by position in the list [first]. *)
Definition values := nat -> option string.

(** arg-parser.cpp:53-63: the loop over the registered options for one word without its dash.
    [i] is the position of the head of [os]; the result is (values, found, state). *)
Fixpoint scan (os : list opt) (i : nat) (w : string) (v : values) (found : bool) (state : option nat) : values * bool * option nat :=
  match os with
  | [] => (v, found, state)
  | o :: os =>
      if String.eqb (name o) w
      then if takes o then scan os (S i) w v true (Some i) else scan os (S i) w (upd v i (Some "true"%string)) true state
      else scan os (S i) w v found state
  end.
(** arg-parser.cpp:33-69: the loop over the words; None is [return false]. *)
Fixpoint words (os : list opt) (av : list string) (v : values) (state : option nat) : option (values * option nat) :=
  match av with
  | [] => Some (v, state)
  | a :: av =>
      match state with
      | Some k => match v k with Some _ => None | None => words os av (upd v k (Some a)) None end
      | None => match a with
          | String c w => if Ascii.eqb c "-"%char
              then match scan os 0 w v false None with (v', found, st) => if found then words os av v' st else None end
              else None
          | EmptyString => None end
      end
  end.
(** arg-parser.cpp:76-81 *)
Fixpoint complete (os : list opt) (i : nat) (v : values) : bool :=
  match os with
  | [] => true
  | o :: os => if required o && match v i with None => true | _ => false end then false else complete os (S i) v
  end.
(** arg-parser.cpp:29-84: [av] includes the program name, which the loop skips. *)
Definition parse (os : list opt) (av : list string) : option values :=
  match words os (tl av) (fun _ => None) None with
  | Some (v, None) => if complete os 0 v then Some v else None
  | _ => None
  end.
