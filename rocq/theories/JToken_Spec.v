(** What is expected of a StringTokenizer. *)
From Coq Require Import NArith List Bool Arith.
From Verif Require Import JToken_Model.
Import ListNotations.

(** The text cut at every delimiter. *)
Fixpoint pieces (ds s : list N) : list (list N) :=
  match s with
  | [] => [[]]
  | c :: r => if in_dec N.eq_dec c ds then [] :: pieces ds r
              else match pieces ds r with p :: q => (c :: p) :: q | [] => [[c]] end
  end.
Definition nonEmpty (w : list N) : bool := match w with [] => false | _ => true end.
(** The tokens are the pieces that are not empty. *)
Definition tokens (ds s : list N) : list (list N) := filter nonEmpty (pieces ds s).
(** The tokens when delimiters are tokens too. *)
Fixpoint withDelimiters (ds s : list N) : list (list N) :=
  match s with
  | [] => []
  | c :: r => if in_dec N.eq_dec c ds then [c] :: withDelimiters ds r
              else let ws := withDelimiters ds r in
                   match r with
                   | [] => [[c]]
                   | d :: _ => if in_dec N.eq_dec d ds then [c] :: ws else match ws with w :: q => (c :: w) :: q | [] => [[c]] end
                   end
  end.
(** The answers from the tokens that are left. *)
Fixpoint expected (cs : list call) (ws : list (list N)) : list answer :=
  match cs with
  | [] => []
  | HasMore :: r => Bool (match ws with [] => false | _ => true end) :: expected r ws
  | Count :: r => Number (length ws) :: expected r ws
  | Next :: r => match ws with w :: q => Token w :: expected r q | [] => NoSuchElement :: expected r [] end
  end.
