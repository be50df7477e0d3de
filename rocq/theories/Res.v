(** Outcomes shared by the models.  [Abort]: the code calls abort(t) / fails an
    expect/assertT; [UB]: null dereference, out-of-bounds access or other undefined
    behaviour; [Fuel]: the modelled loop has not ended within the given iterations. *)
Inductive res (A : Type) : Type :=
| Ok (a : A)
| Abort
| UB
| Fuel.
Arguments Ok {A} a.
Arguments Abort {A}.
Arguments UB {A}.
Arguments Fuel {A}.

Definition bind {A B} (x : res A) (f : A -> res B) : res B :=
  match x with Ok a => f a | Abort => Abort | UB => UB | Fuel => Fuel end.

(** A failed lookup (null pointer, index out of range) is [UB]. *)
Definition of_option {A} (o : option A) : res A :=
  match o with Some a => Ok a | None => UB end.

Declare Scope res_scope.
Delimit Scope res_scope with res.
Notation "'do' x <- e ; f" := (bind e (fun x => f))
  (at level 200, x pattern, e at level 100, f at level 200, right associativity) : res_scope.
