(** Outcomes of C++ code: a value, undefined behaviour, a thrown exception, or
    a loop that used up its fuel. *)
Inductive outcome (A : Type) : Type :=
| Ret (a : A)
| UB
| Throw
| Fuel.
Arguments Ret {A} a.
Arguments UB {A}.
Arguments Throw {A}.
Arguments Fuel {A}.

Definition obind {A B} (m : outcome A) (f : A -> outcome B) : outcome B :=
  match m with Ret a => f a | UB => UB | Throw => Throw | Fuel => Fuel end.

Definition of_option {A} (o : option A) : outcome A :=
  match o with Some a => Ret a | None => UB end.

Declare Scope outcome_scope.
Delimit Scope outcome_scope with out.
Notation "'let*' x := m 'in' k" := (obind m (fun x => k))
  (at level 200, x name, m at level 100, k at level 200) : outcome_scope.
