(** Result of a Rust call: a value, a panic, or "the fuel of the model ran out".

    [Panic] stands for [panic!], [unreachable!], [todo!], [unwrap] of [None], an index out
    of bounds, a division by zero, and an integer overflow or underflow that a debug build
    checks.  [NoFuel] is not a Rust result: it says that the loop did more iterations than
    the fuel given; theorems never count it as a success. *)

Inductive outcome (A : Type) : Type :=
| Ok (a : A)
| Panic
| NoFuel.

Arguments Ok {A} a.
Arguments Panic {A}.
Arguments NoFuel {A}.

Definition obind {A C : Type} (x : outcome A) (f : A -> outcome C) : outcome C :=
  match x with
  | Ok a => f a
  | Panic => Panic
  | NoFuel => NoFuel
  end.

Definition omap {A C : Type} (f : A -> C) (x : outcome A) : outcome C :=
  obind x (fun a => Ok (f a)).

Declare Scope outcome_scope.
Delimit Scope outcome_scope with outcome.
Notation "'let!' x := e 'in' k" := (obind e (fun x => k))
  (at level 200, x pattern, e at level 100, k at level 200, right associativity)
  : outcome_scope.
Open Scope outcome_scope.
