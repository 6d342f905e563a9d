(** Outcome of a modelled C++ call.

    [Ok a]  : the call returns [a];
    [Throw] : a C++ exception leaves the call (Armadillo bounds and size checks
              throw std::logic_error; the library's own checks throw
              std::runtime_error / std::logic_error / std::bad_variant_access).
              Simplification: the exception object is not modelled;
    [UB]    : the C++ text has undefined behaviour on this input (unchecked
              operator[] out of range, use after free, null dereference). *)
Inductive outcome (A : Type) : Type :=
| Ok (a : A)
| Throw
| UB.
Arguments Ok {A} a.
Arguments Throw {A}.
Arguments UB {A}.

Definition obind {A B : Type} (x : outcome A) (f : A -> outcome B) : outcome B :=
  match x with
  | Ok a => f a
  | Throw => Throw
  | UB => UB
  end.

Definition omap {A B : Type} (f : A -> B) (x : outcome A) : outcome B :=
  obind x (fun a => Ok (f a)).

Notation "'let*' x ':=' e 'in' f" := (obind e (fun x => f))
  (at level 200, x pattern, e at level 200, f at level 200).
