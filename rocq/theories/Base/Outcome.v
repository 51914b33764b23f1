(** Results of modelled C++ calls.

    [Ok a]  : normal return of value [a];
    [Err]   : a C++ exception of type CanteraError (or derived) is thrown;
    [Exn]   : another C++ exception (std::out_of_range, std::bad_function_call, ...) is thrown;
    [UB]    : the call has undefined behaviour. *)
Inductive outcome (A : Type) : Type :=
| Ok (a : A)
| Err
| Exn
| UB.
Arguments Ok {A} a.
Arguments Err {A}.
Arguments Exn {A}.
Arguments UB {A}.

Definition obind {A B : Type} (m : outcome A) (f : A -> outcome B) : outcome B :=
  match m with
  | Ok a => f a
  | Err => Err
  | Exn => Exn
  | UB => UB
  end.

Definition omap {A B : Type} (f : A -> B) (m : outcome A) : outcome B :=
  obind m (fun a => Ok (f a)).

Definition is_ok {A : Type} (m : outcome A) : Prop := exists a, m = Ok a.
