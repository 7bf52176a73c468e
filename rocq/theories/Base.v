(** Common definitions: results of Go functions that may panic. *)

From Coq Require Import String List.
Import ListNotations.

(** The value a Go panic carries: code that calls panic("...") panics with a
    string; index out of range, nil dereference and failed type assertions panic
    with a runtime error, which is not a string. *)
Inductive panic_value : Type :=
| PString (msg : string)
| PRuntime.

(** Result of a function: a value, a panic, or exhaustion of the recursion
    bound of the model (shown unreachable where it matters). *)
Inductive res (A : Type) : Type :=
| Ok (a : A)
| Panic (p : panic_value)
| NoFuel.
Arguments Ok {A} a.
Arguments Panic {A} p.
Arguments NoFuel {A}.

Definition bind {A B} (x : res A) (f : A -> res B) : res B :=
  match x with
  | Ok a => f a
  | Panic p => Panic p
  | NoFuel => NoFuel
  end.

Declare Scope res_scope.
Delimit Scope res_scope with res.
Notation "x <- e ;; f" := (bind e (fun x => f))
  (at level 61, e at next level, right associativity) : res_scope.
Notation "' p <- e ;; f" := (bind e (fun p => f))
  (at level 61, p pattern, e at next level, right associativity) : res_scope.
