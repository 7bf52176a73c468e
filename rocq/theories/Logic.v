(** Model of /repo/logic/logic.go and of the Visit methods of /repo/logic/visit.go.

    Logic trees share nodes and hold pointers back to bindings, and simplify changes them
    in place.  So a node is a cell of a heap and a pointer is an index into it.  The AST
    fields, which only lead back to the syntax, are left out, and so is NillOutAST. *)

From Coq Require Import String List Arith.
From Verif Require Import Base.
Import ListNotations.

(** A non-nil pointer to a node. *)
Definition ref : Type := nat.

(** logic.go:39-58, Quantifier.  [QUnset] is the empty string, the quantifier of a Binding
    whose Quantifier is not set yet. *)
Inductive quant : Type := QThe | QLambda | QEach | QAll | QSome | QNone | QHi | QUnset.

(** logic.go:70-80, Connector. *)
Inductive conn : Type := KAnd | KOr | KRi.

(** The node types, logic.go:61-68, 83-93, 102-137, 144-161.  A field that the code lets
    be nil is an option.  Variable numbers are never negative. *)
Inductive cell : Type :=
  | CBinding (q : quant) (n : nat) (focus : bool) (restriction scope : option ref)
  | CConnection (c : conn) (l r : ref)
  | CPredication (p : ref) (args : list (option ref))
  | CVariable (n : nat) (def : option ref) (focus : bool)
  | CPlurality (args : list (option ref))
  | CQuote (text : string) (full : bool)
  | CPred (name : string)
  | CAbstraction (st : ref)
  | CSerial (l r : ref)
  | CSwap (p : ref) (pos : nat).

Definition heap : Type := list cell.

Fixpoint set_nth {A} (n : nat) (x : A) (l : list A) : list A :=
  match l, n with
  | [], _ => []
  | _ :: l', O => x :: l'
  | y :: l', S n' => y :: set_nth n' x l'
  end.

(** The nodes that a Visit method visits after the node itself, in order; nil ones are
    skipped (visit.go:5-57). *)
Definition olist {A} (o : option A) : list A := match o with None => [] | Some x => [x] end.
Definition below (c : cell) : list ref :=
  match c with
  | CBinding _ _ _ r s => olist r ++ olist s           (* visit.go:5-8 *)
  | CConnection _ l r => [l; r]                        (* 10-13 *)
  | CPredication p args => p :: flat_map olist args    (* 15-21 *)
  | CVariable _ _ _ => []                              (* 23 *)
  | CPlurality args => flat_map olist args             (* 25-30 *)
  | CQuote _ _ => []                                   (* 32 *)
  | CPred _ => []                                      (* 34 *)
  | CAbstraction st => [st]                            (* 36-39 *)
  | CSerial l r => [l; r]                              (* 41-44 *)
  | CSwap p _ => [p]                                   (* 46-49 *)
  end.

Section Each.
Context {A B : Type} (f : A -> res (list B)).
Open Scope res_scope.
Fixpoint flat_res (l : list A) : res (list B) :=
  match l with
  | [] => Ok []
  | x :: l' => a <- f x ;; b <- flat_res l' ;; Ok (a ++ b)
  end.
End Each.

(** n.Visit(f): the nodes that f is called with, in order.  A node reached on several
    paths is visited several times.  (The functions that the package passes to Visit
    change no field that Visit reads.) *)
Fixpoint visited (h : heap) (fuel : nat) (r : ref) : res (list ref) :=
  match fuel with
  | O => NoFuel
  | S f =>
      match nth_error h r with
      | None => Panic PRuntime
      | Some c => bind (flat_res (visited h f) (below c)) (fun l => Ok (r :: l))
      end
  end.

(** Code that may panic and changes a state of type [S]. *)
Definition M (S A : Type) : Type := S -> res (A * S).
Definition ret {S A} (a : A) : M S A := fun s => Ok (a, s).
Definition mbind {S A B} (m : M S A) (f : A -> M S B) : M S B :=
  fun s => match m s with
           | Ok (a, s') => f a s'
           | Panic p => Panic p
           | NoFuel => NoFuel
           end.
Notation "'do' x <- e ; f" := (mbind e (fun x => f))
  (at level 200, x name, e at level 100, f at level 200).
Notation "'do' ' p <- e ; f" := (mbind e (fun p => f))
  (at level 200, p pattern, e at level 100, f at level 200).
Definition lift {S A} (r : res A) : M S A :=
  fun s => match r with Ok a => Ok (a, s) | Panic p => Panic p | NoFuel => NoFuel end.
Definition panic {S A} (msg : string) : M S A := fun _ => Panic (PString msg).
Definition crash {S A} : M S A := fun _ => Panic PRuntime.
Definition out_of_fuel {S A} : M S A := fun _ => NoFuel.
