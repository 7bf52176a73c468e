(** Which words Start and End should speak about. *)

From Coq Require Import String List.
From Verif Require Import Base PegSyntax Ast VisitSpec.
Import ListNotations.

(** The children that count for the span of a node: not the modifier of a word, nor the
    white space before a text. *)
Definition parts (n : node) : list node :=
  match n with
  | NText _ d => [NDiscourse d]
  | NWord _ => []
  | _ => kids n
  end.

(** [initial m n]: [m] is [n], or its first part, or the first part of that, and so on. *)
Inductive initial (m : node) : node -> Prop :=
  | ISelf : initial m m
  | IFirst k n l : parts n = k :: l -> initial m k -> initial m n.

(** The same with the last part. *)
Inductive final (m : node) : node -> Prop :=
  | FSelf : final m m
  | FLast k n l : parts n = l ++ [k] -> final m k -> final m n.

Definition empty_list (n : node) : Prop := n = NTerms [] \/ n = NDiscourse [].
