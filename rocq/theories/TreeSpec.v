(** Leaves and inner nodes of a parse tree. *)

From Coq Require Import String List.
From Verif Require Import Base Peg.
Import ListNotations.

Definition p_text (n : pnode) : string := match n with PNode _ t _ => t end.
Definition p_name (n : pnode) : string := match n with PNode s _ _ => s end.
Definition p_kids (n : pnode) : list pnode := match n with PNode _ _ ks => ks end.

(** [inside n m]: [m] is [n] or a node below it. *)
Inductive inside (m : pnode) : pnode -> Prop :=
  | InHere : inside m m
  | InKid nm t kids k : In k kids -> inside m k -> inside m (PNode nm t kids).

(** The nodes without children, from left to right. *)
Fixpoint leaves (n : pnode) : list pnode :=
  match n with
  | PNode nm t [] => [n]
  | PNode nm t kids => flat_map leaves kids
  end.

Definition concat_texts (l : list pnode) : string := fold_right (fun n s => (p_text n ++ s)%string) ""%string l.
