(** Where the words of a tree are in the text. *)

From Coq Require Import String List Permutation.
From Verif Require Import Base PegSyntax Ast VisitSpec.
Import ListNotations.

Definition t_text (t : token) : string := fst (fst t).
Definition t_s (t : token) : nat := snd (fst t).
Definition t_e (t : token) : nat := snd t.

(** [tiles i l j]: the words [l], none of them empty, lie side by side from [i] to [j]. *)
Fixpoint tiles (i : nat) (l : list token) (j : nat) : Prop :=
  match l with
  | [] => i = j
  | t :: l' => t_s t = i /\ i < t_e t /\ tiles (t_e t) l' j
  end.

(** The closing words of the parentheticals of a tree. *)
Definition ki_of (n : node) (t : token) : Prop :=
  exists kio ki d, below (NParen kio ki d) n /\ In t (wtoks ki).

(** The words of the tree, in visiting order, are the words [l]; those that do not close
    a parenthetical have the same order. *)
Definition tiled (n : node) (i j : nat) : Prop :=
  exists l, Permutation (toks n) l /\ tiles i l j /\
    (forall f : token -> bool, (forall t, ki_of n t -> f t = false) -> filter f (toks n) = filter f l).

(** [x] is in [l] somewhere before [y]. *)
Definition before {A} (x y : A) (l : list A) : Prop := exists a b c, l = a ++ x :: b ++ y :: c.
