(** The nodes of a tree of failures. *)

From Coq Require Import String NArith ZArith List Bool.
From Verif Require Import Utf8 PegSyntax Peg.
Import ListNotations.
Open Scope list_scope.

(** The address of a node, and its fields other than Kids. *)
Definition address (n : fnode) : N := match n with FNode i _ _ _ _ => i end.
Definition label (n : fnode) : N * string * nat * string := match n with FNode i nm p w _ => (i, nm, p, w) end.

(** The nodes in the order in which a walk from the root meets them, a node as often as
    there are paths to it. *)
Fixpoint preorder (n : fnode) : list fnode := match n with FNode _ _ _ _ kids => n :: flat_map preorder kids end.

(** The first occurrence of each node in the list that is not among [seen]. *)
Fixpoint firsts (seen : list N) (l : list fnode) : list fnode :=
  match l with
  | [] => []
  | n :: l' => if in_dec N.eq_dec (address n) seen then firsts seen l' else n :: firsts (address n :: seen) l'
  end.

Definition is_leaf (n : fnode) : bool := match f_kids n with [] => true | _ => false end.
(** The leaves at a position, each once, in order. *)
Definition leaves_at (o : Z) (n : fnode) : list fnode :=
  filter (fun m => is_leaf m && Z.eqb (Z.of_nat (f_pos m)) o) (firsts [] (preorder n)).

(** A list in words. *)
Fixpoint enumerate (l : list string) : string :=
  match l with
  | [] => ""
  | [a] => ", or " ++ a
  | a :: l' => ", " ++ a ++ enumerate l'
  end%string.
Definition in_words (l : list string) : string :=
  match l with
  | [] => ""
  | [a] => a
  | [a; b] => a ++ " or " ++ b
  | a :: l' => a ++ enumerate l'
  end%string.
(** What stands in the text at an offset: ten bytes of it at most. *)
Definition found (text : string) (o : nat) : string :=
  let rest := sdrop o text in
  match rest with EmptyString => "EOF" | _ => "'" ++ stake 10 rest ++ "'" end%string.
