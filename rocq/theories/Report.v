(** What the report of a syntax error shows of the tree of failures. *)

From Coq Require Import String Ascii NArith List Bool.
From Verif Require Import Base PegSyntax Peg App Shown.
Import ListNotations.
Open Scope string_scope.
Open Scope list_scope.

(** A leaf is shown with what was wanted there, another node with its name, where it was tried
    and what it consists of. *)
Inductive failure : Type :=
  | Wanted (name want : string)
  | Within (name : string) (pos : nat) (parts : list failure).
Fixpoint failure_of (n : fnode) : failure :=
  let 'FNode _ name p want kids := n in
  match kids with
  | [] => Wanted name want
  | _ => Within name p (map failure_of kids)
  end.

(** Names do not contain parentheses, brackets, quotes and line breaks, wants no line breaks. *)
Definition delimiter (c : ascii) : bool := existsb (Ascii.eqb c) ["("; "["; ascii_of_nat 34; ascii_of_nat 10]%char.
Definition name_ok (s : string) : bool := every_char (fun c => negb (delimiter c)) s.
Definition want_ok (s : string) : bool := every_char (fun c => negb (Ascii.eqb c (ascii_of_nat 10))) s.
Fixpoint readable (n : fnode) : bool :=
  let 'FNode _ name _ want kids := n in name_ok name && want_ok want && forallb readable kids.
