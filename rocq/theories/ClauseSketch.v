(** What can be read off the notation of formulas with clauses (ClauseNotation.v): a formula up
    to the association of connectives and serial predicates and the focus, its variables by
    their names. *)

From Coq Require Import String List Bool Arith.
From Verif Require Import Base Logic Meaning Clauses ClauseNotation.
From Verif Require Shown.
Import ListNotations.
Open Scope list_scope.
Open Scope nat_scope.
Open Scope string_scope.

Inductive sketch : Type :=
  | KSays (p : heading) (l : entries)
  | KJoined (c : conn) (A B : sketch)
  | KBinds (q : quant) (x : string) (G : sketch)
  | KLimits (q : quant) (x : string) (R G : sketch)
with heading : Type :=
  | HParts (l : list Shown.part)
  | HClause (A : sketch)
with entry : Type :=
  | EVar (x : string)
  | EQuoted (t : string) (full : bool)
  | EThat (A : sketch)
  | ESeveral (l : entries)
with entries : Type :=
  | ENil
  | EGap (l : entries)
  | EItem (a : entry) (l : entries).
Scheme sketch_mut := Induction for sketch Sort Prop
  with heading_mut := Induction for heading Sort Prop
  with entry_mut := Induction for entry Sort Prop
  with entries_mut := Induction for entries Sort Prop.
Combined Scheme sketches_ind from sketch_mut, heading_mut, entry_mut, entries_mut.

Fixpoint join (c : conn) (A B : sketch) : sketch :=
  match A with
  | KJoined c' A1 A2 => if Shown.conn_eqb c' c then KJoined c A1 (join c A2 B) else KJoined c A B
  | _ => KJoined c A B
  end.
Section Sketch.
Variable name : nat -> string.
Fixpoint sketch_of (F : form) : sketch :=
  match F with
  | Says p l => KSays (heading_of p) (entries_of l)
  | Joined c F G => join c (sketch_of F) (sketch_of G)
  | Binds q x _ G => KBinds q (name x) (sketch_of G)
  | Limits q x _ R G => KLimits q (name x) (sketch_of R) (sketch_of G)
  end
with heading_of (p : prop) : heading :=
  match p with Simple p => HParts (Shown.parts name p) | Abstract F => HClause (sketch_of F) end
with entry_of (a : term) : entry :=
  match a with
  | Var v => EVar (Shown.thing_text name v)
  | Quoted t full => EQuoted t full
  | That F => EThat (sketch_of F)
  | Several l => ESeveral (entries_of l)
  end
with entries_of (l : row) : entries :=
  match l with
  | Nil => ENil
  | Gap l => EGap (entries_of l)
  | Item a l => EItem (entry_of a) (entries_of l)
  end.
End Sketch.

(** [p] is not part of [s]. *)
Fixpoint lacks (p s : string) : bool :=
  negb (String.prefix p s) && match s with EmptyString => true | String _ t => lacks p t end.
(** No quotation contains the sign that closes it. *)
Fixpoint plain_quotes (F : form) : bool :=
  match F with
  | Says p l => plain_quotes_p p && plain_quotes_r l
  | Joined _ F G | Limits _ _ _ F G => plain_quotes F && plain_quotes G
  | Binds _ _ _ G => plain_quotes G
  end
with plain_quotes_p (p : prop) : bool :=
  match p with Simple _ => true | Abstract F => plain_quotes F end
with plain_quotes_t (a : term) : bool :=
  match a with
  | Var _ => true
  | Quoted t full => lacks (if full then "»" else "›") t
  | That F => plain_quotes F
  | Several l => plain_quotes_r l
  end
with plain_quotes_r (l : row) : bool :=
  match l with
  | Nil => true
  | Gap l => plain_quotes_r l
  | Item a l => plain_quotes_t a && plain_quotes_r l
  end.
