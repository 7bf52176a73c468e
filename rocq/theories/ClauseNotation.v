(** The notation of formulas with clauses (Clauses.v).  It extends that of Shown.v: abstractions
    and clauses in braces, quotations in their quotation marks, pluralities in brackets. *)

From Coq Require Import String NArith List Bool Arith.
From Verif Require Import Base Logic LogicWords Meaning Clauses Truth.
From Verif Require Shown.
Import ListNotations.
Open Scope list_scope.
Open Scope nat_scope.
Open Scope string_scope.

Section Notation.
(** What the variables are called. *)
Variable name : nat -> string.

Definition blank (empty : string) (o : option string) : string := match o with None => empty | Some s => s end.
Definition alone (c : conn) (F : form) : bool :=
  match F with Says _ _ => true | Joined c' _ _ => Shown.conn_eqb c' c | Binds _ _ _ _ | Limits _ _ _ _ _ => false end.
Definition listed_text (l : list (option string)) : string := String.concat ", " (map (blank "·") l).
(** [p], in text [P], of [l]. *)
Definition applied_text (p : prop) (P : string) (l : list (option string)) : string :=
  match p, l with
  | Simple (Named s), [x; y] => if Shown.infix s then blank "" x ++ s ++ blank "" y else P ++ "(" ++ listed_text l ++ ")"
  | _, _ => P ++ "(" ++ listed_text l ++ ")"
  end.
Fixpoint form_text (F : form) : string :=
  match F with
  | Says p l => applied_text p (prop_text p) (row_texts l)
  | Joined c F G =>
      Shown.parened (alone c F) (form_text F) ++ " " ++ Shown.conn_sign c ++ " " ++ Shown.parened (alone c G) (form_text G)
  | Binds q x _ G => Shown.quant_sign q ++ name x ++ " " ++ form_text G
  | Limits q x _ R G => "[" ++ Shown.quant_sign q ++ name x ++ " : " ++ form_text R ++ "] " ++ form_text G
  end
with prop_text (p : prop) : string :=
  match p with
  | Simple p => Shown.property_text name p
  | Abstract F => "{" ++ form_text F ++ "}"
  end
with term_text (a : term) : string :=
  match a with
  | Var v => Shown.thing_text name v
  | Quoted t full => if full then "«" ++ t ++ "»" else "‹" ++ t ++ "›"
  | That F => "{" ++ form_text F ++ "}"
  | Several l => "⌊" ++ listed_text (row_texts l) ++ "⌉"
  end
with row_texts (l : row) : list (option string) :=
  match l with
  | Nil => []
  | Gap l => None :: row_texts l
  | Item a l => Some (term_text a) :: row_texts l
  end.
End Notation.

(** The variables of a formula: where they are bound and where they occur. *)
Definition form_variables (F : form) : list nat := (binders F ++ numbers F)%list.
(** Variables that are not the same have different names. *)
Definition told_apart (name : nat -> string) (F : form) : Prop :=
  forall x y, In x (form_variables F) -> In y (form_variables F) -> name x = name y -> x = y.

(** The variables that are not inside what binds them. *)
Fixpoint stray_s (p : property) : list nat :=
  match p with
  | Named _ => []
  | Unnamed v => of_var v
  | Serial p q => (stray_s p ++ stray_s q)%list
  end.
Fixpoint stray (F : form) : list nat :=
  match F with
  | Says p l => (stray_p p ++ stray_r l)%list
  | Joined _ F G => (stray F ++ stray G)%list
  | Binds _ x _ G => without x (stray G)
  | Limits _ x _ R G => without x (stray R ++ stray G)
  end
with stray_p (p : prop) : list nat :=
  match p with Simple p => stray_s p | Abstract F => stray F end
with stray_t (a : term) : list nat :=
  match a with
  | Var v => of_var v
  | Quoted _ _ => []
  | That F => stray F
  | Several l => stray_r l
  end
with stray_r (l : row) : list nat :=
  match l with
  | Nil => []
  | Gap l => stray_r l
  | Item a l => (stray_t a ++ stray_r l)%list
  end.
