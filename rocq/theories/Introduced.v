(** What a formula introduces, in the order in which it is written, and which bound variables
    it mentions.  For C36 and C37. *)

From Coq Require Import String List.
From Verif Require Import Logic Meaning Clauses.
Import ListNotations.
Open Scope list_scope.

(** The variable of a quantifier or of a lambda; a variable that nothing binds. *)
Inductive intro : Type :=
  | Binder (x : nat)
  | Nameless (x : nat).

Definition intro_var (v : thing) : list intro := match v with Bound _ _ => [] | Free x => [Nameless x] end.
Fixpoint introduced_s (p : property) : list intro :=
  match p with
  | Named _ => []
  | Unnamed v => intro_var v
  | Serial p q => introduced_s p ++ introduced_s q
  end.
Fixpoint introduced (F : form) : list intro :=
  match F with
  | Says p l => introduced_p p ++ introduced_r l
  | Joined _ F G => introduced F ++ introduced G
  | Binds _ x _ G => Binder x :: introduced G
  | Limits _ x _ R G => Binder x :: introduced R ++ introduced G
  end
with introduced_p (p : prop) : list intro :=
  match p with Simple p => introduced_s p | Abstract F => introduced F end
with introduced_t (a : term) : list intro :=
  match a with
  | Var v => intro_var v
  | Quoted _ _ => []
  | That F => introduced F
  | Several l => introduced_r l
  end
with introduced_r (l : row) : list intro :=
  match l with
  | Nil => []
  | Gap l => introduced_r l
  | Item a l => introduced_t a ++ introduced_r l
  end.

Fixpoint mentions_s (p : property) : list nat :=
  match p with
  | Named _ => []
  | Unnamed v => of_var v
  | Serial p q => mentions_s p ++ mentions_s q
  end.
Fixpoint mentions (F : form) : list nat :=
  match F with
  | Says p l => mentions_p p ++ mentions_r l
  | Joined _ F G => mentions F ++ mentions G
  | Binds _ _ _ G => mentions G
  | Limits _ _ _ R G => mentions R ++ mentions G
  end
with mentions_p (p : prop) : list nat :=
  match p with Simple p => mentions_s p | Abstract F => mentions F end
with mentions_t (a : term) : list nat :=
  match a with
  | Var v => of_var v
  | Quoted _ _ => []
  | That F => mentions F
  | Several l => mentions_r l
  end
with mentions_r (l : row) : list nat :=
  match l with
  | Nil => []
  | Gap l => mentions_r l
  | Item a l => mentions_t a ++ mentions_r l
  end.
