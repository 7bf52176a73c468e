(** Texts with a tone written as a digit after two letters, as in "dai4". *)

From Coq Require Import String NArith List.
From Verif Require Import Base Utf8.
Import ListNotations.
Open Scope N_scope.

(** a A u U i I dotless-i o O e E q Q: the letters that may follow the first one of a
    desinence. *)
Definition plain_letters : list N := [97; 65; 117; 85; 105; 73; 305; 111; 79; 101; 69; 113; 81].
Definition plain_letter (r : N) : bool := existsb (N.eqb r) plain_letters.

(** The digits 1 to 7. *)
Definition tone_digit (r : N) : bool := (49 <=? r) && (r <=? 55).

(** Somewhere two such letters and such a digit follow each other. *)
Definition crammed (l : list N) : Prop :=
  exists u a b d v, l = u ++ a :: b :: d :: v /\ plain_letter a = true /\ plain_letter b = true /\ tone_digit d = true.

Definition late_digit (s : string) : Prop := crammed (runes s).

(** Letters and digits are no punctuation, which is true of unicode.IsPunct. *)
Definition punct_plain (is_punct : N -> bool) : Prop :=
  forall r, is_punct r = true -> plain_letter r = false /\ tone_digit r = false.
