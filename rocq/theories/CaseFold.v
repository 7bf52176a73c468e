(** Texts that differ only in the case of letters. *)

From Coq Require Import String Ascii NArith List Bool.
From Verif Require Import Base Utf8 Peg.
Import ListNotations.
Open Scope N_scope.

(** The letters A to Z other than V, which is a tone sign, become small. *)
Definition small_rune (r : N) : N := if (65 <=? r) && (r <=? 90) && negb (r =? 86) then r + 32 else r.
Definition small_byte (a : ascii) : ascii := ascii_of_N (small_rune (N_of_ascii a)).
Fixpoint small (s : string) : string :=
  match s with EmptyString => EmptyString | String a s => String (small_byte a) (small s) end.

Fixpoint small_tree (n : pnode) : pnode :=
  match n with PNode name t kids => PNode name (small t) (map small_tree kids) end.

(** The letters of ASCII are no punctuation, which is true of unicode.IsPunct. *)
Definition punct_no_letter (is_punct : N -> bool) : Prop :=
  forall r, is_punct r = true -> ~ (65 <= r <= 90) /\ ~ (97 <= r <= 122).
