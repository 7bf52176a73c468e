(** Words to speak about the errors of Parser.Word. *)

From Coq Require Import String NArith ZArith.
From Verif Require Import Base Peg Parser DedupSpec.

Section Spec.
Variable is_punct : N -> bool.
Variable text : string.

(** The states of a parser for [text] on which Word alone has been called. *)
Inductive words_only : parser -> Prop :=
  | WNew : words_only (new_parser text)
  | WWord p offs : words_only p -> words_only (snd (word_at is_punct offs p)).

(** An error that says nothing: it stands at the beginning of the text and expects nothing. *)
Definition blank (e : perror) : Prop :=
  pe_offset e = 0%Z /\ pe_msg e = ("want " ++ "; got " ++ found text 0)%string.

(** A call on [p] gives the error [e] and leaves [p']. *)
Definition gives (p : parser) (e : perror) (p' : parser) : Prop :=
  (fst (tree is_punct p) = Ok (Err e) /\ p' = snd (tree is_punct p)) \/
  (fst (text_of is_punct p) = Ok (Err e) /\ p' = snd (text_of is_punct p)) \/
  (exists offs, fst (word_at is_punct offs p) = Ok (Err e) /\ p' = snd (word_at is_punct offs p)).

End Spec.
