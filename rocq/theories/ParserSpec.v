(** Vocabulary for the properties of the parser. *)

From Coq Require Import String Ascii NArith ZArith PArith List.
From Verif Require Import Base PegSyntax Grammar Peg PegToaq PegSpec NodeFacts Ast Action Parser.
Import ListNotations.
Open Scope nat_scope.

(** [tries text (r, p) (r', p')]: matching rule [r] at [p] tries rule [r'] at [p'], perhaps
    through other rules. *)
Inductive tries (is_punct : N -> bool) (text : string) : positive * nat -> positive * nat -> Prop :=
  | TryOne r p r' p' : uses toaq is_punct text (r_body (toaq r)) p r' p' -> tries is_punct text (r, p) (r', p')
  | TryMore r p r' p' r'' p'' : uses toaq is_punct text (r_body (toaq r)) p r' p' ->
      tries is_punct text (r', p') (r'', p'') -> tries is_punct text (r, p) (r'', p'').

(** A chain of rules each tried by the one before. *)
Inductive chain (is_punct : N -> bool) (text : string) : list (positive * nat) -> Prop :=
  | ChainOne a : snd a <= String.length text -> chain is_punct text [a]
  | ChainMore a b l : uses toaq is_punct text (r_body (toaq (fst a))) (snd a) (fst b) (snd b) ->
      snd a <= String.length text -> chain is_punct text (b :: l) -> chain is_punct text (a :: b :: l).

(** Same value, same panic, or both a syntax error. *)
Definition same_outcome {A} (a b : res (outcome A)) : Prop :=
  match a, b with
  | Ok (Got x), Ok (Got y) => x = y
  | Ok (Err _), Ok (Err _) => True
  | Panic x, Panic y => x = y
  | _, _ => False
  end.

(** Parsers on which only Tree and Text were called. *)
Inductive reach_tt (is_punct : N -> bool) (text : string) : parser -> Prop :=
  | TNew : reach_tt is_punct text (new_parser text)
  | TTree p : reach_tt is_punct text p -> reach_tt is_punct text (snd (tree is_punct p))
  | TText p : reach_tt is_punct text p -> reach_tt is_punct text (snd (text_of is_punct p)).


(** No byte of the text is a digit from 1 to 7. *)
Definition no_digits (text : string) : Prop :=
  forall c, In c (list_ascii_of_string text) -> ~ (49 <= N_of_ascii c <= 55)%N.
