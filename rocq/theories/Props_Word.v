(** C63: where Word panics.

    [late_digit s] says that in [s] one of the digits 1 to 7 follows two of the letters
    a u i o e q (LateDigit.v), [punct_plain] that letters and digits are no punctuation,
    [@sem _ _ _ e pos (Some (q, k)) err] that the expression [e] of the grammar matches the text
    from [pos] to [q], and with [None] that it does not match (PegSpec.v). *)

From Coq Require Import String NArith ZArith List.
From Verif Require Import Base PegSyntax Grammar Peg PegToaq PegSpec Ast Parser ParserSpec LateDigit LateApi LateWord.
Import ListNotations.
Open Scope string_scope.
Open Scope nat_scope.

(** Within the text, whatever was called before, Word panics if and only if a word is matched
    that has such a digit; it has a word if and only if one is matched without such a digit,
    and an error if and only if none is matched. *)
Theorem C63_word :
  forall is_punct text, punct_plain is_punct -> forall p offs, reach is_punct text p -> offs <= String.length text ->
    (fst (word_at is_punct offs p) = Panic PRuntime <->
       exists q k err, @sem toaq is_punct text (ECall r_word) offs (Some (q, k)) err /\ late_digit (slice text offs q)) /\
    ((exists w n, fst (word_at is_punct offs p) = Ok (Got (w, n))) <->
       exists q k err, @sem toaq is_punct text (ECall r_word) offs (Some (q, k)) err /\ ~ late_digit (slice text offs q)) /\
    ((exists e, fst (word_at is_punct offs p) = Ok (Err e)) <-> exists err, @sem toaq is_punct text (ECall r_word) offs None err) /\
    (forall w n, fst (word_at is_punct offs p) = Ok (Got (w, n)) ->
       exists q, n = (Z.of_nat q - Z.of_nat offs)%Z /\ offs <= q <= String.length text /\ ~ late_digit (slice text offs q)).
Proof. exact word_exact. Qed.
Print Assumptions C63_word.

(** The digit after two letters at the start, in the second word, before a second word, and in
    the syllables of a compound; one after one letter; and after tio, where it is not matched. *)
Example C63_case :
  punct_plain ascii_punct /\
  map (fun x => word_end (fst (word_at ascii_punct (snd x) (new_parser (fst x)))))
    [("jai4 ji/", 0); ("ji/ jai4", 4); ("ji/ jai4", 0); ("pu4a ji2", 0); ("tio4 ji2", 0); ("jai4jai1 da", 0); ("jai/jai1 da", 0)] =
  [Some None; Some None; Some (Some 4%Z); Some (Some 5%Z); Some (Some 3%Z); Some None; Some None].
Proof. exact (conj ascii_plain word_late_case). Qed.
