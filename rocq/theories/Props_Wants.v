(** C64: what an error says is wanted.

    [stake n s] is the first [n] bytes of [s]; [@sem _ _ _ e pos None err] says that the
    expression [e] of the grammar does not match the text from [pos], and that [err] is the
    farthest place where anything failed (PegSpec.v). *)

From Coq Require Import String NArith ZArith List.
From Verif Require Import Base Utf8 PegSyntax Grammar Peg PegToaq PegSpec Ast Parser ParserSpec ErrCases.
Import ListNotations.
Open Scope string_scope.
Open Scope Z_scope.

(** The claim "after the same text, errors at the same place ask for the same things" is false:
    for "to " five kinds of words are asked for besides space, for "to x" none is. *)
Theorem C64_wants_refuted : exists t t' e e',
  fst (tree ascii_punct (new_parser t)) = Ok (Err e) /\ fst (tree ascii_punct (new_parser t')) = Ok (Err e') /\
  pe_offset e = pe_offset e' /\ stake (Z.to_nat (pe_offset e)) t = stake (Z.to_nat (pe_offset e)) t' /\
  pe_msg e = "want space, &BEI, &KIO, &JU, &HU, or &RA; got EOF" /\ pe_msg e' = "want space; got 'x'".
Proof. exact wants_differ. Qed.
Print Assumptions C64_wants_refuted.

(** The cause: the farthest failure, from which the wants are collected, is not at the place of
    the error but behind the character that was not expected. *)
Theorem C64_farthest_refuted : exists t e err, fst (tree ascii_punct (new_parser t)) = Ok (Err e) /\
  @sem toaq ascii_punct t (ECall r_full_text) 0 None err /\ pe_offset e < err.
Proof. exact not_farthest. Qed.
Print Assumptions C64_farthest_refuted.
