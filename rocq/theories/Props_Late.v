(** More on C15, C18, C39, C40 and C46: the texts on which Text panics.

    [late_digit s] says that in [s] one of the digits 1 to 7 follows two of the letters
    a u i o e q (LateDigit.v), [p_text n] is the text that the tree [n] of Tree covers,
    [punct_plain] that letters and digits are no punctuation. *)

From Coq Require Import String NArith List.
From Verif Require Import Base Peg TreeSpec Ast Parser ParserSpec LogicWords App AppSpec Main MainSpec AstSorts Braces Tone Dedup Logic LogicSpec LogicCases AstCases Clauses ClauseApps LateDigit LateFacts LateApi LateEnds.
Import ListNotations.
Open Scope string_scope.
Open Scope list_scope.
Open Scope nat_scope.

(** C18.  Text panics if and only if the text is accepted and has such a digit. *)
Theorem C18_exact_partial :
  forall is_punct text, punct_plain is_punct -> forall p1 p2, reach is_punct text p1 -> reach is_punct text p2 ->
    (exists q, fst (text_of is_punct p1) = Panic q) <->
    (exists n, fst (tree is_punct p2) = Ok (Got (Some n)) /\ late_digit (p_text n)).
Proof. exact late_panics. Qed.
Print Assumptions C18_exact_partial.

(** C15.  Where Tree succeeds, Text does unless there is such a digit, and then it panics. *)
Theorem C15_exact_partial :
  forall is_punct, punct_plain is_punct -> forall text p1 p2 n, reach is_punct text p1 -> reach is_punct text p2 ->
    fst (tree is_punct p2) = Ok (Got (Some n)) ->
    (late_digit (p_text n) <-> fst (text_of is_punct p1) = Panic PRuntime) /\
    (~ late_digit (p_text n) <-> exists t, fst (text_of is_punct p1) = Ok (Got (Some t))).
Proof. exact late_exact. Qed.
Print Assumptions C15_exact_partial.

(** C39, C40, C46.  The server, the bot and the program crash on all these texts. *)
Theorem C39_late_partial :
  forall is_punct, punct_plain is_punct -> forall U input n,
    fst (tree is_punct (new_parser input)) = Ok (Got (Some n)) -> late_digit (p_text n) ->
    answers is_punct U input (Panic PRuntime).
Proof. exact late_post. Qed.
Print Assumptions C39_late_partial.

Theorem C40_late_partial :
  forall is_punct, punct_plain is_punct -> forall U m x n, asked U m x ->
    fst (tree is_punct (new_parser x)) = Ok (Got (Some n)) -> late_digit (p_text n) ->
    replies is_punct U m (Panic PRuntime).
Proof. exact late_bot. Qed.
Print Assumptions C40_late_partial.

Theorem C46_late_partial :
  forall is_punct, punct_plain is_punct -> forall U path input n,
    fst (tree is_punct (new_parser input)) = Ok (Got (Some n)) -> late_digit (p_text n) ->
    runs is_punct U path input (""%string, Died PRuntime).
Proof. exact late_main. Qed.
Print Assumptions C46_late_partial.

(** A text with such a digit, and one with other digits. *)
Example C18_late_case :
  punct_plain ascii_punct /\
  (exists n, fst (tree ascii_punct (new_parser "jai4 ji/")) = Ok (Got (Some n)) /\ late_digit (p_text n)) /\
  (exists n, fst (tree ascii_punct (new_parser "pu4a ji2")) = Ok (Got (Some n)) /\ ~ late_digit (p_text n)).
Proof. exact (conj ascii_plain late_case). Qed.

(** C39, C40, C46.  What the server, the bot and the program do with every text whose
    sentences are well sorted, supported and covered (Clauses.v): an error message where the
    parser has an error, a crash where a digit is late, and everything else is answered. *)
Theorem C39_every_partial :
  forall is_punct, punct_plain is_punct -> forall U input,
    (forall lead d, fst (text_of is_punct (new_parser input)) = Ok (Got (Some (NText lead d))) ->
      forall n, In n d -> is_sentence n = true ->
        well_sorted n = true /\ supported U n = true /\ covered U (o_letters diacritic) n = true) ->
    match fst (tree is_punct (new_parser input)) with
    | Ok (Err e) => answers is_punct U input (Ok (RError (error_string e)))
    | Ok (Got (Some n)) =>
        (late_digit (p_text n) /\ answers is_punct U input (Panic PRuntime)) \/
        (~ late_digit (p_text n) /\ exists a lead d, answers is_punct U input (Ok (RFull a)) /\
          fst (text_of is_punct (new_parser input)) = Ok (Got (Some (NText lead d))) /\
          a_ast a = NText lead d /\ (a_logic a = "fragment" <-> ~ has_sentence d))
    | _ => False
    end.
Proof. exact every_answer. Qed.
Print Assumptions C39_every_partial.

Theorem C40_every_partial :
  forall is_punct, punct_plain is_punct -> forall U m x, asked U m x ->
    (forall lead d, fst (text_of is_punct (new_parser x)) = Ok (Got (Some (NText lead d))) ->
      forall n, In n d -> is_sentence n = true ->
        well_sorted n = true /\ supported U n = true /\ covered U (o_letters diacritic) n = true) ->
    match fst (text_of is_punct (new_parser x)) with
    | Ok (Err e) => replies is_punct U m (Ok (Some ("syntax error " ++ error_string e)%string))
    | Ok (Got (Some t)) => exists lead d math, t = NText lead d /\ said U d math /\
        replies is_punct U m (Ok (Some (with_newline (braces_string t) ++ math)%string))
    | _ => (exists n, fst (tree is_punct (new_parser x)) = Ok (Got (Some n)) /\ late_digit (p_text n)) /\
        replies is_punct U m (Panic PRuntime)
    end.
Proof. exact every_reply. Qed.
Print Assumptions C40_every_partial.

Theorem C46_every_partial :
  forall is_punct, punct_plain is_punct -> forall U path input,
    (forall lead d, fst (text_of is_punct (new_parser input)) = Ok (Got (Some (NText lead d))) ->
      forall n, In n d -> is_sentence n = true ->
        well_sorted n = true /\ supported U n = true /\ covered U (o_letters diacritic) n = true) ->
    match fst (tree is_punct (new_parser input)) with
    | Ok (Err e) => runs is_punct U path input ((line (pretty_fail "" (dedup (pe_tree e))) ++ line (path ++ error_string e))%string, Exit 1)
    | Ok (Got (Some n)) =>
        (late_digit (p_text n) /\ runs is_punct U path input ("", Died PRuntime)) \/
        (~ late_digit (p_text n) /\ exists lead d l,
          fst (text_of is_punct (new_parser input)) = Ok (Got (Some (NText lead d))) /\ logic_part U d l /\
          runs is_punct U path input ((syntax_part n (NText lead d) ++ l)%string, Exit 0))
    | _ => False
    end.
Proof. exact every_run. Qed.
Print Assumptions C46_every_partial.

(** The hypotheses hold of a text with many kinds of clauses, and of a message with it. *)
Example C46_every_case : exists lead d,
  fst (text_of ascii_punct (new_parser clause_text)) = Ok (Got (Some (NText lead d))) /\ has_sentence d /\
  (forall lead d, fst (text_of ascii_punct (new_parser clause_text)) = Ok (Got (Some (NText lead d))) ->
    forall n, In n d -> is_sentence n = true ->
      well_sorted n = true /\ supported ascii_unicode n = true /\ covered ascii_unicode (o_letters diacritic) n = true) /\
  no_digits clause_text /\ asked ascii_unicode (Message None (".miu " ++ clause_text)) clause_text.
Proof. exact clause_message. Qed.
