(** How the meanings of sentences with clauses are written, and when their variables are in scope. *)

From Coq Require Import String NArith List Bool Arith.
From Verif Require Import Base PegSyntax Peg Tone Ast AstSorts AstCases Parser ParserSpec Logic LogicWords LogicSpec LogicString LogicApi LogicCases
  ScopeSpec Meaning Clauses ClauseNotation ClauseShown ClauseCases ClauseWritten.
From Verif Require Shown ShownCases.
Import ListNotations.
Open Scope string_scope.
Open Scope list_scope.
Open Scope nat_scope.

(** C49.  Of sentences with abstractions, clauses, quotations, pluralities, prepositions and
    adverbs, when no variable of their meaning is outside what binds it: String writes the
    meaning (C55) in the notation of ClauseNotation.v, with a name for each variable.  Not
    proved: mi, hi before a predicate, serial predicates with abstractions. *)
Theorem C49_clauses_partial :
  forall is_punct text p lead d U t s F, reach is_punct text p ->
    fst (text_of is_punct p) = Ok (Got (Some (NText lead d))) -> Shown.plain_unicode U ->
    outcome U d (Ok (Some t)) ->
    (forall n, In n d -> sentence_item n -> covered U (o_letters diacritic) n = true) ->
    conveys U (o_letters diacritic) d F -> stray F = [] -> prints U (Some t) s ->
    exists name, told_apart name F /\ (forall x, Shown.var_name (name x) = true) /\
      (s = form_text name F \/ s = (form_text name F ++ ".")%string).
Proof. intros is_punct text p lead d U t s F R E PU. exact (text_written is_punct text p lead d U R E PU t s F). Qed.
Print Assumptions C49_clauses_partial.

(** Supported texts (C30) of such sentences have one meaning and are written so. *)
Theorem C49_clause_text_partial :
  forall is_punct text p lead d U, reach is_punct text p ->
    fst (text_of is_punct p) = Ok (Got (Some (NText lead d))) -> Shown.plain_unicode U ->
    (forall n, In n d -> is_sentence n = true ->
       well_sorted n = true /\ supported U n = true /\ covered U (o_letters diacritic) n = true) ->
    has_sentence d ->
    exists F t s, (forall F', conveys U (o_letters diacritic) d F' <-> F' = F) /\
      outcome U d (Ok (Some t)) /\ prints U (Some t) s /\ (scoped t <-> stray F = []) /\
      (stray F = [] -> exists name, told_apart name F /\ (forall x, Shown.var_name (name x) = true) /\
         (s = form_text name F \/ s = (form_text name F ++ ".")%string)).
Proof. exact text_clauses. Qed.
Print Assumptions C49_clause_text_partial.

(** Not when a variable of the meaning is outside what binds it: it may be written as another. *)
Theorem C49_stray_refuted :
  exists text d t s F, parses text d /\ outcome ascii_unicode d (Ok (Some t)) /\ prints ascii_unicode (Some t) s /\
    (forall n, In n d -> sentence_item n -> covered ascii_unicode (o_letters diacritic) n = true) /\
    conveys ascii_unicode (o_letters diacritic) d F /\
    forall name, (forall x, Shown.var_name (name x) = true) ->
      s = form_text name F \/ s = (form_text name F ++ ".")%string -> ~ told_apart name F.
Proof. exact (ex_intro _ stray_text stray_miswritten). Qed.
Print Assumptions C49_stray_refuted.

Example C49_clauses_case :
  exists d t, parses "mai? fa^ ji/ mo/ hao? teo ji/ roi suq/" d /\ outcome ascii_unicode d (Ok (Some t)) /\
    prints ascii_unicode (Some t) "[ιJ0 : ji(J0)] [ιJ1 : ji(J1)] [ιS : suq(S)] mai({fa(J0, «hảo», ⌊J1, S⌉)})." /\
    (forall n, In n d -> sentence_item n -> covered ascii_unicode (o_letters diacritic) n = true) /\
    conveys ascii_unicode (o_letters diacritic) d written_meaning.
Proof. exact written_case. Qed.
Example C49_clauses_names :
  Shown.plain_unicode ascii_unicode /\ stray written_meaning = [] /\
  form_text (fun x => match x with 1 => "J0" | 5 => "J1" | _ => "S" end) written_meaning =
    "[ιJ0 : ji(J0)] [ιJ1 : ji(J1)] [ιS : suq(S)] mai({fa(J0, «hảo», ⌊J1, S⌉)})".
Proof. exact (conj ShownCases.ascii_plain (conj eq_refl written_form)). Qed.

(** C35.  Of sentences with clauses: every variable of the tree is inside the quantification
    that binds it exactly when the same is true of the meaning. *)
Theorem C35_covered_partial :
  forall U d t F, outcome U d (Ok (Some t)) ->
    (forall n, In n d -> sentence_item n -> covered U (o_letters diacritic) n = true) ->
    conveys U (o_letters diacritic) d F -> scoped t <-> stray F = [].
Proof. exact covered_scoped. Qed.
Print Assumptions C35_covered_partial.

Example C35_covered_case :
  exists d t, parses "tu do/ ne\ do/ bi kuq? ji/ fa^ do/" d /\ outcome ascii_unicode d (Ok (Some t)) /\
    prints ascii_unicode (Some t) "[ιJ : ji(J)] ∀X ne({kuq(J, {fa(X)})}, X)." /\
    (forall n, In n d -> sentence_item n -> covered ascii_unicode (o_letters diacritic) n = true) /\
    conveys ascii_unicode (o_letters diacritic) d meant.
Proof. exact clauses_case. Qed.
Example C35_stray_case :
  exists d t, parses "fa? ji/ roi suq/ ne\ poq/" d /\ outcome ascii_unicode d (Ok (Some t)) /\
    prints ascii_unicode (Some t) "[ιJ : ji(J)] [ιS : suq(S)] [ιP : poq(P)] ne({fa(J)}, P)." /\
    (forall n, In n d -> sentence_item n -> covered ascii_unicode (o_letters diacritic) n = true) /\
    conveys ascii_unicode (o_letters diacritic) d stray_meaning.
Proof. exact stray_case. Qed.
Example C35_stray_values : stray meant = [] /\ stray stray_meaning = [0].
Proof. exact (conj eq_refl eq_refl). Qed.
