(** Properties of package logic: C35, C49 and C56 of a class of texts that can be told from
    their words: [well_ordered] (Orderly.v) asks nothing about meanings. *)

From Coq Require Import String NArith List.
From Verif Require Import Base PegSyntax Tone Ast AstSorts Parser ParserSpec AstCases Logic LogicWords LogicSpec LogicString LogicApi LogicCases ScopeSpec
  Meaning Clauses ClauseCases ClauseTotal Truth TruthProof TruthEnd ClauseNotation ClauseShown ClauseWritten Orderly OrderlyEnd.
From Verif Require Shown.
Import ListNotations.
Open Scope string_scope.
Open Scope list_scope.
Open Scope nat_scope.

(** C35.  Variables are in scope. *)
Theorem C35_orderly_partial :
  forall U d t, outcome U d (Ok (Some t)) ->
    (forall n, In n d -> sentence_item n -> well_ordered U (o_letters diacritic) n = true) -> scoped t.
Proof. intros U d t O W. exact (orderly_scoped U d W t O). Qed.
Print Assumptions C35_orderly_partial.

Example C35_orderly_case :
  exists d t, parses "mai? go ji/ ne\ suq/ giV hoa/ fi poq/" d /\ outcome ascii_unicode d (Ok (Some t)) /\
    prints ascii_unicode (Some t) "[ιJ : ji(J)] [ιP : poq(P)] [ιS : suq(S) ∧ gi(P, S)] ne({mai(·, J)}, S)." /\
    forall n, In n d -> sentence_item n -> well_ordered ascii_unicode (o_letters diacritic) n = true.
Proof. exact orderly_scoped_case. Qed.
(** The texts of C35_stray_case and C56_refuted are not well ordered. *)
Example C35_disorderly : orders_text "fa? ji/ roi suq/ ne\ poq/" = false /\ covers_text "fa? ji/ roi suq/ ne\ poq/" = true /\
  orders_text "ji/ pa lu? hoa? poq/ " = false /\ covers_text "ji/ pa lu? hoa? poq/ " = true.
Proof. exact disorderly. Qed.

(** C49.  Supported texts (C30) of such sentences have one meaning, and String writes it; it
    is true where what the sentences say literally is true (C56). *)
Theorem C49_orderly_partial :
  forall is_punct text p lead d U, reach is_punct text p ->
    fst (text_of is_punct p) = Ok (Got (Some (NText lead d))) -> Shown.plain_unicode U ->
    (forall n, In n d -> is_sentence n = true ->
       well_sorted n = true /\ supported U n = true /\ well_ordered U (o_letters diacritic) n = true) ->
    has_sentence d ->
    exists G F t s name, (forall F', conveys U (o_letters diacritic) d F' <-> F' = F) /\
      (forall G', literally U (o_letters diacritic) d G' <-> G' = G) /\ equivalent F G /\
      outcome U d (Ok (Some t)) /\ scoped t /\ prints U (Some t) s /\
      told_apart name F /\ (forall x, Shown.var_name (name x) = true) /\
      (s = form_text name F \/ s = (form_text name F ++ ".")%string).
Proof. exact orderly_text. Qed.
Print Assumptions C49_orderly_partial.

Example C49_orderly_case : exists lead d,
  fst (text_of ascii_punct (new_parser orderly_example)) = Ok (Got (Some (NText lead d))) /\ has_sentence d /\
  forall n, In n d -> is_sentence n = true ->
    well_sorted n = true /\ supported ascii_unicode n = true /\ well_ordered ascii_unicode (o_letters diacritic) n = true.
Proof. exact orderly_text_case. Qed.
Example C49_orderly_output : logic_string orderly_example = Ok "[ιP0 : poq(P0)] [ιS0 : suq(S0)] [ιP1 : poq(P1) ∧ (gi(P1) ∨ gi(S0))] [ιS1 : suq(S1)] [ιJ0 : ji(J0)] [ιD : deq(D, J0)] [ιJ1 : ji(J1)] [ιJ2 : ji(J2)] [ιS2 : suq(S2)] ([∀P2 : poq(P2)] jeo({ne({kuq(P0, {fa(P1)})}, S1)})) ∧ mai(D) ∧ mai(«hảo», J1) ∧ raq(J2, S2)."%string.
Proof. exact orderly_logic. Qed.

(** C56.  What Interpret returns is true where what the sentences say literally is. *)
Theorem C56_orderly_partial :
  forall U d r h, outcome U d (Ok (Some (r, h))) ->
    (forall n, In n d -> sentence_item n -> well_ordered U (o_letters diacritic) n = true) ->
    exists G F bn name, literally U (o_letters diacritic) d G /\ shows h bn name r F /\
      (forall x y, is_binding h x = true -> is_binding h y = true -> bn x = bn y -> x = y) /\
      (forall x y, unbound h x = true -> unbound h y = true -> name x = name y -> x = y) /\
      distinct (binders G) = true /\ stray G = [] /\ stray F = [] /\ equivalent F G.
Proof. intros U d r h O W. exact (orderly_truth U d W r h O). Qed.
Print Assumptions C56_orderly_partial.

Example C56_orderly_case :
  exists d t, parses "tu do/ ne\ do/ bi kuq? ji/ fa^ do/" d /\ outcome ascii_unicode d (Ok (Some t)) /\
    prints ascii_unicode (Some t) "[ιJ : ji(J)] ∀X ne({kuq(J, {fa(X)})}, X)." /\
    forall n, In n d -> sentence_item n -> well_ordered ascii_unicode (o_letters diacritic) n = true.
Proof. exact orderly_truth_case. Qed.

(** Of all covered sentences, if what they say is tame and leaves no bound variable outside of
    what binds it. *)
Theorem C56_scoped_partial :
  forall U d r h, outcome U d (Ok (Some (r, h))) ->
    (forall n, In n d -> sentence_item n -> covered U (o_letters diacritic) n = true) ->
    exists G F bn name, literally U (o_letters diacritic) d G /\ shows h bn name r F /\
      (forall x y, is_binding h x = true -> is_binding h y = true -> bn x = bn y -> x = y) /\
      (forall x y, unbound h x = true -> unbound h y = true -> name x = name y -> x = y) /\
      (stray G = [] -> tame G = true -> equivalent F G).
Proof. exact truth_scoped. Qed.
Print Assumptions C56_scoped_partial.
