(** Properties of package logic: C50 of sentences with clauses and quotations.
    [sketch_of name F] is a formula without the association of connectives and of serial
    predicates, and without the focus; [plain_quotes F] says that no quotation of F contains
    the sign that ends it (ClauseSketch.v). *)

From Coq Require Import String NArith List.
From Verif Require Import Base PegSyntax Tone Ast AstSorts Parser ParserSpec AstCases Logic LogicWords LogicSpec LogicString LogicApi LogicCases ScopeSpec
  Meaning Clauses ClauseCases ClauseNotation ClauseShown ClauseWritten ClauseSketch Orderly OrderlyEnd ClauseReadEnd.
From Verif Require Shown.
Import ListNotations.
Open Scope string_scope.
Open Scope list_scope.
Open Scope nat_scope.

(** C50.  Of covered sentences whose meaning has its variables in scope (C35): the same
    string, the same formula up to names, association and focus. *)
Theorem C50_clauses_partial :
  forall ip1 ip2 text1 text2 p1 p2 l1 l2 d1 d2 U t1 t2 F1 F2 s,
    reach ip1 text1 p1 -> fst (text_of ip1 p1) = Ok (Got (Some (NText l1 d1))) ->
    reach ip2 text2 p2 -> fst (text_of ip2 p2) = Ok (Got (Some (NText l2 d2))) -> Shown.plain_unicode U ->
    outcome U d1 (Ok (Some t1)) -> outcome U d2 (Ok (Some t2)) ->
    (forall n, In n d1 -> sentence_item n -> covered U (o_letters diacritic) n = true) ->
    (forall n, In n d2 -> sentence_item n -> covered U (o_letters diacritic) n = true) ->
    conveys U (o_letters diacritic) d1 F1 -> conveys U (o_letters diacritic) d2 F2 -> stray F1 = [] -> stray F2 = [] ->
    plain_quotes F1 = true -> plain_quotes F2 = true ->
    prints U (Some t1) s -> prints U (Some t2) s ->
    exists name1 name2, told_apart name1 F1 /\ told_apart name2 F2 /\ sketch_of name1 F1 = sketch_of name2 F2.
Proof. exact clauses_read. Qed.
Print Assumptions C50_clauses_partial.

(** Of well-ordered sentences, without asking about scopes. *)
Theorem C50_orderly_partial :
  forall ip1 ip2 text1 text2 p1 p2 l1 l2 d1 d2 U t1 t2 F1 F2 s,
    reach ip1 text1 p1 -> fst (text_of ip1 p1) = Ok (Got (Some (NText l1 d1))) ->
    reach ip2 text2 p2 -> fst (text_of ip2 p2) = Ok (Got (Some (NText l2 d2))) -> Shown.plain_unicode U ->
    outcome U d1 (Ok (Some t1)) -> outcome U d2 (Ok (Some t2)) ->
    (forall n, In n d1 -> sentence_item n -> well_ordered U (o_letters diacritic) n = true) ->
    (forall n, In n d2 -> sentence_item n -> well_ordered U (o_letters diacritic) n = true) ->
    conveys U (o_letters diacritic) d1 F1 -> conveys U (o_letters diacritic) d2 F2 ->
    plain_quotes F1 = true -> plain_quotes F2 = true ->
    prints U (Some t1) s -> prints U (Some t2) s ->
    exists name1 name2, told_apart name1 F1 /\ told_apart name2 F2 /\ sketch_of name1 F1 = sketch_of name2 F2.
Proof. exact orderly_read. Qed.
Print Assumptions C50_orderly_partial.

(** Two texts with different meanings (one has a focus) that are shown alike; they are
    well ordered too. *)
Example C50_clauses_case :
  exists d1 d2 t1 t2 F1 F2,
    parses "tu do/ ne\ do/ bi kuq? ji/ fa^ do/" d1 /\ parses "tu do/ ne\ do/ bi kuq? ku ji/ fa^ do/" d2 /\
    outcome ascii_unicode d1 (Ok (Some t1)) /\ outcome ascii_unicode d2 (Ok (Some t2)) /\
    (forall n, In n d1 -> sentence_item n -> covered ascii_unicode (o_letters diacritic) n = true) /\
    (forall n, In n d2 -> sentence_item n -> covered ascii_unicode (o_letters diacritic) n = true) /\
    conveys ascii_unicode (o_letters diacritic) d1 F1 /\ conveys ascii_unicode (o_letters diacritic) d2 F2 /\
    stray F1 = [] /\ stray F2 = [] /\ plain_quotes F1 = true /\ plain_quotes F2 = true /\
    prints ascii_unicode (Some t1) "[ιJ : ji(J)] ∀X ne({kuq(J, {fa(X)})}, X)." /\
    prints ascii_unicode (Some t2) "[ιJ : ji(J)] ∀X ne({kuq(J, {fa(X)})}, X)." /\ F1 <> F2.
Proof. exact alike_case. Qed.
Example C50_orderly_case :
  orders_text "tu do/ ne\ do/ bi kuq? ji/ fa^ do/" = true /\ orders_text "tu do/ ne\ do/ bi kuq? ku ji/ fa^ do/" = true.
Proof. exact alike_orderly. Qed.

(** The quotation in mai? mo/ hao?», «ji/ teo contains quotation marks; it is shown as two
    quotations are.  Their sketches differ whatever the names. *)
Theorem C50_quotation_refuted :
  exists ip text1 text2 l1 l2 d1 d2 t1 t2 F1 F2 s,
    fst (text_of ip (new_parser text1)) = Ok (Got (Some (NText l1 d1))) /\ outcome ascii_unicode d1 (Ok (Some t1)) /\
    (forall n, In n d1 -> sentence_item n -> covered ascii_unicode (o_letters diacritic) n = true) /\
    conveys ascii_unicode (o_letters diacritic) d1 F1 /\ prints ascii_unicode (Some t1) s /\
    fst (text_of ip (new_parser text2)) = Ok (Got (Some (NText l2 d2))) /\ outcome ascii_unicode d2 (Ok (Some t2)) /\
    (forall n, In n d2 -> sentence_item n -> covered ascii_unicode (o_letters diacritic) n = true) /\
    conveys ascii_unicode (o_letters diacritic) d2 F2 /\ prints ascii_unicode (Some t2) s /\
    stray F1 = [] /\ stray F2 = [] /\ forall name1 name2, sketch_of name1 F1 <> sketch_of name2 F2.
Proof. exact quotes_confused. Qed.
Print Assumptions C50_quotation_refuted.
