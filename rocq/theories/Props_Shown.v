(** Properties of package logic: C49 and C50.  [formula_text name F] writes a formula, with
    names for its variables; [shape_of name F] is the formula without the association of
    connectives and of serial predicates, and without the focus (Shown.v). *)

From Coq Require Import String NArith List.
From Verif Require Import Base PegSyntax Tone Ast AstSorts Parser ParserSpec AstCases Logic LogicWords LogicSpec LogicString LogicApi LogicCases ScopeSpec
  Meaning MeaningCases Shown ShownApi ShownText ShownCases.
Import ListNotations.
Open Scope string_scope.
Open Scope list_scope.
Open Scope nat_scope.

(** C49.  Of first-order sentences (ScopeSpec.v).  C37 tells about the period. *)
Theorem C49_notation_partial :
  forall U d t s F, outcome U d (Ok (Some t)) -> plain_upper U ->
    (forall n, In n d -> sentence_item n -> first_order U (o_letters diacritic) n = true) -> spoken U d ->
    means U (o_letters diacritic) d F -> prints U (Some t) s ->
    exists name, apart name F /\ (forall x, var_name (name x) = true) /\
      (s = formula_text name F \/ s = (formula_text name F ++ ".")%string).
Proof. exact shown_as. Qed.
Print Assumptions C49_notation_partial.

(** Every text of such sentences, if supported (C30), is written so; that its predicates are
    words follows from the grammar. *)
Theorem C49_text_partial :
  forall is_punct text p lead d U, reach is_punct text p ->
    fst (text_of is_punct p) = Ok (Got (Some (NText lead d))) -> plain_unicode U ->
    (forall n, In n d -> is_sentence n = true ->
       well_sorted n = true /\ supported U n = true /\ first_order U (o_letters diacritic) n = true) ->
    has_sentence d ->
    exists F t s name, means U (o_letters diacritic) d F /\ outcome U d (Ok (Some t)) /\ prints U (Some t) s /\
      apart name F /\ (forall x, var_name (name x) = true) /\
      (s = formula_text name F \/ s = (formula_text name F ++ ".")%string).
Proof. exact text_shown. Qed.
Print Assumptions C49_text_partial.

(** Of all parsed texts. *)
Theorem C49_spoken :
  forall is_punct text p lead d U, reach is_punct text p ->
    fst (text_of is_punct p) = Ok (Got (Some (NText lead d))) -> plain_unicode U -> spoken U d.
Proof. exact parsed_spoken. Qed.
Print Assumptions C49_spoken.

Example C49_case :
  exists d t, parses "sa do/ bi mai? poq/ maiV hoa/ do/ na suq/" d /\ outcome ascii_unicode d (Ok (Some t)) /\
    (forall n, In n d -> sentence_item n -> first_order ascii_unicode (o_letters diacritic) n = true) /\ plain_unicode ascii_unicode /\ spoken ascii_unicode d /\
    means ascii_unicode (o_letters diacritic) d meant /\ prints ascii_unicode (Some t) "[ιS : suq(S)] ∃X [ΛP : poq(P) ∧ mai(P, X)] mai(P, S)." /\
    formula_text (fun x => match x with 2 => "S" | 0 => "X" | _ => "P" end) meant = "[ιS : suq(S)] ∃X [ΛP : poq(P) ∧ mai(P, X)] mai(P, S)".
Proof. exact shown_case. Qed.

(** C50.  Of first-order sentences: the same string, the same formula up to names,
    association and focus. *)
Theorem C50_read_partial :
  forall U1 U2 d1 d2 t1 t2 F1 F2 s,
    outcome U1 d1 (Ok (Some t1)) -> plain_upper U1 ->
    (forall n, In n d1 -> sentence_item n -> first_order U1 (o_letters diacritic) n = true) -> spoken U1 d1 ->
    outcome U2 d2 (Ok (Some t2)) -> plain_upper U2 ->
    (forall n, In n d2 -> sentence_item n -> first_order U2 (o_letters diacritic) n = true) -> spoken U2 d2 ->
    means U1 (o_letters diacritic) d1 F1 -> means U2 (o_letters diacritic) d2 F2 ->
    prints U1 (Some t1) s -> prints U2 (Some t2) s ->
    exists name1 name2, apart name1 F1 /\ apart name2 F2 /\ shape_of name1 F1 = shape_of name2 F2.
Proof. exact first_order_read. Qed.
Print Assumptions C50_read_partial.

Theorem C50_text_partial :
  forall ip1 ip2 text1 text2 p1 p2 l1 l2 d1 d2 U t1 t2 F1 F2 s,
    reach ip1 text1 p1 -> fst (text_of ip1 p1) = Ok (Got (Some (NText l1 d1))) ->
    reach ip2 text2 p2 -> fst (text_of ip2 p2) = Ok (Got (Some (NText l2 d2))) -> plain_unicode U ->
    (forall n, In n d1 -> sentence_item n -> first_order U (o_letters diacritic) n = true) ->
    (forall n, In n d2 -> sentence_item n -> first_order U (o_letters diacritic) n = true) ->
    outcome U d1 (Ok (Some t1)) -> outcome U d2 (Ok (Some t2)) ->
    means U (o_letters diacritic) d1 F1 -> means U (o_letters diacritic) d2 F2 ->
    prints U (Some t1) s -> prints U (Some t2) s ->
    exists name1 name2, apart name1 F1 /\ apart name2 F2 /\ shape_of name1 F1 = shape_of name2 F2.
Proof. exact text_read. Qed.
Print Assumptions C50_text_partial.

(** The association of connectives is not shown: two texts with different meanings, and
    without variables, that are shown alike.  They are a case for C50 as well. *)
Theorem C50_association_refuted :
  exists text1 text2 d1 d2 t1 t2 F1 F2 s,
    parses text1 d1 /\ outcome ascii_unicode d1 (Ok (Some t1)) /\
    (forall n, In n d1 -> sentence_item n -> first_order ascii_unicode (o_letters diacritic) n = true) /\ spoken ascii_unicode d1 /\
    parses text2 d2 /\ outcome ascii_unicode d2 (Ok (Some t2)) /\
    (forall n, In n d2 -> sentence_item n -> first_order ascii_unicode (o_letters diacritic) n = true) /\ spoken ascii_unicode d2 /\
    means ascii_unicode (o_letters diacritic) d1 F1 /\ means ascii_unicode (o_letters diacritic) d2 F2 /\
    prints ascii_unicode (Some t1) s /\ prints ascii_unicode (Some t2) s /\
    variables F1 = [] /\ variables F2 = [] /\ F1 <> F2.
Proof. exact associates. Qed.
Print Assumptions C50_association_refuted.
