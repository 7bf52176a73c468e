(** Properties of package logic: C48.  [means U ol d F] gives the meaning [F] of a discourse
    from its syntax (Meaning.v); [reads h name env r F] says that the tree at [r] is the
    formula [F], whatever the numbers of its variables. *)

From Coq Require Import String NArith List.
From Verif Require Import Base PegSyntax Tone Ast AstSorts Parser ParserSpec AstCases Logic LogicWords LogicSpec LogicString LogicApi LogicCases ScopeSpec
  Meaning MeaningOne MeaningApi MeaningText MeaningCases.
Import ListNotations.
Open Scope string_scope.
Open Scope list_scope.
Open Scope nat_scope.

(** C48.  Of first-order sentences (ScopeSpec.v).  Variables without a binding are the same
    node if they are the same variable. *)
Theorem C48_meaning_partial :
  forall U d r h, outcome U d (Ok (Some (r, h))) ->
    (forall n, In n d -> sentence_item n -> first_order U (o_letters diacritic) n = true) ->
    exists F name, means U (o_letters diacritic) d F /\ reads h name [] r F /\
      forall x y, unbound h x = true -> unbound h y = true -> name x = name y -> x = y.
Proof. exact first_order_means. Qed.
Print Assumptions C48_meaning_partial.

(** The meaning is unique. *)
Theorem C48_unique :
  forall U ol d F F', means U ol d F -> means U ol d F' -> F = F'.
Proof. exact means_one. Qed.
Print Assumptions C48_unique.

(** Every text of such sentences, if supported (C30), has a meaning and Interpret returns it. *)
Theorem C48_text_partial :
  forall is_punct text p lead d U, reach is_punct text p ->
    fst (text_of is_punct p) = Ok (Got (Some (NText lead d))) ->
    (forall n, In n d -> is_sentence n = true ->
       well_sorted n = true /\ supported U n = true /\ first_order U (o_letters diacritic) n = true) ->
    has_sentence d ->
    exists F, (forall F', means U (o_letters diacritic) d F' <-> F' = F) /\
      exists r h name, outcome U d (Ok (Some (r, h))) /\ reads h name [] r F /\
        forall x y, unbound h x = true -> unbound h y = true -> name x = name y -> x = y.
Proof. exact text_means. Qed.
Print Assumptions C48_text_partial.

Example C48_case :
  exists d t, parses "sa do/ bi mai? poq/ maiV hoa/ do/ na suq/" d /\ outcome ascii_unicode d (Ok (Some t)) /\
    prints ascii_unicode (Some t) "[ιS : suq(S)] ∃X [ΛP : poq(P) ∧ mai(P, X)] mai(P, S)." /\
    (forall n, In n d -> sentence_item n -> first_order ascii_unicode (o_letters diacritic) n = true) /\
    means ascii_unicode (o_letters diacritic) d
      (Quantified QThe 2 false (Some (Holds (Named "suq") [Some (Bound 2 false)]))
        (Quantified QSome 0 false None
          (Quantified QAll 1 false
            (Some (Both KAnd (Holds (Named "poq") [Some (Bound 1 false)])
                             (Holds (Named "mai") [Some (Bound 1 false); Some (Bound 0 false)])))
            (Holds (Named "mai") [Some (Bound 1 false); Some (Bound 2 false)])))).
Proof. exact meaning_case. Qed.
