(** Properties of package logic: C55.  [conveys U ol d F] gives the meaning [F] of a discourse
    from its syntax, with content clauses, properties, prepositional phrases, adverbs, roi and
    quotes, and simplified (Clauses.v); [shows h bn name r F] says that the tree at [r] is the
    formula [F], whatever the numbers of its variables. *)

From Coq Require Import String NArith List.
From Verif Require Import Base PegSyntax Tone Ast AstSorts Parser ParserSpec AstCases Logic LogicWords LogicSpec LogicString LogicApi LogicCases ScopeSpec
  Meaning Clauses ClauseOne ClauseEnd ClauseCases.
Import ListNotations.
Open Scope string_scope.
Open Scope list_scope.
Open Scope nat_scope.

(** C55.  Of sentences that are [covered]: missing are hi before a predicate, mi, and
    anything but words in serial predicates.  [bn] and [name] name the bindings and the
    variables without a binding; two of them never have the same name. *)
Theorem C55_meaning_partial :
  forall U d r h, outcome U d (Ok (Some (r, h))) ->
    (forall n, In n d -> sentence_item n -> covered U (o_letters diacritic) n = true) ->
    exists F bn name, conveys U (o_letters diacritic) d F /\ shows h bn name r F /\
      (forall x y, is_binding h x = true -> is_binding h y = true -> bn x = bn y -> x = y) /\
      (forall x y, unbound h x = true -> unbound h y = true -> name x = name y -> x = y).
Proof. exact clauses_mean. Qed.
Print Assumptions C55_meaning_partial.

(** The meaning is unique. *)
Theorem C55_unique :
  forall U ol d F F', conveys U ol d F -> conveys U ol d F' -> F = F'.
Proof. exact conveys_one. Qed.
Print Assumptions C55_unique.

Example C55_case :
  exists d t, parses "tu do/ ne\ do/ bi kuq? ji/ fa^ do/" d /\ outcome ascii_unicode d (Ok (Some t)) /\
    prints ascii_unicode (Some t) "[ιJ : ji(J)] ∀X ne({kuq(J, {fa(X)})}, X)." /\
    (forall n, In n d -> sentence_item n -> covered ascii_unicode (o_letters diacritic) n = true) /\
    conveys ascii_unicode (o_letters diacritic) d
      (Limits QThe 1 false (Says (Simple (Named "ji")) (Item (Var (Bound 1 false)) Nil))
        (Binds QEach 0 false
          (Says (Simple (Named "ne"))
            (Item (That (Says (Simple (Named "kuq"))
                     (Item (Var (Bound 1 false))
                       (Item (That (Says (Simple (Named "fa")) (Item (Var (Bound 0 false)) Nil))) Nil))))
              (Item (Var (Bound 0 false)) Nil))))).
Proof. exact clauses_case. Qed.
