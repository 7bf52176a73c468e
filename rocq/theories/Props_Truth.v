(** Properties of package logic: C56.  [literally U ol d G]: the discourse [d] says [G], by the
    rules of Clauses.v and before it is simplified; [equivalent F G]: [F] and [G] are true in
    the same structures (Truth.v), where "=" is identity and the one thing that is c, and all
    that is c, is c, and where other predicates, connections and quantifiers mean anything. *)

From Coq Require Import String NArith List.
From Verif Require Import Base PegSyntax Tone Ast AstSorts Parser ParserSpec AstCases Logic LogicWords LogicSpec LogicString LogicApi LogicCases ScopeSpec
  Meaning Clauses ClauseCases Truth TruthProof TruthEnd TruthCases.
Import ListNotations.
Open Scope string_scope.
Open Scope list_scope.
Open Scope nat_scope.

(** C56.  In general it is wrong: a text "J is such that it holds of P" becomes "P(P)" on
    paper; the variable of the lambda stays where it is a predicate, without its binding. *)
Theorem C56_refuted :
  exists d t G F bn name, parses "ji/ pa lu? hoa? poq/ " d /\ outcome ascii_unicode d (Ok (Some t)) /\
    prints ascii_unicode (Some t) "[ιJ : ji(J)] [ιP : poq(P)] P(P)." /\
    (forall n, In n d -> sentence_item n -> covered ascii_unicode (o_letters diacritic) n = true) /\
    literally ascii_unicode (o_letters diacritic) d G /\
    shows (snd t) bn name (fst t) F /\
    (forall x y, is_binding (snd t) x = true -> is_binding (snd t) y = true -> bn x = bn y -> x = y) /\
    (forall x y, unbound (snd t) x = true -> unbound (snd t) y = true -> name x = name y -> x = y) /\
    conveys ascii_unicode (o_letters diacritic) d F /\ ~ equivalent F G.
Proof. exact predicate_wrong. Qed.
Print Assumptions C56_refuted.

(** Another reason: a restriction that comes to "x = c" for a variable x other than the one
    it restricts makes x a c everywhere, and its own binding goes. *)
Theorem C56_restriction_refuted :
  exists d t G F bn name, parses "sa do/ bi mai? do/ lu/ jei? shu/ toa? ga do/ " d /\ outcome ascii_unicode d (Ok (Some t)) /\
    prints ascii_unicode (Some t) "∃X0 mai(‹tỏa›, X1)" /\
    (forall n, In n d -> sentence_item n -> covered ascii_unicode (o_letters diacritic) n = true) /\
    literally ascii_unicode (o_letters diacritic) d G /\
    shows (snd t) bn name (fst t) F /\
    (forall x y, is_binding (snd t) x = true -> is_binding (snd t) y = true -> bn x = bn y -> x = y) /\
    (forall x y, unbound (snd t) x = true -> unbound (snd t) y = true -> name x = name y -> x = y) /\
    conveys ascii_unicode (o_letters diacritic) d F /\ ~ equivalent F G.
Proof. exact other_wrong. Qed.
Print Assumptions C56_restriction_refuted.

(** Where none of this happens ([tame]) and variables occur only in the scope of what binds
    them, Interpret returns a formula that says the same.  No two bindings ever bind the same
    variable. *)
Theorem C56_partial :
  forall U d r h, outcome U d (Ok (Some (r, h))) ->
    (forall n, In n d -> sentence_item n -> covered U (o_letters diacritic) n = true) ->
    exists G F bn name, literally U (o_letters diacritic) d G /\ shows h bn name r F /\
      (forall x y, is_binding h x = true -> is_binding h y = true -> bn x = bn y -> x = y) /\
      (forall x y, unbound h x = true -> unbound h y = true -> name x = name y -> x = y) /\
      distinct (binders G) = true /\
      (tame G = true -> apart (loose G) (binders G) = true -> equivalent F G).
Proof. exact truth_kept. Qed.
Print Assumptions C56_partial.

(** What a discourse says literally is unique. *)
Theorem C56_unique :
  forall U ol d G G', literally U ol d G -> literally U ol d G' -> G = G'.
Proof. exact literally_one. Qed.
Print Assumptions C56_unique.

Example C56_case :
  exists d t G, parses "tu do/ ne\ do/ bi kuq? ji/ fa^ do/" d /\ outcome ascii_unicode d (Ok (Some t)) /\
    prints ascii_unicode (Some t) "[ιJ : ji(J)] ∀X ne({kuq(J, {fa(X)})}, X)." /\
    (forall n, In n d -> sentence_item n -> covered ascii_unicode (o_letters diacritic) n = true) /\
    literally ascii_unicode (o_letters diacritic) d G /\ tame G = true /\ apart (loose G) (binders G) = true /\
    conveys ascii_unicode (o_letters diacritic) d meant /\ meant <> G.
Proof. exact right_case. Qed.
