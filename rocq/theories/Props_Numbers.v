(** Properties C36 and C37 of sentences with clauses.  [introduced F] are the variables that a
    formula introduces, in order, and [mentions F] the bound ones that it mentions
    (Introduced.v); [conveys] and [covered] are those of C55. *)

From Coq Require Import String NArith List.
From Verif Require Import Base PegSyntax Tone Ast Parser ParserSpec Logic LogicWords LogicSpec LogicString LogicApi LogicCases AstCases ScopeSpec
  Meaning Clauses ClauseNotation ClauseWritten Orderly Introduced ClauseNum.
Import LogicSpec LogicApi.
Import ListNotations.
Open Scope string_scope.
Open Scope list_scope.
Open Scope nat_scope.

(** C36.  True of every tree whose variables are in scope (C35) and that shares no node that
    introduces a variable. *)
Theorem C36_scoped_partial :
  forall U d t l, outcome U d (Ok (Some t)) -> scoped t -> nodes t l -> NoDup (filter (introduces (snd t)) l) ->
    (forall k x, nth_error (filter (introduces (snd t)) l) k = Some x -> number (snd t) x = Some k) /\
    (forall x b, In x l -> refers (snd t) x b ->
       In b (filter (introduces (snd t)) l) /\ number (snd t) x = number (snd t) b).
Proof. exact scoped_numbers. Qed.
Print Assumptions C36_scoped_partial.

(** Covered sentences whose meaning introduces no variable twice and has none outside of what
    binds it. *)
Theorem C36_covered_partial :
  forall U d t F, outcome U d (Ok (Some t)) ->
    (forall n, In n d -> sentence_item n -> covered U (o_letters diacritic) n = true) ->
    conveys U (o_letters diacritic) d F -> stray F = [] -> NoDup (introduced F) ->
    exists l, nodes t l /\
      length (filter (introduces (snd t)) l) = length (introduced F) /\
      (forall k x, nth_error (filter (introduces (snd t)) l) k = Some x -> number (snd t) x = Some k) /\
      (forall x b, In x l -> refers (snd t) x b ->
         In b (filter (introduces (snd t)) l) /\ number (snd t) x = number (snd t) b).
Proof. exact covered_sequence. Qed.
Print Assumptions C36_covered_partial.

(** Well-ordered sentences (Orderly.v) have no variable outside of what binds it. *)
Theorem C36_orderly_partial :
  forall U d t F, outcome U d (Ok (Some t)) ->
    (forall n, In n d -> sentence_item n -> well_ordered U (o_letters diacritic) n = true) ->
    conveys U (o_letters diacritic) d F -> NoDup (introduced F) ->
    exists l, nodes t l /\
      length (filter (introduces (snd t)) l) = length (introduced F) /\
      (forall k x, nth_error (filter (introduces (snd t)) l) k = Some x -> number (snd t) x = Some k) /\
      (forall x b, In x l -> refers (snd t) x b ->
         In b (filter (introduces (snd t)) l) /\ number (snd t) x = number (snd t) b).
Proof. exact orderly_sequence. Qed.
Print Assumptions C36_orderly_partial.

(** C37.  String ends with a period if moreover every variable is used. *)
Theorem C37_covered_partial :
  forall U d t F s, outcome U d (Ok (Some t)) ->
    (forall n, In n d -> sentence_item n -> covered U (o_letters diacritic) n = true) ->
    conveys U (o_letters diacritic) d F -> stray F = [] -> NoDup (introduced F) ->
    (forall x, In (Binder x) (introduced F) -> In x (mentions F)) ->
    prints U (Some t) s -> exists body, s = (body ++ ".")%string.
Proof. exact covered_ends. Qed.
Print Assumptions C37_covered_partial.

Theorem C37_orderly_partial :
  forall U d t F s, outcome U d (Ok (Some t)) ->
    (forall n, In n d -> sentence_item n -> well_ordered U (o_letters diacritic) n = true) ->
    conveys U (o_letters diacritic) d F -> NoDup (introduced F) ->
    (forall x, In (Binder x) (introduced F) -> In x (mentions F)) ->
    prints U (Some t) s -> exists body, s = (body ++ ".")%string.
Proof. exact orderly_ends. Qed.
Print Assumptions C37_orderly_partial.

Example C36_covered_case : exists d t, parses written_text d /\ outcome ascii_unicode d (Ok (Some t)) /\
  prints ascii_unicode (Some t) (written_output ++ ".") /\
  (forall n, In n d -> sentence_item n -> covered ascii_unicode (o_letters diacritic) n = true) /\
  conveys ascii_unicode (o_letters diacritic) d written_meaning /\ stray written_meaning = [] /\
  introduced written_meaning = [Binder 1; Binder 5; Binder 6] /\ mentions written_meaning = [1; 5; 6; 1; 5; 6].
Proof. exact numbers_case. Qed.

(** A meaning that introduces a variable twice: a clause that an abstraction uses twice.  The
    sentence is well ordered and its variables are in scope, and the period is missing. *)
Theorem C37_shared_refuted :
  exists d t s, parses shared_text d /\ outcome ascii_unicode d (Ok (Some t)) /\ prints ascii_unicode (Some t) s /\
    (forall n, In n d -> sentence_item n -> well_ordered ascii_unicode (o_letters diacritic) n = true) /\ scoped t /\
    forall body, s <> (body ++ ".")%string.
Proof. exact shared_period. Qed.
Print Assumptions C37_shared_refuted.
