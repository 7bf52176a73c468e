(** A class of sentences with clauses whose variables are in scope and whose simplification
    says the same. *)

From Coq Require Import String NArith List Bool Arith.
From Verif Require Import Base PegSyntax Ast AstSorts Logic LogicWords LogicSpec ScopeSpec Meaning Clauses.
Import ListNotations.
Open Scope string_scope.
Open Scope list_scope.
Open Scope nat_scope.

Section Orderly.
Variable U : unicode.
Variable ol : list (N * N).

(** A word that is a predicate of its own, not a variable and not hoa; "=" is not a word. *)
Definition name_word (w : word) : bool :=
  match is_variable U ol (NWordPredicate w) with
  | Some _ => false
  | None => negb (is_hoa U (NWordPredicate w)) && negb (String.eqb (word_pred U (w_t w)) "=")
  end.
Fixpoint worded (n : node) : bool :=
  match n with
  | NWordPredicate w => name_word w
  | NSerial l r => worded l && worded r
  | NCoP CPredicate _ _ _ l r => worded l && worded r
  | _ => false
  end.

(** Statements that say of something that it has a property, or join such statements: their
    predicates, also those of prepositions and adverbs, are words. *)
Definition calm_term (n : node) : bool :=
  match n with NPrep p _ | NAdverb p => no_abstraction p | _ => true end.
Fixpoint calm_statement (n : node) : bool :=
  match n with
  | NPrenexStmt (NPrenex ts _) st => forallb calm_term ts && calm_statement st
  | NPredication p ts _ => no_abstraction p && match ts with None => true | Some l => forallb calm_term l end
  | NCoP CStatement _ _ _ _ _ => true
  | _ => false
  end.

(** Like [covered], and:
    - hoa is not a predicate, variables and hoa are not part of serial predicates;
    - no roi, and neither ke nor ja before a variable;
    - the relative clause of a definite description is first-order (ScopeSpec.v);
    - what lu introduces is a calm statement;
    - if [links], arguments may have linking words, but then the predicates of statements are
      words, serial predicates and connections of these. *)
Variable links : bool.
Fixpoint orderly (n : node) : bool :=
  match n with
  | NSentence _ st _ => orderly st
  | NPrenex ts _ | NTerms ts => forallb orderly ts
  | NPrenexStmt p st => orderly p && orderly st
  | NPredication p ts _ =>
      (negb links || no_abstraction p) && orderly p && match ts with None => true | Some l => forallb orderly l end
  | NSerial l r => worded l && worded r
  | NWordPredicate w => match is_variable U ol (NWordPredicate w) with Some _ => true | None => name_word w end
  | NMi mi _ _ => negb (has_text U mi "mi")
  | NMo _ _ _ => true
  | NPo _ _ a => orderly a
  | NPredContent p => orderly p
  | NLU k _ st => match k with LPredicate => calm_statement st | _ => true end && orderly st
  | NLinked _ a => links && orderly a
  | NPrep p a => orderly p && orderly a
  | NAdverb p => orderly p
  | NPredArg _ q p rel =>
      match is_variable U ol p with
      | Some _ => match q with None => true | Some w => negb (has_text U w "ke") && negb (has_text U w "ja") end
      | None =>
          if is_hoa U p then true
          else match q with None => true | Some w => negb (has_text U w "hi") end && orderly p &&
               match quantifies_as U q, rel with Some QThe, Some r => first_order U ol r | _, _ => true end
      end &&
      match rel with None => true | Some x => orderly x end
  | NPredRel p => orderly p
  | NCoP k _ _ ru l r =>
      negb (match k with CArgument => has_text U ru "roi" | _ => false end) && orderly l && orderly r
  | _ => false
  end.
End Orderly.
Definition well_ordered (U : unicode) (ol : list (N * N)) (n : node) : bool := orderly U ol true n || orderly U ol false n.
