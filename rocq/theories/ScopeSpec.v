(** A class of sentences. *)

From Coq Require Import String NArith List Bool.
From Verif Require Import Base PegSyntax Ast Logic LogicWords.
Open Scope string_scope.
Open Scope list_scope.

(** Sentences made of words, serial predicates, arguments with or without a quantifier,
    variables, hoa as an argument, relative clauses, prenexes and connectives: no clauses,
    quotations or other arguments inside predicates, no prepositions and no adverbs.  Not
    hi, except before a variable, not ke before a variable, and not roi.  [ol] are the
    letters with their tones, as in [is_variable]. *)
Fixpoint first_order (U : unicode) (ol : list (N * N)) (n : node) : bool :=
  match n with
  | NSentence _ st _ => first_order U ol st
  | NPrenex ts _ | NTerms ts => forallb (first_order U ol) ts
  | NPrenexStmt p st => first_order U ol p && first_order U ol st
  | NPredication p ts _ =>
      first_order U ol p && match ts with None => true | Some l => forallb (first_order U ol) l end
  | NSerial l r => first_order U ol l && first_order U ol r
  | NWordPredicate _ => match is_variable U ol n with Some _ => true | None => negb (is_hoa U n) end
  | NLinked _ a => first_order U ol a
  | NPredArg _ q p rel =>
      match is_variable U ol p with
      | Some _ => match q with None => true | Some w => negb (has_text U w "ke") end
      | None =>
          if is_hoa U p then true
          else match q with None => true | Some w => negb (has_text U w "hi") end && first_order U ol p
      end &&
      match rel with None => true | Some x => first_order U ol x end
  | NPredRel p => first_order U ol p
  | NCoP k _ _ ru l r =>
      match k with
      | CSentence | CStatement | CPredicate | CTermSet | CRelative => true
      | CArgument => negb (has_text U ru "roi")
      | _ => false
      end && first_order U ol l && first_order U ol r
  | NLU LRelative _ st => first_order U ol st
  | _ => false
  end.

(** A Variable without a definition, and a Binding. *)
Definition unbound (h : heap) (r : ref) : bool :=
  match nth_error h r with Some (CVariable _ None _) => true | _ => false end.
Definition binding (h : heap) (r : ref) : bool :=
  match nth_error h r with Some (CBinding _ _ _ _ _) => true | _ => false end.
