(** What the place of a word in the tree says about its tone, and which lists of terms a
    term set connects.  For C60 and C61; independent of the grammar and of the parser. *)

From Coq Require Import String NArith List.
From Verif Require Import Base Utf8 PegSyntax Tone Ast.
Import ListNotations.
Open Scope string_scope.
Open Scope list_scope.

(** The tones of the roles, by the names that tone.Tone returns (tone.go:9-33). *)
Definition verb_t : N := rune_of "?".           (* predicates of statements *)
Definition arg_t : N := rune_of "/".            (* arguments *)
Definition relative_t : N := rune_of "V".       (* relative clauses *)
Definition content_t : N := rune_of "^".        (* content clauses *)
Definition prep_t : N := rune_of "\".           (* prepositions *)
Definition adverb_t : N := rune_of "~".         (* adverbs *)

(** What is claimed of the parts of a tree: the text of a word has one of these tones; a
    term set connects lists of these lengths (0 for anything that is not a list of terms). *)
Inductive claim : Type :=
  | Said (tones : list N) (text : string)
  | Lengths (left right : nat).

Definition n_terms (n : node) : nat := match n with NTerms l => length l | _ => 0 end.

(** The tones of the right operand of two connected predicates: the verb tone, between
    prepositions also that of prepositions. *)
Definition right_role (r : list N) : list N :=
  if existsb (N.eqb prep_t) r then [verb_t; prep_t] else [verb_t].

(** The claims about the tree [n], [r] being the tones of the role it has.  Only predicates,
    and predications for the sake of their predicate, have a role; of a predicate it is the
    first word (after to) whose tone shows it: the predicates that follow in a serial
    predicate, and the right operands of connectives, have the tone of a verb.  Function
    words have no tone, except lu, mi, po and mo, which have that of their phrase. *)
Fixpoint claims (r : list N) (n : node) : list claim :=
  let m (w : word) := match w with Wd _ _ _ (Some m) => claims [verb_t] m | _ => [] end in
  let f (ts : list N) (w : word) := Said ts (w_t w) :: m w in
  let z (w : word) := f [no_tone] w in
  let o (w : option word) := match w with Some w => z w | None => [] end in
  let all (d : list node) := flat_map (claims [verb_t]) d in
  match n with
  | NText ld d => match ld with Some x => claims [verb_t] x | None => [] end ++ all d
  | NDiscourse d | NTerms d => all d
  | NSentence je st da => o je ++ claims [verb_t] st ++ o da
  | NPrenex ts bi => all ts ++ z bi
  | NPrenexStmt p st => claims [verb_t] p ++ claims [verb_t] st
  | NPredication p ts na => claims r p ++ match ts with Some l => all l | None => [] end ++ o na
  | NPrefixed mu p => z mu ++ claims r p
  | NSerial a b => claims r a ++ claims [verb_t] b
  | NWordPredicate w => f r w
  | NMi mi ga p => f r mi ++ claims [verb_t] p ++ o ga
  | NPo po ga a => f r po ++ claims [verb_t] a ++ o ga
  | NMo mo teo d => f r mo ++ all d ++ z teo
  | NLinked go a => z go ++ claims [verb_t] a
  | NPredArg fo q p rel => o fo ++ o q ++ claims [arg_t] p ++ match rel with Some x => claims [verb_t] x | None => [] end
  | NPredRel p => claims [relative_t] p
  | NAdverb p => claims [adverb_t] p
  | NPrep p a => claims [prep_t] p ++ claims [verb_t] a
  | NPredContent p => claims [content_t] p
  | NParen kio ki d => z kio ++ all d ++ z ki
  | NIncidental ju st => z ju ++ claims [verb_t] st
  | NVocative hu a => z hu ++ claims [verb_t] a
  | NInterjection w => z w
  | NSpace w | NWord w => m w
  | NCoP CPredicate to0 to1 ru a b => o to0 ++ z ru ++ claims r a ++ o to1 ++ claims (right_role r) b
  | NCoP CTermSet to0 to1 ru a b =>
      Lengths (n_terms a) (n_terms b) :: o to0 ++ z ru ++ claims [verb_t] a ++ o to1 ++ claims [verb_t] b
  | NCoP _ to0 to1 ru a b => o to0 ++ z ru ++ claims [verb_t] a ++ o to1 ++ claims [verb_t] b
  | NLU k lu st =>
      f match k with LRelative => [relative_t] | LContent => [content_t] | _ => r end lu ++ claims [verb_t] st
  end.

(** The claims hold. *)
Definition claim_holds (c : claim) : Prop :=
  match c with
  | Said ts s => In (tone s) ts
  | Lengths a b => a = b /\ (2 <= a <= 5)%nat
  end.
