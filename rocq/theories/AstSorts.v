(** The categories of AST nodes: which node types may stand in which field.

    ast.go gives many fields the type Node, or an interface that several types
    implement; the comments and the names of the types say what belongs there.
    [sorted] is that reading, as a check of a whole tree. *)

From Coq Require Import String List Bool.
From Verif Require Import Base PegSyntax Ast.
Import ListNotations.

(** The node types of ast.go. *)
Inductive shape : Type :=
  | SText | SDiscourse | SSentence | SPrenex | SPrenexStmt | SPredication | SPrefixed
  | SSerial | SWordPredicate | SMi | SPo | SMo | SLinked | STerms | SPredArg | SPredRel
  | SAdverb | SPrep | SPredContent | SParen | SIncidental | SVocative | SInterjection
  | SSpace | SCoP (k : copkind) | SLU (k : lukind) | SWord.

Definition shape_of (n : node) : shape :=
  match n with
  | NText _ _ => SText | NDiscourse _ => SDiscourse | NSentence _ _ _ => SSentence
  | NPrenex _ _ => SPrenex | NPrenexStmt _ _ => SPrenexStmt
  | NPredication _ _ _ => SPredication | NPrefixed _ _ => SPrefixed
  | NSerial _ _ => SSerial | NWordPredicate _ => SWordPredicate | NMi _ _ _ => SMi
  | NPo _ _ _ => SPo | NMo _ _ _ => SMo | NLinked _ _ => SLinked | NTerms _ => STerms
  | NPredArg _ _ _ _ => SPredArg | NPredRel _ => SPredRel | NAdverb _ => SAdverb
  | NPrep _ _ => SPrep | NPredContent _ => SPredContent | NParen _ _ _ => SParen
  | NIncidental _ _ => SIncidental | NVocative _ _ => SVocative
  | NInterjection _ => SInterjection | NSpace _ => SSpace
  | NCoP k _ _ _ _ _ => SCoP k | NLU k _ _ => SLU k | NWord _ => SWord
  end.

Definition shape_eq_dec (a b : shape) : {a = b} + {a <> b}.
Proof. decide equality; decide equality. Defined.

Definition among (l : list shape) (n : node) : bool :=
  existsb (fun s => if shape_eq_dec s (shape_of n) then true else false) l.

(** The types that implement each interface, ast.go:66 (Sentence), 132 (Statement), 189
    (Predicate), 321 (Term), 382 (Argument), 441 (Relative), 481 (Adverb), 519
    (Preposition), 559 (Content), 604 (Mod), 238 (Phrase), 106 (Fragment).  Space
    implements Fragment too, but white space is not a fragment (toaq.peggy:32). *)
Definition sentences := [SSentence; SCoP CSentence].
Definition statements := [SPrenexStmt; SPredication; SCoP CStatement].
Definition contents := [SPredContent; SLU LContent; SCoP CContent].
Definition predicates :=
  [SPrefixed; SSerial; SWordPredicate; SMi; SPo; SMo; SLU LPredicate; SCoP CPredicate] ++ contents.
Definition arguments := [SPredArg; SCoP CArgument].
Definition relatives := [SPredRel; SLU LRelative; SCoP CRelative].
Definition adverbs := [SAdverb; SCoP CAdverb].
Definition prepositions := [SPrep; SCoP CPreposition].
Definition terms_ := arguments ++ adverbs ++ prepositions ++ [SLinked; SCoP CTermSet].
Definition mods := [SParen; SIncidental; SVocative; SInterjection; SSpace].
Definition phrases := predicates ++ arguments ++ adverbs ++ prepositions.
Definition freemods := [SParen; SIncidental; SVocative; SInterjection].
Definition fragments := [SPrenex; STerms] ++ relatives ++ freemods.
Definition items := sentences ++ fragments.

(** The operands of each kind of connective phrase.  [own k]: those of the phrase's own
    category, as the names promise. *)
Definition own (k : copkind) : list shape :=
  match k with
  | CRaw => []
  | CSentence => sentences | CStatement => statements | CPredicate => predicates
  | CTermSet => [STerms] | CArgument => arguments | CRelative => relatives
  | CAdverb => adverbs | CPreposition => prepositions | CContent => contents
  end.

Definition same_opt {A B} (a : option A) (b : option B) : bool :=
  match a, b with None, None | Some _, Some _ => true | _, _ => false end.

Definition is_some {A} (o : option A) : bool := match o with None => false | Some _ => true end.
Definition nonempty {A} (l : list A) : bool := match l with [] => false | _ => true end.

Section OnOpt.
Context {A : Type} (f : A -> bool).
Definition on_opt (o : option A) : bool := match o with None => true | Some x => f x end.
End OnOpt.

Section Sorted.

(** The shapes allowed as the left operand of a connective phrase, which may have TO words,
    and as its right operand. *)
Variable lefts : copkind -> bool -> list shape.
Variable rights : copkind -> list shape.

(** A whole tree holds in every field a node of the right category.  Discourses and
    term lists inside other nodes are not empty; a connective phrase has both TO words
    or neither; no untyped CoP, LUPhrase or Word is a node of its own. *)
Fixpoint sorted (n : node) : bool :=
  let is (l : list shape) (x : node) := among l x && sorted x in
  match n with
  | NText ld d => on_opt (fun x => among mods x && sorted x) ld && forallb (fun x => among items x && sorted x) d
  | NDiscourse d => nonempty d && forallb (fun x => among items x && sorted x) d
  | NSentence je st da => on_opt sorted_word je && is statements st && on_opt sorted_word da
  | NPrenex ts bi => nonempty ts && forallb (fun x => among terms_ x && sorted x) ts && sorted_word bi
  | NPrenexStmt p st => is [SPrenex] p && is statements st
  | NPredication p ts na =>
      is predicates p &&
      on_opt (fun l => nonempty l && forallb (fun x => among terms_ x && sorted x) l) ts &&
      on_opt sorted_word na
  | NPrefixed mu p => sorted_word mu && is predicates p
  | NSerial l r => is predicates l && is predicates r
  | NWordPredicate w => sorted_word w
  | NMi mi ga p => sorted_word mi && on_opt sorted_word ga && is phrases p
  | NPo po ga a => sorted_word po && on_opt sorted_word ga && is arguments a
  | NMo mo teo d =>
      sorted_word mo && sorted_word teo && nonempty d && forallb (fun x => among items x && sorted x) d
  | NLinked go a => sorted_word go && is arguments a
  | NTerms ts => nonempty ts && forallb (fun x => among terms_ x && sorted x) ts
  | NPredArg f q p rel =>
      on_opt sorted_word f && on_opt sorted_word q && is predicates p &&
      on_opt (fun x => among relatives x && sorted x) rel
  | NPredRel p => is [SPredication] p
  | NAdverb p => is predicates p
  | NPrep p a => is predicates p && is arguments a
  | NPredContent p => is [SPredication] p
  | NParen kio ki d =>
      sorted_word kio && sorted_word ki && nonempty d && forallb (fun x => among items x && sorted x) d
  | NIncidental ju st => sorted_word ju && is statements st
  | NVocative hu a => sorted_word hu && is arguments a
  | NInterjection w => sorted_word w
  | NSpace w => sorted_word w
  | NCoP k to0 to1 ru l r =>
      on_opt sorted_word to0 && on_opt sorted_word to1 && same_opt to0 to1 && sorted_word ru &&
      is (lefts k (is_some to0)) l && is (rights k) r
  | NLU k lu st =>
      match k with LRaw => false | _ => true end && sorted_word lu && is statements st
  | NWord _ => false
  end
with sorted_word (w : word) : bool :=
  match w with
  | Wd t s e m => on_opt (fun x => among mods x && sorted x) m
  end.

End Sorted.

(** The operands that the grammar actually produces: beside those of its own category a
    CoPPredicate with TO words may have a PredicateArgument as Left (toaq.peggy:146,
    forethought_cop_pred<arg_5>), a CoPRelative may and a CoPContent always does have a
    statement as Right (toaq.peggy:166, 244). *)
Definition real_left (k : copkind) (to : bool) : list shape :=
  match k, to with CPredicate, true => predicates ++ [SPredArg] | _, _ => own k end.
Definition real_right (k : copkind) : list shape :=
  match k with
  | CRelative => relatives ++ statements
  | CContent => contents ++ statements
  | _ => own k
  end.

Definition well_sorted : node -> bool := sorted (fun k _ => own k) own.
Definition nearly_sorted : node -> bool := sorted real_left real_right.
