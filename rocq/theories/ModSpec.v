(** Vocabulary for what attaching a modifier changes. *)

From Coq Require Import String List.
From Verif Require Import Base PegSyntax Ast VisitSpec.
Import ListNotations.

(** A tree without any modifiers of words. *)
Definition bare_word (w : word) : word := Wd (w_t w) (w_s w) (w_e w) None.

Fixpoint bare (n : node) : node :=
  match n with
  | NText ld d => NText (option_map bare ld) (map bare d)
  | NDiscourse d => NDiscourse (map bare d)
  | NSentence je st da => NSentence (option_map bare_word je) (bare st) (option_map bare_word da)
  | NPrenex ts bi => NPrenex (map bare ts) (bare_word bi)
  | NPrenexStmt p st => NPrenexStmt (bare p) (bare st)
  | NPredication p ts na => NPredication (bare p) (option_map (map bare) ts) (option_map bare_word na)
  | NPrefixed mu p => NPrefixed (bare_word mu) (bare p)
  | NSerial l r => NSerial (bare l) (bare r)
  | NWordPredicate w => NWordPredicate (bare_word w)
  | NMi mi ga p => NMi (bare_word mi) (option_map bare_word ga) (bare p)
  | NPo po ga a => NPo (bare_word po) (option_map bare_word ga) (bare a)
  | NMo mo teo d => NMo (bare_word mo) (bare_word teo) (map bare d)
  | NLinked go a => NLinked (bare_word go) (bare a)
  | NTerms ts => NTerms (map bare ts)
  | NPredArg f q p rel => NPredArg (option_map bare_word f) (option_map bare_word q) (bare p) (option_map bare rel)
  | NPredRel p => NPredRel (bare p)
  | NAdverb p => NAdverb (bare p)
  | NPrep p a => NPrep (bare p) (bare a)
  | NPredContent p => NPredContent (bare p)
  | NParen kio ki d => NParen (bare_word kio) (bare_word ki) (map bare d)
  | NIncidental ju st => NIncidental (bare_word ju) (bare st)
  | NVocative hu a => NVocative (bare_word hu) (bare a)
  | NInterjection w => NInterjection (bare_word w)
  | NSpace w => NSpace (bare_word w)
  | NCoP k to0 to1 ru l r =>
      NCoP k (option_map bare_word to0) (option_map bare_word to1) (bare_word ru) (bare l) (bare r)
  | NLU k lu st => NLU k (bare_word lu) (bare st)
  | NWord w => NWord (bare_word w)
  end.

(** Tokens of the closing words of parentheticals of a tree. *)
Definition closing (n : node) (l : list token) : Prop :=
  Forall (fun t => exists kio ki d, below (NParen kio ki d) n /\ In t (wtoks ki)) l.

(** [grafted m n n']: [n'] has the words of [n] in the same order, and those of [m]
    together at one place after which there are only closing words of parentheticals. *)
Definition grafted (m n n' : node) : Prop :=
  exists l1 l2, toks n = l1 ++ l2 /\ toks n' = l1 ++ toks m ++ l2 /\ closing n l2.
