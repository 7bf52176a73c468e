(** When two trees are the same except for the positions of words. *)

From Coq Require Import String List.
From Verif Require Import Base PegSyntax Ast VisitSpec.
Import ListNotations.

(** A tree with every S and E set to 0. *)
Fixpoint blank (n : node) : node :=
  match n with
  | NText ld d => NText (option_map blank ld) (map blank d)
  | NDiscourse d => NDiscourse (map blank d)
  | NSentence je st da => NSentence (option_map blank_word je) (blank st) (option_map blank_word da)
  | NPrenex ts bi => NPrenex (map blank ts) (blank_word bi)
  | NPrenexStmt p st => NPrenexStmt (blank p) (blank st)
  | NPredication p ts na => NPredication (blank p) (option_map (map blank) ts) (option_map blank_word na)
  | NPrefixed mu p => NPrefixed (blank_word mu) (blank p)
  | NSerial l r => NSerial (blank l) (blank r)
  | NWordPredicate w => NWordPredicate (blank_word w)
  | NMi mi ga p => NMi (blank_word mi) (option_map blank_word ga) (blank p)
  | NPo po ga a => NPo (blank_word po) (option_map blank_word ga) (blank a)
  | NMo mo teo d => NMo (blank_word mo) (blank_word teo) (map blank d)
  | NLinked go a => NLinked (blank_word go) (blank a)
  | NTerms ts => NTerms (map blank ts)
  | NPredArg f q p rel =>
      NPredArg (option_map blank_word f) (option_map blank_word q) (blank p) (option_map blank rel)
  | NPredRel p => NPredRel (blank p)
  | NAdverb p => NAdverb (blank p)
  | NPrep p a => NPrep (blank p) (blank a)
  | NPredContent p => NPredContent (blank p)
  | NParen kio ki d => NParen (blank_word kio) (blank_word ki) (map blank d)
  | NIncidental ju st => NIncidental (blank_word ju) (blank st)
  | NVocative hu a => NVocative (blank_word hu) (blank a)
  | NInterjection w => NInterjection (blank_word w)
  | NSpace w => NSpace (blank_word w)
  | NCoP k to0 to1 ru l r =>
      NCoP k (option_map blank_word to0) (option_map blank_word to1) (blank_word ru) (blank l) (blank r)
  | NLU k lu st => NLU k (blank_word lu) (blank st)
  | NWord w => NWord (blank_word w)
  end
with blank_word (w : word) : word :=
  match w with
  | Wd t _ _ m => Wd t 0 0 (option_map blank m)
  end.

Definition same_but_positions (a b : node) : Prop := blank a = blank b.

(** No CoP or LUPhrase as a node of its own, in any field of the tree. *)
Section Opt.
Context {A : Type} (f : A -> Prop).
Definition oall (o : option A) : Prop := match o with None => True | Some x => f x end.
Fixpoint lall (l : list A) : Prop := match l with [] => True | x :: l' => f x /\ lall l' end.
End Opt.

Fixpoint typed_tree (n : node) : Prop :=
  match n with
  | NText ld d => oall typed_tree ld /\ lall typed_tree d
  | NDiscourse d => lall typed_tree d
  | NSentence je st da => oall typed_word je /\ typed_tree st /\ oall typed_word da
  | NPrenex ts bi => lall typed_tree ts /\ typed_word bi
  | NPrenexStmt p st => typed_tree p /\ typed_tree st
  | NPredication p ts na => typed_tree p /\ oall (lall typed_tree) ts /\ oall typed_word na
  | NPrefixed mu p => typed_word mu /\ typed_tree p
  | NSerial l r => typed_tree l /\ typed_tree r
  | NWordPredicate w => typed_word w
  | NMi mi ga p => typed_word mi /\ oall typed_word ga /\ typed_tree p
  | NPo po ga a => typed_word po /\ oall typed_word ga /\ typed_tree a
  | NMo mo teo d => typed_word mo /\ typed_word teo /\ lall typed_tree d
  | NLinked go a => typed_word go /\ typed_tree a
  | NTerms ts => lall typed_tree ts
  | NPredArg f q p rel => oall typed_word f /\ oall typed_word q /\ typed_tree p /\ oall typed_tree rel
  | NPredRel p => typed_tree p
  | NAdverb p => typed_tree p
  | NPrep p a => typed_tree p /\ typed_tree a
  | NPredContent p => typed_tree p
  | NParen kio ki d => typed_word kio /\ typed_word ki /\ lall typed_tree d
  | NIncidental ju st => typed_word ju /\ typed_tree st
  | NVocative hu a => typed_word hu /\ typed_tree a
  | NInterjection w => typed_word w
  | NSpace w => typed_word w
  | NCoP k to0 to1 ru l r =>
      k <> CRaw /\ oall typed_word to0 /\ oall typed_word to1 /\ typed_word ru /\ typed_tree l /\ typed_tree r
  | NLU k lu st => k <> LRaw /\ typed_word lu /\ typed_tree st
  | NWord w => typed_word w
  end
with typed_word (w : word) : Prop :=
  match w with
  | Wd _ _ _ m => oall typed_tree m
  end.
