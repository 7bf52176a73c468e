(** What a traversal of an AST is: the children of a node, traversals by any visitor, and
    the words of a tree in the order of a traversal. *)

From Coq Require Import String List.
From Verif Require Import Base PegSyntax Ast.
Import ListNotations.

Definition maybe (o : option node) : list node := match o with None => [] | Some n => [n] end.
Definition maybe_word (o : option word) : list node := match o with None => [] | Some w => [NWord w] end.

(** The children of a node, from left to right.  As the comment of Visit says
    (visit.go:29-31), nodes declared as CoP, LUPhrase or Word have that as a single
    child. *)
Definition kids (n : node) : list node :=
  match n with
  | NText ld d => maybe ld ++ [NDiscourse d]
  | NDiscourse d => d
  | NSentence je st da => maybe_word je ++ [st] ++ maybe_word da
  | NPrenex ts bi => [NTerms ts; NWord bi]
  | NPrenexStmt p st => [p; st]
  | NPredication p ts na => [p; NTerms (match ts with None => [] | Some l => l end)] ++ maybe_word na
  | NPrefixed mu p => [NWord mu; p]
  | NSerial l r => [l; r]
  | NWordPredicate w => [NWord w]
  | NMi mi ga p => [NWord mi; p] ++ maybe_word ga
  | NPo po ga a => [NWord po; a] ++ maybe_word ga
  | NMo mo teo d => [NWord mo; NDiscourse d; NWord teo]
  | NLinked go a => [NWord go; a]
  | NTerms ts => ts
  | NPredArg f q p rel => maybe_word f ++ maybe_word q ++ [p] ++ maybe rel
  | NPredRel p => [p]
  | NAdverb p => [p]
  | NPrep p a => [p; a]
  | NPredContent p => [p]
  | NParen kio ki d => [NWord kio; NDiscourse d; NWord ki]
  | NIncidental ju st => [NWord ju; st]
  | NVocative hu a => [NWord hu; a]
  | NInterjection w => [NWord w]
  | NSpace w => [NWord w]
  | NCoP CRaw None _ ru l r => [l; NWord ru; r]
  | NCoP CRaw (Some t) to1 ru l r => [NWord t; NWord ru; l] ++ maybe_word to1 ++ [r]
  | NCoP _ to0 to1 ru l r => [NCoP CRaw to0 to1 ru l r]
  | NLU LRaw lu st => [NWord lu; st]
  | NLU _ lu st => [NLU LRaw lu st]
  | NWord w => maybe (w_m w)
  end.

(** [below m n]: [m] is [n] or a node below it. *)
Inductive below (m : node) : node -> Prop :=
  | WSelf : below m m
  | WKid k n : In k (kids n) -> below m k -> below m n.

Section Traverse.

Context {V S : Type}.
Variable step : V -> option node -> S -> option V * S.

(** A traversal by a visitor: the node is shown to the visitor; if that gives no visitor
    the node's children are skipped; otherwise the children are traversed from left to
    right by the visitor it gave, and that visitor is then shown a nil node. *)
Inductive traverse : V -> node -> S -> S -> Prop :=
  | TPrune v n s s1 :
      step v (Some n) s = (None, s1) -> traverse v n s s1
  | TDown v n s v1 s1 s2 o s3 :
      step v (Some n) s = (Some v1, s1) ->
      traverse_all v1 (kids n) s1 s2 ->
      step v1 None s2 = (o, s3) ->
      traverse v n s s3
with traverse_all : V -> list node -> S -> S -> Prop :=
  | TNil v s : traverse_all v [] s s
  | TCons v n l s s1 s2 :
      traverse v n s s1 -> traverse_all v l s1 s2 -> traverse_all v (n :: l) s s2.

End Traverse.

Scheme traverse_ind2 := Induction for traverse Sort Prop
  with traverse_all_ind2 := Induction for traverse_all Sort Prop.
Combined Scheme traverse_mut from traverse_ind2, traverse_all_ind2.

(** The nodes shown to a visitor that never prunes, [None] for each nil, in order. *)
Inductive shown : node -> list (option node) -> Prop :=
  | Shown n l : shown_all (kids n) l -> shown n (Some n :: l ++ [None])
with shown_all : list node -> list (option node) -> Prop :=
  | ShownNil : shown_all [] []
  | ShownCons n l a b : shown n a -> shown_all l b -> shown_all (n :: l) (a ++ b).

Scheme shown_ind2 := Induction for shown Sort Prop
  with shown_all_ind2 := Induction for shown_all Sort Prop.
Combined Scheme shown_mut from shown_ind2, shown_all_ind2.

(** The words of a tree: the nodes of type Word in the order in which they are shown. *)
Inductive reads : node -> list word -> Prop :=
  | ReadWord w l : reads_all (kids (NWord w)) l -> reads (NWord w) (w :: l)
  | ReadOther n l : (forall w, n <> NWord w) -> reads_all (kids n) l -> reads n l
with reads_all : list node -> list word -> Prop :=
  | ReadNil : reads_all [] []
  | ReadCons n l a b : reads n a -> reads_all l b -> reads_all (n :: l) (a ++ b).

Scheme reads_ind2 := Induction for reads Sort Prop
  with reads_all_ind2 := Induction for reads_all Sort Prop.
Combined Scheme reads_mut from reads_ind2, reads_all_ind2.

(** The same as functions. *)
Section Opt.
Context {A B : Type} (f : A -> list B).
Definition olist (o : option A) : list B := match o with None => [] | Some x => f x end.
End Opt.

Fixpoint words (n : node) : list word :=
  match n with
  | NText ld d => olist words ld ++ flat_map words d
  | NDiscourse d => flat_map words d
  | NSentence je st da => olist wwords je ++ words st ++ olist wwords da
  | NPrenex ts bi => flat_map words ts ++ wwords bi
  | NPrenexStmt p st => words p ++ words st
  | NPredication p ts na => words p ++ olist (flat_map words) ts ++ olist wwords na
  | NPrefixed mu p => wwords mu ++ words p
  | NSerial l r => words l ++ words r
  | NWordPredicate w => wwords w
  | NMi mi ga p => wwords mi ++ words p ++ olist wwords ga
  | NPo po ga a => wwords po ++ words a ++ olist wwords ga
  | NMo mo teo d => wwords mo ++ flat_map words d ++ wwords teo
  | NLinked go a => wwords go ++ words a
  | NTerms ts => flat_map words ts
  | NPredArg f q p rel => olist wwords f ++ olist wwords q ++ words p ++ olist words rel
  | NPredRel p => words p
  | NAdverb p => words p
  | NPrep p a => words p ++ words a
  | NPredContent p => words p
  | NParen kio ki d => wwords kio ++ flat_map words d ++ wwords ki
  | NIncidental ju st => wwords ju ++ words st
  | NVocative hu a => wwords hu ++ words a
  | NInterjection w => wwords w
  | NSpace w => wwords w
  | NCoP _ None _ ru l r => words l ++ wwords ru ++ words r
  | NCoP _ (Some t) to1 ru l r => wwords t ++ wwords ru ++ words l ++ olist wwords to1 ++ words r
  | NLU _ lu st => wwords lu ++ words st
  | NWord w => wwords w
  end
with wwords (w : word) : list word :=
  match w with
  | Wd _ _ _ m => w :: olist words m
  end.

(** A word without its modifier: text and span. *)
Definition token : Type := string * nat * nat.
Definition tok (w : word) : token := (w_t w, w_s w, w_e w).
Definition toks (n : node) : list token := map tok (words n).
Definition wtoks (w : word) : list token := map tok (wwords w).

(** A visitor function that keeps a list of what it is shown, and what is in such a list. *)
Definition record (n : option node) (s : list (option node)) : list (option node) := s ++ [n].
Definition word_of (o : option node) : list word :=
  match o with Some (NWord w) => [w] | _ => [] end.
Definition nils (l : list (option node)) : nat := length (filter (fun o => match o with None => true | _ => false end) l).
Definition nodes (l : list (option node)) : nat := length (filter (fun o => match o with None => false | _ => true end) l).

(** A tree with other texts at the words that are shown; all words are, but for a TO1
    without TO0. *)
Section Retext.
Variable f : string -> string.

Fixpoint retext (n : node) : node :=
  match n with
  | NText ld d => NText (option_map retext ld) (map retext d)
  | NDiscourse d => NDiscourse (map retext d)
  | NSentence je st da => NSentence (option_map retext_word je) (retext st) (option_map retext_word da)
  | NPrenex ts bi => NPrenex (map retext ts) (retext_word bi)
  | NPrenexStmt p st => NPrenexStmt (retext p) (retext st)
  | NPredication p ts na => NPredication (retext p) (option_map (map retext) ts) (option_map retext_word na)
  | NPrefixed mu p => NPrefixed (retext_word mu) (retext p)
  | NSerial l r => NSerial (retext l) (retext r)
  | NWordPredicate w => NWordPredicate (retext_word w)
  | NMi mi ga p => NMi (retext_word mi) (option_map retext_word ga) (retext p)
  | NPo po ga a => NPo (retext_word po) (option_map retext_word ga) (retext a)
  | NMo mo teo d => NMo (retext_word mo) (retext_word teo) (map retext d)
  | NLinked go a => NLinked (retext_word go) (retext a)
  | NTerms ts => NTerms (map retext ts)
  | NPredArg f q p rel => NPredArg (option_map retext_word f) (option_map retext_word q) (retext p) (option_map retext rel)
  | NPredRel p => NPredRel (retext p)
  | NAdverb p => NAdverb (retext p)
  | NPrep p a => NPrep (retext p) (retext a)
  | NPredContent p => NPredContent (retext p)
  | NParen kio ki d => NParen (retext_word kio) (retext_word ki) (map retext d)
  | NIncidental ju st => NIncidental (retext_word ju) (retext st)
  | NVocative hu a => NVocative (retext_word hu) (retext a)
  | NInterjection w => NInterjection (retext_word w)
  | NSpace w => NSpace (retext_word w)
  | NCoP k None to1 ru l r => NCoP k None to1 (retext_word ru) (retext l) (retext r)
  | NCoP k (Some t) to1 ru l r =>
      NCoP k (Some (retext_word t)) (option_map retext_word to1) (retext_word ru) (retext l) (retext r)
  | NLU k lu st => NLU k (retext_word lu) (retext st)
  | NWord w => NWord (retext_word w)
  end
with retext_word (w : word) : word :=
  match w with Wd t s e m => Wd (f t) s e (option_map retext m) end.
End Retext.
