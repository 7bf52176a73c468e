(** What a string with braces should look like. *)

From Coq Require Import String List Arith.
From Verif Require Import Base PegSyntax Ast VisitSpec.
Import ListNotations.

Definition bracket_pair (depth : nat) : string * string :=
  nth (depth mod 4) [("(", ")"); ("{", "}"); ("[", "]"); ("<", ">")]%string ("", "")%string.

(** [printed depth ts s]: [s] shows the texts [ts].  Either it is one text, or two or more
    such strings of the next depth between the brackets of this depth, with one space
    between each two of them. *)
Inductive printed : nat -> list string -> string -> Prop :=
  | PText depth t : printed depth [t] t
  | PGroup depth ts parts :
      2 <= length parts -> printed_all (S depth) ts parts ->
      printed depth ts (fst (bracket_pair depth) ++ String.concat " " parts ++ snd (bracket_pair depth))%string
with printed_all : nat -> list string -> list string -> Prop :=
  | PNil depth : printed_all depth [] []
  | PCons depth ts1 s1 ts2 ss :
      printed depth ts1 s1 -> printed_all depth ts2 ss -> printed_all depth (ts1 ++ ts2) (s1 :: ss).

(** What BracesString should give for the texts [l]: nothing if there are none. *)
Definition braced (l : list string) (s : string) : Prop :=
  match l with [] => s = ""%string | _ => printed 0 l s end.

Scheme printed_ind2 := Induction for printed Sort Prop
  with printed_all_ind2 := Induction for printed_all Sort Prop.
Combined Scheme printed_mut from printed_ind2, printed_all_ind2.

(** The texts of a tree: those of the words other than the words that are white space, in
    the order in which Visit shows them. *)
Inductive says : node -> list string -> Prop :=
  | SayWord w l : says_all (kids (NWord w)) l -> says (NWord w) (w_t w :: l)
  | SaySpace w l : says_all (kids (NWord w)) l -> says (NSpace w) l
  | SayOther n l : (forall w, n <> NWord w) -> (forall w, n <> NSpace w) -> says_all (kids n) l -> says n l
with says_all : list node -> list string -> Prop :=
  | SayNil : says_all [] []
  | SayCons n l a b : says n a -> says_all l b -> says_all (n :: l) (a ++ b).

Scheme says_ind2 := Induction for says Sort Prop
  with says_all_ind2 := Induction for says_all Sort Prop.
Combined Scheme says_mut from says_ind2, says_all_ind2.

Fixpoint texts (n : node) : list string :=
  match n with
  | NText ld d => olist texts ld ++ flat_map texts d
  | NDiscourse d => flat_map texts d
  | NSentence je st da => olist wtexts je ++ texts st ++ olist wtexts da
  | NPrenex ts bi => flat_map texts ts ++ wtexts bi
  | NPrenexStmt p st => texts p ++ texts st
  | NPredication p ts na => texts p ++ olist (flat_map texts) ts ++ olist wtexts na
  | NPrefixed mu p => wtexts mu ++ texts p
  | NSerial l r => texts l ++ texts r
  | NWordPredicate w => wtexts w
  | NMi mi ga p => wtexts mi ++ texts p ++ olist wtexts ga
  | NPo po ga a => wtexts po ++ texts a ++ olist wtexts ga
  | NMo mo teo d => wtexts mo ++ flat_map texts d ++ wtexts teo
  | NLinked go a => wtexts go ++ texts a
  | NTerms ts => flat_map texts ts
  | NPredArg f q p rel => olist wtexts f ++ olist wtexts q ++ texts p ++ olist texts rel
  | NPredRel p => texts p
  | NAdverb p => texts p
  | NPrep p a => texts p ++ texts a
  | NPredContent p => texts p
  | NParen kio ki d => wtexts kio ++ flat_map texts d ++ wtexts ki
  | NIncidental ju st => wtexts ju ++ texts st
  | NVocative hu a => wtexts hu ++ texts a
  | NInterjection w => wtexts w
  | NSpace (Wd _ _ _ m) => olist texts m
  | NCoP _ None _ ru l r => texts l ++ wtexts ru ++ texts r
  | NCoP _ (Some t) to1 ru l r => wtexts t ++ wtexts ru ++ texts l ++ olist wtexts to1 ++ texts r
  | NLU _ lu st => wtexts lu ++ texts st
  | NWord w => wtexts w
  end
with wtexts (w : word) : list string :=
  match w with
  | Wd t _ _ m => t :: olist texts m
  end.
