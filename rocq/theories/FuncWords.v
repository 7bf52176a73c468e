(** Spec: the groups of function words, and the function words of a tree. *)

From Coq Require Import String NArith List Bool.
From Verif Require Import Base Utf8 Tone PegSyntax Ast LogicWords SpellSpec LogicSpec.
Import ListNotations.
Open Scope list_scope.
Open Scope string_scope.

(** The groups, named after one of their words; moq is in the group of da. *)
Inductive group : Type :=
  | GBi | GDa | GGa | GGo | GBei | GHu | GJu | GKu | GKi | GKio | GKeo | GLu | GMi | GMo | GNa | GPo | GRa | GTu | GTo | GTeo | GMu.

Definition group_words (g : group) : list string :=
  match g with
  | GBi => ["bi"; "pa"]                            (* end of a prenex *)
  | GDa => ["da"; "ka"; "so"; "ba"; "moq"]         (* end of a sentence *)
  | GGa => ["ga"]                                  (* end of a predicate with mi or po *)
  | GGo => ["go"; "fi"; "cu"; "ta"]                (* linking an argument *)
  | GBei => ["bei"]                                (* interjection; m alone is not a syllable and is not accepted *)
  | GHu => ["hu"]                                  (* vocative *)
  | GJu => ["ju"]                                  (* incidental *)
  | GKu => ["ku"]                                  (* focus *)
  | GKi => ["ki"]                                  (* end of a parenthetical *)
  | GKio => ["kio"]                                (* start of a parenthetical *)
  | GKeo => ["keo"; "je"]                          (* start of a sentence *)
  | GLu => ["lu"; "li"; "lo"; "ma"; "tio"]
  | GMi => ["mi"; "shu"]
  | GMo => ["mo"]                                  (* start of a quote *)
  | GNa => ["na"]                                  (* end of a statement *)
  | GPo => ["jei"; "po"]
  | GRa => ["ra"; "ru"; "ri"; "roi"; "ro"; "re"]   (* connective *)
  | GTu => ["ke"; "tu"; "sia"; "sa"; "hi"; "ja"]   (* quantifier *)
  | GTo => ["to"]                                  (* forethought marker *)
  | GTeo => ["teo"]                                (* end of a quote *)
  | GMu => []                                      (* prefix of a predicate: no rule of the grammar makes one *)
  end.

(** The letters of a text in lower case, without tones and without dots. *)
Definition small (r : N) : N :=
  let r := if ((65 <=? r) && (r <=? 90))%N then (r + 32)%N else r in if N.eqb r 105 then 305%N else r.
Definition plain (s : string) : list N := map small (letters s).
(** [s] is a word of the group, in any case and with any tone. *)
Definition of_group (g : group) (s : string) : Prop := exists x, In x (group_words g) /\ plain s = plain x.

(** The function words of a tree, with the group that belongs to their place, including
    those in modifiers. *)
Fixpoint function_words (n : node) : list (group * string) :=
  let f (g : group) (w : word) := (g, w_t w) :: match w with Wd _ _ _ (Some m) => function_words m | _ => [] end in
  let o (g : group) (w : option word) := match w with Some w => f g w | None => [] end in
  let m (w : word) := match w with Wd _ _ _ (Some m) => function_words m | _ => [] end in
  match n with
  | NText ld d => match ld with Some x => function_words x | None => [] end ++ flat_map function_words d
  | NDiscourse d | NTerms d => flat_map function_words d
  | NSentence je st da => o GKeo je ++ function_words st ++ o GDa da
  | NPrenex ts bi => flat_map function_words ts ++ f GBi bi
  | NPrenexStmt p st => function_words p ++ function_words st
  | NPredication p ts na => function_words p ++ match ts with Some l => flat_map function_words l | None => [] end ++ o GNa na
  | NPrefixed mu p => f GMu mu ++ function_words p
  | NSerial l r | NPrep l r => function_words l ++ function_words r
  | NWordPredicate w | NSpace w | NWord w => m w
  | NMi mi ga p => f GMi mi ++ function_words p ++ o GGa ga
  | NPo po ga a => f GPo po ++ function_words a ++ o GGa ga
  | NMo mo teo d => f GMo mo ++ flat_map function_words d ++ f GTeo teo
  | NLinked go a => f GGo go ++ function_words a
  | NPredArg fo q p rel => o GKu fo ++ o GTu q ++ function_words p ++ match rel with Some x => function_words x | None => [] end
  | NPredRel p | NAdverb p | NPredContent p => function_words p
  | NParen kio ki d => f GKio kio ++ flat_map function_words d ++ f GKi ki
  | NIncidental ju st => f GJu ju ++ function_words st
  | NVocative hu a => f GHu hu ++ function_words a
  | NInterjection w => f GBei w
  | NCoP _ to0 to1 ru l r => o GTo to0 ++ f GRa ru ++ function_words l ++ o GTo to1 ++ function_words r
  | NLU _ lu st => f GLu lu ++ function_words st
  end.

(** Vowels, q and combining characters are not punctuation (in Unicode they are not). *)
Definition inner_runes : list N :=
  (runes "aeiıouqAEIOUQ" ++ map (fun x => fst (fst x)) toned_vowels ++ [772; 769; 780; 774; 777; 770; 768; 771]%N)%list.
Definition letters_no_punct (is_punct : N -> bool) : Prop := forall r, In r inner_runes -> is_punct r = false.

(** Every connective is one that Interpret supports, in any case: ru between sentences, ra,
    ru, ri or roi between arguments, ra, ru or ri elsewhere.  Quotes, parentheses and other
    parts that are not interpreted do not matter. *)
Fixpoint same_letters (a b : list N) : bool :=
  match a, b with
  | [], [] => true
  | x :: a, y :: b => N.eqb x y && same_letters a b
  | _, _ => false
  end.
Definition joins (k : copkind) (w : word) : bool :=
  existsb (fun x => same_letters (plain (w_t w)) (plain x))
    match k with CSentence => ["ru"] | CArgument => ["ru"; "ra"; "ri"; "roi"] | _ => ["ru"; "ra"; "ri"] end.
Fixpoint connected (n : node) : bool :=
  match n with
  | NSentence _ st _ => connected st
  | NPrenex ts _ | NTerms ts => forallb connected ts
  | NPrenexStmt p st => connected p && connected st
  | NPredication p ts _ => connected p && match ts with None => true | Some l => forallb connected l end
  | NSerial l r | NPrep l r => connected l && connected r
  | NPo _ _ a | NLinked _ a => connected a
  | NPredArg _ _ p rel => connected p && match rel with None => true | Some x => connected x end
  | NPredRel p | NAdverb p | NPredContent p | NLU _ _ p => connected p
  | NCoP k _ _ ru l r => joins k ru && connected l && connected r
  | _ => true
  end.
