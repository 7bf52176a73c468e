(** What main.go writes. *)

From Coq Require Import String NArith List.
From Verif Require Import Base PegSyntax Peg Ast Parser VisitSpec Braces Dedup Logic LogicWords LogicString LogicSpec LogicApi App AppSpec Pretty Main.
Import ListNotations.
Open Scope string_scope.

Section Spec.
Variable is_punct : N -> bool.
Variable U : unicode.

(** What comes of running the program on [input]: what it writes and how it ends. *)
Definition runs (path input : string) (x : string * ending) : Prop := finally (fun fuel => main is_punct U fuel path input) (Ok x).

(** A line. *)
Definition line (s : string) : string := s ++ newline.

(** The part about the syntax: the parse tree, the AST, the words, the braces. *)
Definition syntax_part (t : pnode) (text : node) : string :=
  line (pretty_node "" t) ++ line (pretty_value (node_value text)) ++
  line (String.concat "" (map w_t (words text))) ++ line (braces_string text).

(** The part about the logic of a text with the items [d]. *)
Definition logic_part (d : list node) (l : string) : Prop :=
  (~ has_sentence d /\ l = line "fragment") \/
  exists r h v s, outcome U d (Ok (Some (r, h))) /\ finally (fun fuel => cell_value h fuel r) (Ok v) /\
    prints U (Some (r, h)) s /\ l = line (pretty_value v) ++ line s.

End Spec.

(** ** What the AST shown by main.go says *)

(** A syntax tree without positions and modifiers. *)
Definition bare_word (w : word) : word := Wd (w_t w) 0 0 None.
Fixpoint bare (n : node) : node :=
  match n with
  | NText ld d => NText (match ld with None => None | Some x => Some (bare x) end) (map bare d)
  | NDiscourse d => NDiscourse (map bare d)
  | NSentence je st da => NSentence (option_map bare_word je) (bare st) (option_map bare_word da)
  | NPrenex ts bi => NPrenex (map bare ts) (bare_word bi)
  | NPrenexStmt p st => NPrenexStmt (bare p) (bare st)
  | NPredication p ts na => NPredication (bare p) (match ts with None => None | Some l => Some (map bare l) end) (option_map bare_word na)
  | NPrefixed mu p => NPrefixed (bare_word mu) (bare p)
  | NSerial l r => NSerial (bare l) (bare r)
  | NWordPredicate w => NWordPredicate (bare_word w)
  | NMi mi ga p => NMi (bare_word mi) (option_map bare_word ga) (bare p)
  | NPo po ga a => NPo (bare_word po) (option_map bare_word ga) (bare a)
  | NMo mo teo d => NMo (bare_word mo) (bare_word teo) (map bare d)
  | NLinked go a => NLinked (bare_word go) (bare a)
  | NTerms ts => NTerms (map bare ts)
  | NPredArg f q p rel => NPredArg (option_map bare_word f) (option_map bare_word q) (bare p) (match rel with None => None | Some x => Some (bare x) end)
  | NPredRel p => NPredRel (bare p)
  | NAdverb p => NAdverb (bare p)
  | NPrep p a => NPrep (bare p) (bare a)
  | NPredContent p => NPredContent (bare p)
  | NParen kio ki d => NParen (bare_word kio) (bare_word ki) (map bare d)
  | NIncidental ju st => NIncidental (bare_word ju) (bare st)
  | NVocative hu a => NVocative (bare_word hu) (bare a)
  | NInterjection w => NInterjection (bare_word w)
  | NSpace w => NSpace (bare_word w)
  | NCoP k to0 to1 ru l r => NCoP k (option_map bare_word to0) (option_map bare_word to1) (bare_word ru) (bare l) (bare r)
  | NLU k lu st => NLU k (bare_word lu) (bare st)
  | NWord w => NWord (bare_word w)
  end.

(** A text on one line. *)
Definition one_line (text : string) : Prop := ~ In (Ascii.ascii_of_nat 10) (list_ascii_of_string text).
