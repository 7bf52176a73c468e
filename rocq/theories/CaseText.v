(** Trees of Text that differ only in the case of letters. *)

From Coq Require Import String Ascii NArith ZArith List Bool.
From Verif Require Import Base Utf8 Peg Ast Loc Parser CaseFold.
Import ListNotations.
Open Scope string_scope.
Open Scope list_scope.

(** The vowels with a tone, capital and small; besides, the dotless i that the parser makes
    of i, but not of I. *)
Definition capitals : list (string * string) :=
  [("Ā", "ā"); ("Ū", "ū"); ("Ī", "ī"); ("Ō", "ō"); ("Ē", "ē");
   ("Á", "á"); ("Ú", "ú"); ("Í", "í"); ("Ó", "ó"); ("É", "é");
   ("Ǎ", "ǎ"); ("Ǔ", "ǔ"); ("Ǐ", "ǐ"); ("Ǒ", "ǒ"); ("Ě", "ě");
   ("Ả", "ả"); ("Ủ", "ủ"); ("Ỉ", "ỉ"); ("Ỏ", "ỏ"); ("Ẻ", "ẻ");
   ("Â", "â"); ("Û", "û"); ("Î", "î"); ("Ô", "ô"); ("Ê", "ê");
   ("À", "à"); ("Ù", "ù"); ("Ì", "ì"); ("Ò", "ò"); ("È", "è");
   ("Ã", "ã"); ("Ũ", "ũ"); ("Ĩ", "ĩ"); ("Õ", "õ"); ("Ẽ", "ẽ")].
Definition lows : list (string * string) := ("ı", "i") :: capitals.

(** [low 0 s]: these small, and the other letters as in [small]; [skip] bytes were dealt
    with before. *)
Fixpoint low (skip : nat) (s : string) : string :=
  match s with
  | EmptyString => EmptyString
  | String a s1 =>
      match skip with
      | S k => low k s1
      | O =>
          match find (fun p => prefix (fst p) s) lows with
          | Some (x, y) => (y ++ low (pred (String.length x)) s1)%string
          | None => String (small_byte a) (low 0 s1)
          end
      end
  end.

(** A tree with all its words in small letters; places stay. *)
Fixpoint low_node (n : node) : node :=
  match n with
  | NText ld d => NText (option_map low_node ld) (map low_node d)
  | NDiscourse d => NDiscourse (map low_node d)
  | NSentence je st da => NSentence (option_map low_word je) (low_node st) (option_map low_word da)
  | NPrenex ts bi => NPrenex (map low_node ts) (low_word bi)
  | NPrenexStmt p st => NPrenexStmt (low_node p) (low_node st)
  | NPredication p ts na => NPredication (low_node p) (option_map (map low_node) ts) (option_map low_word na)
  | NPrefixed mu p => NPrefixed (low_word mu) (low_node p)
  | NSerial l r => NSerial (low_node l) (low_node r)
  | NWordPredicate w => NWordPredicate (low_word w)
  | NMi mi ga p => NMi (low_word mi) (option_map low_word ga) (low_node p)
  | NPo po ga a => NPo (low_word po) (option_map low_word ga) (low_node a)
  | NMo mo teo d => NMo (low_word mo) (low_word teo) (map low_node d)
  | NLinked go a => NLinked (low_word go) (low_node a)
  | NTerms ts => NTerms (map low_node ts)
  | NPredArg f q p rel => NPredArg (option_map low_word f) (option_map low_word q) (low_node p) (option_map low_node rel)
  | NPredRel p => NPredRel (low_node p)
  | NAdverb p => NAdverb (low_node p)
  | NPrep p a => NPrep (low_node p) (low_node a)
  | NPredContent p => NPredContent (low_node p)
  | NParen kio ki d => NParen (low_word kio) (low_word ki) (map low_node d)
  | NIncidental ju st => NIncidental (low_word ju) (low_node st)
  | NVocative hu a => NVocative (low_word hu) (low_node a)
  | NInterjection w => NInterjection (low_word w)
  | NSpace w => NSpace (low_word w)
  | NCoP k to0 to1 ru l r => NCoP k (option_map low_word to0) (option_map low_word to1) (low_word ru) (low_node l) (low_node r)
  | NLU k lu st => NLU k (low_word lu) (low_node st)
  | NWord w => NWord (low_word w)
  end
with low_word (w : word) : word :=
  match w with Wd t s e m => Wd (low 0 t) s e (option_map low_node m) end.

(** Two errors that differ only in case. *)
Definition alike_error (e e' : perror) : Prop :=
  pe_tree e = pe_tree e' /\ pe_loc e = pe_loc e' /\ small (pe_msg e) = small (pe_msg e').
Definition alike_result {A} (R : A -> A -> Prop) (x y : res (Parser.outcome A)) : Prop :=
  match x, y with
  | Ok (Got a), Ok (Got b) => R a b
  | Ok (Err e), Ok (Err e') => alike_error e e'
  | Panic q, Panic q' => q = q'
  | NoFuel, NoFuel => True
  | _, _ => False
  end.

(** Calls of the methods of a parser one after another (a panic is recovered), and their
    results. *)
Inductive call : Type := CTree | CText | CWord (offs : nat).
Inductive answer : Type :=
  | AnTree (r : res (Parser.outcome (option pnode)))
  | AnText (r : res (Parser.outcome (option node)))
  | AnWord (r : res (Parser.outcome (word * Z))).
Definition ask (is_punct : N -> bool) (c : call) (p : parser) : answer * parser :=
  match c with
  | CTree => (AnTree (fst (tree is_punct p)), snd (tree is_punct p))
  | CText => (AnText (fst (text_of is_punct p)), snd (text_of is_punct p))
  | CWord offs => (AnWord (fst (word_at is_punct offs p)), snd (word_at is_punct offs p))
  end.
Fixpoint talk (is_punct : N -> bool) (l : list call) (p : parser) : list answer :=
  match l with
  | [] => []
  | c :: l' => fst (ask is_punct c p) :: talk is_punct l' (snd (ask is_punct c p))
  end.
Definition alike_answer (a b : answer) : Prop :=
  match a, b with
  | AnTree r, AnTree r' => alike_result (fun n m => option_map small_tree n = option_map small_tree m) r r'
  | AnText r, AnText r' => alike_result (fun n m => option_map low_node n = option_map low_node m) r r'
  | AnWord r, AnWord r' => alike_result (fun x y => low_word (fst x) = low_word (fst y) /\ snd x = snd y) r r'
  | _, _ => False
  end.
