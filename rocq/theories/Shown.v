(** The notation of formulas, and what can be read off it. *)

From Coq Require Import Ascii String NArith List Bool Arith.
From Verif Require Import Base Utf8 Logic LogicWords LogicSpec Meaning.
Import ListNotations.
Open Scope list_scope.
Open Scope nat_scope.
Open Scope string_scope.

(** ** Notation

    A quantifier before its variable and what it applies to, in brackets with the
    restriction if there is one.  An operand of a connective in parentheses, unless it is a
    predication or has the same connective.  = and ≺ between their arguments if these are
    two.  [·] for a missing argument, nothing beside = and ≺. *)
Definition quant_sign (q : quant) : string :=
  match q with
  | QThe => "ι" | QLambda => "λ" | QEach => "∀" | QAll => "Λ" | QSome => "∃" | QNone => "∄" | QHi => "¿" | QUnset => ""
  end.
Definition conn_sign (c : conn) : string := match c with KAnd => "∧" | KOr => "∨" | KRi => "?" end.
Definition conn_eqb (c c' : conn) : bool :=
  match c, c' with KAnd, KAnd | KOr, KOr | KRi, KRi => true | _, _ => false end.
Definition infix (p : string) : bool := String.eqb p "=" || String.eqb p "≺".

Section Notation.
(** What the variables are called. *)
Variable name : nat -> string.

Definition thing_text (t : thing) : string := match t with Bound x _ | Free x => name x end.
Fixpoint property_text (p : property) : string :=
  match p with
  | Named s => s
  | Unnamed t => thing_text t
  | Serial l r => property_text l ++ "∘" ++ property_text r
  end.
Definition arg_text (empty : string) (o : option thing) : string := match o with None => empty | Some t => thing_text t end.
Definition holds_text (p : property) (l : list (option thing)) : string :=
  let prefix := property_text p ++ "(" ++ String.concat ", " (map (arg_text "·") l) ++ ")" in
  match p, l with
  | Named s, [x; y] => if infix s then arg_text "" x ++ s ++ arg_text "" y else prefix
  | _, _ => prefix
  end.
Definition bare_operand (c : conn) (F : formula) : bool :=
  match F with Holds _ _ => true | Both c' _ _ => conn_eqb c' c | Quantified _ _ _ _ _ => false end.
Definition parened (bare : bool) (s : string) : string := if bare then s else "(" ++ s ++ ")".
Fixpoint formula_text (F : formula) : string :=
  match F with
  | Holds p l => holds_text p l
  | Both c l r =>
      parened (bare_operand c l) (formula_text l) ++ " " ++ conn_sign c ++ " " ++ parened (bare_operand c r) (formula_text r)
  | Quantified q x _ None G => quant_sign q ++ name x ++ " " ++ formula_text G
  | Quantified q x _ (Some R) G => "[" ++ quant_sign q ++ name x ++ " : " ++ formula_text R ++ "] " ++ formula_text G
  end.

(** ** What can be read off it

    A formula up to the association of connectives and serial predicates and the focus, its
    variables by their names. *)
Inductive part : Type := PName (s : string) | PVar (s : string).
Inductive shape : Type :=
  | SHolds (p : list part) (args : list (option string))
  | SBoth (c : conn) (l r : shape)
  | SQuantified (q : quant) (x : string) (restriction : option shape) (scope : shape).

Fixpoint parts (p : property) : list part :=
  match p with
  | Named s => [PName s]
  | Unnamed t => [PVar (thing_text t)]
  | Serial l r => (parts l ++ parts r)%list
  end.
Fixpoint join (c : conn) (A B : shape) : shape :=
  match A with
  | SBoth c' A1 A2 => if conn_eqb c' c then SBoth c A1 (join c A2 B) else SBoth c A B
  | _ => SBoth c A B
  end.
Fixpoint shape_of (F : formula) : shape :=
  match F with
  | Holds p l => SHolds (parts p) (map (option_map thing_text) l)
  | Both c l r => join c (shape_of l) (shape_of r)
  | Quantified q x _ R G => SQuantified q (name x) (match R with None => None | Some R => Some (shape_of R) end) (shape_of G)
  end.
End Notation.

(** ** Variables and names *)

Definition thing_var (t : thing) : nat := match t with Bound x _ | Free x => x end.
Fixpoint property_vars (p : property) : list nat :=
  match p with Named _ => [] | Unnamed t => [thing_var t] | Serial l r => (property_vars l ++ property_vars r)%list end.
Definition arg_vars (l : list (option thing)) : list nat := flat_map (fun o => map thing_var (olist o)) l.
(** All variables of a formula, bound or not. *)
Fixpoint variables (F : formula) : list nat :=
  match F with
  | Holds p l => (property_vars p ++ arg_vars l)%list
  | Both _ l r => (variables l ++ variables r)%list
  | Quantified _ x _ R G => (x :: match R with None => [] | Some R => variables R end ++ variables G)%list
  end.
(** Variables that are not the same have different names. *)
Definition apart (name : nat -> string) (F : formula) : Prop :=
  forall x y, In x (variables F) -> In y (variables F) -> name x = name y -> x = y.

Fixpoint property_names (p : property) : list string :=
  match p with Named s => [s] | Unnamed _ => [] | Serial l r => (property_names l ++ property_names r)%list end.
(** The predicates named in a formula. *)
Fixpoint predicates (F : formula) : list string :=
  match F with
  | Holds p _ => property_names p
  | Both _ l r => (predicates l ++ predicates r)%list
  | Quantified _ _ _ R G => (match R with None => [] | Some R => predicates R end ++ predicates G)%list
  end.

Fixpoint every_char (P : ascii -> bool) (s : string) : bool :=
  match s with EmptyString => true | String c t => P c && every_char P t end.
Definition is_lower (c : ascii) : bool := ((97 <=? byte_of c) && (byte_of c <=? 122))%N.
(** = or ≺ or letters, the first from a to x as in every Toaq word. *)
Definition word_name (s : string) : bool :=
  infix s || match s with EmptyString => false | String c _ => (byte_of c <=? 120)%N && every_char is_lower s end.

(** The words that are predicates in a first-order sentence. *)
Fixpoint predicate_words (n : Ast.node) : list Ast.word :=
  match n with
  | Ast.NSentence _ st _ => predicate_words st
  | Ast.NPrenex ts _ | Ast.NTerms ts => flat_map predicate_words ts
  | Ast.NPrenexStmt p st => (predicate_words p ++ predicate_words st)%list
  | Ast.NPredication p ts _ =>
      (predicate_words p ++ match ts with None => [] | Some l => flat_map predicate_words l end)%list
  | Ast.NSerial l r | Ast.NCoP _ _ _ _ l r => (predicate_words l ++ predicate_words r)%list
  | Ast.NWordPredicate w => [w]
  | Ast.NLinked _ a => predicate_words a
  | Ast.NPredArg _ _ p rel => (predicate_words p ++ match rel with None => [] | Some r => predicate_words r end)%list
  | Ast.NPredRel p => predicate_words p
  | Ast.NLU _ _ st => predicate_words st
  | _ => []
  end.
(** The predicates of a discourse are words. *)
Definition spoken (U : unicode) (d : list Ast.node) : Prop :=
  forall n w, In n d -> sentence_item n -> In w (predicate_words n) -> word_name (word_pred U (Ast.w_t w)) = true.

(** A capital and maybe digits. *)
Definition is_upper (c : ascii) : bool := ((65 <=? byte_of c) && (byte_of c <=? 90))%N.
Definition is_digit (c : ascii) : bool := ((48 <=? byte_of c) && (byte_of c <=? 57))%N.
Definition var_name (s : string) : bool := match s with String c t => is_upper c && every_char is_digit t | EmptyString => false end.

(** On ASCII the tables are those of Unicode. *)
Definition plain_unicode (U : unicode) : Prop :=
  plain_upper U /\
  forall r, (r < 128)%N ->
    u_lower U r = (if (65 <=? r) && (r <=? 90) then r + 32 else r)%N /\
    u_letter U r = (((65 <=? r) && (r <=? 90)) || ((97 <=? r) && (r <=? 122)))%N.
