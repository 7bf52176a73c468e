(** Model of /repo/vendor/github.com/eaburns/pretty/pretty.go on the values that
    /repo/main.go gives to it: a *ast.Text, and a logic.Statement whose AST fields are nil. *)

From Coq Require Import String Ascii List.
From Verif Require Import Base PegSyntax Ast Logic LogicString App.
Import ListNotations.
Open Scope string_scope.

(** What print (pretty.go:70-134) sees of a value through reflection.  Pointers and
    interfaces are followed (111-116).
    - [GNil]: a nil pointer or interface (pretty.go:81-82, 112-113).
    - [GMade]: a value with a method PrettyPrint, and its result (80-87).
    - [GStr]: a string (118-119).  strconv.Quote and then Fprintf are applied to it.  The
      only ones here are the constants of logic.go:42-57 and 74-79, of printable characters
      without quotes, backslashes and percent signs, which are shown in quotes.
    - [GStruct]: the name of the type, and its fields, all of which are exported.
    - [GList]: a slice.
    The map [path] is left out: it stops at cycles, and a tree has none.  (In main.go
    NillOutAST has visited the whole logical tree before.) *)
Inductive value : Type :=
  | GNil
  | GMade (s : string)
  | GStr (s : string)
  | GNum (n : nat)
  | GBool (b : bool)
  | GStruct (name : string) (fields : list (string * value))
  | GList (l : list value).

(** pretty.go:70-134, print, with 136-148, printArray, and 150-178, printStruct. *)
Fixpoint show_value (indent : string) (v : value) : string :=
  match v with
  | GNil => "nil"
  | GMade s => s
  | GStr s => quote_char ++ s ++ quote_char
  | GNum n => itoa n
  | GBool b => if b then "true" else "false"
  | GStruct name fields =>
      name ++ "{" ++
      (fix go (l : list (string * value)) : string :=
         match l with
         | [] => match fields with [] => "" | _ => indent end
         | (f, x) :: l' => indent ++ tab_char ++ f ++ ": " ++ show_value (indent ++ tab_char) x ++ go l'
         end) fields ++ "}"
  | GList [] => "[]"
  | GList l =>
      "[" ++
      (fix go (l : list value) : string :=
         match l with
         | [] => indent
         | x :: l' => indent ++ tab_char ++ show_value (indent ++ tab_char) x ++ go l'
         end) l ++ "]"
  end.

(** pretty.go:61-68, String. *)
Definition pretty_value (v : value) : string := show_value newline v.

(** ** Syntax trees *)

(** ast.go:721, 229, 661, 671: the PrettyPrint methods.  They do not show the fields S, E
    and M. *)
Definition word_value (w : word) : value := GMade (quote_char ++ w_t w ++ quote_char).
Definition opt_word (o : option word) : value := match o with None => GNil | Some w => word_value w end.

(** The names of the types declared as CoP and LUPhrase. *)
Definition cop_name (k : copkind) : string :=
  match k with
  | CRaw => "CoP" | CSentence => "CoPSentence" | CStatement => "CoPStatement" | CPredicate => "CoPPredicate"
  | CTermSet => "TermSet" | CArgument => "CoPArgument" | CRelative => "CoPRelative" | CAdverb => "CoPAdverb"
  | CPreposition => "CoPPreposition" | CContent => "CoPContent"
  end.
Definition lu_name (k : lukind) : string :=
  match k with LRaw => "LUPhrase" | LPredicate => "LUPredicate" | LRelative => "LURelative" | LContent => "LUContent" end.

(** A node as print sees it; the lines of the types are at [node] in Ast.v. *)
Fixpoint node_value (n : node) : value :=
  match n with
  | NText ld d => GStruct "Text" [("Leading", match ld with None => GNil | Some x => node_value x end); ("Discourse", GList (map node_value d))]
  | NDiscourse d => GList (map node_value d)
  | NSentence je st da => GStruct "StatementSentence" [("JE", opt_word je); ("Statement", node_value st); ("DA", opt_word da)]
  | NPrenex ts bi => GStruct "Prenex" [("Terms", GList (map node_value ts)); ("BI", word_value bi)]
  | NPrenexStmt p st => GStruct "PrenexStatement" [("Prenex", node_value p); ("Statement", node_value st)]
  | NPredication p ts na =>
      GStruct "Predication" [("Predicate", node_value p); ("Terms", GList (match ts with None => [] | Some l => map node_value l end)); ("NA", opt_word na)]
  | NPrefixed mu p => GStruct "PrefixedPredicate" [("MU", word_value mu); ("Predicate", node_value p)]
  | NSerial l r => GStruct "SerialPredicate" [("Left", node_value l); ("Right", node_value r)]
  | NWordPredicate w => GMade ("WordPredicate(" ++ quote_char ++ w_t w ++ quote_char ++ ")")
  | NMi mi ga p => GStruct "MIPredicate" [("MI", word_value mi); ("GA", opt_word ga); ("Phrase", node_value p)]
  | NPo po ga a => GStruct "POPredicate" [("PO", word_value po); ("GA", opt_word ga); ("Argument", node_value a)]
  | NMo mo teo d => GStruct "MOPredicate" [("MO", word_value mo); ("TEO", word_value teo); ("Discourse", GList (map node_value d))]
  | NLinked go a => GStruct "LinkedTerm" [("GO", word_value go); ("Argument", node_value a)]
  | NTerms ts => GList (map node_value ts)
  | NPredArg f q p rel =>
      GStruct "PredicateArgument" [("Focus", opt_word f); ("Quantifier", opt_word q); ("Predicate", node_value p);
        ("Relative", match rel with None => GNil | Some x => node_value x end)]
  | NPredRel p => GStruct "PredicationRelative" [("Predication", node_value p)]
  | NAdverb p => GStruct "PredicateAdverb" [("Predicate", node_value p)]
  | NPrep p a => GStruct "PredicationPreposition" [("Predicate", node_value p); ("Argument", node_value a)]
  | NPredContent p => GStruct "PredicationContent" [("Predication", node_value p)]
  | NParen kio ki d => GStruct "Parenthetical" [("KIO", word_value kio); ("KI", word_value ki); ("Discourse", GList (map node_value d))]
  | NIncidental ju st => GStruct "Incidental" [("JU", word_value ju); ("Statement", node_value st)]
  | NVocative hu a => GStruct "Vocative" [("HU", word_value hu); ("Argument", node_value a)]
  | NInterjection w => GMade ("Interjection(" ++ quote_char ++ w_t w ++ quote_char ++ "})")   (* the brace is in ast.go *)
  | NSpace w => GMade ("Space(" ++ quote_char ++ w_t w ++ quote_char ++ ")")
  | NCoP k to0 to1 ru l r =>
      GStruct (cop_name k) [("TO0", opt_word to0); ("TO1", opt_word to1); ("RU", word_value ru); ("Left", node_value l); ("Right", node_value r)]
  | NLU k lu st => GStruct (lu_name k) [("LU", word_value lu); ("Statement", node_value st)]
  | NWord w => word_value w
  end.

(** ** Logical trees *)

Section All.
Context {A B : Type} (f : A -> res B).
Fixpoint map_res (l : list A) : res (list B) :=
  match l with
  | [] => Ok []
  | x :: l' => bind (f x) (fun y => bind (map_res l') (fun ys => Ok (y :: ys)))
  end.
End All.

(** A logical tree as print sees it; the types are at [cell] in Logic.v, the PrettyPrint
    methods in logic.go:163-169, 182-183.  The AST fields are nil. *)
Fixpoint cell_value (h : heap) (fuel : nat) (r : ref) : res value :=
  match fuel with
  | O => NoFuel
  | S f =>
      let opt (o : option ref) : res value := match o with None => Ok GNil | Some x => cell_value h f x end in
      let ast := ("AST", GNil) in
      match nth_error h r with
      | None => Panic PRuntime
      | Some (CBinding q n fo re sc) =>
          bind (opt re) (fun re => bind (opt sc) (fun sc =>
          Ok (GStruct "Binding" [("Quantifier", GStr (quant_string q)); ("N", GNum n); ("Focus", GBool fo); ("Restriction", re); ("Scope", sc); ast])))
      | Some (CConnection c l r) =>
          bind (cell_value h f l) (fun l => bind (cell_value h f r) (fun r =>
          Ok (GStruct "Connection" [("Connector", GStr (conn_string c)); ("Left", l); ("Right", r); ast])))
      | Some (CPredication p args) =>
          bind (cell_value h f p) (fun p => bind (map_res opt args) (fun args =>
          Ok (GStruct "Predication" [("Predicate", p); ("Arguments", GList args); ast])))
      | Some (CVariable n _ fo) => Ok (GMade ((if fo then "*" else "") ++ "Variable(" ++ itoa n ++ ")"))
      | Some (CPlurality args) => bind (map_res opt args) (fun args => Ok (GStruct "Plurality" [("Arguments", GList args); ast]))
      | Some (CQuote t _) => Ok (GMade ("Quote(" ++ quote_char ++ t ++ quote_char ++ ")"))
      | Some (CPred name) => Ok (GMade (quote_char ++ name ++ quote_char))
      | Some (CAbstraction st) => bind (cell_value h f st) (fun st => Ok (GStruct "Abstraction" [("Statement", st); ast]))
      | Some (CSerial l r) =>
          bind (cell_value h f l) (fun l => bind (cell_value h f r) (fun r => Ok (GStruct "Serial" [("Left", l); ("Right", r); ast])))
      | Some (CSwap p pos) => bind (cell_value h f p) (fun p => Ok (GStruct "Swap" [("Predicate", p); ("Pos", GNum pos); ast]))
      end
  end.
