(** Syntax of the grammar embedded in /repo/ast/toaq.go.

    toaq.go was generated by peggy from toaq.peggy; every rule became four Go
    functions whose bodies are fixed expansions of the rule's expression.  The
    expression is data here and the expansions are the evaluators of Peg.v (Accepts,
    Node, Fail) and Action.v (Action). *)

From Coq Require Import String NArith PArith List.
From Verif Require Import Base Utf8.
Import ListNotations.

(** The kinds of connective phrase: CoP itself and the types declared as CoP in
    /repo/ast/ast.go:93, 177, 307, 369, 427, 468, 501, 544, 590, 684. *)
Inductive copkind : Type :=
  | CRaw | CSentence | CStatement | CPredicate | CTermSet | CArgument
  | CRelative | CAdverb | CPreposition | CContent.

(** LUPhrase and the types declared as LUPhrase: ast.go:298, 459, 580, 700. *)
Inductive lukind : Type := LRaw | LPredicate | LRelative | LContent.

(** The actions in braces of toaq.peggy.  Actions that differ only in Go conversions
    between interface types, or only in which mod method of the same receiver they
    call, share one constructor; Action.v gives the meaning of each. *)
Inductive act : Type :=
  | AId                (* return T(x) for an interface or named type T *)
  | AText | AMod
  | ACoP (k : copkind) (* (T)(x) for x a *CoP *)
  | ALU (k : lukind)   (* (T)(x) for x a *LUPhrase *)
  | AJE | ASentence | APrenexStmt | AEndPredication | APredication | APrenex
  | ATerms1 | ATermsPrepend | ATerms2 | ALinked
  | AFocus | AQuant | AArgRel | AArg
  | APredRel | APredContent | AAdverb | APrep
  | AConnector | AForeCoP | AForeLeft | AForeRight | ACopLeft | ACopRight
  | AMiEnd | AMi | APoEnd | APo | AMoEnd | AMo
  | ASpace | AEndParen | AParen | AIncidental | AVocative
  | AWordSpace | AWord | AInterjection | AWordPredicate | ASerial | ALUPhrase
  | AEmpty             (* return "" *)
  | ADotless           (* rule i: if l == "i" { return "ı" }; return l *)
  | ADiacritic (t : N) (* tone.Diacritic[t][l][0] *)
  | AAddTone.          (* addTone(d, t) *)

(** Parsing expressions.  Sequences and choices of more than two parts nest to the
    right.  [EPunct] is "p:. &{unicode.IsPunct(p)}", the only use of a predicate with
    code (toaq.peggy:550, rule punctuation); it is one construct here because it is
    the only place where the text of a label is used by the parser itself. *)
Inductive expr : Type :=
  | ELit (s : string)                       (* "..." *)
  | EClass (rs : list N)                    (* [...] *)
  | EAny                                    (* . *)
  | EPunct
  | ECall (r : positive)
  | ESeq (a b : expr)
  | EChoice (a b : expr)
  | EPlus (e : expr)
  | EOpt (e : expr)
  | EAnd (e : expr)
  | ENot (e : expr)
  | ESub (e : expr)                         (* ( e ) *)
  | ELabel (l : nat) (e : expr)             (* name:e *)
  | EAction (a : act) (args : list nat) (e : expr).  (* e { ... } *)

(** A rule: its name, its error name if it has one, and its expression. *)
Record rule : Type := Rule { r_name : string; r_err : option string; r_body : expr }.

(** The rule used for numbers outside the table; it always fails. *)
Definition no_rule : rule := Rule "" None (EClass []).
