(** Model of /repo/ast/parser.go: the exported operations of a Parser.

    An operation takes the parser (its text and memo tables) and gives a result and the
    parser afterwards, also when it panics.  [NoFuel] would mean that a pass or a loop
    does not stop; ParserFacts.v shows that it does not happen.  Offsets given to Word are
    natural numbers (a negative offset panics in Go, like one beyond the text).

    FilePath (parser.go:46) only prefixes the printed location and is left out. *)

From Coq Require Import String Ascii NArith ZArith PArith List FMapPositive Bool.
From Verif Require Import Base Utf8 Loc PegSyntax Grammar Peg PegToaq Tone Ast Action.
Import ListNotations.
Open Scope Z_scope.

(** toaq.go:418-427, _Parser; parser.go:43-48, Parser. *)
Record parser : Type := Parser {
  q_text : string;
  q_m : mst;       (* deltaPos, deltaErr, lastFail *)
  q_node : nst;    (* node *)
  q_fail : fst_;   (* fail *)
  q_act : ast_ }.  (* act *)

(** parser.go:51-53, NewParser, and toaq.go:434-443, _NewParser. *)
Definition new_parser (text : string) : parser := Parser text mst0 m2_empty fst0 ast0.

(** parser.go:17-20, parseError: the tree of failures, and the location and message made
    by peg.SimpleError. *)
Record perror : Type := PError { pe_tree : fnode; pe_loc : loc; pe_msg : string }.

(** parser.go:26, ByteOffset. *)
Definition pe_offset (e : perror) : Z := byte_offset (pe_tree e).

(** fail.go:18-48, SimpleError; leaves[0] panics if there is no leaf. *)
Definition simple_error (text : string) (f : fnode) : res perror :=
  match leaf_fails f with
  | [] => runtime_panic
  | l :: _ =>
      let want := want_list 0 (List.length (leaf_fails f)) "" (leaf_fails f) in
      let pos := f_pos l in
      let got :=
        if (pos <? String.length text)%nat
        then ("'" ++ stake (Nat.min (pos + 10) (String.length text) - pos) (sdrop pos text) ++ "'")%string
        else "EOF"%string in
      match location text pos with
      | None => NoFuel
      | Some lc => Ok (PError f lc ("want " ++ want ++ "; got " ++ got)%string)
      end
  end.

(** What a caller gets: a value or an error. *)
Inductive outcome (A : Type) : Type := Got (a : A) | Err (e : perror).
Arguments Got {A} a.
Arguments Err {A} e.

Section Api.

Variable is_punct : N -> bool.

(** parser.go:93-103, parse: [Ok None] is a nil Error.  The index deltaPos[start] panics
    beyond the end of the text. *)
Definition parse (r : positive) (start : nat) (p : parser) : res (option perror) * parser :=
  let text := q_text p in
  if (String.length text <? start)%nat then (runtime_panic, p)
  else
    match accepts toaq is_punct text (enough text start r) r start (q_m p) with
    | None => (NoFuel, p)
    | Some (dp, perr, m1) =>
        let p1 := Parser text m1 (q_node p) (q_fail p) (q_act p) in
        if 0 <=? dp then (Ok None, p1)
        else
          match fail_of toaq is_punct text m1 perr (enough text 0 r_full_text) r_full_text 0 (q_fail p) with
          | None => (NoFuel, p1)
          | Some (_, f, fs) =>
              let p2 := Parser text m1 (q_node p) fs (q_act p) in
              match simple_error text f with
              | Ok e => (Ok (Some e), p2)
              | Panic q => (Panic q, p2)
              | NoFuel => (NoFuel, p2)
              end
          end
    end.

(** parser.go:56-66, Tree; [Got None] would be a nil tree and a nil error. *)
Definition tree (p : parser) : res (outcome (option pnode)) * parser :=
  match parse r_full_text 0 p with
  | (Ok (Some e), p1) => (Ok (Err e), p1)
  | (Panic q, p1) => (Panic q, p1)
  | (NoFuel, p1) => (NoFuel, p1)
  | (Ok None, p1) =>
      let text := q_text p1 in
      match node_of toaq is_punct text (q_m p1) (enough text 0 r_full_text) r_full_text 0 (q_node p1) with
      | None => (NoFuel, p1)
      | Some (o, _) =>
          (Ok (Got (match o with Some (_, n) => Some n | None => None end)),
           Parser text (q_m p1) m2_empty (q_fail p1) (q_act p1))
      end
  end.

(** Emptying the log of lookups at the start of an operation. *)
Definition start_act (a : ast_) : ast_ := Ast (a_map a) (a_next a) [].

(** parser.go:70-81, Word: the word and the number of bytes.  It resets the node table,
    not the action table. *)
Definition word_at (offs : nat) (p : parser) : res (outcome (word * Z)) * parser :=
  match parse r_word offs p with
  | (Ok (Some e), p1) => (Ok (Err e), p1)
  | (Panic q, p1) => (Panic q, p1)
  | (NoFuel, p1) => (NoFuel, p1)
  | (Ok None, p1) =>
      let text := q_text p1 in
      match action_of toaq is_punct text (q_m p1) (enough text offs r_word) r_word offs (start_act (q_act p1)) with
      | None => (NoFuel, p1)
      | Some (o, a1) =>
          let p2 := Parser text (q_m p1) m2_empty (q_fail p1) a1 in
          match o with
          | AOk pos (VWord w) => (Ok (Got (w, Z.of_nat pos - Z.of_nat offs)), p2)
          | AOk _ _ => (Panic (PString "ill-typed action"), p2)
          | AFail => (runtime_panic, p2)  (* *t with t nil *)
          | APanic q => (Panic q, Parser text (q_m p1) (q_node p1) (q_fail p1) a1)
          end
      end
  end.

(** parser.go:84-94, Text; [Got None] would be a nil text and a nil error. *)
Definition text_of (p : parser) : res (outcome (option node)) * parser :=
  match parse r_full_text 0 p with
  | (Ok (Some e), p1) => (Ok (Err e), p1)
  | (Panic q, p1) => (Panic q, p1)
  | (NoFuel, p1) => (NoFuel, p1)
  | (Ok None, p1) =>
      let text := q_text p1 in
      match action_of toaq is_punct text (q_m p1) (enough text 0 r_full_text) r_full_text 0 (start_act (q_act p1)) with
      | None => (NoFuel, p1)
      | Some (o, a1) =>
          let p2 := Parser text (q_m p1) (q_node p1) (q_fail p1) (Ast m2_empty (a_next a1) (a_hits a1)) in
          match o with
          | AOk _ (VNode n) => (Ok (Got (Some n)), p2)
          | AOk _ _ => (Panic (PString "ill-typed action"), p2)
          | AFail => (Ok (Got None), p2)
          | APanic q => (Panic q, Parser text (q_m p1) (q_node p1) (q_fail p1) a1)
          end
      end
  end.

(** The states a parser for [text] can be in: any sequence of operations, with whatever
    outcome, including panics that the caller recovered. *)
Inductive reach (text : string) : parser -> Prop :=
  | RNew : reach text (new_parser text)
  | RTree p : reach text p -> reach text (snd (tree p))
  | RWord p offs : reach text p -> reach text (snd (word_at offs p))
  | RText p : reach text p -> reach text (snd (text_of p)).

End Api.

(** unicode.IsPunct on ASCII: the characters of categories Pc, Pd, Ps, Pe, Po.  Only used
    for concrete examples. *)
Definition ascii_punct (r : N) : bool :=
  mem_rune r (map (fun c => N_of_ascii c) (list_ascii_of_string "!""#%&'()*,-./:;?@[\]_{}")).
