(** Model of /repo/main.go, with logic.NillOutAST.

    Left out: opening and reading the input, which is the file given as first argument or
    the standard input. *)

From Coq Require Import String Ascii NArith List Bool Arith.
From Verif Require Import Base Utf8 Loc PegSyntax Peg Tone Ast Parser Visit Braces Dedup Logic LogicWords Interp Simplify LogicString App Pretty.
Import ListNotations.
Open Scope string_scope.

(** How a process ends: with a status, or with a panic.  *)
Inductive ending : Type := Exit (status : nat) | Died (p : panic_value).

Section Main.
Variable is_punct : N -> bool.
Variable U : unicode.

(** Go on with the result of [r] after having written [out]. *)
Definition writing {A} (out : string) (r : res A) (f : A -> res (string * ending)) : res (string * ending) :=
  match r with
  | NoFuel => NoFuel
  | Panic q => Ok (out, Died q)
  | Ok a => f a
  end.

(** main.go:54-61.  NillOutAST (visit.go:60-82) calls Visit; the AST fields, which it sets
    to nil, are not in the model. *)
Definition main_logic (fuel : nat) (out : string) (st : option (ref * heap)) : res (string * ending) :=
  match st with
  | None => Ok (out ++ "fragment" ++ newline, Exit 0)
  | Some (r, h) =>
      writing out (visited h fuel r) (fun _ =>
      writing out (cell_value h fuel r) (fun v =>
      let out := out ++ pretty_value v ++ newline in
      writing out (string_ U fuel st) (fun s =>
      Ok (out ++ s ++ newline, Exit 0))))
  end.

(** main.go:35-61: what is written to the standard output, and how the process ends. *)
Definition main (fuel : nat) (path input : string) : res (string * ending) :=
  match tree is_punct (new_parser input) with
  | (NoFuel, _) => NoFuel
  | (Panic q, _) => Ok ("", Died q)
  | (Ok (Err e), _) =>                                                           (* 38-45 *)
      Ok (pretty_fail "" (dedup (pe_tree e)) ++ newline ++ path ++ error_string e ++ newline, Exit 1)
  | (Ok (Got parse_tree), p1) =>
      match text_of is_punct p1 with
      | (NoFuel, _) => NoFuel
      | (Panic q, _) => Ok ("", Died q)
      | (Ok (Err e), _) => Ok ("", Died (PString (error_string e)))              (* 48 *)
      | (Ok (Got None), _) => Ok ("", Died PRuntime)
      | (Ok (Got (Some text)), _) =>
          match parse_tree with
          | None => Ok ("", Died PRuntime)
          | Some t =>
              let out := pretty_node "" t ++ newline ++ pretty_value (node_value text) ++ newline ++
                         to_text text ++ newline ++ braces_string text ++ newline in   (* 50-53 *)
              writing out (interpret U (o_letters diacritic) fuel (discourse_in text)) (main_logic fuel out)
          end
      end
  end.

End Main.
