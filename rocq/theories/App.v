(** Model of the two programs that take texts from strangers: /repo/server/server.go and
    /repo/bot/bot.go, with peg.Pretty (/repo/vendor/github.com/eaburns/peggy/peg/pretty.go).

    Left out: HTTP, the encoding of the response as JSON (Json.v), the page that GET returns; the
    connection to Discord and the log; pretty.String, so that the field AST holds the node
    itself. *)

From Coq Require Import String Ascii NArith List Bool Arith.
From Verif Require Import Base Utf8 Loc PegSyntax Peg Tone Ast Parser Visit Braces Logic LogicWords Interp Simplify LogicString.
Import ListNotations.
Open Scope string_scope.
Open Scope nat_scope.

(** fail.go:61-64, Error, with an empty FilePath; parser.go:21. *)
Definition error_string (e : perror) : string :=
  ":" ++ itoa (l_line (pe_loc e)) ++ "." ++ itoa (l_column (pe_loc e)) ++ ": " ++ pe_msg e.

Definition newline : string := String (ascii_of_nat 10) "".
Definition tab_char : string := String (ascii_of_nat 9) "".
Definition quote_char : string := String (ascii_of_nat 34) "".

(** pretty.go:51-112, prettyWrite, for a Node; the case at 80-87 is never reached. *)
Fixpoint pretty_node (tab : string) (n : pnode) : string :=
  let 'PNode name txt kids := n in
  tab ++
  match kids with
  | [] =>                                                           (* 55-70 *)
      let q := quote_char ++ txt ++ quote_char in
      if String.eqb name "" then q else name ++ "(" ++ q ++ ")"
  | [PNode _ _ [] as k] => name ++ "{" ++ pretty_node "" k ++ "}"   (* 91-99 *)
  | _ =>                                                            (* 100-112 *)
      name ++ "{" ++
      String.concat "" (map (fun k => newline ++ pretty_node (tab ++ tab_char) k ++ ",") kids) ++
      newline ++ tab ++ "}"
  end.

(** The Discourse of a *ast.Text; Text returns nothing else. *)
Definition discourse_in (n : node) : list node := match n with NText _ d => d | _ => [] end.

(** server.go:96-104, toString. *)
Definition to_text (n : node) : string :=
  visit (func_visitor (fun o s => match o with Some (NWord w) => s ++ w_t w | _ => s end)) n tt "".

Section App.

Variable is_punct : N -> bool.
Variable U : unicode.

(** ** The server *)

(** The map resp: either the key Error or the other five. *)
Record analysis : Type := Analysis { a_braces : string; a_ast : node; a_text : string; a_parse : string; a_logic : string }.
Inductive response : Type := RError (msg : string) | RFull (a : analysis).

(** server.go:87-94, safeInterp: the statement and the error.  A panic whose value is no
    string is recovered without setting the error. *)
Definition safe_interp (fuel : nat) (d : list node) : res (option (ref * heap) * option string) :=
  match interpret U (o_letters diacritic) fuel d with
  | Ok t => Ok (t, None)
  | Panic (PString s) => Ok (None, Some ("bug: " ++ s))
  | Panic PRuntime => Ok (None, None)
  | NoFuel => NoFuel
  end.

(** server.go:40-76, the case of POST in rootHandler, once the body has been read.  A panic
    here is recovered by net/http, which closes the connection without an answer. *)
Definition post (fuel : nat) (input : string) : res response :=
  let p := new_parser input in
  match tree is_punct p with
  | (NoFuel, _) => NoFuel
  | (Panic q, _) => Panic q
  | (Ok (Err e), _) => Ok (RError (error_string e))
  | (Ok (Got parse_tree), p1) =>
      match text_of is_punct p1 with
      | (NoFuel, _) => NoFuel
      | (Panic q, _) => Panic q
      | (Ok (Err e), _) => Panic (PString ("impossible error: " ++ error_string e))
      | (Ok (Got None), _) => Panic (PString "impossible nil text")
      | (Ok (Got (Some text)), _) =>
          match parse_tree with
          | None => Panic PRuntime
          | Some t =>
              bind (safe_interp fuel (discourse_in text)) (fun x =>
              bind (match x with
                    | (_, Some err) => Ok err
                    | (None, None) => Ok "fragment"
                    | (Some st, None) => pretty_string U fuel (Some st)
                    end) (fun l =>
              Ok (RFull (Analysis (braces_string text) text (to_text text) (pretty_node "" t) l))))
          end
      end
  end.

(** ** The bot *)

(** bot.go:71-90, parse. *)
Definition bot_parse (fuel : nat) (input : string) : res string :=
  let input := trim_space U input in
  match text_of is_punct (new_parser input) with
  | (NoFuel, _) => NoFuel
  | (Panic q, _) => Panic q
  | (Ok (Err e), _) => Ok ("syntax error " ++ error_string e)
  | (Ok (Got None), _) => Panic PRuntime
  | (Ok (Got (Some text)), _) =>
      let parse := braces_string text in
      let parse := if String.eqb parse "" then parse else parse ++ newline in
      bind (interpret U (o_letters diacritic) fuel (discourse_in text)) (fun st =>
      bind (match st with None => Ok "fragment" | Some t => pretty_string U fuel (Some t) end) (fun math =>
      Ok (parse ++ math)))
  end.

(** A chat.Message: the nick of the sender, if there is one, and the text. *)
Record message : Type := Message { m_from : option string; m_text : string }.

(** bot.go:92-103, fixBridgeMessage; strings.SplitN(text, ": ", 2) cuts at the first
    occurrence. *)
Definition fix_bridge (m : message) : message :=
  match m_from m with
  | None => m
  | Some nick =>
      if negb (String.eqb nick "ToaqBridgeBot") || String.prefix "Toaq Telegram" nick then m
      else
        match String.index 0 ": " (m_text m) with
        | None => m
        | Some i => Message (m_from m) (sdrop (i + 2) (m_text m))
        end
  end.

(** bot.go:45-69, one round of run for a message: what the bot says, if anything. *)
Definition on_message (fuel : nat) (m : message) : res (option string) :=
  let text := m_text (fix_bridge m) in
  if String.prefix ".miu" text then
    bind (bot_parse fuel (trim_space U (sdrop 4 text))) (fun s => Ok (Some s))
  else Ok None.

End App.
