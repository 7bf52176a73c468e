(** Model of how encoding/json writes the answer of /repo/server/server.go: Encode of a
    map[string]interface{} whose values are strings. *)

From Coq Require Import Ascii String List Bool Arith NArith.
From Verif Require Import Base Utf8 Ast Logic LogicWords App Pretty DictGen.
Import ListNotations.
Open Scope list_scope.
Open Scope string_scope.

(** encode.go, htmlSafeSet: the ASCII characters that are written as they are. *)
Definition html_safe (b : N) : bool :=
  (32 <=? b)%N && negb ((b =? 34)%N || (b =? 38)%N || (b =? 60)%N || (b =? 62)%N || (b =? 92)%N).
(** encode.go, encodeState.string with escapeHTML: an ASCII character that is not safe.  (From
    Go 1.22 on \b and \f are written for 8 and 12.) *)
Definition json_escape (b : N) : string :=
  if (b =? 92)%N || (b =? 34)%N then String (byte b) ""
  else if (b =? 10)%N then "n"
  else if (b =? 13)%N then "r"
  else if (b =? 9)%N then "t"
  else "u00" ++ hexes 2 b.
(** The loop of encodeState.string.  Every iteration takes at least one byte. *)
Fixpoint json_body (fuel : nat) (s : string) : string :=
  match fuel, s with
  | S fuel, String a t =>
      let b := byte_of a in
      if (b <? 128)%N then (if html_safe b then String a "" else String backslash (json_escape b)) ++ json_body fuel t
      else
        let (r, w) := decode_rune s in
        (if (r =? rune_error)%N && (w =? 1)%nat then String backslash "ufffd"
         else if (r =? 0x2028)%N || (r =? 0x2029)%N then String backslash ("u202" ++ hexes 1 (r mod 16)%N)
         else stake w s) ++ json_body fuel (sdrop w s)
  | _, _ => ""
  end.
Definition json_string (s : string) : string := String quote_sign (json_body (String.length s) s ++ String quote_sign "").

(** encode.go, mapEncoder.encode, for keys that are already sorted. *)
Fixpoint json_members (l : list (string * string)) : string :=
  match l with
  | [] => ""
  | [(k, v)] => json_string k ++ ":" ++ json_string v
  | (k, v) :: l => json_string k ++ ":" ++ json_string v ++ "," ++ json_members l
  end.
(** stream.go, Encoder.Encode: a newline after the value. *)
Definition json_encode (l : list (string * string)) : string := "{" ++ json_members l ++ "}" ++ String (byte 10) "".

(** The map resp in server.go:45-71, with sorted keys. *)
Definition members (r : response) : list (string * string) :=
  match r with
  | RError m => [("Error", m)]
  | RFull a =>
      [("AST", pretty_value (node_value (a_ast a))); ("Braces", a_braces a); ("Logic", a_logic a);
       ("Parse", a_parse a); ("Text", a_text a)]
  end.
(** server.go:40-76: the body of the answer to POST.  Encode does not fail on strings. *)
Definition answer (is_punct : N -> bool) (U : unicode) (fuel : nat) (input : string) : res string :=
  bind (post is_punct U fuel input) (fun r => Ok (json_encode (members r))).
