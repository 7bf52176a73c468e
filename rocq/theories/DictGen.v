(** Model of /repo/dict/main.go, the generator of words.go, after the response has been
    decoded (Dict.v).  Not modelled: the flag, the file system (os.Create succeeds), and
    go/parser and go/format, which are a parameter. *)

From Coq Require Import Ascii String List Bool NArith ZArith DecimalString.
From Verif Require Import Base Utf8 Tone Dict.
Import ListNotations.
Open Scope list_scope.
Open Scope string_scope.

(** ** Package strconv *)

(** quote.go, lowerhex. *)
Definition lowerhex (n : N) : ascii := byte (if (n <? 10)%N then 48 + n else 87 + n)%N.
(** The last [k] hexadecimal digits of [n] (quote.go, the loops over s). *)
Fixpoint hexes (k : nat) (n : N) : string :=
  match k with
  | O => ""
  | S k => hexes k (n / 16)%N ++ String (lowerhex (n mod 16)%N) ""
  end.

Definition quote_sign : ascii := byte 34.
Definition backslash : ascii := byte 92.

(** quote.go, appendEscapedRune with ASCIIonly and graphicOnly false; [is_print] is
    strconv.IsPrint.  Runes above utf8.MaxRune do not come out of DecodeRuneInString. *)
Definition escaped_rune (is_print : N -> bool) (r : N) : string :=
  if (r =? 34)%N || (r =? 92)%N then String backslash (String (byte r) "")
  else if is_print r then encode_rune r
  else if (r =? 7)%N then String backslash "a"
  else if (r =? 8)%N then String backslash "b"
  else if (r =? 12)%N then String backslash "f"
  else if (r =? 10)%N then String backslash "n"
  else if (r =? 13)%N then String backslash "r"
  else if (r =? 9)%N then String backslash "t"
  else if (r =? 11)%N then String backslash "v"
  else if (r <? 32)%N then String backslash ("x" ++ hexes 2 r)
  else if (r <? 0x10000)%N then String backslash ("u" ++ hexes 4 r)
  else String backslash ("U" ++ hexes 8 r).

(** quote.go, the loop of appendQuotedWith. *)
Fixpoint quote_body (is_print : N -> bool) (fuel : nat) (s : string) : string :=
  match fuel, s with
  | S fuel, String a _ =>
      let (r, w) := decode_rune s in
      (if (w =? 1)%nat && (r =? rune_error)%N
       then String backslash ("x" ++ hexes 2 (byte_of a))
       else escaped_rune is_print r) ++ quote_body is_print fuel (sdrop w s)
  | _, _ => ""
  end.
(** strconv.Quote.  Every iteration takes at least one byte, so the fuel is enough. *)
Definition quote (is_print : N -> bool) (s : string) : string :=
  String quote_sign (quote_body is_print (String.length s) s ++ String quote_sign "").

(** ** Package strings *)

(** strings.Replace(s, old, "", -1) for a non-empty [old]: occurrences are searched from left
    to right and do not overlap.  [skip] bytes are still part of an occurrence. *)
Fixpoint erase (old : string) (skip : nat) (s : string) : string :=
  match s with
  | "" => ""
  | String a t =>
      match skip with
      | S k => erase old k t
      | O => if String.prefix old s then erase old (String.length old - 1) t
             else String a (erase old 0 t)
      end
  end.

(** ** Package fmt *)

(** %#v of an int: fmtInteger in base 10. *)
Definition decimal (z : Z) : string :=
  match z with
  | Z0 => "0"
  | Zpos p => NilEmpty.string_of_uint (Pos.to_uint p)
  | Zneg p => String "-" (NilEmpty.string_of_uint (Pos.to_uint p))
  end.
Section Print.
Variable is_print : N -> bool.
(** %#v of a Word of package dict (dict.go:16-25): the name of the type and every field. *)
Definition word_literal (w : dword) : string :=
  "dict.Word{Word:" ++ quote is_print (dw_word w) ++ ", Def:" ++ quote is_print (dw_def w) ++
  ", By:" ++ quote is_print (dw_by w) ++ ", Score:" ++ decimal (dw_score w) ++ "}".
(** One entry of a map. *)
Definition entry_literal (e : string * dword) : string := quote is_print (fst e) ++ ":" ++ word_literal (snd e).
Fixpoint entries_literal (l : list (string * dword)) : string :=
  match l with
  | [] => ""
  | [e] => entry_literal e
  | e :: l => entry_literal e ++ ", " ++ entries_literal l
  end.
(** %#v of a map[string]Word that is not nil.  The entries come in some order [l] (sorted by
    key since Go 1.12). *)
Definition map_literal (l : list (string * dword)) : string := "map[string]dict.Word{" ++ entries_literal l ++ "}".

(** main.go:44-47; [now] is the time as %v shows it. *)
Definition newline : string := String (byte 10) "".
Definition source (now : string) (l : list (string * dword)) : string :=
  "package dict" ++ newline ++ "// Words contains the dictionary of words." ++ newline ++
  "// Last updated: " ++ now ++ "." ++ newline ++ "var Words = " ++ map_literal l ++ newline.
(** main.go:48. *)
Definition generated (now : string) (l : list (string * dword)) : string := erase "dict." 0 (source now l).
End Print.

(** ** main *)

(** What the program does: what it prints, what becomes of the output file ([None]: left as it
    was) and the exit status. *)
Record made : Type := Made { m_printed : string; m_file : option string; m_status : nat }.

(** main.go:29-53.  [gofmt] is lines 55-65: the formatted source or the message of the error;
    when it fails the file has been truncated (line 38) and stays empty.  [listing] is the order
    in which fmt walks over the map.  The messages at 34, 40 and 50 are format strings of
    Printf; here they are printed as they are. *)
Definition generator (to_lower : string -> string) (is_print : N -> bool) (gofmt : string -> string + string)
    (listing : words -> list (string * dword)) (now : string) (r : response) : res made :=
  bind (load to_lower r) (fun ld =>
  match ld with
  | LErr msg => Ok (Made msg None 1)
  | LMap ws =>
      match gofmt (generated is_print now (listing ws)) with
      | inl out => Ok (Made "" (Some out) 0)
      | inr msg => Ok (Made msg (Some "") 1)
      end
  end).
