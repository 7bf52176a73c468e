(** What a source file of package dict says: the part of the Go language that words.go is
    written in.  This is a specification and uses nothing of DictGen.v. *)

From Coq Require Import Ascii String List Bool NArith ZArith DecimalString.
From Verif Require Import Base Utf8 Tone Dict.
Import ListNotations.
Open Scope list_scope.
Open Scope string_scope.

(** ** String literals *)

Definition digit_value (a : ascii) : option N :=
  let b := byte_of a in
  if in_range 48 57 b then Some (b - 48)%N
  else if in_range 97 102 b then Some (b - 87)%N
  else if in_range 65 70 b then Some (b - 55)%N
  else None.
(** [k] digits in base [base], and what follows them. *)
Fixpoint read_digits (base : N) (k : nat) (acc : N) (s : string) : option (N * string) :=
  match k, s with
  | O, _ => Some (acc, s)
  | S k, String a s =>
      match digit_value a with
      | Some d => if (d <? base)%N then read_digits base k (acc * base + d)%N s else None
      | None => None
      end
  | S _, "" => None
  end.
(** An escape sequence after the backslash: the bytes it stands for. *)
Definition read_escape (s : string) : option (string * string) :=
  match s with
  | "" => None
  | String a t =>
      let b := byte_of a in
      let one n := Some (String (byte n) "", t) in
      if (b =? 97)%N then one 7%N else if (b =? 98)%N then one 8%N else if (b =? 102)%N then one 12%N
      else if (b =? 110)%N then one 10%N else if (b =? 114)%N then one 13%N else if (b =? 116)%N then one 9%N
      else if (b =? 118)%N then one 11%N else if (b =? 92)%N then one 92%N else if (b =? 34)%N then one 34%N
      else if (b =? 120)%N then
        match read_digits 16 2 0 t with Some (n, u) => Some (String (byte n) "", u) | None => None end
      else if (b =? 117)%N then
        match read_digits 16 4 0 t with Some (n, u) => if valid_rune n then Some (encode_rune n, u) else None | None => None end
      else if (b =? 85)%N then
        match read_digits 16 8 0 t with Some (n, u) => if valid_rune n then Some (encode_rune n, u) else None | None => None end
      else match read_digits 8 3 0 s with Some (n, u) => if (n <? 256)%N then Some (String (byte n) "", u) else None | None => None end
  end.
(** Source text is UTF-8, and has neither NUL nor a byte order mark; a string literal has no
    line break. *)
Definition source_rune (r : N) : bool := negb ((r =? 0)%N || (r =? 10)%N || (r =? 0xFEFF)%N).
(** The rest of an interpreted string literal: its value and what follows. *)
Fixpoint read_string (fuel : nat) (s : string) : option (string * string) :=
  match fuel with
  | O => None
  | S fuel =>
      match s with
      | "" => None
      | String a t =>
          let b := byte_of a in
          if (b =? 34)%N then Some ("", t)
          else if (b =? 92)%N then
            match read_escape t with
            | Some (v, u) => match read_string fuel u with Some (w, x) => Some (v ++ w, x) | None => None end
            | None => None
            end
          else
            let (r, w) := decode_rune s in
            if ((w =? 1)%nat && (r =? rune_error)%N) || negb (source_rune r) then None
            else match read_string fuel (sdrop w s) with Some (v, x) => Some (stake w s ++ v, x) | None => None end
      end
  end.

(** ** Tokens *)

Inductive token : Type := TName (s : string) | TString (s : string) | TNumber (n : N) | TSign (a : ascii) | TLine.

Definition name_byte (a : ascii) : bool :=
  let b := byte_of a in in_range 97 122 b || in_range 65 90 b || (b =? 95)%N.
Definition digit_byte (a : ascii) : bool := in_range 48 57 (byte_of a).
(** The longest prefix of such bytes. *)
Fixpoint span (p : ascii -> bool) (s : string) : string * string :=
  match s with
  | "" => ("", "")
  | String a t => if p a then let (x, y) := span p t in (String a x, y) else ("", s)
  end.
(** The signs of words.go. *)
Definition sign_byte (a : ascii) : bool := existsb (Ascii.eqb a) (list_ascii_of_string "[]{}:,=-").
(** Decimal numbers; other notations are not read. *)
Definition number (s : string) : option N :=
  match NilEmpty.uint_of_string s with
  | Some (Decimal.D0 (Decimal.Nil)) => Some 0%N
  | Some (Decimal.D0 _) | None => None
  | Some d => Some (N.of_uint d)
  end.
Definition cons_token (t : token) (l : option (list token)) : option (list token) :=
  match l with Some l => Some (t :: l) | None => None end.
Fixpoint tokens (fuel : nat) (s : string) : option (list token) :=
  match fuel with
  | O => None
  | S fuel =>
      match s with
      | "" => Some []
      | String a t =>
          let b := byte_of a in
          if (b =? 32)%N || (b =? 9)%N || (b =? 13)%N then tokens fuel t
          else if (b =? 10)%N then cons_token TLine (tokens fuel t)
          else if (b =? 34)%N then
            match read_string (S (String.length t)) t with Some (v, u) => cons_token (TString v) (tokens fuel u) | None => None end
          else if String.prefix "//" s then tokens fuel (snd (span (fun c => negb (byte_of c =? 10)%N) t))
          else if sign_byte a then cons_token (TSign a) (tokens fuel t)
          else if digit_byte a then
            let (x, u) := span digit_byte s in
            match number x with Some n => cons_token (TNumber n) (tokens fuel u) | None => None end
          else if name_byte a then
            let (x, u) := span (fun c => name_byte c || digit_byte c) s in cons_token (TName x) (tokens fuel u)
          else None
      end
  end.

(** ** The declaration *)

(** Sign or name. *)
Definition eats (t : token) (l : list token) : option (list token) :=
  match t, l with
  | TSign a, TSign b :: l => if Ascii.eqb a b then Some l else None
  | TName x, TName y :: l => if String.eqb x y then Some l else None
  | TLine, TLine :: l => Some l
  | _, _ => None
  end.
Fixpoint eat (ts : list token) (l : list token) : option (list token) :=
  match ts with
  | [] => Some l
  | t :: ts => match eats t l with Some l => eat ts l | None => None end
  end.
Definition field_string (name : string) (l : list token) : option (string * list token) :=
  match eat [TName name; TSign ":"] l with Some (TString s :: l) => Some (s, l) | _ => None end.
Definition read_int (l : list token) : option (Z * list token) :=
  match l with
  | TNumber n :: l => Some (Z.of_N n, l)
  | TSign a :: TNumber n :: l => if Ascii.eqb a "-" then Some ((- Z.of_N n)%Z, l) else None
  | _ => None
  end.
(** A key and a composite literal of type Word. *)
Definition read_entry (l : list token) : option ((string * dword) * list token) :=
  match l with
  | TString k :: l =>
    match eat [TSign ":"; TName "Word"; TSign "{"] l with Some l =>
    match field_string "Word" l with Some (w, l) =>
    match eat [TSign ","] l with Some l =>
    match field_string "Def" l with Some (d, l) =>
    match eat [TSign ","] l with Some l =>
    match field_string "By" l with Some (b, l) =>
    match eat [TSign ","; TName "Score"; TSign ":"] l with Some l =>
    match read_int l with Some (n, l) =>
    match eat [TSign "}"] l with Some l => Some ((k, DWord w d b n), l)
    | None => None end | None => None end | None => None end | None => None end | None => None end
    | None => None end | None => None end | None => None end | None => None end
  | _ => None
  end.
(** Entries up to the closing brace. *)
Fixpoint read_entries (fuel : nat) (l : list token) : option (list (string * dword) * list token) :=
  match fuel with
  | O => None
  | S fuel =>
      match eat [TSign "}"] l with
      | Some l => Some ([], l)
      | None =>
          match read_entry l with
          | Some (e, l) =>
              match eat [TSign ","] l with
              | Some l => match read_entries fuel l with Some (es, l) => Some (e :: es, l) | None => None end
              | None => match eat [TSign "}"] l with Some l => Some ([e], l) | None => None end
              end
          | None => None
          end
      end
  end.
Fixpoint lines (l : list token) : list token := match l with TLine :: l => lines l | _ => l end.
(** A file with the package clause and one declaration, that of Words.  Two entries with the
    same key are an error. *)
Fixpoint distinct_keys (l : list (string * dword)) : bool :=
  match l with [] => true | (k, _) :: l => negb (existsb (fun e => String.eqb k (fst e)) l) && distinct_keys l end.
Definition declared (src : string) : option (list (string * dword)) :=
  match tokens (S (String.length src)) src with
  | Some l =>
      match eat [TName "package"; TName "dict"; TLine] (lines l) with Some l =>
      match eat [TName "var"; TName "Words"; TSign "="; TName "map"; TSign "["; TName "string"; TSign "]"; TName "Word"; TSign "{"] (lines l) with Some l =>
      match read_entries (S (List.length l)) l with
      | Some (es, l) => match lines l with [] => if distinct_keys es then Some es else None | _ => None end
      | None => None end | None => None end | None => None end
  | None => None
  end.
(** The value of Words. *)
Definition words_of (src : string) : option (string -> option dword) :=
  match declared src with Some es => Some (fun k => slookup k es) | None => None end.
