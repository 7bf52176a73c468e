(** What a JSON text says (RFC 8259), for objects whose values are strings.  This is a
    specification and uses nothing of Json.v. *)

From Coq Require Import Ascii String List Bool Arith NArith.
From Verif Require Import Base Utf8 DictRead.
Import ListNotations.
Open Scope list_scope.
Open Scope string_scope.

(** An escape after the backslash.  Surrogates are not read. *)
Definition json_unescape (s : string) : option (string * string) :=
  match s with
  | "" => None
  | String a t =>
      let b := byte_of a in
      let one n := Some (String (byte n) "", t) in
      if (b =? 34)%N || (b =? 92)%N || (b =? 47)%N then one b
      else if (b =? 98)%N then one 8%N else if (b =? 102)%N then one 12%N
      else if (b =? 110)%N then one 10%N else if (b =? 114)%N then one 13%N else if (b =? 116)%N then one 9%N
      else if (b =? 117)%N then
        match read_digits 16 4 0 t with Some (n, u) => if valid_rune n then Some (encode_rune n, u) else None | None => None end
      else None
  end.
(** The rest of a string: its characters in UTF-8, and what follows.  No control characters. *)
Fixpoint json_chars (fuel : nat) (s : string) : option (string * string) :=
  match fuel with
  | O => None
  | S fuel =>
      match s with
      | "" => None
      | String a t =>
          let b := byte_of a in
          let go v u := match json_chars fuel u with Some (w, x) => Some (v ++ w, x) | None => None end in
          if (b =? 34)%N then Some ("", t)
          else if (b =? 92)%N then match json_unescape t with Some (v, u) => go v u | None => None end
          else if (b <? 32)%N then None
          else let (r, w) := decode_rune s in
            if (w =? 1)%nat && (r =? rune_error)%N then None else go (encode_rune r) (sdrop w s)
      end
  end.
Fixpoint json_space (s : string) : string :=
  match s with
  | "" => ""
  | String a t => if existsb (N.eqb (byte_of a)) [32; 9; 10; 13]%N then json_space t else s
  end.
Definition json_text (s : string) : option (string * string) :=
  match json_space s with
  | String a t => if (byte_of a =? 34)%N then json_chars (S (String.length t)) t else None
  | "" => None
  end.
Definition json_sign (c : ascii) (s : string) : option string :=
  match json_space s with String a t => if Ascii.eqb a c then Some t else None | "" => None end.
Definition json_member (s : string) : option ((string * string) * string) :=
  match json_text s with Some (k, s) =>
  match json_sign ":" s with Some s =>
  match json_text s with Some (v, s) => Some ((k, v), s)
  | None => None end | None => None end | None => None end.
(** Members up to the closing brace. *)
Fixpoint json_rest (fuel : nat) (s : string) : option (list (string * string) * string) :=
  match fuel with
  | O => None
  | S fuel =>
      match json_sign "}" s with
      | Some s => Some ([], s)
      | None =>
          match json_sign "," s with Some s =>
          match json_member s with Some (m, s) =>
          match json_rest fuel s with Some (l, s) => Some (m :: l, s)
          | None => None end | None => None end | None => None end
      end
  end.
(** The members of an object, in order. *)
Definition json_object (s : string) : option (list (string * string)) :=
  match json_sign "{" s with
  | Some s =>
      match json_sign "}" s with
      | Some s => if String.eqb (json_space s) "" then Some [] else None
      | None =>
          match json_member s with
          | Some (m, s) =>
              match json_rest (S (String.length s)) s with
              | Some (l, s) => if String.eqb (json_space s) "" then Some (m :: l) else None
              | None => None
              end
          | None => None
          end
      end
  | None => None
  end.
