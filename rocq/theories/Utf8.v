(** Go strings and UTF-8.

    A Go string is a byte sequence: Coq's [string].  A rune is a number [N].
    Everything here models the behaviour of the Go runtime and of the standard
    package unicode/utf8 that the code under study relies on; there is no
    corresponding file in /repo. *)

From Coq Require Import String Ascii NArith List Bool.
Import ListNotations.
Open Scope N_scope.

Definition byte_of (a : ascii) : N := N_of_ascii a.

(** utf8.RuneError *)
Definition rune_error : N := 0xFFFD.

Definition in_range (lo hi b : N) : bool := (lo <=? b) && (b <=? hi).

(** A continuation byte 10xxxxxx. *)
Definition is_cont (b : N) : bool := in_range 0x80 0xBF b.

(** Allowed range of the second byte for a three or four byte sequence
    starting with [b0] (utf8.acceptRanges). *)
Definition second_ok (b0 b1 : N) : bool :=
  if b0 =? 0xE0 then in_range 0xA0 0xBF b1
  else if b0 =? 0xED then in_range 0x80 0x9F b1
  else if b0 =? 0xF0 then in_range 0x90 0xBF b1
  else if b0 =? 0xF4 then in_range 0x80 0x8F b1
  else is_cont b1.

(** utf8.DecodeRuneInString: the first rune and its width.
    Empty input gives (RuneError, 0), an invalid encoding (RuneError, 1). *)
Definition decode_rune (s : string) : N * nat :=
  match s with
  | EmptyString => (rune_error, 0%nat)
  | String a0 s1 =>
    let b0 := byte_of a0 in
    if b0 <? 0x80 then (b0, 1%nat)
    else if in_range 0xC2 0xDF b0 then
      match s1 with
      | String a1 _ =>
        let b1 := byte_of a1 in
        if is_cont b1 then ((b0 - 0xC0) * 64 + (b1 - 0x80), 2%nat)
        else (rune_error, 1%nat)
      | _ => (rune_error, 1%nat)
      end
    else if in_range 0xE0 0xEF b0 then
      match s1 with
      | String a1 (String a2 _) =>
        let b1 := byte_of a1 in
        let b2 := byte_of a2 in
        if second_ok b0 b1 && is_cont b2
        then ((b0 - 0xE0) * 4096 + (b1 - 0x80) * 64 + (b2 - 0x80), 3%nat)
        else (rune_error, 1%nat)
      | _ => (rune_error, 1%nat)
      end
    else if in_range 0xF0 0xF4 b0 then
      match s1 with
      | String a1 (String a2 (String a3 _)) =>
        let b1 := byte_of a1 in
        let b2 := byte_of a2 in
        let b3 := byte_of a3 in
        if second_ok b0 b1 && is_cont b2 && is_cont b3
        then ((b0 - 0xF0) * 262144 + (b1 - 0x80) * 4096
              + (b2 - 0x80) * 64 + (b3 - 0x80), 4%nat)
        else (rune_error, 1%nat)
      | _ => (rune_error, 1%nat)
      end
    else (rune_error, 1%nat)
  end.

(** s[n:] *)
Fixpoint sdrop (n : nat) (s : string) : string :=
  match n, s with
  | O, _ => s
  | S n', String _ s' => sdrop n' s'
  | S _, EmptyString => EmptyString
  end.

(** s[:n] *)
Fixpoint stake (n : nat) (s : string) : string :=
  match n, s with
  | S n', String a s' => String a (stake n' s')
  | _, _ => EmptyString
  end.

(** [for _, r := range s]: the runes of a string.  The first argument bounds the
    number of iterations; [runes] supplies enough. *)
Fixpoint runes_fuel (fuel : nat) (s : string) : list N :=
  match fuel, s with
  | S f, String _ _ =>
    let (r, w) := decode_rune s in r :: runes_fuel f (sdrop w s)
  | _, _ => []
  end.

Definition runes (s : string) : list N := runes_fuel (String.length s) s.

Definition byte (n : N) : ascii := ascii_of_N n.

(** A rune that UTF-8 can encode (utf8.ValidRune). *)
Definition valid_rune (r : N) : bool :=
  (r <? 0xD800) || in_range 0xE000 0x10FFFF r.

(** utf8.EncodeRune / strings.Builder.WriteRune / string(rune): runes that
    cannot be encoded become U+FFFD. *)
Definition encode_rune (r : N) : string :=
  let r := if valid_rune r then r else rune_error in
  if r <? 0x80 then String (byte r) EmptyString
  else if r <? 0x800 then
    String (byte (0xC0 + r / 64)) (String (byte (0x80 + r mod 64)) EmptyString)
  else if r <? 0x10000 then
    String (byte (0xE0 + r / 4096))
      (String (byte (0x80 + (r / 64) mod 64))
         (String (byte (0x80 + r mod 64)) EmptyString))
  else
    String (byte (0xF0 + r / 262144))
      (String (byte (0x80 + (r / 4096) mod 64))
         (String (byte (0x80 + (r / 64) mod 64))
            (String (byte (0x80 + r mod 64)) EmptyString))).

(** Writing a sequence of runes to a strings.Builder. *)
Fixpoint of_runes (rs : list N) : string :=
  match rs with
  | [] => EmptyString
  | r :: rs' => (encode_rune r ++ of_runes rs')%string
  end.

(** First rune of a (literal) string. *)
Definition rune_of (s : string) : N := fst (decode_rune s).

(** Membership of a rune in a list of runes: strings.ContainsRune with a valid
    UTF-8 literal as the set. *)
Fixpoint mem_rune (r : N) (l : list N) : bool :=
  match l with
  | [] => false
  | x :: l' => (r =? x) || mem_rune r l'
  end.

(** strings.IndexAny(s, chars): byte offset of the first rune of [s] which is in
    [chars]. *)
Fixpoint index_any_fuel (fuel : nat) (s : string) (chars : list N) : option nat :=
  match fuel, s with
  | S f, String _ _ =>
    let (r, w) := decode_rune s in
    if mem_rune r chars then Some O
    else match index_any_fuel f (sdrop w s) chars with
         | Some i => Some (w + i)%nat
         | None => None
         end
  | _, _ => None
  end.

Definition index_any (s : string) (chars : list N) : option nat :=
  index_any_fuel (String.length s) s chars.
