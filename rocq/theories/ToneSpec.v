(** Vocabulary of the tone properties, stated on the Diacritic table itself. *)

From Coq Require Import String Ascii NArith List Permutation.
From Verif Require Import Utf8 Tone.
Import ListNotations.
Open Scope string_scope.
Open Scope list_scope.
Open Scope N_scope.

(** Every byte is below 0x80. *)
Definition all_ascii (s : string) : Prop :=
  Forall (fun c => byte_of c < 128) (list_ascii_of_string s).

(** The table lists rune [r] as a form carrying tone [t]. *)
Definition toned_as (r t : N) : Prop :=
  exists rows letter forms,
    In (t, rows) diacritic /\ In (letter, forms) rows /\ In (encode_rune r) forms.

Definition toned (r : N) : Prop := exists t, toned_as r t.

Definition plain_vowel (r : N) : Prop := In r (runes "aeiıouAEIOU").

Definition vowel (r : N) : Prop := plain_vowel r \/ toned r.

(** The seven tone markers. *)
Definition marker (r : N) : Prop := In r (runes "-/V?^\~").

(** A rune that ends a syllable for ToASCII. *)
Definition separator (r : N) : Prop := ~ vowel r /\ r <> rune_of "q".

(** [d'] lists the entries of the two-level map [d] in some other order. *)
Definition reordered (d d' : list tone_row) : Prop :=
  exists dm, Permutation d dm /\
    Forall2 (fun r r' : tone_row => fst r = fst r' /\ Permutation (snd r) (snd r')) dm d'.

(** ASCII, dotless i, or a letter of the table. *)
Definition toaq_rune (r : N) : Prop :=
  r < 128 \/ r = rune_of "ı" \/ toned r.

(** Between any two toned vowels there is a syllable separator. *)
Definition separated (rs : list N) : Prop :=
  forall pre r1 mid r2 post,
    rs = pre ++ r1 :: mid ++ r2 :: post ->
    toned r1 -> toned r2 ->
    exists x, In x mid /\ separator x.
