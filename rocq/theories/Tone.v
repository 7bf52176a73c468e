(** Model of /repo/tone/tone.go. *)

From Coq Require Import String Ascii NArith List Bool.
From Verif Require Import Base Utf8.
Import ListNotations.
Open Scope string_scope.
Open Scope list_scope.
Open Scope N_scope.

(** A Go map is given by the list of its entries in the order in which a [range]
    statement happens to visit them. *)
Definition letter_row : Type := string * list string.
Definition tone_row : Type := N * list letter_row.

(** tone.go:10-102, [Diacritic], in source order. *)
Definition diacritic : list tone_row :=
  [
    (rune_of "-", [
       ("a", ["ā"]);
       ("A", ["Ā"]);
       ("u", ["ū"]);
       ("U", ["Ū"]);
       ("i", ["ī"]);
       ("ı", ["ī"]);
       ("I", ["Ī"]);
       ("o", ["ō"]);
       ("O", ["Ō"]);
       ("e", ["ē"]);
       ("E", ["Ē"])]);
    (rune_of "/", [
       ("a", ["á"]);
       ("A", ["Á"]);
       ("u", ["ú"]);
       ("U", ["Ú"]);
       ("i", ["í"]);
       ("ı", ["í"]);
       ("I", ["Í"]);
       ("o", ["ó"]);
       ("O", ["Ó"]);
       ("e", ["é"]);
       ("E", ["É"])]);
    (rune_of "V", [
       ("a", ["ǎ"; "ă"]);
       ("A", ["Ǎ"; "Ă"]);
       ("u", ["ǔ"; "ŭ"]);
       ("U", ["Ǔ"; "Ŭ"]);
       ("i", ["ǐ"; "ĭ"]);
       ("ı", ["ǐ"; "Ĭ"]);
       ("I", ["Ǐ"; "Ĭ"]);
       ("o", ["ǒ"; "ŏ"]);
       ("O", ["Ǒ"; "Ŏ"]);
       ("e", ["ě"; "ĕ"]);
       ("E", ["Ě"; "Ĕ"])]);
    (rune_of "?", [
       ("a", ["ả"]);
       ("A", ["Ả"]);
       ("u", ["ủ"]);
       ("U", ["Ủ"]);
       ("i", ["ỉ"]);
       ("ı", ["ỉ"]);
       ("I", ["Ỉ"]);
       ("o", ["ỏ"]);
       ("O", ["Ỏ"]);
       ("e", ["ẻ"]);
       ("E", ["Ẻ"])]);
    (rune_of "^", [
       ("a", ["â"]);
       ("A", ["Â"]);
       ("u", ["û"]);
       ("U", ["Û"]);
       ("i", ["î"]);
       ("ı", ["î"]);
       ("I", ["Î"]);
       ("o", ["ô"]);
       ("O", ["Ô"]);
       ("e", ["ê"]);
       ("E", ["Ê"])]);
    (rune_of "\", [
       ("a", ["à"]);
       ("A", ["À"]);
       ("u", ["ù"]);
       ("U", ["Ù"]);
       ("i", ["ì"]);
       ("ı", ["ì"]);
       ("I", ["Ì"]);
       ("o", ["ò"]);
       ("O", ["Ò"]);
       ("e", ["è"]);
       ("E", ["È"])]);
    (rune_of "~", [
       ("a", ["ã"]);
       ("A", ["Ã"]);
       ("u", ["ũ"]);
       ("U", ["Ũ"]);
       ("i", ["ĩ"]);
       ("ı", ["ĩ"]);
       ("I", ["Ĩ"]);
       ("o", ["õ"]);
       ("O", ["Õ"]);
       ("e", ["ẽ"]);
       ("E", ["Ẽ"])])
  ].

(** tone.go:104, [toneNameRunes]. *)
Definition tone_name_runes : list N := runes "-/V?^\~".

(** Association lists standing for Go maps with rune keys; the most recent
    assignment is at the front. *)
Fixpoint lookup {B} (k : N) (m : list (N * B)) : option B :=
  match m with
  | [] => None
  | (k', v) :: m' => if k =? k' then Some v else lookup k m'
  end.

Fixpoint slookup {B} (k : string) (m : list (string * B)) : option B :=
  match m with
  | [] => None
  | (k', v) :: m' => if String.eqb k k' then Some v else slookup k m'
  end.

(** All (tone, letter, form) triples in the visiting order of the nested range
    loops at tone.go:108-115, 121-132 and 138-144. *)
Definition flatten (d : list tone_row) : list (N * string * string) :=
  flat_map (fun tr : tone_row =>
    flat_map (fun lr : letter_row =>
      map (fun f => (fst tr, fst lr, f)) (snd lr)) (snd tr)) d.

(** tone.go:106-117, [tone]: form rune -> tone. *)
Definition tone_map (d : list tone_row) : list (N * N) :=
  fold_left (fun m x => match x with (t, _, f) => (rune_of f, t) :: m end) (flatten d) [].

(** tone.go:119-134, [ascii]: form rune -> plain letter; rows of the letter
    dotless i are skipped. *)
Definition ascii_map (d : list tone_row) : list (N * N) :=
  fold_left (fun m x =>
    match x with
    | (_, l, f) => if rune_of l =? rune_of "ı" then m else (rune_of f, rune_of l) :: m
    end) (flatten d) [].

(** tone.go:136-146, [vowels]: only used as a set of runes. *)
Definition vowel_runes (d : list tone_row) : list N :=
  (runes "aeiıouAEIOU" ++ map (fun x => rune_of (snd x)) (flatten d))%list.

(** The three derived package variables, each built by its own range loops and
    hence possibly in different orders. *)
Record tables : Type := Tables {
  tb_tone : list (N * N);
  tb_ascii : list (N * N);
  tb_vowels : list N
}.

Definition build (d1 d2 d3 : list tone_row) : tables :=
  Tables (tone_map d1) (ascii_map d2) (vowel_runes d3).

(** The tables for the source order of the map literal. *)
Definition tables0 : tables := Eval vm_compute in build diacritic diacritic diacritic.

(** tone.go:149, [None]. *)
Definition no_tone : N := 0.

(** [tone[r]] with the zero value for missing keys. *)
Definition tone_of (tb : tables) (r : N) : N :=
  match lookup r (tb_tone tb) with Some t => t | None => no_tone end.

(** [ascii[r]] with the zero value for missing keys. *)
Definition ascii_of (tb : tables) (r : N) : N :=
  match lookup r (tb_ascii tb) with Some t => t | None => 0 end.

(** Loop of ToASCII, tone.go:155-180: [t] is the pending tone, the result is the
    list of runes written. *)
Fixpoint to_ascii_loop (tb : tables) (t : N) (rs : list N) : list N :=
  match rs with
  | [] => if t =? no_tone then [] else [t]
  | r :: rs' =>
    if r =? rune_of "ı" then rune_of "i" :: to_ascii_loop tb t rs'
    else if negb (t =? no_tone) then
      if negb (mem_rune r (tb_vowels tb)) && negb (r =? rune_of "q")
      then t :: r :: to_ascii_loop tb no_tone rs'
      else r :: to_ascii_loop tb t rs'
    else
      let t' := tone_of tb r in
      if negb (t' =? no_tone) then ascii_of tb r :: to_ascii_loop tb t' rs'
      else r :: to_ascii_loop tb no_tone rs'
  end.

(** tone.go:154-181, ToASCII. *)
Definition to_ascii_with (tb : tables) (txt : string) : string :=
  of_runes (to_ascii_loop tb no_tone (runes txt)).

(** tone.go:182-192, Strip. *)
Definition strip_with (tb : tables) (txt : string) : string :=
  of_runes (filter (fun r => negb (mem_rune r tone_name_runes))
                   (runes (to_ascii_with tb txt))).

(** tone.go:194-215, WithTone.  Indexing a missing entry of the nil slice
    [Diacritic[t][R]] panics. *)
Definition with_tone_with (tb : tables) (str : string) (t : N) : res string :=
  match index_any str (tb_vowels tb) with
  | None => Ok str
  | Some i =>
    let (r, w) := decode_rune (sdrop i str) in
    let R0 := match lookup r (tb_ascii tb) with
              | Some a => encode_rune a
              | None => encode_rune r
              end in
    let R1 := if t =? no_tone then Ok R0
              else match lookup t diacritic with
                   | None => Panic PRuntime
                   | Some rows => match slookup R0 rows with
                                  | Some (f :: _) => Ok f
                                  | _ => Panic PRuntime
                                  end
                   end in
    bind R1 (fun R1 =>
    let R2 := if String.eqb R1 "i" then "ı" else R1 in
    Ok (stake i str ++ R2 ++ sdrop w (sdrop i str))%string)
  end.

(** tone.go:217-225, Tone. *)
Definition tone_with (tb : tables) (s : string) : N :=
  let a := to_ascii_with tb s in
  match index_any a tone_name_runes with
  | None => no_tone
  | Some i => match sdrop i a with
              | String c _ => byte_of c
              | EmptyString => no_tone
              end
  end.

(** The package's functions for the source order (Props_Tone shows that the order
    does not matter). *)
Definition to_ascii := to_ascii_with tables0.
Definition strip := strip_with tables0.
Definition with_tone := with_tone_with tables0.
Definition tone := tone_with tables0.
