(** Properties of the generator dict/main.go: C58.  [words_of src] is the value of the variable
    Words that a Go source file declares (DictRead.v). *)

From Coq Require Import Ascii String List NArith ZArith.
From Verif Require Import Base Utf8 Tone Dict DictGen DictRead DictGenFacts DictGenEnd DictGenExact.
Import ListNotations.
Open Scope list_scope.
Open Scope nat_scope.
Open Scope string_scope.

(** C58.  [tl] is strings.ToLower, [is_print] strconv.IsPrint: runes that cannot be part of a
    string literal are not printable.  [gofmt] accepts what can be read and does not change what
    it says; [listing] is any order of the entries of a map; the time has no line break.  The
    strings of the dictionary, in quotes, do not contain "dict.". *)
Theorem C58_generated_partial :
  forall (tl : string -> string) is_print gofmt listing now,
    (forall r, is_print r = true -> source_rune r = true) ->
    (forall src ws, declared src = Some ws -> exists out, gofmt src = inl out /\ declared out = Some ws) ->
    (forall m, NoDup (map fst (listing m)) /\ forall k w, In (k, w) (listing m) <-> slookup k m = Some w) ->
    no_char (byte 10) now = true ->
    forall r m, load tl r = Ok (LMap m) ->
    (forall k w s, slookup k m = Some w -> In s [k; dw_word w; dw_def w; dw_by w] -> ~ occurs "dict." (quote is_print s)) ->
    exists out W, generator tl is_print gofmt listing now r = Ok (Made "" (Some out) 0) /\
      words_of out = Some W /\ forall k, W k = slookup k m.
Proof. exact generator_words. Qed.
Print Assumptions C58_generated_partial.

(** In particular if no string of the response contains "ict.". *)
Theorem C58_response_partial :
  forall (tl : string -> string) is_print gofmt listing now,
    (forall r, is_print r = true -> source_rune r = true) ->
    (forall src ws, declared src = Some ws -> exists out, gofmt src = inl out /\ declared out = Some ws) ->
    (forall m, NoDup (map fst (listing m)) /\ forall k w, In (k, w) (listing m) <-> slookup k m = Some w) ->
    no_char (byte 10) now = true ->
    forall r es, success r = true -> entries r = Some es ->
    (forall e s, In e es -> In s [tl (strip (dw_word e)); dw_def e; dw_by e] -> ~ occurs "ict." s) ->
    exists m out W, load tl r = Ok (LMap m) /\ generator tl is_print gofmt listing now r = Ok (Made "" (Some out) 0) /\
      words_of out = Some W /\ forall k, W k = slookup k m.
Proof. exact generator_plain. Qed.
Print Assumptions C58_response_partial.

(** And only then, if strconv.IsPrint holds of the printable characters of ASCII and a file that
    gofmt accepts declares what it declared before. *)
Theorem C58_exact_partial :
  forall (tl : string -> string) is_print gofmt listing now,
    (forall r, is_print r = true -> source_rune r = true) ->
    (forall r, (32 <= r < 127)%N -> is_print r = true) ->
    (forall src ws, declared src = Some ws -> exists out, gofmt src = inl out /\ declared out = Some ws) ->
    (forall src out, gofmt src = inl out -> declared out = declared src) ->
    (forall m, NoDup (map fst (listing m)) /\ forall k w, In (k, w) (listing m) <-> slookup k m = Some w) ->
    no_char (byte 10) now = true ->
    forall r m, load tl r = Ok (LMap m) ->
    (exists out W, generator tl is_print gofmt listing now r = Ok (Made "" (Some out) 0) /\
       words_of out = Some W /\ forall k, W k = slookup k m) <->
    (forall k w s, slookup k m = Some w -> In s [k; dw_word w; dw_def w; dw_by w] -> ~ occurs "dict." (quote is_print s)).
Proof. exact generator_exact. Qed.
Print Assumptions C58_exact_partial.

(** There are such functions. *)
Example C58_functions :
  (forall r, ascii_print r = true -> source_rune r = true) /\
  (forall r, (32 <= r < 127)%N -> ascii_print r = true) /\
  (forall src ws, declared src = Some ws -> exists out, same src = inl out /\ declared out = Some ws) /\
  (forall src out, same src = inl out -> declared out = declared src) /\
  (forall m, NoDup (map fst (current m)) /\ forall k w, In (k, w) (current m) <-> slookup k m = Some w).
Proof. exact (conj ascii_print_ok (conj ascii_print_all (conj same_ok (conj same_same current_ok)))). Qed.
(** A response with quotes, a line break, a backslash and a section sign in a definition. *)
Example C58_case : exists m out W,
  load (fun s => s) pair = Ok (LMap m) /\ generator (fun s => s) ascii_print same current "12:00" pair = Ok (Made "" (Some out) 0) /\
  words_of out = Some W /\ W "do" = Some (DWord "do" "new" "y" 2) /\
  W "toaq" = Some (DWord "toaq" ("the ""language""" ++ String (byte 10) "\ §") "y" (-3)) /\ W "x" = None.
Proof. exact pair_case. Qed.

(** Not true of every response: "verdict." in a definition becomes "ver". *)
Theorem C58_definition_refuted : forall gofmt,
  (forall src ws, declared src = Some ws -> exists out, gofmt src = inl out /\ declared out = Some ws) ->
  exists m out W k, load (fun s => s) verdict = Ok (LMap m) /\
    generator (fun s => s) ascii_print gofmt current "12:00" verdict = Ok (Made "" (Some out) 0) /\
    words_of out = Some W /\ W k <> slookup k m.
Proof. exact verdict_changed. Qed.
Print Assumptions C58_definition_refuted.

(** "ict." after a soft hyphen: the source cannot be read, and the program leaves an empty
    file behind. *)
Theorem C58_file_refuted : exists m, load (fun s => s) hyphen = Ok (LMap m) /\
  declared (generated ascii_print "12:00" (current m)) = None /\
  generator (fun s => s) ascii_print same current "12:00" hyphen = Ok (Made "syntax error" (Some "") 1).
Proof. exact hyphen_fails. Qed.
Print Assumptions C58_file_refuted.
